{
 "claims": [
  {
   "property": "C01",
   "status": "proved",
   "theorems": [
    "typenum_alias_canonical",
    "typenum_encoding_injective",
    "typenum_add",
    "typenum_increment",
    "typenum_decrement",
    "typenum_abs_sub",
    "typenum_equal",
    "typenum_not_equal",
    "typenum_greater",
    "typenum_greater_or_eq",
    "typenum_smaller",
    "typenum_smaller_or_eq",
    "typenum_cmp",
    "typenum_min",
    "typenum_max",
    "typenum_bitand",
    "typenum_bitor",
    "typenum_truncate",
    "typenum_ipowerof2",
    "typenum_log2",
    "typenum_mod",
    "typenum_divide",
    "typenum_next_multiple_of",
    "typenum_mul",
    "typenum_next_pow2",
    "typenum_rightmost_one",
    "typenum_value",
    "typenum_padding_bit_mask"
   ],
   "note": "Every associated-type operation of the type-level integers equals the mathematical operation, for all naturals."
  },
  {
   "property": "C02",
   "status": "proved",
   "theorems": [
    "struct_layout_is_c",
    "aligned_struct_layout_is_c",
    "c_layout_unique",
    "struct_fields_at_c_offsets"
   ],
   "note": "Size, alignment and field offsets are those of the C layout, for all lists of fields."
  },
  {
   "property": "C03",
   "status": "proved",
   "theorems": [
    "forbidden_values_never_inhabited"
   ],
   "note": "Over all types of the grammar (MaybeUninit-like wrappers excluded, see C52)."
  },
  {
   "property": "C04",
   "status": "partial",
   "theorems": [
    "unused_bits_carry_nothing_partial",
    "unused_bits_carry_nothing_refuted"
   ],
   "note": "Proved for all types whose Results have matching payload sizes; refuted otherwise."
  },
  {
   "property": "C05",
   "status": "partial",
   "theorems": [
    "niches_in_bounds_disjoint_partial",
    "forbidden_values_in_bounds",
    "niches_in_bounds_refuted"
   ],
   "note": "Unused bits: types whose Results have matching payload sizes; refuted otherwise. Forbidden values: all types."
  },
  {
   "property": "C06",
   "status": "partial",
   "theorems": [
    "result_ok_round_trip_partial",
    "result_err_round_trip_partial",
    "result_round_trip_refuted"
   ],
   "note": "Proved for matching payload sizes; refuted for Result<[u8;3],u16>-like types."
  },
  {
   "property": "C07",
   "status": "partial",
   "theorems": [
    "result_storage_fits_partial",
    "result_storage_exact",
    "result_mismatch_never_fits",
    "result_storage_fits_refuted"
   ],
   "note": "Exact characterisation: the storage is large enough iff the larger size is a multiple of the larger alignment."
  },
  {
   "property": "C08",
   "status": "proved",
   "theorems": [
    "result_payloads_aligned"
   ],
   "note": "All types of the grammar."
  },
  {
   "property": "C09",
   "status": "partial",
   "theorems": [
    "result_exported_bits_free_partial",
    "result_exported_bits_free_refuted"
   ],
   "note": "For matching payload sizes (C07); refuted otherwise: the outer Result exports the bits of a field."
  },
  {
   "property": "C10",
   "status": "partial",
   "theorems": [
    "ok_guard_keeps_variant_partial",
    "err_guard_keeps_variant_partial",
    "enum_mut_keeps_variant_partial",
    "guard_keeps_variant_refuted"
   ],
   "note": "For matching payload sizes (C07), includes nested guards of enums; refuted otherwise: the guard writes the tag over a field."
  },
  {
   "property": "C11",
   "status": "partial",
   "theorems": [
    "option_core_round_trip_partial",
    "result_core_round_trip_partial",
    "result_map_partial",
    "option_same_size_partial",
    "option_same_size_refuted"
   ],
   "note": "Round trips for matching payload sizes; size equality characterised exactly and refuted for Option<(u8,bool)>."
  },
  {
   "property": "C12",
   "status": "partial",
   "theorems": [
    "enum_dispatch_partial",
    "enum_dispatch_refuted"
   ],
   "note": "Any number of variants; Results must have matching payload sizes (C07), refuted otherwise."
  },
  {
   "property": "C13",
   "status": "partial",
   "theorems": [
    "determinant_follows_specification_partial",
    "determinant_literal_specification_refuted",
    "determinant_empty_err_refuted"
   ],
   "note": "Equal to the published algorithm after two errata; the literal text and the empty-Err case are refuted."
  },
  {
   "property": "C14",
   "status": "partial",
   "theorems": [
    "layout_realign_first",
    "layout_next_matching_first",
    "layout_array_exact",
    "layout_concat_fits_partial",
    "layout_concat_fits_refuted",
    "layout_array_overflow_refuted"
   ],
   "note": "concat: parts padded to their alignment, as Rust types are; refuted otherwise. array: refuted on overflow when overflow checks are off."
  },
  {
   "property": "C15",
   "status": "partial",
   "theorems": [
    "prefixed_alloc_in_bounds_partial",
    "prefixed_alloc_overaligned_partial",
    "prefixed_alloc_in_bounds_refuted",
    "prefixed_realloc_pointer_refuted",
    "prefixed_realloc_offset_refuted"
   ],
   "note": "Proved for elements aligned no more than the prefix, and for blocks that happen to be aligned for the element; refuted for over-aligned elements (allocation, pointer given to realloc, place of the data after realloc)."
  },
  {
   "property": "C16",
   "status": "partial",
   "theorems": [
    "rust_alloc_room_partial",
    "rust_alloc_apart_partial",
    "rust_free_exact",
    "rust_realloc_exact_partial",
    "rust_alloc_no_leak",
    "rust_alloc_room_refuted",
    "rust_alloc_failure_refuted"
   ],
   "note": "All histories with a succeeding global allocator and requests whose alignment is at most 32 or divides their size; refuted otherwise, and for allocation failure."
  },
  {
   "property": "C17",
   "status": "partial",
   "theorems": [
    "libc_alloc_honours",
    "libc_realloc_honours_partial",
    "libc_realloc_honours_refuted",
    "default_realloc_honours_partial",
    "default_realloc_honours_refuted",
    "libc_windows_size_refuted"
   ],
   "note": "alloc in full (POSIX); realloc when growing; shrinking through the copying path overruns the new block (refuted), and so does the Windows shim."
  },
  {
   "property": "C18",
   "status": "partial",
   "theorems": [
    "vec_refines_list_partial",
    "vec_reserve_room",
    "vec_clone",
    "vec_extend_hint_refuted",
    "vec_extend_overflow_refuted",
    "vec_reserve_overflow_refuted"
   ],
   "note": "All histories, with allocation failures, for iterators with a right size_hint and sizes whose bytes fit in usize; refuted for wrong hints and for overflowing capacities."
  },
  {
   "property": "C19",
   "status": "proved",
   "theorems": [
    "vec_try_push_failure",
    "vec_try_reserve_failure",
    "vec_try_copy_extend_failure",
    "vec_push_failure",
    "vec_try_push_fails_only_when_refused"
   ],
   "note": ""
  },
  {
   "property": "C20",
   "status": "partial",
   "theorems": [
    "vec_conserves_ownership_partial",
    "vec_into_iter_owns",
    "vec_extend_hint_refuted",
    "vec_truncate_unwind_refuted",
    "vec_unwind_leak_refuted"
   ],
   "note": "Under the conditions of C18 and for destructors that do not panic; refuted for iterators with wrong hints (elements written out of bounds) and for destructors that panic (elements destroyed twice, or leaked; see C75)."
  },
  {
   "property": "C21",
   "status": "partial",
   "theorems": [
    "vec_drain_range_partial",
    "vec_double_drain_front_partial",
    "vec_next_back_refuted",
    "vec_next_back_out_of_bounds_refuted",
    "vec_double_drain_hint_refuted",
    "vec_try_drain_refuted",
    "vec_try_drain_unsound_refuted",
    "vec_drain_bound_refuted"
   ],
   "note": "drain from the front in full; next_back, its size_hint and try_drain are refuted."
  },
  {
   "property": "C22",
   "status": "partial",
   "theorems": [
    "boxed_round_trip_partial",
    "boxed_drop_partial",
    "boxed_push_partial",
    "boxed_empty_leak_refuted",
    "boxed_empty_round_trip_refuted",
    "boxed_push_dangling_refuted"
   ],
   "note": "Non-empty slices; empty ones with reserved memory leak, and pushing on a slice without memory reads a dangling prefix (refuted)."
  },
  {
   "property": "C23",
   "status": "partial",
   "theorems": [
    "sov_refines_list_partial",
    "sov_with_capacity_refines_list",
    "sov_into_vec",
    "sov_clone",
    "sov_guard_bytes",
    "sov_iter_mut_partial",
    "sov_truncate_refuted",
    "sov_reserve_refuted",
    "sov_truncate_bytes_refuted",
    "sov_try_reserve_failure_refuted",
    "sov_iter_mut_refuted"
   ],
   "note": "All histories of push/try_push; all histories once created with a capacity; reserve and truncate on a single element when the guard does not write the determinant. Refuted for truncate and reserve on a single small element (e.g. u8), for a refused try_reserve, and for IterMut::nth."
  },
  {
   "property": "C24",
   "status": "partial",
   "theorems": [
    "arc_history_partial",
    "arc_overflow_refuted",
    "arc_dyn_weak_refuted"
   ],
   "note": "All histories of fewer than 2^61 operations of one thread, refined to a specification over handles. Without the bound the strong count overflows (refuted); dropping a Dyn<Weak> releases a strong count (refuted)."
  },
  {
   "property": "C25",
   "status": "partial",
   "theorems": [
    "arc_concurrent_partial",
    "arc_upgrade_race_refuted",
    "arc_upgrade_leak_refuted"
   ],
   "note": "All interleavings of any number of threads in which upgrades do not overlap each other nor an is_unique test. Overlapping upgrades leave an Arc to a destroyed value, or leak (refuted)."
  },
  {
   "property": "C26",
   "status": "partial",
   "theorems": [
    "arc_exclusive_partial",
    "arc_exclusive_refuted"
   ],
   "note": "Proved for the interleavings of C25; refuted when a Weak is upgraded and dropped between the two loads of is_unique."
  },
  {
   "property": "C27",
   "status": "partial",
   "theorems": [
    "slice_history_partial",
    "copy_slice_history_partial",
    "slice_of_arc_refuted",
    "slice_of_arc_short_refuted",
    "slice_of_empty_vec_refuted",
    "slice_of_empty_vec_leak_refuted"
   ],
   "note": "All histories of one thread, from any vector with an allocation (or a zero-sized allocator). Refuted for the conversion from Arc (drops it), and for unallocated vectors."
  },
  {
   "property": "C28",
   "status": "partial",
   "theorems": [
    "atomic_arc_safe_partial",
    "atomic_arc_no_leak_partial",
    "atomic_arc_store_refuted",
    "atomic_arc_exchange_refuted",
    "atomic_arc_load_refuted"
   ],
   "note": "Safety if the content is not replaced during a load; no leak if no store replaces an Arc and no exchange bringing one fails. Otherwise refuted."
  },
  {
   "property": "C29",
   "status": "proved",
   "theorems": [
    "btree_set",
    "btree_map",
    "btree_insert_present"
   ],
   "note": "Sequential; all odd limits of at least 3, any total order, any number of sets sharing nodes. Values are cloned to equal values."
  },
  {
   "property": "C30",
   "status": "proved",
   "theorems": [
    "btree_balanced"
   ],
   "note": "For the histories of C29."
  },
  {
   "property": "C31",
   "status": "proved",
   "theorems": [
    "btree_snapshot"
   ],
   "note": "For the histories of C29."
  },
  {
   "property": "C32",
   "status": "partial",
   "theorems": [
    "registry_btree_partial",
    "registry_btree_refuted",
    "registry_btree_panic_refuted",
    "registry_vec_partial",
    "registry_vec_refuted"
   ],
   "note": "Both registries, any number of threads, in interleavings free of the load race (and, for the B-tree, of address reuse). Otherwise refuted: two addresses for one content, a panic, a released vector used."
  },
  {
   "property": "C33",
   "status": "proved",
   "theorems": [
    "vtable_macro_traits",
    "upcast_methods",
    "upcast_destroyed_once"
   ],
   "note": "All compound vtables, all supported conversions in any sequence; the vtable is in memory where the registry says. Functions only: for the receiver see C62."
  },
  {
   "property": "C34",
   "status": "partial",
   "theorems": [
    "dyn_sync_partial",
    "dyn_send_partial",
    "dyn_send_head_refuted",
    "dyn_send_ref_refuted",
    "dyn_send_arc_refuted",
    "dyn_sync_arc_refuted"
   ],
   "note": "Sound for Box and &mut when markers come last, and for &T, Arc and Weak when both markers are present. Otherwise refuted: HasSendVt asks the tail for Sync; DynRef is Send if the pointee is; Dyn<Arc> needs only one marker."
  },
  {
   "property": "C35",
   "status": "partial",
   "theorems": [
    "vtable_eq_equivalence",
    "vtable_eq_methods_refuted",
    "downcast_partial",
    "downcast_merged_refuted",
    "downcast_dynref_refuted",
    "stable_downcast_partial",
    "stable_downcast_dynref_refuted",
    "stable_downcast_shape_partial",
    "stable_downcast_lifetime_refuted"
   ],
   "note": "Holds for Dyn over Box and Arc, up to lifetimes, if types have different destructor functions. Refuted: stable_downcast does not ask for 'static and extends lifetimes; DynRef downcasts return the address of the pointer; vtables compare by address, not by methods; merged functions give false positives (documented)."
  },
  {
   "property": "C36",
   "status": "partial",
   "theorems": [
    "compatible_exactly",
    "compatible_is_equality_partial",
    "compatible_reflexive",
    "compatible_symmetric",
    "compatible_transitive_refuted",
    "compatible_layouts_refuted"
   ],
   "note": "Exact characterisation; equality for reports with as many fields; not transitive because the list of fields is truncated to the shorter one."
  },
  {
   "property": "C37",
   "status": "partial",
   "theorems": [
    "id_separates_partial",
    "id_separates_architectures",
    "id_version_refuted",
    "id_separator_refuted"
   ],
   "note": "Injective up to hash collisions and versions for strings of equal lengths; refuted for versions and for missing separators."
  },
  {
   "property": "C38",
   "status": "partial",
   "theorems": [
    "import_answers_agree",
    "import_initialised_once",
    "import_drop_exact",
    "import_completes",
    "import_race_free_with_acquire",
    "import_initialised_before_read_refuted"
   ],
   "note": "Agreement, single initialisation, drop and progress for any number of threads; the relaxed load makes reading the symbol a data race (refuted), an acquire load would not."
  },
  {
   "property": "C39",
   "status": "partial",
   "theorems": [
    "canary_runs_once",
    "canary_runs_before_use_partial",
    "canary_runs_before_use_refuted"
   ],
   "note": "Exactly once for any number of threads; before use only with a single thread, refuted for two."
  },
  {
   "property": "C40",
   "status": "partial",
   "theorems": [
    "canary_spec_sound",
    "canary_names_identifiers",
    "canary_spec_complete_partial",
    "canary_spec_empty",
    "canary_spec_complete_refuted",
    "canaries_are_the_selected",
    "canary_link_exact_partial",
    "import_symbols_defined",
    "canary_fix_injective_refuted",
    "get_canaried_exact_partial",
    "get_canaried_all_refuted"
   ],
   "note": "Names with an underscore are refused (refuted); symbol names distinct for triples that do not look escaped; get_canaried ignores the host canary."
  },
  {
   "property": "C41",
   "status": "proved",
   "theorems": [
    "nonmax_accepts_all_but_max",
    "nonmax_round_trip",
    "nonmax_unchecked",
    "nonmax_single_niche",
    "nonmax_order_is_value_order",
    "nonx_unsigned_accepts",
    "nonx_unsigned_round_trip",
    "nonx_unsigned_single_niche",
    "nonx_unsigned_order",
    "nonx_signed_accepts",
    "nonx_signed_round_trip",
    "nonx_signed_single_niche",
    "nonx_signed_order",
    "nonzero_memory_valid"
   ],
   "note": "All widths."
  },
  {
   "property": "C42",
   "status": "partial",
   "theorems": [
    "narrow_unsigned_new",
    "narrow_unsigned_order",
    "narrow_unsigned_round_trip",
    "narrow_unsigned_max",
    "narrow_unsigned_high_bits",
    "narrow_unsigned_get",
    "narrow_unsigned_add",
    "narrow_unsigned_sub",
    "narrow_unsigned_bits",
    "narrow_unsigned_release_sub_refuted"
   ],
   "note": "All widths. Missing: the types have no IStable implementation, hence advertise no unused bits; underflow without overflow checks is refuted."
  },
  {
   "property": "C43",
   "status": "partial",
   "theorems": [
    "narrow_signed_round_trip",
    "narrow_signed_order_partial",
    "narrow_signed_get",
    "narrow_signed_min",
    "narrow_signed_new_partial",
    "narrow_signed_max_exact",
    "narrow_signed_new_refuted",
    "narrow_signed_order_refuted"
   ],
   "note": "MAX is right exactly when the storage is twice as wide as the type; otherwise refuted."
  },
  {
   "property": "C44",
   "status": "proved",
   "theorems": [
    "duration_from_millis",
    "duration_from_micros",
    "duration_as_nanos",
    "duration_subsec",
    "duration_add_exact",
    "duration_order",
    "duration_order_refuted",
    "duration_core_round_trip",
    "duration_stabby_round_trip",
    "duration_into_core_value"
   ],
   "note": "For nanoseconds below one second; duration_order_refuted shows the hypothesis is needed. Conversions through f64 are C78."
  },
  {
   "property": "C45",
   "status": "partial",
   "theorems": [
    "atomic_duration_round_trip_partial",
    "atomic_duration_fields",
    "atomic_duration_resolution",
    "atomic_duration_swap",
    "atomic_duration_max_refuted",
    "atomic_duration_overflow_refuted"
   ],
   "note": "Round trip below 2^43 seconds; refuted for the documented MAX."
  },
  {
   "property": "C46",
   "status": "partial",
   "theorems": [
    "waker_history_partial",
    "waker_alloc_refuted"
   ],
   "note": "All histories, any nesting of wrappers, with the default allocator (the only one Future::poll uses). Refuted for StableWaker with another allocator: with_waker casts to StableWaker<DefaultAllocator> (future.rs:133)."
  },
  {
   "property": "C47",
   "status": "partial",
   "theorems": [
    "maybe_resolved_history_partial",
    "maybe_resolved_once_partial",
    "maybe_resolved_stops_iff_partial",
    "maybe_resolved_once_refuted",
    "maybe_future_destroyed_twice_refuted",
    "maybe_tag_overwritten_refuted"
   ],
   "note": "Holds for all polling histories when the tags are not bits a guard sets, and the exact condition is proved. Refuted in general: the guards held by poll set the tag again over Empty (future.rs:350-358), so outputs are yielded repeatedly and futures destroyed repeatedly."
  },
  {
   "property": "C48",
   "status": "partial",
   "theorems": [
    "iterator_transparent_partial",
    "future_transparent_partial",
    "iterator_mut_refuted"
   ],
   "note": "All depths of wrapping, all numbers of calls, for trait objects over Box. Refuted for trait objects over &mut (C62)."
  },
  {
   "property": "C49",
   "status": "partial",
   "theorems": [
    "ref_as_moving_partial",
    "ref_as_iff_partial",
    "mut_as_partial",
    "mut_as_string_partial",
    "ref_as_string_refuted",
    "ref_as_single_refuted",
    "mut_as_forgotten_refuted"
   ],
   "note": "ref_as holds for conversions that move, and in general exactly when the target has the source's blocks; mut_as holds for all conversions when the guard is dropped. Refuted: ref_as of String as std String frees the source, of a single SingleOrVec as Vec leaks; a forgotten mut_as guard leaves the source dangling. Panics not modelled."
  },
  {
   "property": "C50",
   "status": "partial",
   "theorems": [
    "string_history_partial",
    "string_try_from",
    "string_text_unique",
    "string_order",
    "arc_str_text_partial",
    "string_shared_refuted"
   ],
   "note": "All histories of safe operations, against texts as sequences of Unicode scalar values; validation accepts exactly the encodings of texts; order is that of scalar values. Partial: byte counts below 2^64, honest iterators (C18), zero-sized allocator (refuted otherwise for an empty string made an ArcStr). core's from_utf8 and case functions are modelled by hand."
  },
  {
   "property": "C51",
   "status": "partial",
   "theorems": [
    "union_layout_is_c",
    "array_layout_is_c",
    "repr_c_enum_layout",
    "repr_u_enum_unused_bits_refuted"
   ],
   "note": "Unions, arrays and repr(C, uN) enums proved; unused bits of repr(uN) enums with data refuted."
  },
  {
   "property": "C52",
   "status": "partial",
   "theorems": [
    "maybe_uninit_niches_refuted",
    "unsafe_cell_niches_refuted"
   ],
   "note": "Refuted for MaybeUninit and UnsafeCell; ManuallyDrop has the values of T, hence C03-C05 apply."
  },
  {
   "property": "C53",
   "status": "partial",
   "theorems": [
    "core_option_single_niche_partial",
    "core_result_single_niche_partial",
    "core_option_single_niche_refuted",
    "core_result_alignment_refuted"
   ],
   "note": "Proved for types without core::cmp::Ordering; refuted with it, and for the alignment of core Results."
  },
  {
   "property": "C54",
   "status": "partial",
   "theorems": [
    "is_invalid_is_sound",
    "is_invalid_detects_refuted"
   ],
   "note": "Soundness proved for all types; detection refuted for null references."
  },
  {
   "property": "C55",
   "status": "proved",
   "theorems": [
    "indirections_are_pointers",
    "istable_size_is_size"
   ],
   "note": ""
  },
  {
   "property": "C56",
   "status": "partial",
   "theorems": [
    "system_time_round_trip_partial",
    "system_time_order_partial",
    "system_time_round_trip_refuted"
   ],
   "note": "From the epoch on; times before the epoch are clamped."
  },
  {
   "property": "C57",
   "status": "partial",
   "theorems": [
    "equal_reports_equal_layouts_partial",
    "compatible_reports_equal_layouts_partial",
    "aligned_reports_refuted",
    "wrapped_reports_refuted",
    "i128_reports_refuted",
    "u128_reports_refuted"
   ],
   "note": "Without repr(align), i128 and MaybeUninit-like wrappers, and between targets that align u128 to 8 or 16; refuted for these four."
  },
  {
   "property": "C58",
   "status": "partial",
   "theorems": [
    "arc_order_partial",
    "arc_order_refuted",
    "arc_order_get_mut_refuted",
    "arc_order_acqrel"
   ],
   "note": "With the Relaxed orderings of the code, holds only while Arcs stay on one thread; refuted as soon as two threads share one. arc_order_acqrel shows that acquire-release orderings would be enough."
  },
  {
   "property": "C59",
   "status": "proved",
   "theorems": [
    "btree_released"
   ],
   "note": "For the histories of C29."
  },
  {
   "property": "C60",
   "status": "partial",
   "theorems": [
    "btree_set",
    "btree_limit_one_refuted",
    "btree_even_limit_refuted"
   ],
   "note": "Holds for odd limits of at least 3 (btree_set); refuted for 1, and for even limits, which AtomicArcBTreeSet does not reject."
  },
  {
   "property": "C61",
   "status": "partial",
   "theorems": [
    "tree_edit_partial",
    "tree_edit_lost_refuted",
    "tree_edit_aba_refuted",
    "tree_edit_released_refuted",
    "tree_drop_refuted"
   ],
   "note": "All interleavings in which the content is not replaced between another thread's load and increment, and no address being compared is allocated again. Otherwise updates are lost or a released node is used (refuted); the cell has no destructor (refuted)."
  },
  {
   "property": "C62",
   "status": "partial",
   "theorems": [
    "receiver_partial",
    "receiver_mut_refuted",
    "receiver_as_mut_refuted",
    "receiver_swap_refuted"
   ],
   "note": "Holds for &T, Box and Arc and what is obtained from them without as_mut and ptr_mut. Refuted for &mut T: IPtr for &mut T transmutes the reference to the reference; and for ptr_mut, which lets safe code exchange the pointers of objects of different types."
  },
  {
   "property": "C63",
   "status": "partial",
   "theorems": [
    "containers_partial",
    "atomic_set_markers_refuted",
    "canaried_markers_refuted",
    "box_alloc_markers_refuted",
    "result_markers_refuted"
   ],
   "note": "All nestings of all containers with explicit bounds. Refuted for AtomicArcBTreeSet, CanariedImport and Result (hence Option, repr(stabby) enums and SingleOrVec), which are Sync for any content, and for Box with an allocator that is not Sync."
  },
  {
   "property": "C64",
   "status": "partial",
   "theorems": [
    "mut_write_partial",
    "slice_mut_write_refuted"
   ],
   "note": "Holds for &mut and Drain; refuted for SliceMut, which is covariant."
  },
  {
   "property": "C65",
   "status": "partial",
   "theorems": [
    "primitive_declarations_partial",
    "pointer_declarations",
    "c_void_declaration_refuted"
   ],
   "note": "All targets with 4- or 8-byte pointers and the alignments Rust uses for 64- and 128-bit integers. Refuted for c_void, declared zero-sized while core's has one byte."
  },
  {
   "property": "C66",
   "status": "partial",
   "theorems": [
    "shared_write_ok_partial",
    "shared_write_err_partial",
    "shared_write_unpadded_partial",
    "shared_write_refuted"
   ],
   "note": "All payloads, for writes that keep the unused bits of the payload (always the case without padding). Refuted otherwise: a whole-value write changes the padding bit that holds the tag."
  },
  {
   "property": "C67",
   "status": "partial",
   "theorems": [
    "box_values",
    "box_effect",
    "box_blocks",
    "box_allocators",
    "box_no_leak_partial",
    "box_no_leak_refuted"
   ],
   "note": "All histories of Box, Box<MaybeUninit>, raw pointers, Dyn<Box> and boxed FnOnce, with allocation failures and panics. Only the release of memory is partial: refuted when a destructor panics."
  },
  {
   "property": "C68",
   "status": "partial",
   "theorems": [
    "result_uses_partial",
    "result_payloads_once_partial",
    "result_eq_hash_partial",
    "result_uses_refuted"
   ],
   "note": "All histories of constructions, conversions, closures, clones and mutations of a Result, against core's Result. Missing: payloads whose size is not a multiple of their alignment, for which it is refuted. Destructors are taken not to change the payload's bytes."
  },
  {
   "property": "C69",
   "status": "partial",
   "theorems": [
    "view_history_partial",
    "view_valid_partial",
    "view_fields_refuted"
   ],
   "note": "All programs over &[T], &mut [T], &str, &mut str and stabby's four views, with borrows, sub-slices and writes. Missing: programs that build a Slice or SliceMut from its public fields, for which it fails (view_fields_refuted). Eq, Ord and Hash of views: see C87."
  },
  {
   "property": "C70",
   "status": "partial",
   "theorems": [
    "checked_trait_exactly",
    "checked_trait_complete",
    "checked_trait_partial",
    "checked_trait_refuted"
   ],
   "note": "All traits whose methods do not exchange arrays, function pointers and Self::x directly (they may be arguments of other types); these are not checked, for which it is refuted. Bounds of associated types are not modelled."
  },
  {
   "property": "C71",
   "status": "proved",
   "theorems": [
    "vtable_signatures",
    "vtable_parameters"
   ],
   "note": "All traits; types are compared as trees where the code compares their printed tokens. Bounds of associated types are not modelled."
  },
  {
   "property": "C72",
   "status": "partial",
   "theorems": [
    "dyn_report_exactly",
    "dyn_report_partial",
    "dyn_report_refuted"
   ],
   "note": "Names and order of traits and methods are told for traits with as many methods; signatures and generic arguments are not part of reports, for which it is refuted."
  },
  {
   "property": "C73",
   "status": "partial",
   "theorems": [
    "get_stabbied_partial",
    "get_stabbied_itself",
    "get_stabbied_refuted"
   ],
   "note": "All pairs of signatures, if no exchanged type is called stabby::signature; otherwise refuted. Compatible types are those of C36 (reports agree on the fields both have)."
  },
  {
   "property": "C74",
   "status": "partial",
   "theorems": [
    "serde_sound_partial",
    "serde_complete_partial",
    "serde_round_trip_partial",
    "serde_sequence_partial",
    "serde_string_refuted",
    "serde_length_refuted",
    "serde_length_panic_refuted"
   ],
   "note": "All formats (arbitrary functions from requests to visitor calls), all types built from the modelled ones, any allocator. Missing: formats that do not lend strings, or announce lengths whose byte counts wrap, for which it is refuted. ArcSlice and ArcStr are left to C27."
  },
  {
   "property": "C75",
   "status": "partial",
   "theorems": [
    "vec_unwind_partial",
    "vec_truncate_unwind_refuted",
    "vec_into_iter_unwind_refuted",
    "vec_unwind_leak_refuted"
   ],
   "note": "All programs over a vector, all schedules of panics of destructors, clones and iterators, up to the first truncate or dropped into_iter in which a destructor panics; for these it is refuted (elements destroyed twice). Leaks after panics are refuted too. DoubleEndedDrain and SingleOrVec are left out."
  },
  {
   "property": "C76",
   "status": "proved",
   "theorems": [
    "tyeval_reads",
    "tyeval_keeps_names",
    "tyeval_means",
    "tyeval_malformed_refuted",
    "tyeval_types_refuted"
   ],
   "note": "All texts of the grammar (paths with balanced angle brackets, parentheses, one operator per level). Beyond it, the macro accepts malformed text and refuses or misreads some types: two refutations of the converse."
  },
  {
   "property": "C77",
   "status": "partial",
   "theorems": [
    "instant_round_trip_partial",
    "instant_round_trip_refuted",
    "atomic_instant_history_partial",
    "atomic_instant_past_partial",
    "atomic_instant_monotone_partial",
    "atomic_instant_monotone_refuted"
   ],
   "note": "All histories of any number of threads, with coherent (possibly stale) loads, for instants below 2^43 seconds. Monotone with one updating thread; refuted for two (update reads the clock before it swaps). Instants before the epoch become the epoch (refuted)."
  },
  {
   "property": "C78",
   "status": "partial",
   "theorems": [
    "duration_from_secs_f64",
    "duration_from_secs_f64_monotone",
    "duration_as_secs_f64",
    "duration_f64_round_trip_partial",
    "duration_f64_whole_partial",
    "duration_f64_round_trip_refuted",
    "duration_f64_whole_refuted"
   ],
   "note": "All f64 and all durations for panics, truncation, monotonicity and accuracy. Round trips lose at most a nanosecond below 2^50 nanoseconds, and whole seconds are exact below 2^53 nanoseconds; exact round trips are refuted, for fractions and for whole seconds."
  },
  {
   "property": "C79",
   "status": "partial",
   "theorems": [
    "vtable_lifetimes_exactly",
    "vtable_lifetimes_partial",
    "vtable_lifetimes_refuted"
   ],
   "note": "All traits: exactly which have vtables with lifetimes in scope; in particular all that write their lifetimes. Refuted for omitted lifetimes in checked traits, for function pointers with lifetimes of the method, and for omitted lifetimes in outputs of methods with other borrowed arguments."
  },
  {
   "property": "C80",
   "status": "partial",
   "theorems": [
    "zst_vec_list_partial",
    "zst_vec_step",
    "zst_push_refuted",
    "zst_debug_refuted",
    "zst_align_refuted",
    "zst_length_refuted",
    "zst_boxed_refuted"
   ],
   "note": "All histories without debug assertions, for elements that need no alignment, of fewer than 2^64 - 1 elements, and without push and extend, for which there is no code. Each restriction is refuted: push does not compile, reserve panics with debug assertions, pop and copy_extend use misaligned pointers, usize::MAX elements reallocate a dangling pointer."
  },
  {
   "property": "C81",
   "status": "partial",
   "theorems": [
    "btree_interrupted_partial",
    "btree_interrupted_balanced_partial",
    "btree_interrupted_released_partial",
    "btree_interrupted_unchanged_refuted",
    "btree_interrupted_leak_refuted",
    "btree_interrupted_allocator_refuted"
   ],
   "note": "All orders, limits, histories and interruptions, except refused first allocations: no undefined behaviour, other sets unchanged, order and balance kept, content unchanged or less a run of values. Refuted: a refused split loses values; a panicking Clone leaks nodes; a refused first allocation leaves a set whose allocator is dropped twice. Destructors that panic and allocators whose Clone panics are left out."
  },
  {
   "property": "C82",
   "status": "partial",
   "theorems": [
    "reports_identify_types_partial",
    "self_argument_refuted",
    "default_argument_refuted",
    "phantom_reports_refuted",
    "core_result_reports_refuted",
    "reports_exist_partial",
    "generic_recursion_refuted"
   ],
   "note": "All programs and types, at any depth, under four conditions, each of which is needed (refuted otherwise): no PhantomData, wrappers or core Result (their reports drop arguments); no self-mentioning type instantiated with a type that mentions the enclosing one; no generic type named without arguments in its own fields. Reports exist if declarations only use earlier ones, Self and bare own names apart; a generic type that names itself with its arguments has none (refuted)."
  },
  {
   "property": "C83",
   "status": "proved",
   "theorems": [
    "recursive_layouts"
   ],
   "note": "All programs and types, any layouts."
  },
  {
   "property": "C84",
   "status": "partial",
   "theorems": [
    "struct_repr_partial",
    "struct_repr_unchecked_partial",
    "struct_accepted_partial",
    "struct_accepted_refuted",
    "struct_align_refuted",
    "struct_unchecked_refuted",
    "union_repr_partial",
    "union_repr_refuted",
    "enum_repr_exactly",
    "enum_newtype"
   ],
   "note": "Structs: the fields are at their C offsets whenever the checks made by ID pass, unless align stands alone (refuted: then the compiler's own order is used, and a valid value is taken for None); without evaluating ID packed and C+align are accepted and ignored (refuted). Unions: only with C (refuted for align). Enums: attributes are read exactly."
  },
  {
   "property": "C85",
   "status": "partial",
   "theorems": [
    "dyn_owned_partial",
    "dyn_ends_own_partial",
    "dyn_ends_own_or_unit_partial",
    "dyn_last_owner_partial",
    "dyn_ptr_refuted",
    "dyn_ptr_into_inner_refuted",
    "dyn_ptr_mut_refuted",
    "dyn_weak_drop_refuted",
    "dyn_weak_revive_refuted",
    "dyn_weak_upgrade_refuted"
   ],
   "note": "Ownership is exact for all programs that make no Dyn<Weak>; destructors are right if no pointer is taken out of a trait object. Refuted in safe code: clones of dyn.ptr() skip the destructor, swapping through ptr_mut runs the wrong one, and every Dyn<Weak> decrements the strong count when it goes (use after destruction)."
  },
  {
   "property": "C86",
   "status": "partial",
   "theorems": [
    "enum_not_larger_partial",
    "enum_not_larger_refuted",
    "enum_size_bound",
    "enum_unmarked_exactly"
   ],
   "note": "The bound is proved for two to four variants and refuted at five: 12 bytes instead of 8. The bound by doublings and the exact condition for compiling without a repr hold for any number of variants."
  },
  {
   "property": "C87",
   "status": "partial",
   "theorems": [
    "equal_exactly_partial",
    "equal_equivalence",
    "equal_copies_refuted",
    "equal_hash",
    "hash_prefix_free",
    "string_hash_exactly",
    "view_hash_refuted",
    "order_exactly",
    "order_total",
    "report_hash_separates_partial",
    "report_hash_separates_refuted"
   ],
   "note": "Three parts are false and refuted: a copy of a VtDrop or of a vtable is not == to it; Str never hashes as its str; layout reports with versions of 2^24 or more can differ and be hashed alike. All else is proved without bound; equality is exact for types without VtDrop, hashing of reports is injective below 2^24."
  },
  {
   "property": "C88",
   "status": "partial",
   "theorems": [
    "occupies_unique",
    "ctype_layout_partial",
    "ctype_emulated_refuted",
    "ctype_integers_refuted",
    "ctype_zero_sized_refuted",
    "ctype_assert_holds_partial",
    "ctype_fields_partial",
    "ctype_enum_partial",
    "ctype_any_bytes_partial",
    "ctype_any_bytes_refuted",
    "unit_array_exact"
   ],
   "note": "False and refuted: for StableLike over NoNiches (C type ()), integers not aligned to their size (u64 on 32-bit x86 has C type u32), unions and payloads of zero bytes with an alignment, and forbidden bytes in repr(align) structs. Proved for all other types without bound; results and unions of payloads that are not whole units are C07's subject. repr(uN) enums without C: see C51."
  },
  {
   "property": "C89",
   "status": "partial",
   "theorems": [
    "vecmem_refines_partial",
    "vecmem_frame",
    "vecmem_no_leak",
    "vecmem_room",
    "vecmem_overaligned_refuted",
    "vecmem_overflow_refuted",
    "vecmem_empty_boxed_refuted"
   ],
   "note": "Proved for elements of at least one byte aligned no more than the prefix, requests of at most 2^62 bytes at once, and boxed slices made from vectors that are not empty; outside of these it is false and refuted (over-aligned elements, sizes that overflow, empty boxed slices). Zero-sized elements are C80's subject; panicking destructors and clones C75's."
  },
  {
   "property": "C90",
   "status": "partial",
   "theorems": [
    "call_across_partial",
    "call_itself",
    "call_uninit_refuted",
    "call_prefix_refuted",
    "call_i128_refuted"
   ],
   "note": "Proved when reports say everything about the types and types of the same name have as many fields on both sides; false otherwise: refuted for MaybeUninit, for a type with an additional field on one side, and for i128 between compilers. Enums other than Result are not part of the declared types modelled here."
  },
  {
   "property": "C91",
   "status": "partial",
   "theorems": [
    "shmem_refines_partial",
    "shmem_frame",
    "shmem_no_leak",
    "shmem_empty_alloc_refuted",
    "shmem_empty_leak_refuted"
   ],
   "note": "Proved for vectors that have capacity when they are shared (the program looks at it before; without, both refuted theorems apply), types not aligned beyond the prefix and one thread (threads: C25 to C28)."
  },
  {
   "property": "C92",
   "status": "partial",
   "theorems": [
    "generics_exact_partial",
    "generics_bounds_partial",
    "generics_order_refuted",
    "generics_tuple_refuted",
    "generics_comma_refuted",
    "generics_default_refuted",
    "generics_bounds_refuted",
    "generics_where_refuted"
   ],
   "note": "The exact set of declarations for which it holds is characterised (iff); the refuted theorems are the cases outside it."
  },
  {
   "property": "C93",
   "status": "partial",
   "theorems": [
    "fn_exact_partial",
    "fn_stable",
    "export_exact_partial",
    "export_stable",
    "fn_const_unsafe_refuted",
    "fn_where_refuted",
    "fn_async_refuted",
    "fn_types_refuted",
    "export_async_refuted",
    "export_input_refuted"
   ],
   "note": "Both sets of functions for which it holds are characterised exactly (iff); that what compiles is stable is proved for all functions; the refuted theorems are the cases outside."
  },
  {
   "property": "C94",
   "status": "partial",
   "theorems": [
    "dynptr_exact_partial",
    "vtable_exact",
    "dynptr_injective_partial",
    "dynptr_ref_one",
    "dynptr_ref_many_refuted",
    "dynptr_elided_refuted",
    "dynptr_alloc_refuted",
    "dynptr_qself_refuted",
    "dynptr_group_refuted"
   ],
   "note": "The types for which it holds are characterised exactly (iff); vtable! is proved for all bounds; the refuted theorems are the cases outside."
  },
  {
   "property": "C95",
   "status": "partial",
   "theorems": [
    "import_exact_partial",
    "import_export_symbols",
    "import_canaries_link",
    "import_scope_refuted",
    "import_shadow_refuted",
    "import_super_refuted",
    "import_link_refuted",
    "import_unwind_refuted",
    "import_static_refuted",
    "import_lifetimes_refuted",
    "import_cfg_refuted",
    "import_variadic_refuted"
   ],
   "note": "The blocks for which it holds are characterised exactly (iff); the refuted theorems are the cases outside."
  },
  {
   "property": "C96",
   "status": "partial",
   "theorems": [
    "trait_types_exact_partial",
    "trait_types_tokens",
    "trait_types_same",
    "trait_types_colon_refuted",
    "trait_types_paren_refuted",
    "trait_types_qself_refuted"
   ],
   "note": "The types for which it holds are characterised exactly (iff); the refuted theorems are the cases outside."
  },
  {
   "property": "C97",
   "status": "partial",
   "theorems": [
    "generic_trait_exact_partial",
    "generic_trait_const_refuted",
    "generic_trait_lifetime_refuted",
    "generic_trait_default_refuted",
    "generic_trait_where_refuted",
    "generic_trait_unused_type_refuted",
    "generic_trait_unused_param_refuted",
    "generic_trait_outlives_refuted",
    "generic_trait_unsized_refuted",
    "generic_trait_super_refuted"
   ],
   "note": "The traits for which it holds are characterised exactly (iff); the refuted theorems are the cases outside."
  },
  {
   "property": "C98",
   "status": "partial",
   "theorems": [
    "tyargs_exact_partial",
    "tyargs_unknown",
    "tyargs_report",
    "tyargs_compatible",
    "tyargs_literal_refuted",
    "tyargs_two_modules_refuted",
    "tyargs_module_comma_refuted"
   ],
   "note": "The settings that are understood are characterised exactly (iff); the refuted theorems are the cases outside."
  },
  {
   "property": "C99",
   "status": "partial",
   "theorems": [
    "enum_names_exact_partial",
    "enum_names_prelude_refuted",
    "enum_names_struct_refuted",
    "enum_names_own_refuted",
    "enum_names_types_refuted",
    "enum_names_shapes_refuted"
   ],
   "note": "The enums that work are characterised exactly (iff); the refuted theorems are the cases outside."
  },
  {
   "property": "C100",
   "status": "partial",
   "theorems": [
    "closure_calls",
    "closure_arity_refuted",
    "closure_names",
    "closure_stable_partial",
    "closure_stable_refuted",
    "closure_report_partial",
    "closure_report_refuted"
   ],
   "note": "Calls: proved for up to nine inputs, there is nothing beyond (refuted). Stability and reports are characterised exactly; they do not tell the inputs (refuted). Ownership of the box is C67, receivers are C62."
  },
  {
   "property": "C101",
   "status": "partial",
   "theorems": [
    "alias_exact",
    "alias_distinct",
    "alias_present_partial",
    "alias_hex_refuted",
    "alias_doc_partial",
    "alias_doc_refuted",
    "tuple_present",
    "tuple_round_trip",
    "alloc_default_partial",
    "alloc_wasm_refuted",
    "alloc_given_partial",
    "alloc_given_refuted"
   ],
   "note": "Names, values and tuples are exact; which names exist, the documentation and the default allocator are proved where they hold and refuted elsewhere."
  },
  {
   "property": "C102",
   "status": "partial",
   "theorems": [
    "pod_exact",
    "pod_layout",
    "pod_sizes_partial",
    "pod_sizes_refuted",
    "pod_copy",
    "pod_machines",
    "pod_transfer_partial",
    "pod_dense",
    "pod_padding_refuted",
    "pod_uninit_refuted",
    "pod_align_refuted",
    "pod_u64_refuted"
   ],
   "note": "Transfer is proved for initialised bytes (shown to be all bytes for types without gaps), equal alignment of u64, and declarations without repr(align), MaybeUninit, ManuallyDrop; refuted for each of these. Enums are missing."
  },
  {
   "property": "C103",
   "status": "partial",
   "theorems": [
    "debug_std",
    "set_debug_partial",
    "set_debug_refuted",
    "hex_exact_partial",
    "hex_fill_refuted",
    "hex_nested_refuted",
    "ints_text",
    "ints_debug_partial",
    "ints_debug_refuted",
    "narrow_display_partial",
    "narrow_display_refuted",
    "report_display_partial",
    "report_display_refuted",
    "string_write"
   ],
   "note": "Sets are written with all their values in order, but how they are nested depends on the history (refuted). Hex is injective unless the fill character is a colon or digit, or sequences are nested (both refuted). Without a width, integers are written in decimal or hexadecimal and told apart; with one, the fill may hide it (refuted). Narrow integers made by new display their value; iN::MIN does not (refuted). Reports with names without blanks are told apart (others refuted)."
  },
  {
   "property": "C104",
   "status": "partial",
   "theorems": [
    "check_exact",
    "check_floats",
    "check_names",
    "check_accepts",
    "check_niches",
    "check_layouts_partial",
    "check_align_refuted",
    "check_niche_refuted",
    "check_float_refuted",
    "check_missing_refuted",
    "check_message_partial",
    "check_message_refuted",
    "check_room_partial"
   ],
   "note": "Proved for integers, atomics, NonZero integers and bool with alignments under 256, checked or not (given that signed and NonZero integers have the layout of unsigned ones). Refuted for floats, c_void, Ordering, claims of several niches and alignments of 256 or more. Messages show numbers under 100 and 10^6 and fit the buffer but for NonZeroUsize."
  },
  {
   "property": "C105",
   "status": "partial",
   "theorems": [
    "io_write_partial",
    "cow_partial",
    "cow_refuted",
    "imap_partial",
    "imap_refuted",
    "alloc_tower_exact",
    "alloc_safe_partial",
    "alloc_safe_refuted"
   ],
   "note": "Proved for well-formed types, lengths within the address space, and for IAlloc's safe method while the system has memory. Refuted for values the niches of whose fields are shared (as C09), and for IStableAlloc, whose methods free and realloc are not unsafe. Cow and IMap (stabby/src/allocs/borrow.rs, stabby/src/map.rs) are modelled as written: no module of stabby reaches these files, so they are not compiled at this commit."
  },
  {
   "property": "C106",
   "status": "partial",
   "theorems": [
    "int_reports_exact",
    "int_names",
    "int_cross_exact",
    "int_cross_partial",
    "int_cross_refuted"
   ],
   "note": "Exact: the value is the same if and only if the forbidden values are. Refuted for NonX with different FORBIDDEN, which is not part of the report."
  },
  {
   "property": "C107",
   "status": "partial",
   "theorems": [
    "like_layout_true",
    "like_partial",
    "like_advised_partial",
    "like_refuted",
    "like_fields_refuted",
    "like_forges",
    "like_pod_partial",
    "like_pod_refuted"
   ],
   "note": "Proved for descriptions that tell the truth, and always for NoNiches. Refuted otherwise: new is a safe function and only checks size and alignment; like_forges shows that it gives references to any address."
  },
  {
   "property": "C108",
   "status": "partial",
   "theorems": [
    "pad_size_true",
    "pad_bits_true",
    "padding_true",
    "no_niches_partial",
    "no_niches_refuted",
    "pad_report_refuted",
    "no_niches_report_refuted"
   ],
   "note": "Sizes and unused bits proved for all paddings. Refuted: NoNiches has alignment 1 whatever it tells; paddings of all sizes, and all NoNiches, have the same report and identifier."
  },
  {
   "property": "C109",
   "status": "proved",
   "theorems": [
    "report_lists_fields",
    "report_reads",
    "report_built",
    "report_compatible",
    "report_hashed",
    "report_equal",
    "report_equal_compatible"
   ],
   "note": "Refinement of the linked reports to the trees used by C36, C37, C57 and C82."
  },
  {
   "property": "C110",
   "status": "partial",
   "theorems": [
    "vt_config_partial",
    "vt_config_refuted",
    "vt_vector_broken",
    "vt_no_alloc_unheard",
    "vt_bare_name",
    "vt_disabled",
    "vt_in_place",
    "vt_old_nightly",
    "vt_shows_functions"
   ],
   "note": "Proved of the choices unset and \"btree\" for all toolchains, allocators and features, and of all choices on toolchains that keep vtables in the binary. False of \"vec\" (does not compile) and \"no_alloc\" (not heard) on stable and beta from 1.78, and of nightly before 1.78 (does not compile): vt_config_refuted, vt_vector_broken, vt_no_alloc_unheard, vt_old_nightly."
  },
  {
   "property": "C111",
   "status": "partial",
   "theorems": [
    "load_stabbied_exact_partial",
    "load_stabbied_refuses_partial",
    "load_links",
    "load_stabbied_nul_refuted",
    "load_stabbied_nul",
    "load_stabbied_reserved_refuted",
    "load_canaried_exact",
    "load_canaried_nul",
    "load_canaried_own",
    "load_canaried_between",
    "load_canaried_defined_partial",
    "load_canaried_defined_refuted"
   ],
   "note": "Proved for names without NUL and libraries whose own names do not end with _stabbied_v3 or _stabbied_v3_report, and (definedness of get_canaried) for names that are UTF-8. False of names ended by NUL, which libloading itself takes (load_stabbied_nul_refuted), of libraries with a function named with the suffix (load_stabbied_reserved_refuted) and of names that are not UTF-8 (load_canaried_defined_refuted)."
  },
  {
   "property": "C112",
   "status": "partial",
   "theorems": [
    "numops_unsigned",
    "numops_unsigned_order",
    "numops_unsigned_release",
    "numops_unsigned_fmt_refuted",
    "numops_signed_partial",
    "numops_signed_fmt_partial",
    "numops_signed_fmt_refuted",
    "numops_signed_min_fmt",
    "numops_signed_max",
    "numops_signed_mask_refuted"
   ],
   "note": "Proved in full for uN with overflow checks; without them get is right modulo 2^N but formatting shows the stored integer. For iN proved without MAX (wrong by C43) and, for formatting and order, without MIN and with masks that are values of iN; false outside."
  },
  {
   "property": "C113",
   "status": "partial",
   "theorems": [
    "numtable_names",
    "numtable_once",
    "numtable_unsigned",
    "numtable_signed_partial",
    "numtable_signed_i4",
    "numtable_signed_refuted"
   ],
   "note": "The table is complete, without repetitions, and right for every uN. For iN the base type and MIN are right and what is accepted fits; but i4 is the only one that holds all integers of N bits (proved), i1 does not hold 0 (refuted)."
  }
 ]
}