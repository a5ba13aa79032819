{"id": "C01", "title": "Type-level arithmetic agrees with the naturals", "statement": "Every type-level operator exposed on type-level unsigned integers (Add, AbsSub, Equal, Greater, SmallerOrEq, Min, Max, BitAnd, BitOr, Truncate, Mod by a power of two, NextMultipleOf a power of two, NextPow2, Mul, right-most one) computes the same number as the corresponding operation on natural numbers, and yields the canonical (no leading zero) representation, so that type equality coincides with numeric equality.", "quantifier": "all pairs of canonical type-level naturals, of any number of bits", "why_tests_cant": "the operators are recursive over the number of bits; the in-crate test enumerates a finite grid only", "anchors": ["stabby-abi/src/typenum2/unsigned.rs:IUnsigned", "stabby-abi/src/typenum2/unsigned.rs:UInt", "stabby-abi/src/typenum2/unsigned.rs:UTerm", "stabby-abi/src/typenum2/unsigned.rs:IPowerOf2"]}
{"id": "C02", "title": "Struct layout is the C layout", "statement": "For every list of field types, the Size and Align computed for a #[stabby] struct are those of a repr(C) struct with the same fields in order: each field sits at the first multiple of its alignment after the previous one, the alignment is the maximum of the field alignments and the size is rounded up to it.", "quantifier": "all lists of fields, all sizes and power-of-two alignments", "why_tests_cant": "unbounded number of fields and layouts; a wrong padding in one combination silently breaks the ABI", "anchors": ["stabby-abi/src/istable.rs:FieldPair", "stabby-abi/src/istable.rs:AlignedAfter", "stabby-abi/src/istable.rs:Struct", "stabby-abi/src/istable.rs:AlignedStruct", "stabby-macros/src/structs.rs:stabby"]}
{"id": "C03", "title": "Forbidden values are never inhabited", "statement": "No valid value of a stable type, once written in memory, matches one of the byte patterns the type advertises as forbidden.", "quantifier": "all types built from primitives by struct, array, Result/Option nesting; all values; all contents of padding bytes", "why_tests_cant": "one uncovered combination of type constructors would make Option<T> confuse Some with None", "anchors": ["stabby-abi/src/istable.rs:IForbiddenValues", "stabby-abi/src/istable.rs:ForbiddenValues", "stabby-abi/src/stable_impls/mod.rs:nz_holes", "stabby-abi/src/stable_impls/mod.rs:bool"]}
{"id": "C04", "title": "Unused bits never carry information", "statement": "Flipping any subset of the bits a stable type advertises as unused, in the memory of a value of that type, leaves the decoded value unchanged.", "quantifier": "all types of the grammar, all values, all subsets of the advertised unused bits", "why_tests_cant": "quantifies over all types, values and bit subsets", "anchors": ["stabby-abi/src/istable.rs:UnusedBits", "stabby-abi/src/istable.rs:IBitMask", "stabby-abi/src/istable.rs:PaddingHelper"]}
{"id": "C05", "title": "Advertised niches lie inside the type and never overlap", "statement": "Every forbidden byte and every unused bit a type advertises has an offset smaller than the size of the type, and no byte of a forbidden value has an unused bit in it.", "quantifier": "all types of the grammar", "why_tests_cant": "universal over an infinite type grammar", "anchors": ["stabby-abi/src/istable.rs:IStable", "stabby-abi/src/istable.rs:FieldPair", "stabby-abi/src/istable.rs:Struct", "repr-stabby.md"]}
{"id": "C06", "title": "Result round trip", "statement": "For any Ok and Err types, Result::Ok(v) is seen as Ok by is_ok/match_* and yields back v, Result::Err(e) is seen as Err and yields back e, whatever the previous content of the memory and whatever the bits in the payload's padding.", "quantifier": "all pairs of types of the grammar (including nested Results), all payload values, all initial memory contents", "why_tests_cant": "the determinant is selected at type level among 5 strategies; tests cover a handful of type pairs", "anchors": ["stabby-abi/src/result.rs:Ok", "stabby-abi/src/result.rs:Err", "stabby-abi/src/result.rs:is_ok", "stabby-abi/src/result.rs:match_owned", "stabby-abi/src/enums/mod.rs:IDeterminant", "stabby-abi/src/enums/mod.rs:IDeterminantProvider", "stabby-abi/src/enums/err_non_empty.rs:DeterminantProvider"]}
{"id": "C07", "title": "Result storage can hold both payloads and the discriminant", "statement": "For any Ok and Err types, the discriminant and both payloads lie within the memory of the Result value: offset + size never exceeds size_of the Result.", "quantifier": "all pairs of types", "why_tests_cant": "an out-of-bounds write only shows up for particular size/alignment combinations", "anchors": ["stabby-abi/src/result.rs:Storage", "stabby-abi/src/result.rs:Size", "stabby-abi/src/enums/mod.rs:UnionSize"]}
{"id": "C08", "title": "Result payloads are properly aligned", "statement": "The offset at which Ok and Err payloads are stored inside a Result is a multiple of the payload's alignment and the external discriminant byte never overlaps a payload.", "quantifier": "all pairs of types", "why_tests_cant": "universal over sizes and alignments", "anchors": ["stabby-abi/src/result.rs:OK_OFFSET", "stabby-abi/src/result.rs:ERR_OFFSET", "stabby-abi/src/result.rs:DET_SIZE"]}
{"id": "C09", "title": "Niches exported by a Result are still free", "statement": "Writing arbitrary values in the bits that Result<Ok, Err> advertises as unused changes neither the variant seen by is_ok nor the payload read back; hence nesting Results is safe at any depth.", "quantifier": "all pairs of types, all values of both variants, all contents of the advertised bits", "why_tests_cant": "needs induction over nesting depth", "anchors": ["stabby-abi/src/enums/err_size_0.rs:DeterminantProviderWithUnit", "stabby-abi/src/enums/err_non_empty.rs:NicheExporter", "stabby-abi/src/result.rs:UnusedBits"]}
{"id": "C10", "title": "Mutation through guards preserves the variant", "statement": "Overwriting the payload of a Result through the guard given by ok_mut/err_mut/match_mut with any valid value of the payload type (padding included) keeps the variant, and the new payload is read back.", "quantifier": "all pairs of types, all replaced and replacing values", "why_tests_cant": "a payload write may clobber a discriminant hidden in padding; depends on type pair and padding content", "anchors": ["stabby-abi/src/result.rs:OkGuard", "stabby-abi/src/result.rs:ErrGuard", "stabby-abi/src/result.rs:match_mut"]}
{"id": "C11", "title": "Option and core conversions are lossless", "statement": "Converting core Option/Result to the stabby ones and back is the identity, the stabby Option is Some exactly when the core one is, and size_of(Option<T>) = size_of(T) whenever T has a forbidden value or an unused bit.", "quantifier": "all payload types of the grammar, all values", "why_tests_cant": "universal over types and values", "anchors": ["stabby-abi/src/option.rs:Option", "stabby-abi/src/option.rs:From", "stabby-abi/src/result.rs:From"]}
{"id": "C12", "title": "repr(stabby) enums dispatch to the right branch", "statement": "For an enum with any number of variants, constructing variant i with payload v and then matching calls exactly the i-th closure, with v.", "quantifier": "all numbers of variants, all i, all payloads", "why_tests_cant": "the balanced tree depends on the number of variants; unbounded", "anchors": ["stabby-macros/src/enums.rs:repr_stabby", "repr-stabby.md"]}
{"id": "C13", "title": "Determinant selection follows the published specification", "statement": "The discriminant strategy, payload shift and remaining unused bits computed for Result<Ok, Err> are those of the algorithm published in repr-stabby.md, so independent implementations agree on the ABI.", "quantifier": "all pairs of layouts", "why_tests_cant": "the type-level program and the published algorithm are written differently; agreement is a universal statement", "anchors": ["repr-stabby.md", "stabby-abi/src/enums/err_non_empty.rs:DeterminantProvider"]}
{"id": "C14", "title": "Allocation layout arithmetic", "statement": "Layout::concat returns a layout large enough for both parts in order with the second part aligned, Layout::realign/next_matching return the first suitably aligned size/pointer, and Layout::array is exact below overflow.", "quantifier": "all sizes and power-of-two alignments", "why_tests_cant": "arithmetical universal statement, with overflow corner cases", "anchors": ["stabby-abi/src/alloc/mod.rs:Layout::concat", "stabby-abi/src/alloc/mod.rs:Layout::realign", "stabby-abi/src/alloc/mod.rs:Layout::next_matching", "stabby-abi/src/alloc/mod.rs:Layout::array"]}
{"id": "C15", "title": "Prefixed allocations are in-bounds, aligned and freed with their own pointer", "statement": "For any element type and count, the data region handed out by an allocation pointer lies inside the block obtained from the allocator, is aligned for the element type, does not overlap the prefix, and freeing passes back exactly the pointer the allocator returned.", "quantifier": "all element sizes/alignments, counts and addresses returned by the allocator", "why_tests_cant": "depends on the address returned by the allocator; over-aligned types are rare in tests", "anchors": ["stabby-abi/src/alloc/mod.rs:AllocPtr", "stabby-abi/src/alloc/mod.rs:AllocPrefix::skip_to", "stabby-abi/src/alloc/mod.rs:AllocPtr::init", "stabby-abi/src/alloc/mod.rs:AllocPtr::alloc_array", "stabby-abi/src/alloc/mod.rs:AllocPtr::realloc", "stabby-abi/src/alloc/mod.rs:AllocPtr::free"]}
{"id": "C16", "title": "The Rust allocator adapter releases what it allocated", "statement": "Every pointer returned by RustAlloc::alloc is aligned as requested, has the requested size available, and when freed or reallocated (from any binary) the global allocator is called with the address and layout it was allocated with; allocation failure is reported as a null pointer.", "quantifier": "all request sizes/alignments, all addresses, all alloc/realloc/free histories", "why_tests_cant": "histories are unbounded, and failure of the global allocator cannot be provoked by unit tests", "anchors": ["stabby-abi/src/alloc/allocators/rust_alloc.rs:alloc", "stabby-abi/src/alloc/allocators/rust_alloc.rs:realloc", "stabby-abi/src/alloc/allocators/rust_alloc.rs:free"]}
{"id": "C17", "title": "The libc allocator adapter honours requests", "statement": "LibcAlloc::alloc/realloc return null or a block of at least the requested size with the requested alignment that holds the previous content; no byte out of the old or new block is touched.", "quantifier": "all request sizes/alignments and all outcomes of malloc/posix_memalign/realloc", "why_tests_cant": "depends on the nondeterministic outcomes of the C allocator", "anchors": ["stabby-abi/src/alloc/allocators/libc_alloc.rs:alloc", "stabby-abi/src/alloc/allocators/libc_alloc.rs:realloc"]}
{"id": "C18", "title": "Vec behaves as a list", "statement": "For every sequence of push, try_push, pop, remove, swap, swap_remove, truncate, reserve, extend, copy_extend and element accesses, a Vec holds the list that the same operations produce on a mathematical list, and length never exceeds capacity.", "quantifier": "all histories of operations on all element types and contents", "why_tests_cant": "unbounded histories", "anchors": ["stabby-abi/src/alloc/vec.rs:Vec"]}
{"id": "C19", "title": "Vec survives allocation failure", "statement": "When the allocator fails, the try_* operations of Vec report the failure, give back the element(s) they were given, and leave the vector unchanged.", "quantifier": "all states, all operations, all patterns of allocator failures", "why_tests_cant": "needs failing the allocator at every possible point", "anchors": ["stabby-abi/src/alloc/vec.rs:try_push", "stabby-abi/src/alloc/vec.rs:try_reserve", "stabby-abi/src/alloc/vec.rs:try_copy_extend"]}
{"id": "C20", "title": "Vec conserves ownership of its elements", "statement": "Through any history of Vec operations (including dropping the vector), every element handed to the vector is either returned to the caller or dropped, exactly once.", "quantifier": "all histories of operations", "why_tests_cant": "unbounded histories; double drops and leaks are not observable through values", "anchors": ["stabby-abi/src/alloc/vec.rs:Vec", "stabby-abi/src/alloc/vec.rs:drop"]}
{"id": "C21", "title": "Draining yields exactly the requested range", "statement": "Draining a range of a Vec, from the front, the back, or both, yields exactly the elements of the range in order and leaves the others, each element being owned once.", "quantifier": "all vectors, all ranges, all interleavings of next and next_back, dropped at any point", "why_tests_cant": "quantifies over all interleavings of iteration from both ends", "anchors": ["stabby-abi/src/alloc/vec.rs:drain", "stabby-abi/src/alloc/vec.rs:try_drain", "stabby-abi/src/alloc/vec.rs:Drain", "stabby-abi/src/alloc/vec.rs:DoubleEndedDrain"]}
{"id": "C22", "title": "Boxed slices and vectors convert without loss or leak", "statement": "Converting a Vec to a boxed slice and back preserves the elements and the capacity, and dropping a boxed slice releases its memory.", "quantifier": "all lengths and capacities, including empty ones with reserved memory", "why_tests_cant": "leaks are not observable by value tests", "anchors": ["stabby-abi/src/alloc/boxed.rs:BoxedSlice", "stabby-abi/src/alloc/boxed.rs:From<Vec>", "stabby-abi/src/alloc/boxed.rs:Drop", "stabby-abi/src/alloc/vec.rs:From<BoxedSlice>"]}
{"id": "C23", "title": "SingleOrVec behaves as a list", "statement": "For every sequence of operations, a SingleOrVec holds the same list as a Vec subjected to the same operations.", "quantifier": "all histories of operations", "why_tests_cant": "unbounded histories, internal switch between two representations", "anchors": ["stabby-abi/src/alloc/single_or_vec.rs:SingleOrVec"]}
{"id": "C24", "title": "Arc/Weak life cycle (sequential)", "statement": "In any history of clone/downgrade/upgrade/drop operations, the shared value is dropped exactly once, when the last Arc is dropped; the memory is released exactly once, when no Arc nor Weak remains; upgrade succeeds exactly while an Arc exists.", "quantifier": "all histories of operations by a single thread", "why_tests_cant": "unbounded histories", "anchors": ["stabby-abi/src/alloc/sync.rs:Arc", "stabby-abi/src/alloc/sync.rs:Weak"]}
{"id": "C25", "title": "Arc/Weak life cycle (concurrent)", "statement": "The same holds for any number of threads under any interleaving of the atomic steps of the operations: no Arc ever refers to a dropped value.", "quantifier": "all numbers of threads, all interleavings of atomic steps", "why_tests_cant": "scheduling nondeterminism", "anchors": ["stabby-abi/src/alloc/sync.rs:Arc", "stabby-abi/src/alloc/sync.rs:Weak::upgrade"]}
{"id": "C26", "title": "Exclusive access through Arc is exclusive", "statement": "When get_mut (or make_mut without copying) grants mutable access to a shared value, no other Arc to that value exists, or can be created while the access lasts.", "quantifier": "all interleavings with other threads' operations", "why_tests_cant": "scheduling nondeterminism", "anchors": ["stabby-abi/src/alloc/sync.rs:Arc::get_mut", "stabby-abi/src/alloc/sync.rs:Arc::is_unique", "stabby-abi/src/alloc/sync.rs:Arc::make_mut"]}
{"id": "C27", "title": "Shared slices convert without loss, leak or premature release", "statement": "Converting Vec/Arc to ArcSlice and ArcSlice to Vec preserves the elements, and memory is released exactly once.", "quantifier": "all lengths, capacities and reference counts", "why_tests_cant": "use-after-free and leaks are not observable by value tests", "anchors": ["stabby-abi/src/alloc/sync.rs:ArcSlice", "stabby-abi/src/alloc/sync.rs:WeakSlice"]}
{"id": "C28", "title": "Atomic Arc cells own their content", "statement": "AtomicArc load/store/is/compare_exchange never leak nor release early the Arc they hold, under any interleaving.", "quantifier": "all histories and interleavings", "why_tests_cant": "scheduling nondeterminism; leaks are not observable", "anchors": ["stabby-abi/src/alloc/sync.rs:AtomicArc"]}
{"id": "C29", "title": "ArcBTreeSet/ArcBTreeMap behave as an ordered set/map", "statement": "After any sequence of insertions, get and contains agree with a mathematical finite set/map under the key order, insertion reports the replaced entry, and len is the number of distinct keys.", "quantifier": "all histories of insertions, all key orders (total), all odd split limits >= 3", "why_tests_cant": "unbounded histories and node sizes", "anchors": ["stabby-abi/src/alloc/collections/arc_btree.rs:ArcBTreeSet", "stabby-abi/src/alloc/collections/arc_btree.rs:ArcBTreeMap"]}
{"id": "C30", "title": "B-tree stays balanced and bounded", "statement": "After any history, all leaves of the tree are at the same depth and each node holds at most SPLIT_LIMIT entries, so lookups are logarithmic.", "quantifier": "all histories of insertions", "why_tests_cant": "structural invariant over unbounded histories", "anchors": ["stabby-abi/src/alloc/collections/arc_btree.rs:ArcBTreeSetNodeInner", "stabby-abi/src/alloc/collections/arc_btree.rs:insert"]}
{"id": "C31", "title": "Clones of an ArcBTree are snapshots", "statement": "Inserting in a tree never changes what any of its earlier clones contains.", "quantifier": "all histories of clones and insertions on any of the clones", "why_tests_cant": "aliasing property over unbounded histories", "anchors": ["stabby-abi/src/alloc/collections/arc_btree.rs:ArcBTreeSet", "stabby-abi/src/alloc/collections/arc_btree.rs:Clone", "stabby-abi/src/alloc/sync.rs:Arc::make_mut"]}
{"id": "C32", "title": "Equal vtables are interned at one address", "statement": "The vtable registry returns, for any concurrent calls, a reference to a vtable with the requested content, and equal contents yield the same address for ever.", "quantifier": "all numbers of threads, all interleavings of registry operations", "why_tests_cant": "scheduling nondeterminism in a lock-free structure", "anchors": ["stabby-abi/src/vtable/mod.rs:VtVec::insert", "stabby-abi/src/vtable/mod.rs:VtBtree::insert", "stabby-abi/src/vtable/mod.rs:VTableRegistry"]}
{"id": "C33", "title": "Upcasting a trait object keeps its methods", "statement": "Converting a trait object into a super trait object (removing traits from the right) keeps, for each remaining trait, the very same methods, and the same destructor.", "quantifier": "all compound vtables of any depth, all supported conversions", "why_tests_cant": "universal over compound trait lists", "anchors": ["stabby-abi/src/fatptr.rs:IntoSuperTrait", "stabby-abi/src/fatptr.rs:impl_super", "stabby-abi/src/vtable/mod.rs:VTable", "stabby-abi/src/vtable/mod.rs:TransitiveDeref"]}
{"id": "C34", "title": "Thread-safety markers of trait objects are sound", "statement": "A trait object is Send (resp. Sync) only if every concrete pointer type from which it can be built is Send (resp. Sync).", "quantifier": "all vtable types, all pointer types, all pointees", "why_tests_cant": "a trait-resolution property; the unsound instance must be looked for", "anchors": ["stabby-abi/src/fatptr.rs:unsafe impl Send for Dyn", "stabby-abi/src/fatptr.rs:unsafe impl Send for DynRef", "stabby-abi/src/vtable/mod.rs:HasSendVt", "stabby-abi/src/vtable/mod.rs:HasSyncVt"]}
{"id": "C35", "title": "Downcasts return the original type only", "statement": "downcast/stable_downcast on a trait object succeed only if the trait object was built from the requested type (resp. from a type with the same report), and vtable comparison is an equivalence coinciding with having the same methods.", "quantifier": "all trait objects and target types", "why_tests_cant": "universal over types", "anchors": ["stabby-abi/src/fatptr.rs:downcast_ref", "stabby-abi/src/fatptr.rs:stable_downcast_ref", "stabby-abi/src/vtable/mod.rs:PartialEq"]}
{"id": "C36", "title": "Report compatibility is an equivalence that implies equal structure", "statement": "TypeReport::is_compatible holds exactly when both reports describe the same type: same name, module, version, kind and same fields recursively; in particular it is an equivalence relation.", "quantifier": "all pairs (triples) of reports of any depth and number of fields", "why_tests_cant": "universal over recursive structures", "anchors": ["stabby-abi/src/report.rs:TypeReport::is_compatible"]}
{"id": "C37", "title": "Type identifiers separate different types", "statement": "Up to collisions of the hash function, two reports have the same ID only if they are equal.", "quantifier": "all pairs of reports", "why_tests_cant": "injectivity of the hash pre-image over all reports", "anchors": ["stabby-abi/src/report.rs:hash_report", "stabby-abi/src/report.rs:gen_id"]}
{"id": "C38", "title": "Checked imports are validated once and agreed upon", "statement": "Whatever the number of threads dereferencing a checked import, all get the same answer, the imported symbol is initialised before being read and at most once, and a mismatch is reported to all.", "quantifier": "all numbers of threads and interleavings", "why_tests_cant": "scheduling nondeterminism", "anchors": ["stabby-abi/src/checked_import.rs:CheckedImport::as_ref"]}
{"id": "C39", "title": "Canaries run before any use of an import", "statement": "A canaried import runs its canaries exactly once, and before any dereference completes.", "quantifier": "all numbers of threads and interleavings", "why_tests_cant": "scheduling nondeterminism", "anchors": ["stabby-abi/src/checked_import.rs:CanariedImport::deref"]}
{"id": "C40", "title": "Canary specifications select the requested canaries", "statement": "Each documented canary name is accepted in a specification, the canaries checked are exactly those named, and distinct canary payloads produce distinct symbol names.", "quantifier": "all specification strings, all targets", "why_tests_cant": "universal over strings", "anchors": ["stabby-macros/src/functions.rs:CanarySpec", "stabby-macros/src/functions.rs:Canaries", "stabby-macros/src/functions.rs:fix"]}
{"id": "C41", "title": "Non-max and non-X integers round trip", "statement": "NonMax::new / NonX::new accept exactly the values different from the excluded one, get returns the accepted value, equality and order agree with those of the values, and the excluded value is the only niche.", "quantifier": "all integer widths and values", "why_tests_cant": "2^128 values per type", "anchors": ["stabby-abi/src/num.rs:NonMaxU8", "stabby-abi/src/num.rs:NonXU8"]}
{"id": "C42", "title": "Narrow unsigned integers", "statement": "uN::new accepts exactly the values up to 2^N-1, get returns the accepted value, the advertised unused bits are irrelevant to get, and arithmetic agrees with integers as long as the result is representable.", "quantifier": "all widths and values", "why_tests_cant": "up to 2^127 values", "anchors": ["stabby-abi/src/num.rs:makeumask"]}
{"id": "C43", "title": "Narrow signed integers", "statement": "iN::MIN and iN::MAX are -2^(N-1) and 2^(N-1)-1, iN::new accepts exactly the values in between, and get returns the accepted value.", "quantifier": "all widths and values", "why_tests_cant": "up to 2^127 values", "anchors": ["stabby-abi/src/num.rs:makeimask"]}
{"id": "C44", "title": "Durations", "statement": "Duration conversions with core are lossless, as_nanos/as_micros/as_millis agree with the mathematical value, addition is addition of the mathematical values, and comparison is comparison of them.", "quantifier": "all durations with nanos below one second", "why_tests_cant": "2^94 values", "anchors": ["stabby/src/time.rs:Duration"]}
{"id": "C45", "title": "Atomic durations", "statement": "Storing a signed duration in an AtomicDuration and loading it gives it back rounded toward zero to the microsecond, for every duration up to the documented MAX.", "quantifier": "all signed durations", "why_tests_cant": "2^95 values", "anchors": ["stabby/src/time.rs:AtomicDuration"]}
{"id": "C46", "title": "Wakers are balanced", "statement": "For any history of clone, wake, wake_by_ref and drop on wakers crossing the FFI boundary, the original waker is woken once per wake call and released exactly once after all clones are gone.", "quantifier": "all histories", "why_tests_cant": "unbounded histories", "anchors": ["stabby-abi/src/future.rs:StableWaker", "stabby-abi/src/future.rs:SharedStableWaker"]}
{"id": "C47", "title": "A resolved future yields its output once", "statement": "Polling a MaybeResolved yields its output at most once, drops the inner future exactly once, and never reads an output that was moved out.", "quantifier": "all polling histories, all layouts of output and future", "why_tests_cant": "depends on layouts and histories", "anchors": ["stabby-abi/src/future.rs:MaybeResolved::poll"]}
{"id": "C48", "title": "Iterator and future adapters are transparent", "statement": "Iterating (polling) through a stabby trait object yields the same sequence of items (poll results) as the original.", "quantifier": "all iterators, all numbers of steps", "why_tests_cant": "unbounded sequences", "anchors": ["stabby-abi/src/iter.rs:Iterator", "stabby-abi/src/future.rs:Future"]}
{"id": "C49", "title": "Temporary conversion guards", "statement": "ref_as shows the converted value and leaves the source as it was; mut_as writes back on release the converted-back mutated value; neither releases nor leaks the source's resources.", "quantifier": "all convertible types and mutations", "why_tests_cant": "resource properties are not observable by value tests", "anchors": ["stabby-abi/src/as_mut.rs:RefAs", "stabby-abi/src/as_mut.rs:MutAs", "stabby-abi/src/alloc/string.rs:From<String> for std String"]}
{"id": "C50", "title": "Strings stay valid UTF-8", "statement": "Every safe operation on String yields valid UTF-8 content equal to that of the same operation on a mathematical string.", "quantifier": "all histories of operations", "why_tests_cant": "unbounded histories", "anchors": ["stabby-abi/src/alloc/string.rs:String"]}
{"id": "C51", "title": "repr(C)/repr(uN) enum, union and array layouts", "statement": "Size and Align computed for unions, arrays and explicitly tagged enums are those of the C ABI.", "quantifier": "all member layouts, all counts", "why_tests_cant": "universal over layouts", "anchors": ["stabby-abi/src/istable.rs:Union", "stabby-abi/src/stable_impls/mod.rs:[T; N]", "stabby-macros/src/enums.rs", "stabby-macros/src/unions.rs"]}
{"id": "C52", "title": "Transparent wrappers advertise sound niches", "statement": "MaybeUninit<T>, UnsafeCell<T> and ManuallyDrop<T> only advertise niches that no content they can legally hold may take.", "quantifier": "all T, all contents", "why_tests_cant": "universal over types", "anchors": ["stabby-abi/src/stable_impls/mod.rs:MaybeUninit", "stabby-abi/src/stable_impls/mod.rs:UnsafeCell", "stabby-abi/src/stable_impls/mod.rs:ManuallyDrop"]}
{"id": "C53", "title": "core Option/Result are declared stable only when their layout is defined", "statement": "When a core Option<T> (Result<T, E>) is declared ABI-stable with the layout of T, T has exactly one forbidden value and no unused bit, the situation in which rustc guarantees that layout.", "quantifier": "all types of the grammar", "why_tests_cant": "universal over types", "anchors": ["stabby-abi/src/stable_impls/mod.rs:HasExactlyOneNiche", "stabby-abi/src/istable.rs:ISaturatingAdd"]}
{"id": "C54", "title": "is_invalid only reports invalid memory", "statement": "IStable::is_invalid never reads outside the type, only returns true for bytes that hold no valid value, and returns true for bytes matching an advertised forbidden value.", "quantifier": "all types of the grammar, all byte contents", "why_tests_cant": "All byte contents of all types cannot be enumerated.", "anchors": ["stabby-abi/src/istable.rs: IStable::is_invalid, IForbiddenValues::is_invalid"]}
{"id": "C55", "title": "ContainsIndirections is exact", "statement": "A stable type is marked as containing indirections exactly when one of its components is a pointer, so IPod is never implemented for a type with a pointer; IStable::size is the declared size.", "quantifier": "all types of the grammar", "why_tests_cant": "Holds for all nestings of types.", "anchors": ["stabby-abi/src/istable.rs: IPod, ContainsIndirections, size"]}
{"id": "C56", "title": "SystemTime and Instant conversions", "statement": "Converting std SystemTime and Instant values to stabby's and back gives the same value, and the order of the converted values is the order of the originals.", "quantifier": "all instants representable by the platform", "why_tests_cant": "2^94 values, before and after the epoch", "anchors": ["stabby/src/time.rs:SystemTime", "stabby/src/time.rs:Instant"]}
{"id": "C57", "title": "Reports determine layouts", "statement": "Two types with compatible reports have the same layout (size, alignment, niches), also when compiled by different compilers for the same architecture.", "quantifier": "all pairs of declared types of any depth", "why_tests_cant": "universal over pairs of recursive type declarations", "anchors": ["stabby-abi/src/report.rs:TypeReport::is_compatible", "stabby-abi/src/lib.rs:primitive_report", "stabby-abi/src/stable_impls/mod.rs", "stabby-macros/src/structs.rs", "stabby-macros/src/lib.rs:Report"]}
{"id": "C58", "title": "Accesses through Arcs happen before the destruction of the value", "statement": "When the last Arc is dropped (or get_mut grants access), all accesses that other threads made through their own, since dropped, Arcs happen before the destruction (or the exclusive access): there is no data race on the value.", "quantifier": "all numbers of threads, all histories of sharing, access and drop", "why_tests_cant": "a data race under relaxed orderings seldom shows on the hardware the tests run on", "anchors": ["stabby-abi/src/alloc/sync.rs:Drop for Arc", "stabby-abi/src/alloc/sync.rs:Arc::is_unique", "stabby-abi/src/alloc/sync.rs:Arc::strong_count"]}
{"id": "C59", "title": "B-tree nodes are released exactly when unused", "statement": "After any history of creations, clones, insertions and drops of sets sharing nodes, the nodes in memory are exactly those reachable from the sets that still exist: none is released while a set still needs it, and none is leaked.", "quantifier": "all histories on any number of sets, all total orders, all odd split limits >= 3", "why_tests_cant": "ownership over unbounded histories of sharing; leaks and premature releases are not observable by value tests", "anchors": ["stabby-abi/src/alloc/collections/arc_btree.rs:ArcBTreeSetNode", "stabby-abi/src/alloc/collections/arc_btree.rs:ArcBTreeSet::clone", "stabby-abi/src/alloc/sync.rs:Arc::make_mut"]}
{"id": "C60", "title": "Every split limit that safe code can choose works", "statement": "Whatever the SPLIT_LIMIT a program that compiles gives to ArcBTreeSet, ArcBTreeMap or AtomicArcBTreeSet, insertions neither panic nor read out of bounds.", "quantifier": "all split limits accepted at compile time, all histories", "why_tests_cant": "a const generic parameter ranges over all of usize", "anchors": ["stabby-abi/src/alloc/collections/arc_btree.rs:CHECK", "stabby-abi/src/alloc/collections/arc_btree.rs:copy_from_ptr", "stabby-abi/src/alloc/collections/arc_btree.rs:ArcBTreeSetNodeInner::split"]}
{"id": "C61", "title": "AtomicArcBTreeSet::edit is atomic, and the cell owns its tree", "statement": "Under any interleaving of edits and lookups, each edit replaces exactly the value it was computed from (no update is lost), no thread uses a released node, and the tree is released when the cell is dropped.", "quantifier": "all numbers of threads, all interleavings", "why_tests_cant": "scheduling nondeterminism; lost updates and use after free need precise interleavings", "anchors": ["stabby-abi/src/alloc/collections/arc_btree.rs:AtomicArcBTreeSet::edit", "stabby-abi/src/alloc/collections/arc_btree.rs:AtomicArcBTreeSet::get", "stabby-abi/src/alloc/collections/arc_btree.rs:copy_from_ptr", "stabby-abi/src/alloc/collections/arc_btree.rs:take_ownership_from_ptr"]}
{"id": "C62", "title": "Trait objects call methods on the value they were made from", "statement": "Each call of a method of a trait object, and of its destructor, passes the address of the value from which the trait object was made, whatever the pointer type (&T, &mut T, Box, Arc), and whatever upcasts, moves and borrows (as_ref, as_mut) were made since.", "quantifier": "all vtables, concrete types, pointer kinds and sequences of conversions", "why_tests_cant": "universal over compound traits, pointer kinds and conversions; a wrong receiver may read plausible bytes", "anchors": ["stabby-abi/src/fatptr.rs:IPtr", "stabby-abi/src/fatptr.rs:IPtrMut", "stabby-abi/src/fatptr.rs:Dyn::as_ref", "stabby-abi/src/fatptr.rs:Dyn::as_mut", "stabby-macros/src/traits.rs"]}
{"id": "C63", "title": "Send and Sync of the containers are sound", "statement": "If a container type of stabby is Send (resp. Sync), then a thread that receives it (resp. a reference to it) reaches through its safe functions only values it may own or share: those it can move out or destroy are Send, those it shares with other threads are Sync, allocators included.", "quantifier": "all nestings of the container types, all markers of the elements and of the allocators", "why_tests_cant": "a property of trait resolution over an infinite family of types; violations show as data races", "anchors": ["stabby-abi/src/alloc/boxed.rs:unsafe impl Send for Box", "stabby-abi/src/alloc/boxed.rs:unsafe impl Sync for Box", "stabby-abi/src/alloc/vec.rs:unsafe impl Send for VecInner", "stabby-abi/src/alloc/sync.rs:unsafe impl Send for Arc", "stabby-abi/src/alloc/collections/arc_btree.rs:AtomicArcBTreeSet", "stabby-abi/src/slice.rs:unsafe impl Send for Slice", "stabby-abi/src/checked_import.rs:CanariedImport"]}
{"id": "C64", "title": "Mutable views are invariant in their elements", "statement": "If a mutable view (SliceMut, Drain) over elements of type T can be coerced to one over elements of type U, then every U is a T, so that what is written through the coerced view is valid for the owner of the elements.", "quantifier": "all element types and lifetimes", "why_tests_cant": "a property of the type checker: unsoundness is a program that should be rejected", "anchors": ["stabby-abi/src/slice.rs:SliceMut", "stabby-abi/src/alloc/vec.rs:Drain"]}
{"id": "C65", "title": "What is declared of primitive and pointer types is what Rust says of them", "statement": "For every primitive type, atomic, NonZero integer and pointer type given an IStable implementation, the declared size and alignment are those of Rust's layout on the target, every byte pattern declared forbidden is one Rust never lets a value take, and the values used as niches (bool other than 0 and 1, null references, zero NonZero integers) are declared.", "quantifier": "all primitive and pointer types, all targets (pointer width, alignment of 64- and 128-bit integers), all byte patterns", "why_tests_cant": "layout differs per target; the checks in the source run only for the compiling host and some types have none", "anchors": ["stabby-abi/src/istable.rs", "stabby-abi/src/stable_impls/mod.rs"]}
{"id": "C66", "title": "Interior mutation of a payload keeps the variant", "statement": "Overwriting the payload of a Result through a shared reference obtained from as_ref/match_ref (interior mutability: UnsafeCell, atomics) with any valid value of its type leaves the Result in the same variant, holding the new value.", "quantifier": "all payload types of the grammar, all states, all values and byte patterns of their padding", "why_tests_cant": "depends on where the tag was placed for each pair of layouts, and on padding bytes that tests do not control", "anchors": ["stabby-abi/src/result.rs:Result::match_ref", "stabby-abi/src/enums/err_non_empty.rs", "stabby-abi/src/stable_impls/mod.rs:UnsafeCell"]}
{"id": "C67", "title": "Boxes own their value, their allocator and their memory", "statement": "Whatever safe program is run (new, try_new_in, make_in with a constructor that succeeds, fails or panics, clone, assignment through DerefMut, into_inner, into_raw/from_raw pairs, conversion to a trait object, drop, and calling a boxed FnOnce through its trait object): every value put in a box is at any time in exactly one place (a live box, handed back to the caller, destroyed, or consumed by the one call of the closure); dereferencing shows the value last put there; every block is freed at most once, with the allocator instance that provided it, never while a box holds it, and as soon as no box does; every allocator instance is destroyed or given back exactly once.", "quantifier": "for all sequences of operations, all values and allocators, all patterns of allocation failure and of panics in constructors and destructors", "why_tests_cant": "Double drops and leaks depend on the interleaving of operations, failures and panics; tests exercise a few sequences, with an allocator that does not fail.", "anchors": ["stabby-abi/src/alloc/boxed.rs: Box::{try_make_in, try_new_in, make_in, new_in, into_inner, into_raw, from_raw, free}, Clone/Drop/IPtrOwned/IntoDyn for Box", "stabby-abi/src/fatptr.rs: Drop for Dyn", "stabby-macros/src/gen_closures.rs: gen_closures (CallOnce, CallOnceDyn)"]}
{"id": "C68", "title": "stabby's Result has the API of core's Result", "statement": "Whatever sequence of operations is done on a variable of type Result (Ok/Err, From both ways, ok/err, ok_mut/err_mut/match_mut writes, clone, map-like and and_then-like uses of match_owned, unwrap, assignment, drop): its bytes always represent the value core's Result would have; each payload is moved out or destroyed exactly when core's would be and hence exactly once; the same calls panic; == is core's, whatever the == of the payloads; equal Results feed equal data to a hasher.", "quantifier": "for all payload types with well-formed layouts, all payloads and closures, all sequences of operations", "why_tests_cant": "The representation differs with every pair of payload types (niches, tags, padding); a test checks a few pairs and a few operations, not their compositions.", "anchors": ["stabby-abi/src/result.rs: Result::{Ok, Err, match_ref, match_mut, match_owned, is_ok, ok, err, ok_mut, err_mut, map, and_then, unwrap}, Clone/Drop/PartialEq/Hash for Result, From<core::result::Result>"]}
{"id": "C69", "title": "Slice, SliceMut, Str and StrMut are as good as the references they stand for", "statement": "Whatever a safe program does with a reference to a slice or to a string (convert it to stabby's views and back in any order, borrow, reborrow mutably or not, cut it, read it, write through it, view bytes as text and text as bytes), it observes what it would with copies of the contents that are written back when the borrow ends: no access is out of bounds, lengths and contents are kept by conversions, writes are seen by the owner, memory outside the reference is not touched, strings are valid UTF-8 at all times, and cutting a string panics exactly when it would cut a character.", "quantifier": "for all contents, all surrounding memory, all sequences of conversions, borrows, cuts, reads and writes", "why_tests_cant": "Conversions compose in unboundedly many ways, and an error in a length or an address shows only for some contents or as undefined behaviour.", "anchors": ["stabby-abi/src/slice.rs: Slice, SliceMut, From/Deref/DerefMut impls", "stabby-abi/src/str.rs: Str, StrMut, From/Deref/DerefMut impls"]}
{"id": "C70", "title": "A checked trait's vtable is stable only if all it exchanges is", "statement": "The vtable generated for a trait annotated with #[stabby(checked)], hence any trait object using it, is IStable for given associated types if and only if every type its methods take or return is.", "quantifier": "for all traits, all methods and signatures, all implementors' associated types, whatever types are stable", "why_tests_cant": "The condition is built by a recursive comparison of syntax trees; a test only tries some shapes of types, and a missing condition makes nothing fail: an unstable type is just not noticed.", "anchors": ["stabby-macros/src/traits.rs: stability_cond, unselfed, PartialEq for Ty, elide_lifetime, vtable", "stabby-abi/src/lib.rs: StableIf, StableLike", "stabby-abi/src/istable.rs: IStable for Union", "README.md: Traits"]}
{"id": "C71", "title": "Every entry of a vtable has the type of the method it holds", "statement": "For every trait the macro accepts, the vtable has exactly one entry per method, named after it, methods that take &self first and otherwise in order of declaration; for every implementor the type of the entry, with the vtable's parameters bound as the where clauses bind them, and the type of the function pointer transmuted into it are those of the method but for the receiver, and each type depending on Self is one parameter.", "quantifier": "for all traits, all types in signatures (any nesting of references, pointers, arrays, function pointers, paths with arguments, associated types), all implementors", "why_tests_cant": "Entries are filled by transmute, so a wrong type is not seen by the compiler and only shows as undefined behaviour for the one signature that has it.", "anchors": ["stabby-macros/src/traits.rs: SelfDependentTypes, rec_self_dependent_types, replace_self, field_signature, ptr_signature, vtable"]}
{"id": "C72", "title": "Reports of trait objects tell their interface", "statement": "If the reports of two trait object types are compatible, so that a function exchanging one is handed to a caller that knows the other, then both have the same traits in the same order, with the same methods, with the same signatures, in the same places of the vtable.", "quantifier": "for all compound trait objects, all traits", "why_tests_cant": "The claim is about all pairs of traits two binaries may have been compiled with.", "anchors": ["stabby-abi/src/lib.rs: IStable for StableLike, StableIf", "stabby-abi/src/vtable/mod.rs: VTable, VtDrop", "stabby-abi/src/fatptr.rs: DynRef", "stabby-abi/src/report.rs: is_compatible", "stabby-macros/src/traits.rs: vtable"]}
{"id": "C73", "title": "A function is loaded only with the signature it was exported with", "statement": "get_stabbied and stabby::import hand over a function exported with #[stabby::export] exactly if the type asked for has the same calling convention, the same safety, the same number of inputs and, input by input and for the output, compatible types; otherwise they report an error.", "quantifier": "for all function types with up to 15 inputs on both sides, all types of inputs and outputs", "why_tests_cant": "The claim is about all pairs of signatures of separately compiled binaries; signatures are encoded as nested pairs, whose encodings could coincide for some pairs.", "anchors": ["stabby-abi/src/stable_impls/mod.rs: fnstable!, union!, NameAggregator", "stabby-macros/src/functions.rs: export_with_report", "stabby/src/libloading.rs: get_stabbied", "stabby-abi/src/report.rs: is_compatible"]}
{"id": "C74", "title": "Serialisation is that of the standard types", "statement": "With any serde format, a stabby String, Str, Slice, Vec, boxed slice or str, Option or Result serialises as the standard library's type does, and deserialises a document to a value exactly if the standard library's type deserialises it to the same value; what is serialised is read back. When an element cannot be read, those already read are destroyed, once. Documents never cause a panic other than for lack of memory, nor undefined behaviour.", "quantifier": "for all serde formats, all documents including malformed ones, all nestings of these types, all allocators", "why_tests_cant": "Formats and documents are unbounded and may come from an adversary; tests use one format, whose documents have honest lengths and unescaped strings.", "anchors": ["stabby-abi/src/str.rs: serde_impl", "stabby-abi/src/slice.rs: serde_impl", "stabby-abi/src/alloc/vec.rs: serde_impl, VecVisitor", "stabby-abi/src/alloc/string.rs: serde_impl", "stabby-abi/src/alloc/boxed.rs: serde_impl", "stabby-abi/src/option.rs: serde_impl", "stabby-abi/src/result.rs: serde_impl"]}
{"id": "C75", "title": "Vectors survive panics of the user's code", "statement": "Whatever destructor of an element, T::clone or iterator panics while a Vec operation runs, and if the panic is caught, the vector stays valid and every element ever given to it or cloned into it is held by it, was given back, was destroyed or was leaked, exactly one of these and once: nothing is destroyed twice, or visible after it was destroyed. Nothing is leaked, nor memory lost, unless something panicked or a drain was forgotten.", "quantifier": "for all programs over a vector (C18's operations, extend with panicking iterators, drains, into_iter, clone, drop), all schedules of panics, all allocators", "why_tests_cant": "Any of the calls to user code can panic at any time; tests exercise none of these paths, and destroying twice is undefined behaviour that need not show.", "anchors": ["stabby-abi/src/alloc/vec.rs: truncate, drain, Clone, Drop, Extend, IntoIter, Drain"]}
{"id": "C76", "title": "tyeval! computes what its expression says", "statement": "Every expression written with tyeval!'s grammar (types as operands, parentheses, one of + - % | & == ! or a conditional per level) is read as that expression, in only one way; the type the macro makes from it is that of the value of the expression, and exists exactly if the expression has a value (numbers where numbers are due, bits where bits are due, remainders by powers of two only; subtraction is distance). Whatever text is given, the macro ends, and no name written is lost, repeated or made up.", "quantifier": "for all expressions, all ways to write them, all types given to their operands; for all token streams", "why_tests_cant": "The macro is exercised on the dozen expressions the crate itself uses; expressions nest without bound and are chosen by users.", "anchors": ["stabby-macros/src/tyops.rs: TyExpr, From<TokenStream>, tyeval", "stabby-macros/src/lib.rs: tyeval", "stabby-abi/src/typenum2/unsigned.rs: IUnsigned"]}
{"id": "C77", "title": "Instants and shared instants", "statement": "Instants convert to and from std's without loss, in the same order, and adding a duration moves them by its length. An AtomicInstant shared between threads behaves as a register of instants read to the microsecond: loads return a value written no earlier than what the thread last saw, swap and update return the value they replace. If the instants stored are past when stored, none returned is in the future; if the cell is only updated, what a thread sees never goes back.", "quantifier": "for all instants, all histories of any number of threads, all orderings of loads that coherence allows", "why_tests_cant": "What is read depends on interleavings and on stale loads; the errors (an update that goes back by a few microseconds) are rare and silent.", "anchors": ["stabby/src/time.rs: Instant, AtomicInstant, instant_epoch"]}
{"id": "C78", "title": "Durations through f64", "statement": "Duration::from_secs_f64 panics exactly on NaN and on negative numbers; otherwise it gives a duration with sub-second nanoseconds, whose seconds are the integral part, that is the number truncated to the nanosecond, and it is monotone; as_secs_f64 is monotone and accurate. A duration that goes through f64 comes back the same, within the precision of f64; whole seconds are exact.", "quantifier": "for all f64 (including NaN, infinities, zeros, subnormals), all durations", "why_tests_cant": "There are 2^64 f64s; the errors are off by one nanosecond on values chosen by rounding.", "anchors": ["stabby/src/time.rs: Duration::from_secs_f64, Duration::as_secs_f64"]}
{"id": "C79", "title": "Lifetimes in what is generated for a trait", "statement": "The vtable that #[stabby] generates for a trait, checked or not, mentions only lifetimes that are in scope where they are put: the lifetimes of a method, written or omitted, do not end up in the types of the vtable's fields outside of the function pointers, and an output whose lifetime is omitted borrows from self as in the trait; so a legal trait stays legal.", "quantifier": "for all traits with any number of methods and all types of their arguments and outputs (nested references, pointers, paths with arguments, function pointers, associated types)", "why_tests_cant": "Traits are written by users; each test has one trait, and all those of the repository write their lifetimes.", "anchors": ["stabby-macros/src/traits.rs: DynTraitFn::stability_cond, DynTraitFn::field_signature, Ty::elide_lifetime, SelfDependentTypes::unselfed"]}
{"id": "C80", "title": "Vectors of zero-sized elements", "statement": "A Vec (or BoxedSlice) of zero-sized elements is a list like any other: it can be filled by push, extend or copies, and popped, drained, truncated, cloned and converted, with the results lists give; it never asks for memory nor releases any; elements are only read and written at aligned addresses.", "quantifier": "for all histories of operations, all lengths up to usize::MAX, all alignments of the element, with and without debug assertions", "why_tests_cant": "The failures depend on the build profile, the alignment of the element and on lengths near usize::MAX; the repository has no test with zero-sized elements.", "anchors": ["stabby-abi/src/alloc/vec.rs: ptr_diff, ptr_add, Vec::new_in, Vec::try_reserve, Vec::FIRST_CAPACITY, Vec::try_copy_extend, Vec::pop", "stabby-abi/src/alloc/boxed.rs: BoxedSlice::try_push, From<BoxedSlice> for Vec"]}
{"id": "C81", "title": "Insertions in B-trees that panic", "statement": "When an insertion in an ArcBTreeSet or ArcBTreeMap panics, because a comparison or a clone of the user's panics or because the allocator refuses, the set has the content it had before and stays ordered and balanced, the sets that share nodes with it are unchanged, later calls (its destructor included) do nothing undefined, and no memory is lost.", "quantifier": "for all total orders, all odd split limits of at least 3, all numbers of sets sharing nodes, all histories of calls, and any point at which each insertion is interrupted", "why_tests_cant": "Each insertion has many points where it can be interrupted, in trees of any depth with any sharing; the effects show only in later calls, in other sets, or in memory that is never released.", "anchors": ["stabby-abi/src/alloc/collections/arc_btree.rs: ArcBTreeSet::insert, ArcBTreeSetNode::insert, insert_inner, ArcBTreeSetNodeInner::split, Clone for ArcBTreeSetNodeInner, Drop for ArcBTreeSet", "stabby-abi/src/alloc/sync.rs: Arc::make_mut, Arc::new_in"]}
{"id": "C82", "title": "Reports identify types, recursive and generic ones included", "statement": "Every type made with #[stabby::stabby] has a report, even if it mentions itself; and if two types, possibly of two programs, have the same report (so that stabby takes them for the same type across libraries), then they are made of the same declared and built-in types, field by field, to any depth.", "quantifier": "for all programs (sets of declarations with type parameters and defaults, recursive or not), all types of theirs, all depths", "why_tests_cant": "Recursive types are infinite when unfolded and reports cut them at placeholders; whether the cuts can confuse two types is a question about all pairs of programs.", "anchors": ["stabby-macros/src/lib.rs: Unself, Report", "stabby-macros/src/structs.rs: Struct::to_tokens", "stabby-abi/src/istable.rs: _Self", "stabby-abi/src/stable_impls/mod.rs: IStable for PhantomData, core::result::Result", "stabby-abi/src/report.rs: gen_id"]}
{"id": "C83", "title": "Layouts of types that mention themselves", "statement": "For a type that mentions itself, the layout stabby computes, with a placeholder in place of the type, is the one of the type as it is written.", "quantifier": "for all programs whose types call themselves Self, or by their name if they have no parameter; all types that have a layout; all ways to compute layouts of declared and built-in types in which those of pointers do not depend on pointees", "why_tests_cant": "The placeholder is a zero-sized type: it would be wrong wherever its layout mattered, at any depth of generic types instantiated with it.", "anchors": ["stabby-macros/src/lib.rs: Unself", "stabby-macros/src/structs.rs: Struct::to_tokens", "stabby-abi/src/istable.rs: _Self"]}
{"id": "C84", "title": "Types are compiled with the layout that is computed for them, whatever repr attributes they carry", "statement": "Whatever repr attributes a struct, union or enum under #[stabby] carries, the compiler gives it the size, alignment and offsets of fields that stabby computes for it, or the program is refused.", "quantifier": "for all lists of repr attributes; all lists of fields; all layouts that the compiler may choose for them", "why_tests_cant": "The attributes are kept on the type while stabby only understands some of them; without repr(C) the layout is the compiler's choice, which no test run can cover.", "anchors": ["stabby-macros/src/structs.rs: AllowedRepr, struct_macro", "stabby-macros/src/unions.rs: stabby", "stabby-macros/src/enums.rs: Repr, FullRepr, stabby"]}
{"id": "C85", "title": "A value owned through Arcs and trait objects over Arcs is destroyed exactly once, as what it is", "statement": "Whatever one thread does with Arcs, the trait objects made from them, the pointers that ptr and ptr_mut give access to, and their weak counterparts: no value is used after its end, each ends exactly once, when its last owner goes, by the destructor of its own type, and its memory is released exactly once, when its last owner and its last Weak are gone.", "quantifier": "for all programs of one thread, of fewer than 2^62 steps, over any number of values of any types", "why_tests_cant": "The type of the value is erased from the pointer while the pointer itself stays accessible; whether a destructor runs depends on the order in which differently typed owners of the same allocation go, over unboundedly many histories.", "anchors": ["stabby-abi/src/fatptr.rs: Dyn, Dyn::ptr, Dyn::ptr_mut, Dyn::from, Dyn::drop", "stabby-abi/src/alloc/sync.rs: Arc, Weak, IPtrOwned, IntoDyn, Dyn::upgrade"]}
{"id": "C86", "title": "A stabby enum is never larger than the same enum with a tag", "statement": "A #[repr(stabby)] enum takes no more room than the #[repr(u8)] enum of the same variants and has the same alignment; it takes at least the room of the union of its payloads, and at most one alignment more for each doubling of the number of variants; without a repr attribute it compiles exactly when it is as small as that union.", "quantifier": "for all numbers of variants and all payload types of the grammar whose sizes match", "why_tests_cant": "The size depends on which niche or unused bit each level of a tree of Results finds, for unboundedly many payload types and trees.", "anchors": ["stabby-macros/src/enums.rs: repr_stabby, has_optimal_layout", "stabby-abi/src/result.rs: Result", "stabby-abi/src/enums: IDeterminantProvider"]}
{"id": "C87", "title": "Equality, order and hash agree with each other and with the values", "statement": "Two values of a stabby type (strings, slices, vectors, shared and boxed slices, restricted integers, results, options, vtables, layout reports, and structs of these) are == exactly when they hold the same value, wherever they are stored; == is an equivalence; where there is an order it is total, is that of the numbers, scalar values or first differences, and says Equal exactly when == does; equal values feed any hasher the same bytes, different ones different bytes of which neither begins the other; and all string types hash as the str they stand for.", "quantifier": "for all types of the grammar, all values, all hashers and all that is hashed before or after", "why_tests_cant": "The laws that HashMap and BTreeMap rely on relate two or three arbitrary values of arbitrarily nested types.", "anchors": ["stabby-abi/src/str.rs: Str", "stabby-abi/src/slice.rs: PartialEq, Hash", "stabby-abi/src/result.rs: Hash, PartialEq", "stabby-abi/src/alloc/string.rs: Hash, Ord", "stabby-abi/src/vtable/mod.rs: VtDrop", "stabby-abi/src/report.rs: TypeReport, FieldReport"]}
{"id": "C88", "title": "The C type of a type has its size, alignment and fields", "statement": "With the feature experimental-ctypes, every stable type has a CType whose size and alignment are those of the type, so that the assertions the macros generate never fail; the fields of a struct, and the tag and payload of an enum, are at the same offsets in it; the CType of a CType is itself; and it forbids no bytes, so that C code may write anything into it.", "quantifier": "for all targets (alignments of u64 and u128) and all types built from the primitives by structs, aligned structs, unions, tagged enums, arrays, wrappers and Results, of any depth", "why_tests_cant": "The C types of unions and results are computed from layouts by type-level division and doubling, for every nesting of types; no test of the repository enables the feature.", "anchors": ["stabby-abi/src/istable.rs: IStable::CType, Union", "stabby-abi/src/typenum2/unsigned.rs: Alignment::AsUint, IUnsignedBase::Array", "stabby-abi/src/result.rs: Storage", "stabby-abi/src/lib.rs: NoNiches", "stabby-macros/src/lib.rs: Report::crepr", "stabby-macros/src/structs.rs: ctype_assert"]}
{"id": "C89", "title": "Vectors and boxed slices in one memory never step on each other", "statement": "However many vectors and boxed slices a program holds, and whatever the allocator answers within its contract (including failing and handing out any address), every operation reads and writes only initialised bytes inside live blocks, each object behaves as a list of values that only its own operations change, memory of others is untouched, reallocation keeps the contents, pushes after a successful reserve need no allocation, and once all objects are dropped no block is left.", "quantifier": "for all sizes and alignments of the elements and of the allocation prefix, all heaps, all programs over any number of vectors and boxed slices (new, reserve, push, pop, remove, swap, swap_remove, truncate, copy_extend, extend, clone, index, write, drain, conversions, drop), all allocator answers", "why_tests_cant": "Tests run one vector on one allocator; that no sequence of operations on several objects writes across a block for any address the allocator may choose is a statement about all executions, and such writes usually go unnoticed.", "anchors": ["stabby-abi/src/alloc/vec.rs: Vec, VecInner, ptr_add, ptr_diff, Drain", "stabby-abi/src/alloc/boxed.rs: BoxedSlice, From<Vec>, From<BoxedSlice>", "stabby-abi/src/alloc/mod.rs: IAlloc, AllocPtr::alloc_array, realloc, free, init, AllocPrefix"]}
{"id": "C90", "title": "A call of a loaded function delivers the values that were passed", "statement": "If get_stabbied hands a function over, then calling it gives the library's code exactly the values that the caller passed, and the caller exactly the value that this code returned, even though both sides were compiled apart with their own declarations of the types; if the declarations disagree the loader gets an error instead.", "quantifier": "for all libraries, all code of the exported function, all pairs of declarations of its inputs and output, all compilers' alignments of u128 on either side, all bytes passed and returned", "why_tests_cant": "A test calls one function with types declared once and one compiler; whether some pair of declarations passes the check yet reads the bytes differently is a question about all pairs.", "anchors": ["stabby/src/libloading.rs: StabbyLibrary::get_stabbied", "stabby-macros/src/functions.rs: export_with_report", "stabby-abi/src/report.rs: TypeReport::is_compatible", "stabby-abi/src/stable_impls/mod.rs: fnstable!, primitive_report!"]}
{"id": "C91", "title": "Shared slices in memory: handles see one list, counts are exact, the block is freed once", "statement": "Programs that build vectors, share them as ArcSlice, clone, downgrade, upgrade and force-upgrade the handles, write through a unique one, turn it back into a vector and drop everything in any order never access memory outside live initialised blocks; all handles of a slice read the same list, a write succeeds only through the only handle, the counts reported are the numbers of handles, elements are dropped when the last strong handle is, the block when the last handle is, other blocks are untouched, and nothing leaks.", "quantifier": "for all sequences of operations on any number of vectors, boxed slices and handles (fewer than 2^62 operations), all element sizes and alignments up to that of the prefix, all allocators (any answers), all initial heaps", "why_tests_cant": "A test runs one order of operations on one heap; that no order of clones, upgrades, conversions and drops corrupts a counter that lies in the same block as the elements, or frees the block early, twice or never, needs an invariant over all of them.", "anchors": ["stabby-abi/src/alloc/sync.rs: ArcSlice, WeakSlice (From<Vec>, TryFrom, Clone, Drop, upgrade, force_upgrade, is_unique, as_slice_mut)", "stabby-abi/src/alloc/mod.rs: AllocPrefix, AllocPtr, AllocSlice", "stabby-abi/src/alloc/vec.rs: VecInner"]}
{"id": "C92", "title": "Generic declarations survive the macro: same parameters, same where clause, IStable for all of it", "statement": "For a generic struct, union or enum that Rust accepts, what #[stabby::stabby] generates is accepted too, declares the type with the same parameters (order, bounds, defaults) and a where clause that holds the user's, and implements IStable for the type at its own parameters with their bounds.", "quantifier": "for all declarations: any number of lifetimes, types and constants in any legal order, with any bounds and defaults, any where clause with or without a final comma, any fields", "why_tests_cant": "The test suite has a few generic types, each with one shape of parameters; which shapes expand to valid Rust depends on order, bounds, defaults, commas and kind together, and a macro's failure is a compile error in a user's crate.", "anchors": ["stabby-macros/src/utils.rs: unbound_generics, generics_without_defaults, SeparatedGenerics", "stabby-macros/src/structs.rs: stabby", "stabby-macros/src/unions.rs: stabby", "stabby-macros/src/enums.rs: stabby, repr_stabby", "stabby-macros/src/lib.rs: stabby, Report::bounds"]}
{"id": "C93", "title": "Stabby functions and exports: the function is as declared, stable in every type, and exported under the names loaders ask for", "statement": "#[stabby::stabby] on a function gives a function with the same name, parameters, where clause, inputs and output and a stable calling convention, that compiles only if every type of its signature is stable; an async one returns a boxed future of its output with the lifetime and the Send and Sync bounds asked for. #[stabby::export] also gives the two functions that loaders call, and hands over the function only at the very type whose report was compared.", "quantifier": "for all functions: any combination of const, async, unsafe, any calling convention, generics, where clause, inputs, output, body, any arguments of the attribute, any set of stable types", "why_tests_cant": "The tests have a handful of exported functions and no async one; the words, clauses and types of a signature combine freely, and an expansion that drops one of them is seen only by the user who needs it.", "anchors": ["stabby-macros/src/functions.rs: stabby, Attrs, export, export_with_report", "stabby-macros/src/lib.rs: stabby, vtable", "stabby-abi/src/stable_impls/mod.rs: fnstable!"]}
{"id": "C94", "title": "dynptr! names the stabby type of the same trait object", "statement": "dynptr!(P) for a pointer P to a trait object (Box<dyn A + B + 'a>, &'a dyn A, &'a mut dyn A, ...) is the stabby type with the same pointer, the same traits in the same order and the same lifetimes; vtable!(A + B) is the vtable with exactly these traits in this order; different objects never get the same type.", "quantifier": "for all types that parse: paths with any qualification and arguments, references with or without lifetimes, any number of bounds in any order, parentheses and macro groups anywhere", "why_tests_cant": "The tests name a dozen types; the syntax of types is recursive, and a bound or a lifetime that is lost shows up only where the missing method or a longer borrow is needed.", "anchors": ["stabby-macros/src/lib.rs: vtable, DynPtr, dynptr", "README.md: dynptr! and vtable! support any number of traits"]}
{"id": "C95", "title": "An imported block gives the functions that it declares", "statement": "For an extern block with #[stabby::import(..)], the generated module compiles and each name that the block declares is, for the user, a function with the declared visibility, safety, convention, input and output types, the types being those that the same tokens mean in the user's module; what is asked of the linker is what #[stabby::export] with the same function name defines.", "quantifier": "for all blocks (any number of functions and statics, conventions, cfg attributes, lifetimes, variadics), all attribute arguments, all modules of a crate and all types in scope in it, all canary requests", "why_tests_cant": "The examples import two functions with primitive types; the meaning of a path depends on the module it is read in, and the generated module is not the user's.", "anchors": ["stabby-macros/src/functions.rs: ImportArgs, import, export_with_report", "stabby-abi/src/checked_import.rs: CheckedImport::new, CanariedImport::new", "README.md: #[stabby::import]"]}
{"id": "C96", "title": "Types in a trait's signatures come through the macro unchanged", "statement": "For every type written in the signature of a method of a #[stabby::stabby] trait, the tokens that the macro prints for it in the vtable and in the implementations are a type, and it is the type that was written; types with the same printed tokens are the same type.", "quantifier": "for all types that syn parses: paths with any qualification and arguments, associated types, references, pointers, arrays, bare functions, groups, parentheses, nested without limit", "why_tests_cant": "The tests use a few dozen types; types are recursive, and a token lost in the printed type matters only where both readings compile.", "anchors": ["stabby-macros/src/traits.rs: Ty, From<&Type> for Ty, Ty::from_iter, ToTokens for Ty, ToTokens for Arguments, ToTokens for GenericArgument"]}
{"id": "C97", "title": "Generic traits survive the macro: a vtable for every implementation", "statement": "For a trait with parameters and associated types that Rust accepts, what #[stabby::stabby] generates is accepted too: a vtable with the parameters of the trait and one per associated type and one field per method, constructible for every type that implements the trait; the trait object names that vtable; and trait objects get each method of the trait, through the generated traits for shared and for exclusive receivers.", "quantifier": "for all traits: any number of lifetimes, types, constants with bounds and defaults, where clauses, associated types with bounds, methods, and supertraits with associated types", "why_tests_cant": "One trait of the tests has one parameter; the shapes of generic traits are unbounded, and each failure shows only when somebody writes such a trait.", "anchors": ["stabby-macros/src/traits.rs: DynTraitDescription::vt_generics, DynTraitDescription::vtable, SelfDependentTypes, From<(&mut ItemTrait, bool)> for DynTraitDescription", "stabby-macros/src/utils.rs: IGenerics, Unbound"]}
{"id": "C98", "title": "The arguments of #[stabby::stabby(..)] on a type say what they mean", "statement": "Settings given to #[stabby::stabby(..)] on a struct, enum or union (version = integer, module = expression, no_opt for structs), in any number and order with commas between them, have the effect they ask for: the report of the type, and of the variants of an enum, has the last version and the last module given, or zero and the path of the module; no_opt turns off the check of the layout and nothing else does it silently; two builds of a declaration are compatible exactly if version and module agree; a word that is no setting is refused.", "quantifier": "for all lists of settings, integer literals, module expressions, declarations, and values of expressions", "why_tests_cant": "The tests use one or two settings in one order; the texts that can be written are unbounded, and an ignored or misread version makes incompatible builds load each other.", "anchors": ["stabby-macros/src/structs.rs: Args, stabby", "stabby-macros/src/enums.rs: Args, stabby", "stabby-macros/src/unions.rs: Args, stabby", "stabby-macros/src/lib.rs: Report"]}
{"id": "C99", "title": "Variants of a #[repr(stabby)] enum may be called anything", "statement": "For an enum that Rust accepts, #[stabby::stabby] with repr(stabby) gives code that compiles, in which a value made by the constructor of a variant makes match_owned, match_ref, match_mut and their _ctx versions call the closure of this variant, once, on the payload (and the context), whatever the variants, the parameters of the enum, the types of the payloads and the items in scope are called.", "quantifier": "for all enums (names, fields and number of variants, parameters), all names in scope, all payloads and contexts, all six match functions", "why_tests_cant": "The code is generated from names of the user, in a tree of closures whose shape depends on the number of variants; the tests have a few enums with names that meet nothing.", "anchors": ["stabby-macros/src/enums.rs: repr_stabby, Variants::map_with_finalizer, Variants::recursion", "stabby-macros/src/enums.rs: From<syn::Variant> for Variant", "stabby-abi/src/result.rs: match_owned, match_ref, match_mut"]}
{"id": "C100", "title": "Closures as trait objects are the closures", "statement": "A closure turned into a trait object of dyn FnOnce, FnMut or Fn and called through it, any number of times (once for FnOnce), has the effects and results of the closure itself on the same arguments in the same order; calls with other arguments do not compile. Such a trait object is IStable if and only if its inputs and output are, and its report tells them.", "quantifier": "for all closures (any captured state, any effect), numbers and types of inputs, sequences of calls, and choices of which types are stable", "why_tests_cant": "The generated code has thirty traits with transmuted function pointers; the tests call a few of them. Stability and reports quantify over all types.", "anchors": ["stabby-macros/src/gen_closures.rs: gen_closures", "stabby-abi/src/closure.rs", "stabby-abi/src/lib.rs: StableIf, StableLike"]}
{"id": "C101", "title": "The build script defines the names of numbers, the tuples and the default allocator that are promised", "statement": "Every U.., Ux.., Ub.., U10pow.. and U2pow.. name that the build script of stabby-abi writes is an alias of the one canonical type-level number that it spells, no name is written twice, and the script does not overflow; numbers to a thousand, powers of ten and powers of two have names, documented by their value; there is a Tuple of every arity up to the one asked for with --cfg stabby_max_tuple (at least 10, 32 by default), whose fields have the types of its parameters, and converting it from and to tuples of Rust keeps all elements in order; the default allocator is the one asked for with --cfg stabby_default_alloc, or else Rust's, libc's or none depending on the features.", "quantifier": "for all names and numbers, all values of the cfgs, all arities, all elements, all sets of features and targets", "why_tests_cant": "The names are thousands of generated lines of which tests use a few dozens; arities depend on an environment variable; features and targets other than those of the test build are not compiled.", "anchors": ["stabby-abi/build.rs: u, typenum_unsigned, tuples, main", "stabby-abi/src/typenum2/unsigned.rs: typenames", "stabby-abi/src/lib.rs: tuple", "stabby-abi/src/alloc/allocators/mod.rs: DefaultAllocator"]}
{"id": "C102", "title": "Plain old data can be sent as bytes", "statement": "A type is IPod exactly if it is stable, Copy, and there is no pointer and no NotPod anywhere in it. The bytes of a value of such a type, sent by any means and read on another machine as a type with the same identifier, are that very value; types or machines for which they are not have different identifiers, barring collisions.", "quantifier": "for all stable types without enums, all values, memories and machines, and every hash function without collisions on the two reports", "why_tests_cant": "The receiver is another program, on another machine, compiled with other declarations; tests send to themselves.", "anchors": ["stabby-abi/src/istable.rs: IPod, NotPod", "stabby-abi/src/report.rs: gen_id, ARCH_INFO", "stabby-abi/src/stable_impls/mod.rs: ContainsIndirections"]}
{"id": "C103", "title": "Formatting shows the value, as standard types do", "statement": "Debug of any nesting of stabby's vectors, boxed and shared slices, strings, options, results, map entries and StableLikes is the text of the standard types they stand for, with any formatting parameters. Equal sets are written alike. Two sequences written in hex look the same only if they are equal. Integers are written in decimal or, if asked, hexadecimal, and different ones differently. Narrow integers display as their value. Two reports display alike only if they are equal. Writing to a String appends what is written, or reports that memory ran out and keeps whole pieces.", "quantifier": "for all values of any depth, all formatting parameters, all sets, reports, strings and allocators", "why_tests_cant": "Tests format a few values without parameters; nesting depth, fill, width and alternate forms multiply without bound.", "anchors": ["stabby-abi/src/alloc/vec.rs: Debug, LowerHex, UpperHex", "stabby-abi/src/alloc/boxed.rs: LowerHex", "stabby-abi/src/alloc/sync.rs: LowerHex", "stabby-abi/src/alloc/collections/arc_btree.rs: Debug of ArcBTreeSet", "stabby-abi/src/num.rs: Display", "stabby-abi/src/report.rs: Display of TypeReport", "stabby-abi/src/alloc/string.rs: fmt::Write"]}
{"id": "C104", "title": "stabby does not compile where its layouts are wrong", "statement": "If stabby compiles for a target, the sizes, alignments and niche claims it declares for primitive types are those of the compiler; where they are not, compilation fails with a message that names the type and both values.", "quantifier": "for all compilers (any sizes and alignments of primitive types and of their Options), all names of types and targets", "why_tests_cant": "The checks matter on targets and compilers nobody ran the tests on; on those that were, they never fail.", "anchors": ["stabby-abi/src/stable_impls/mod.rs: check!, expr_to_type!, same_as!, fmt2digit, fmt6digit, ARCH"]}
{"id": "C105", "title": "Adapters change nothing", "statement": "Thin adapters are transparent: io::Write on a Vec<u8> appends all of the bytes of each successful write and nothing on failure; a Cow gives back the reference or the value it was made of, and to_owned keeps it; a map used through IMap answers every history of get, get_mut and insert as the map does; an allocator behind any number of IStableAlloc trait objects answers as it does directly; and no call that needs no unsafe harms memory.", "quantifier": "for all sequences of writes and allocator failures; all owned types and values; all histories of map calls; all allocators, numbers of trait objects and sequences of calls", "why_tests_cant": "Histories, types and nestings are unbounded; that safe methods of a trait cannot harm memory is a statement about programs nobody wrote.", "anchors": ["stabby-abi/src/alloc/vec.rs: impl std::io::Write for Vec<u8, Alloc>", "stabby/src/allocs/borrow.rs: Cow::into_owned, Cow::to_owned, Borrow::borrow", "stabby/src/map.rs: IMap", "stabby-abi/src/alloc/mod.rs: IAlloc, IStableAlloc"]}
{"id": "C106", "title": "Restricted integers cross libraries as the numbers they are", "statement": "If two libraries take a type made of integers (primitive, NonZero, NonMax, NonX) for the same because its reports are equal, a value stored by one is read as the same value by the other.", "quantifier": "for all structs, nested to any depth, of primitive, NonZero, NonMax and NonX integers of all widths and all forbidden values, all values, all pointer widths and compilers", "why_tests_cant": "Tests build both sides from one source, so types never differ between the libraries; values and nestings are unbounded.", "anchors": ["stabby-abi/src/num.rs: define_non_max!, define_non_x! (REPORT, new, get)", "stabby-abi/src/stable_impls/mod.rs: IStable for integers", "stabby-abi/src/report.rs: TypeReport::is_compatible"]}
{"id": "C107", "title": "What is wrapped in StableLike comes back as it was", "statement": "A value wrapped with StableLike::new, whose checks passed, and put with other values in structs, arrays and Results of any nesting, is read back as the value and the variant it was; the size and alignment of all these types are those stabby tells; plain old data made of them holds no pointer.", "quantifier": "for all wrapped types, all types they are described as, all nestings of structs, arrays and Results, all values, constructions and writes through guards", "why_tests_cant": "Whether a description is right depends on all the values of two types and on the niche chosen among all those of the other payload.", "anchors": ["stabby-abi/src/lib.rs: StableLike::new, CHECK, as_ref, into_inner, IStable for StableLike, NoNiches", "stabby-abi/src/result.rs: Ok, Err, match_ref, OkGuard, ErrGuard"]}
{"id": "C108", "title": "Padding and emulated types are the bytes they say", "statement": "The padding type of a type-level number n has exactly n bytes, tells n as its size and all the bits of its n bytes as unused, and no forbidden value, niche or pointer; helpers around any type of alignment 1 tell its size and unused bits correctly; NoNiches<Size, Align> has the size and alignment it tells; and reports and identifiers tell paddings and emulated types of different layouts apart.", "quantifier": "for all type-level numbers (canonical or not), all nestings of PaddingHelper and OneMoreByte around all types of alignment 1, all NoNiches", "why_tests_cant": "A padding type is a tower of generics as deep as the number has digits; tests look at a few numbers.", "anchors": ["stabby-abi/src/typenum2/unsigned.rs: PadByte, OneMoreByte, PaddingHelper, IBitBase::_Padding, IUnsigned::Padding", "stabby-abi/src/lib.rs: NoNiches, primitive_report!"]}
{"id": "C109", "title": "A report lists the fields of its type", "statement": "The report that the macro makes for a type lists, through TypeReport::fields, by Iterator::next as by next_const, each field that was declared exactly once, the last declared first, then nothing for ever; compatibility, identifiers and equality of the linked reports are those of the trees one reads that way.", "quantifier": "for all declarations with any number of fields, all reports of any depth and length, any number of calls of the iterators", "why_tests_cant": "Reports are linked lists of linked lists of any length and depth; tests compare the reports of a few types with themselves.", "anchors": ["stabby-abi/src/report.rs: TypeReport::fields, Fields::next_const, Iterator for Fields, is_compatible, hash_report, derived PartialEq", "stabby-macros/src/lib.rs: Report::add_field, ToTokens for Report"]}
{"id": "C110", "title": "Trait objects find their vtables on every toolchain, where the user chose", "statement": "Whatever stable, beta or (from 1.78) nightly toolchain compiles stabby and whatever documented value is given to the stabby_vtables option, exactly one way of obtaining vtables is compiled and the generated implementations fit it: from the binary before 1.78 and on nightly, else from the global set that was chosen (a tree by default), else the crate is refused with its explanation; and what vtable() refers to shows the functions of the implementation in order.", "quantifier": "for all toolchains (channel, version), all lists of --cfg values for stabby_vtables and stabby_default_alloc, all features, all compositions of vtables", "why_tests_cant": "A test run is compiled by one toolchain with one set of options; configurations that do not compile are never run at all.", "anchors": ["stabby-abi/src/vtable/mod.rs: IConstConstructor (four definitions), internal::VTABLES (three definitions), implementations for VTable, (), VtDrop, VtSend, VtSync", "stabby-abi/src/lib.rs: impl_vtable_constructor", "stabby-abi/build.rs: main", "stabby-macros/src/traits.rs, gen_closures.rs: uses of impl_vtable_constructor"]}
{"id": "C111", "title": "Loading a function by name gives that function or an error", "statement": "Given a library that exports any functions, with reports, with canaries or without stabby, get_stabbied(name) gives exactly the function that is exported with #[stabby::export] under that name and whose report is compatible with the one asked for, and an error otherwise; get_canaried(name) gives the symbol of that very name exactly when its canaries are there; neither ever calls a symbol with a type that is not its own or otherwise ends in undefined behaviour, whatever the bytes of the name; and functions with different names can always be exported together.", "quantifier": "for all libraries (lists of exports, with any names and reports), all environments of library and loader, all names asked for (any bytes), all reports asked for", "why_tests_cant": "Whether some name collides with what the macros generate for another function, and what becomes of names with NUL or not UTF-8, depends on all libraries and names; a test loads a few names of one library.", "anchors": ["stabby/src/libloading.rs: StabbyLibrary::get_stabbied, get_canaried, STABBIED_SUFFIX, REPORT_SUFFIX", "stabby-macros/src/functions.rs: export_canaried, export_with_report", "stabby-macros/src/lib.rs: canary_suffixes"]}
{"id": "C112", "title": "Computing with narrow integers", "statement": "An expression built from new, MAX, MIN, Default, the bitwise operators and subtraction on uN or iN behaves like the same expression on integers: it panics exactly if the result is no value of the type, get gives the integer, formatting shows that integer, and comparisons compare those integers.", "quantifier": "for all widths N and base widths, all expressions, with or without overflow checks, all integers in them", "why_tests_cant": "Stored bits beyond the N used ones only come up after certain sequences of operations; 2^127 values and unboundedly many expressions cannot be enumerated.", "anchors": ["stabby-abi/src/num.rs: makeumask, makeimask"]}
{"id": "C113", "title": "The narrow integers that are declared", "statement": "stabby::num has a uN and an iN for every number of bits below 128 that Rust has no integer for, each once and no others. Each is stored in the smallest of Rust's integers that has N bits, as documented; it holds exactly the integers of N bits, and gives them back.", "quantifier": "for all numbers of bits, all names, all integers", "why_tests_cant": "The 246 declarations are written by hand, and tests try four of them with about 127 integers each.", "anchors": ["stabby-abi/src/num.rs: makeumask, makeimask and their uses", "stabby-abi/build.rs: u"]}
