(** C14-C17: layout arithmetic, prefixed allocations, allocator adapters. *)
From Coq Require Import NArith List Bool Lia.
From Verif Require Import M_Alloc S_Alloc L_Alloc.
Import ListNotations.
Local Open Scope N_scope.

(** C14: [realign] rounds the size up to the first multiple. *)
Theorem layout_realign_first : forall l a, a <> 0 -> lsize l + a <= 2 ^ 64 ->
  first_aligned a (lsize l) (lsize (realign l a)) /\ lalign (realign l a) = a.
Proof. intros l a Ha H. rewrite realign_rup by auto. split; [apply rup_first; auto | reflexivity]. Qed.
Print Assumptions layout_realign_first.
Example layout_realign_ex : realign (Lay 13 1) 8 = Lay 16 8.
Proof. reflexivity. Qed.

(** C14: [next_matching] returns the first aligned address. *)
Theorem layout_next_matching_first : forall l p, lalign l <> 0 -> first_aligned (lalign l) p (next_matching l p).
Proof. intros l p H. exact (rup_first p (lalign l) H). Qed.
Print Assumptions layout_next_matching_first.
Example layout_next_matching_ex : next_matching (Lay 0 64) 1000 = 1024.
Proof. reflexivity. Qed.

(** C14: below overflow, [array] is exact. *)
Theorem layout_array_exact : forall s a n, s * n < 2 ^ 64 -> lay_array s a n = Lay (s * n) a.
Proof. intros s a n H. unfold lay_array. rewrite usz_small by auto. reflexivity. Qed.
Print Assumptions layout_array_exact.
Example layout_array_ex : lay_array 12 4 7 = Lay 84 4.
Proof. reflexivity. Qed.

(** C14: [concat] has room for both parts, when the second is padded to its alignment as
    Rust types are. Missing: parts whose size is not a multiple of the alignment, for which
    it fails (below). *)
Theorem layout_concat_fits_partial : forall l o, alignment (lalign l) -> alignment (lalign o) ->
  (lalign o | lsize o) -> lsize l + lsize o + N.max (lalign l) (lalign o) <= 2 ^ 64 ->
  holds_both l o (concat l o) /\ lalign (concat l o) = N.max (lalign l) (lalign o) /\
  (lalign (concat l o) | lsize (concat l o)) /\
  lsize (concat l o) < lsize l + lsize o + N.max (lalign l) (lalign o).
Proof. exact concat_both. Qed.
Print Assumptions layout_concat_fits_partial.
Example layout_concat_ex : concat (Lay 5 1) (Lay 8 8) = Lay 16 8 /\ holds_both (Lay 5 1) (Lay 8 8) (Lay 16 8).
Proof. split; [reflexivity|]. exists 8. cbn. repeat split; try lia. exists 1. reflexivity. Qed.

(** C14: a 5-byte part followed by 3 bytes aligned to 4: [concat] yields 8 bytes, 11 are needed. *)
Theorem layout_concat_fits_refuted : exists l o, alignment (lalign l) /\ alignment (lalign o) /\
  ~ holds_both l o (concat l o).
Proof.
  exists (Lay 5 1), (Lay 3 4). split; [exists 0; reflexivity|]. split; [exists 2; reflexivity|].
  intros (off & H1 & [k H2] & H3). change (lsize (concat (Lay 5 1) (Lay 3 4))) with 8 in H3.
  cbn [lsize lalign] in *. lia.
Qed.
Print Assumptions layout_concat_fits_refuted.

(** C14: without overflow checks, an array of [2^61 + 1] 8-byte elements is given 8 bytes. *)
Theorem layout_array_overflow_refuted : exists s a n, n < 2 ^ 64 /\ lsize (lay_array s a n) < s * n.
Proof. exists 8, 8, (2 ^ 61 + 1). split; vm_compute; reflexivity. Qed.
Print Assumptions layout_array_overflow_refuted.

(** C15: elements aligned no more than the prefix: the data is aligned, inside the block and
    after the prefix, which is inside the block; [free] and [realloc] both pass the pointer
    that the allocator returned. Missing: over-aligned elements. *)
Theorem prefixed_alloc_in_bounds_partial : forall psz pal s a n ptr,
  alignment pal -> alignment a -> (pal | psz) -> (a | s) -> a <= pal ->
  (pal | ptr) -> ptr <> 0 -> psz + s * n + pal <= 2 ^ 64 ->
  exists d pfx, ptr_alloc psz a n ptr = Some (d, pfx) /\ (a | d) /\
    inside d (s * n) ptr (lsize (array_layout psz pal s a n)) /\
    inside (prefix_ptr psz d) psz ptr (lsize (array_layout psz pal s a n)) /\
    apart (prefix_ptr psz d) psz d (s * n) /\
    ptr_free_arg pfx = ptr /\
    (forall prev new, fst (fst (ptr_realloc_args psz pal s a prev new d)) = ptr).
Proof.
  intros psz pal s a n ptr Ap Aa D1 D2 L D3 NZ H.
  destruct (ptr_init_small psz pal s a n ptr Ap Aa D1 D2 L D3 H) as (E & A1 & A2 & A3 & A4 & A5).
  unfold ptr_alloc. destruct (N.eqb_spec ptr 0); [congruence|].
  destruct (ptr_init psz a ptr n) as [d pfx] eqn:EI. exists d, pfx.
  cbn [fst] in *. repeat split; auto; try apply A2; try apply A3.
  unfold ptr_init in EI. injection EI as _ <-. reflexivity.
Qed.
Print Assumptions prefixed_alloc_in_bounds_partial.
Example prefixed_alloc_ex : array_layout 32 8 4 4 3 = Lay 48 8 /\ fst (ptr_init 32 4 4096 3) = 4128.
Proof. split; reflexivity. Qed.

(** C15: elements of any alignment, if the block happens to be aligned for them; the data
    is then [skip_to] after the block. Missing: nothing guarantees that alignment, and
    [realloc] gets the right pointer only if no padding was needed. *)
Theorem prefixed_alloc_overaligned_partial : forall psz pal s a n ptr,
  alignment pal -> alignment a -> (a | s) -> (a | ptr) -> ptr <> 0 ->
  psz + s * n + N.max pal a <= 2 ^ 64 ->
  exists d pfx, ptr_alloc psz a n ptr = Some (d, pfx) /\ d = ptr + skip_to psz a /\ (a | d) /\
    inside d (s * n) ptr (lsize (array_layout psz pal s a n)) /\
    inside (prefix_ptr psz d) psz ptr (lsize (array_layout psz pal s a n)) /\
    apart (prefix_ptr psz d) psz d (s * n) /\
    ptr_free_arg pfx = ptr.
Proof.
  intros psz pal s a n ptr Ap Aa D2 D3 NZ H.
  destruct (ptr_init_aligned psz pal s a n ptr Ap Aa D2 D3 H) as (E & A1 & A2 & A3 & A4).
  unfold ptr_alloc. destruct (N.eqb_spec ptr 0); [congruence|].
  destruct (ptr_init psz a ptr n) as [d pfx] eqn:EI. exists d, pfx.
  cbn [fst] in *. repeat split; auto; try apply A2; try apply A3.
  unfold ptr_init in EI. injection EI as _ <-. reflexivity.
Qed.
Print Assumptions prefixed_alloc_overaligned_partial.
Example prefixed_overaligned_ex : array_layout 32 8 64 64 1 = Lay 128 8 /\
  fst (ptr_init 32 64 4096 1) = 4160.
Proof. split; reflexivity. Qed.

(** C15: one 16-aligned element in a block at an address aligned as asked (to 8): the data
    ends 8 bytes after the block. *)
Theorem prefixed_alloc_in_bounds_refuted : exists psz pal s a n ptr,
  alignment pal /\ alignment a /\ (pal | psz) /\ (a | s) /\ (lalign (array_layout psz pal s a n) | ptr) /\
  ptr <> 0 /\ ~ inside (fst (ptr_init psz a ptr n)) (s * n) ptr (lsize (array_layout psz pal s a n)).
Proof.
  exists 32, 8, 16, 16, 1, 1000.
  split; [exists 3; reflexivity|]. split; [exists 4; reflexivity|].
  split; [exists 4; reflexivity|]. split; [exists 1; reflexivity|].
  split; [exists 125; reflexivity|]. split; [discriminate|].
  intros [_ H]. vm_compute in H. apply H; reflexivity.
Qed.
Print Assumptions prefixed_alloc_in_bounds_refuted.

(** C15: one 64-aligned element in a 64-aligned block: [realloc] passes a pointer into the
    middle of the block. *)
Theorem prefixed_realloc_pointer_refuted : exists psz pal s a n ptr,
  alignment pal /\ alignment a /\ (pal | psz) /\ (a | s) /\ (a | ptr) /\ ptr <> 0 /\
  fst (fst (ptr_realloc_args psz pal s a n (2 * n) (fst (ptr_init psz a ptr n)))) <> ptr.
Proof.
  exists 32, 8, 64, 64, 1, 4096.
  split; [exists 3; reflexivity|]. split; [exists 6; reflexivity|].
  split; [exists 4; reflexivity|]. split; [exists 1; reflexivity|].
  split; [exists 64; reflexivity|]. split; [discriminate|].
  vm_compute. discriminate.
Qed.
Print Assumptions prefixed_realloc_pointer_refuted.

(** C15: and had the block been moved, the data would not be where [init] puts the new
    pointer: the distance from block to data depends on the block's address. *)
Theorem prefixed_realloc_offset_refuted : exists psz a p q n, alignment a /\ (8 | p) /\ (8 | q) /\
  fst (ptr_init psz a p n) - p <> fst (ptr_init psz a q n) - q.
Proof.
  exists 32, 16, 1000, 4096, 1. split; [exists 4; reflexivity|].
  split; [exists 125; reflexivity|]. split; [exists 512; reflexivity|]. vm_compute. discriminate.
Qed.
Print Assumptions prefixed_realloc_offset_refuted.

(** C16, all histories: every owned pointer is aligned as requested; its prefix and, for
    well-sized requests, its data lie in one live block. Missing: other requests and
    failing global allocators (refuted below). *)
Theorem rust_alloc_room_partial : forall g o p req, rust_reach g o -> In (p, req) o ->
  (lalign req | p) /\
  exists b l, In (b, l) (live g) /\ inside (p - 32) 32 b (lsize l) /\ 32 <= p /\
    (well_sized req -> inside p (lsize req) b (lsize l)).
Proof. exact rust_reach_block. Qed.
Print Assumptions rust_alloc_room_partial.

(** C16: owned allocations, prefixes included, never overlap. *)
Theorem rust_alloc_apart_partial : forall g o p req q rq, rust_reach g o -> In (p, req) o -> In (q, rq) o ->
  (p, req) <> (q, rq) -> well_sized req -> well_sized rq ->
  apart (p - 32) (32 + lsize req) (q - 32) (32 + lsize rq).
Proof. exact rust_reach_apart. Qed.
Print Assumptions rust_alloc_apart_partial.

(** C16: freeing an owned pointer gives the global allocator a live block with the layout it
    was allocated with, and that block only leaves the heap. *)
Theorem rust_free_exact : forall g o p req, rust_reach g o -> In (p, req) o ->
  exists b l, In (b, l) (live g) /\ p = b + N.max (lalign l) 32 /\
    rust_free p g = (Null, GH (remove_block (b, l) (live g)) (hdr g)).
Proof.
  intros g o p req R H. apply rust_reach_inv in R.
  destruct (rust_free_ok g o p req R H) as (b & l & Hb & E & Ep & _). exists b, l. auto.
Qed.
Print Assumptions rust_free_exact.

(** C16: reallocating an owned pointer calls the global [realloc] with a live block and its
    layout; if it answers, the new pointer sits in the new block as the old one did. *)
Theorem rust_realloc_exact_partial : forall g o p req new, rust_reach g o -> In (p, req) o -> new <= 2 ^ 61 ->
  exists b l l', rust_realloc_ask p new g = Some (b, l, l') /\ In (b, l) (live g) /\
    p = b + N.max (lalign l) 32 /\ valid_lay l' = true /\
    (forall ans, ans <> 0 -> exists q g', rust_realloc p new ans g = (Ptr q, g') /\
       q = ans + N.max (lalign l) 32 /\ live g' = (ans, l') :: remove_block (b, l) (live g)).
Proof. intros g o p req new R. apply rust_reach_inv in R. exact (ask_realloc g o p req new R). Qed.
Print Assumptions rust_realloc_exact_partial.

(** C16: no leak and no double free: as many live blocks as owned pointers, always. *)
Theorem rust_alloc_no_leak : forall g o, rust_reach g o -> length (live g) = length o.
Proof. exact rust_reach_count. Qed.
Print Assumptions rust_alloc_no_leak.

(** A history: two allocations, the first reallocated, the second freed. *)
Example rust_history_ex : exists g, rust_reach g [(8032, Lay 100 8)] /\ live g = [(8000, Lay 136 8)].
Proof.
  set (g1 := snd (rust_alloc (Lay 10 8) 1000 (GH [] (fun _ => None)))).
  set (g2 := snd (rust_alloc (Lay 64 64) 1984 g1)).
  set (g3 := snd (rust_realloc 1032 100 8000 g2)).
  set (g4 := snd (rust_free 2048 g3)).
  assert (R1 : rust_reach g1 [(1032, Lay 10 8)]).
  { apply (rr_alloc (GH [] (fun _ => None)) [] (Lay 10 8) 1000 1032 g1 (Lay 48 8)); try reflexivity.
    - apply rr_init.
    - split; [exists 3; reflexivity|]. split; vm_compute; discriminate.
    - split; [discriminate|]. split; [exists 125; reflexivity|]. split; [vm_compute; discriminate|].
      intros q m []. }
  assert (R2 : rust_reach g2 [(2048, Lay 64 64); (1032, Lay 10 8)]).
  { apply (rr_alloc g1 [(1032, Lay 10 8)] (Lay 64 64) 1984 2048 g2 (Lay 128 64)); try reflexivity; auto.
    - split; [exists 6; reflexivity|]. split; vm_compute; discriminate.
    - split; [discriminate|]. split; [exists 31; reflexivity|]. split; [vm_compute; discriminate|].
      intros q m [E | []]. injection E as <- <-. right. vm_compute. discriminate. }
  assert (R3 : rust_reach g3 [(8032, Lay 100 8); (2048, Lay 64 64)]).
  { apply (rr_realloc g2 [(2048, Lay 64 64); (1032, Lay 10 8)] 1032 (Lay 10 8) 100 8000 8032 g3 1000 (Lay 48 8) (Lay 136 8));
      try reflexivity; auto.
    - right; left; reflexivity.
    - vm_compute; discriminate.
    - split; [discriminate|]. split; [exists 1000; reflexivity|]. split; [vm_compute; discriminate|].
      intros q m [E | []]. injection E as <- <-. right. vm_compute. discriminate. }
  exists g4. split; [|reflexivity].
  apply (rr_free g3 [(8032, Lay 100 8); (2048, Lay 64 64)] 2048 (Lay 64 64) g4 Null); auto.
  right; left; reflexivity.
Qed.

(** C16: 1 byte aligned to 64: the block is 64 bytes, the pointer is its end. *)
Theorem rust_alloc_room_refuted : exists req ans l p g', req_ok req /\
  rust_alloc_ask req = Some l /\ good_answer l [] ans /\
  rust_alloc req ans (GH [] (fun _ => None)) = (Ptr p, g') /\
  forall b m, In (b, m) (live g') -> ~ inside p (lsize req) b (lsize m).
Proof.
  exists (Lay 1 64), 4096, (Lay 64 64), 4160.
  exists (snd (rust_alloc (Lay 1 64) 4096 (GH [] (fun _ => None)))).
  split. { split; [exists 6; reflexivity|]. split; vm_compute; discriminate. }
  split; [reflexivity|].
  split. { split; [discriminate|]. split; [exists 64; reflexivity|]. split; [vm_compute; discriminate|]. intros q m []. }
  split; [reflexivity|].
  intros b m [E | []]. injection E as <- <-. intros [_ H]. vm_compute in H. apply H; reflexivity.
Qed.
Print Assumptions rust_alloc_room_refuted.

(** C16: when the global allocator fails, the prefix is written through a null-based pointer
    instead of returning null; for [alloc] and for [realloc]. *)
Theorem rust_alloc_failure_refuted :
  (exists req g, req_ok req /\ fst (rust_alloc req 0 g) = Fault) /\
  (exists g o p req new, rust_reach g o /\ In (p, req) o /\ new <= 2 ^ 61 /\ fst (rust_realloc p new 0 g) = Fault).
Proof.
  split.
  - exists (Lay 8 8), (GH [] (fun _ => None)). split; [|reflexivity].
    split; [exists 3; reflexivity|]. split; vm_compute; discriminate.
  - destruct rust_history_ex as (g & R & _). exists g, [(8032, Lay 100 8)], 8032, (Lay 100 8), 200.
    split; [auto|]. split; [left; reflexivity|]. split; [vm_compute; discriminate|].
    destruct (ask_realloc g _ 8032 (Lay 100 8) 200 (rust_reach_inv _ _ R)) as (b & l & l' & E & Hb & Ep & V & _).
    { left; reflexivity. } { vm_compute; discriminate. }
    unfold rust_realloc_ask in E. unfold rust_realloc.
    destruct (hdr g (8032 - HSZ)) as [l0|]; [|discriminate].
    destruct (valid_lay l0); [|discriminate].
    destruct (existsb _ _); reflexivity.
Qed.
Print Assumptions rust_alloc_failure_refuted.

(** C17: [LibcAlloc::alloc] answers null without a change, or a block of the requested size
    and alignment, without touching memory. *)
Theorem libc_alloc_honours : forall l ans h,
  (forall a, ans = Some a -> good_canswer (lalign l) (lsize l) (cblocks h) a) ->
  match libc_alloc l ans h with
  | (Fault, _) => False
  | (Null, h') => h' = h /\ (lsize l = 0 \/ ans = None)
  | (Ptr p, h') => p <> 0 /\ (lalign l | p) /\ cblocks h' = (p, lsize l) :: cblocks h /\ cmem h' = cmem h
  end.
Proof.
  intros l ans h G. unfold libc_alloc. destruct (N.eqb_spec (lsize l) 0); [auto|].
  destruct ans as [a|]; cbn [memalign]; [|auto].
  destruct (G a eq_refl) as (G1 & G2 & _). auto.
Qed.
Print Assumptions libc_alloc_honours.
Example libc_alloc_ex : fst (libc_alloc (Lay 48 16) (Some 4096) (CH [] (fun _ => 0))) = Ptr 4096.
Proof. reflexivity. Qed.

(** C17: growing (or shrinking through a successful [realloc] at alignment 8 or less)
    answers null without a change, or a block of the new size, aligned, with the previous
    content; other blocks and their bytes are untouched. Missing: the other shrinking
    requests, refuted below. *)
Theorem libc_realloc_honours_partial : forall h p prev new a1 a2,
  cheap_ok (cblocks h) -> In (p, lsize prev) (cblocks h) -> 0 < lsize prev -> alignment (lalign prev) ->
  (lsize prev <= new \/ (lalign prev <= 8 /\ a1 <> None)) ->
  (forall a, a1 = Some a -> good_canswer 8 new (others p (cblocks h)) a) ->
  (forall a, a2 = Some a -> good_canswer (lalign prev) new (cblocks h) a) ->
  realloc_post h p (lsize prev) (lalign prev) new (libc_realloc p prev new a1 a2 h).
Proof. exact libc_realloc_post. Qed.
Print Assumptions libc_realloc_honours_partial.
Example libc_realloc_ex :
  let h := CH [(1000, 24)] (fun a => a mod 256) in
  let r := libc_realloc 1000 (Lay 24 8) 64 None (Some 2000) h in
  fst r = Ptr 2000 /\ cblocks (snd r) = [(2000, 64)] /\ cmem (snd r) 2023 = 1023 mod 256.
Proof. repeat split; reflexivity. Qed.

(** C17: shrinking a 64-byte block aligned to 16 into 8 bytes copies 64 bytes. *)
Theorem libc_realloc_honours_refuted : exists h p prev new a2,
  cheap_ok (cblocks h) /\ In (p, lsize prev) (cblocks h) /\ 0 < lsize prev /\ alignment (lalign prev) /\
  good_canswer (lalign prev) new (cblocks h) a2 /\
  fst (libc_realloc p prev new None (Some a2) h) = Fault.
Proof.
  exists (CH [(1600, 64)] (fun _ => 0)), 1600, (Lay 64 16), 8, 3200.
  split. { split; [repeat constructor; intros []|].
           intros x n y m [E | []] [E' | []]. congruence. }
  split; [left; reflexivity|]. split; [reflexivity|]. split; [exists 4; reflexivity|].
  split; [|reflexivity].
  split; [discriminate|]. split; [exists 200; reflexivity|]. split; [vm_compute; discriminate|].
  intros x m [E | []]. injection E as <- <-. right. vm_compute. discriminate.
Qed.
Print Assumptions libc_realloc_honours_refuted.

(** C17: the provided method [IAlloc::realloc] is right for growing; refuted for shrinking. *)
Theorem default_realloc_honours_partial : forall h p prev new a,
  cheap_ok (cblocks h) -> In (p, lsize prev) (cblocks h) -> 0 < lsize prev -> lsize prev <= new ->
  (forall x, a = Some x -> good_canswer (lalign prev) new (cblocks h) x) ->
  realloc_post h p (lsize prev) (lalign prev) new (default_realloc p prev new a h).
Proof. exact default_realloc_post. Qed.
Print Assumptions default_realloc_honours_partial.
Example default_realloc_ex :
  let r := default_realloc 1000 (Lay 24 8) 64 (Some 2000) (CH [(1000, 24)] (fun a => a mod 256)) in
  fst r = Ptr 2000 /\ cblocks (snd r) = [(2000, 64)].
Proof. repeat split; reflexivity. Qed.
(** C17. *)
Theorem default_realloc_honours_refuted : exists h p prev new a,
  cheap_ok (cblocks h) /\ In (p, lsize prev) (cblocks h) /\ 0 < new /\
  good_canswer (lalign prev) new (cblocks h) a /\
  fst (default_realloc p prev new (Some a) h) = Fault.
Proof.
  exists (CH [(1600, 64)] (fun _ => 0)), 1600, (Lay 64 8), 8, 3200.
  split. { split; [repeat constructor; intros []|].
           intros x n y m [E | []] [E' | []]. congruence. }
  split; [left; reflexivity|]. split; [reflexivity|].
  split; [|reflexivity].
  split; [discriminate|]. split; [exists 400; reflexivity|]. split; [vm_compute; discriminate|].
  intros x m [E | []]. injection E as <- <-. right. vm_compute. discriminate.
Qed.
Print Assumptions default_realloc_honours_refuted.

(** C17: on Windows the size and alignment reach [aligned_malloc] exchanged: 64 bytes
    aligned to 8 become 8 bytes aligned to 64. *)
Theorem libc_windows_size_refuted : exists l, alignment (lalign l) /\ alignment (lsize l) /\
  fst (windows_malloc_args l) < lsize l.
Proof.
  exists (Lay 64 8). split; [exists 3; reflexivity|]. split; [exists 6; reflexivity|]. reflexivity.
Qed.
Print Assumptions libc_windows_size_refuted.
