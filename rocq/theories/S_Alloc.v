(** Specifications for allocation (C14-C17), independent of the functions of [M_Alloc]
    (only its records are used). *)
From Coq Require Import NArith List.
From Verif Require Import M_Alloc.
Import ListNotations.
Local Open Scope N_scope.

(** [y] is the first multiple of [a] that is at least [x]. *)
Definition first_aligned (a x y : N) : Prop :=
  x <= y /\ (a | y) /\ forall z, x <= z -> (a | z) -> y <= z.

(** An alignment: a power of two. *)
Definition alignment (a : N) : Prop := exists k, a = 2 ^ k.

(** A layout [r] has room for a part [l] at offset 0 and a part [o] after it, aligned. *)
Definition holds_both (l o r : lay) : Prop :=
  exists off, lsize l <= off /\ (lalign o | off) /\ off + lsize o <= lsize r.

(** Byte ranges given as start and length. *)
Definition inside (p n q m : N) : Prop := q <= p /\ p + n <= q + m.
(** Disjoint ranges. *)
Definition apart (p n q m : N) : Prop := p + n <= q \/ q + m <= p.

(** What a successful answer of the global allocator for [l] promises, the blocks
    [bs] being live: non-null, aligned, within the address space, apart from every live block. *)
Definition good_answer (l : lay) (bs : list (N * lay)) (ans : N) : Prop :=
  ans <> 0 /\ (lalign l | ans) /\ ans + lsize l <= 2 ^ 64 /\
  forall q m, In (q, m) bs -> apart ans (lsize l) q (lsize m).

(** What a successful [posix_memalign]/[realloc] promises. *)
Definition good_canswer (a n : N) (bs : list (N * N)) (ans : N) : Prop :=
  ans <> 0 /\ (a | ans) /\ ans + n <= 2 ^ 64 /\
  forall q m, In (q, m) bs -> apart ans n q m.

(** C heaps: blocks are apart and start at different addresses. *)
Definition cheap_ok (bs : list (N * N)) : Prop :=
  NoDup (map fst bs) /\
  forall p n q m, In (p, n) bs -> In (q, m) bs -> p <> q -> apart p n q m.

(** Requests whose size is a multiple of the alignment, or whose alignment is at most
    that of four words: the ones for which [RustAlloc] leaves enough room. *)
Definition well_sized (req : lay) : Prop := lalign req <= 32 \/ (lalign req | lsize req).
(** Requests that can exist in practice: far below the address space. *)
Definition req_ok (req : lay) : Prop :=
  alignment (lalign req) /\ lalign req <= 2 ^ 61 /\ lsize req <= 2 ^ 61.

(** The pointer [p] leaves a client's list of owned allocations. *)
Definition disown (p : N) (o : list (N * lay)) : list (N * lay) :=
  filter (fun x => negb (N.eqb (fst x) p)) o.

(** Histories of a client of [RustAlloc] that owns the pointers it was given: it
    allocates, reallocates and frees owned pointers in any order; the global allocator
    answers as it promises, and succeeds. *)
Inductive rust_reach : gheap -> list (N * lay) -> Prop :=
| rr_init : rust_reach (GH [] (fun _ => None)) []
| rr_alloc g o req ans p g' l :
    rust_reach g o -> req_ok req ->
    rust_alloc_ask req = Some l -> good_answer l (live g) ans ->
    rust_alloc req ans g = (Ptr p, g') -> rust_reach g' ((p, req) :: o)
| rr_free g o p req g' r :
    rust_reach g o -> In (p, req) o -> rust_free p g = (r, g') -> rust_reach g' (disown p o)
| rr_realloc g o p req new ans q g' b l l' :
    rust_reach g o -> In (p, req) o -> new <= 2 ^ 61 ->
    rust_realloc_ask p new g = Some (b, l, l') ->
    good_answer l' (filter (fun x => negb (N.eqb (fst x) b)) (live g)) ans ->
    rust_realloc p new ans g = (Ptr q, g') ->
    rust_reach g' ((q, Lay new (lalign req)) :: disown p o).

(** The first [n] bytes at [p] are found at [q] afterwards. *)
Definition content_kept (h h' : cheap) (p q n : N) : Prop :=
  forall i, i < n -> cmem h' (q + i) = cmem h (p + i).

(** What a reallocation of [(p, old)] into [new] bytes aligned to [al] is to guarantee. *)
Definition realloc_post (h : cheap) (p old al new : N) (r : outcome * cheap) : Prop :=
  match fst r with
  | Fault => False
  | Null => snd r = h
  | Ptr q => In (q, new) (cblocks (snd r)) /\ (al | q) /\
             content_kept h (snd r) p q (N.min old new) /\
             (forall x m, In (x, m) (cblocks h) -> x <> p ->
                In (x, m) (cblocks (snd r)) /\ forall i, i < m -> cmem (snd r) (x + i) = cmem h (x + i)) /\
             (forall m, In (p, m) (cblocks (snd r)) -> q = p)
  end.

(** The other blocks. *)
Definition others (p : N) (bs : list (N * N)) : list (N * N) := filter (fun b => negb (N.eqb (fst b) p)) bs.
