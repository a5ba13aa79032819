(** Model of [ArcSlice] and [WeakSlice] (stabby-abi/src/alloc/sync.rs:400-724), used by one
    thread.  Their counters are handled as those of [Arc] and [Weak] (M_Arc, which deals with threads).
    The elements' memory is that of M_Vec. *)
From Coq Require Import List NArith Bool Arith.
From Verif Require Import M_Alloc M_Vec M_Arc.
Import ListNotations.
Local Open Scope N_scope.

(** An allocation shared by slices (sync.rs:404-407): memory, length, and in the prefix the
    capacity, the counters, whether the allocator was stored.  Then the handles that exist, and
    ghosts: whether the elements are there, those dropped, the vector made of it, the number of
    releases of the memory, whether a fault occurred; and the answers given. *)
Record shared (E : Type) := Shared {
  a_mem : list (option E); a_len : nat; a_cap : N;
  a_strong : N; a_weak : N; a_init : bool;
  a_arcs : nat; a_weaks : nat;
  a_there : bool; a_dropped : list E; a_vec : option (vec E); a_freed : nat; a_bad : bool;
  a_log : list answer
}.
Arguments Shared {E}. Arguments a_mem {E}. Arguments a_len {E}. Arguments a_cap {E}. Arguments a_strong {E}.
Arguments a_weak {E}. Arguments a_init {E}. Arguments a_arcs {E}. Arguments a_weaks {E}. Arguments a_there {E}.
Arguments a_dropped {E}. Arguments a_vec {E}. Arguments a_freed {E}. Arguments a_bad {E}. Arguments a_log {E}.

(** Writes of the counters; a fault if the memory was released or became a vector's (sync.rs:480, 589, 651-690, 708-716). *)
Definition a_counts {E} (st we : N) (s : shared E) : shared E :=
  Shared (a_mem s) (a_len s) (a_cap s) st we (a_init s) (a_arcs s) (a_weaks s) (a_there s) (a_dropped s)
    (a_vec s) (a_freed s)
    (a_bad s || (0 <? a_freed s)%nat || match a_vec s with Some _ => true | None => false end) (a_log s).
(** Changes of the handles that exist, and answers (sync.rs:396-405). *)
Definition a_handles {E} (a w : nat) (l : list answer) (s : shared E) : shared E :=
  Shared (a_mem s) (a_len s) (a_cap s) (a_strong s) (a_weak s) (a_init s) a w (a_there s) (a_dropped s)
    (a_vec s) (a_freed s) (a_bad s) (a_log s ++ l).

(** sync.rs:500-538 [From<Vec>]; [zst]: is the allocator a zero-sized type?  With capacity 0
    (line 517) a new block is allocated, and the allocator is written (line 529) in the prefix of
    the vector's dangling pointer instead of that of the new block: a fault unless it has no bytes. *)
Definition slice_of_vec {E} (zst : bool) (v : vec E) : shared E :=
  if N.eqb (vcap v) 0 then Shared [] (vlen v) 0 1 1 zst 1 0 true [] None 0 (negb zst) []
  else Shared (slots v) (vlen v) (vcap v) 1 1 true 1 0 true [] None 0 false [].

(** sync.rs:425-428 [as_slice]: [None] if the elements cannot be read. *)
Definition slice_read {E} (s : shared E) : option (list E) :=
  if (0 <? a_freed s)%nat then None else
  if a_there s then get_slots 0 (a_len s) (a_mem s) else None.

(** sync.rs:712-724 [WeakSlice::drop]. *)
Definition weak_release {E} (s : shared E) : shared E :=
  let s1 := a_counts (a_strong s) (dec (a_weak s)) s in
  if a_weak s =? 1 then
    Shared (a_mem s1) (a_len s1) (a_cap s1) (a_strong s1) (a_weak s1) (a_init s1) (a_arcs s1) (a_weaks s1)
      (a_there s1) (a_dropped s1) (a_vec s1) (S (a_freed s1)) (a_bad s1 || negb (a_init s1)) (a_log s1)
  else s1.
(** sync.rs:585-597 [ArcSlice::drop]. *)
Definition strong_release {E} (s : shared E) : shared E :=
  let s1 := a_counts (dec (a_strong s)) (a_weak s) s in
  if a_strong s =? 1 then
    weak_release
      (Shared (a_mem s1) (a_len s1) (a_cap s1) (a_strong s1) (a_weak s1) (a_init s1) (a_arcs s1) (a_weaks s1)
        false (a_dropped s1 ++ match slice_read s1 with Some l => l | None => [] end) (a_vec s1) (a_freed s1)
        (a_bad s1 || match slice_read s1 with Some _ => false | None => true end) (a_log s1))
  else s1.

(** sync.rs:651-665 [WeakSlice::upgrade], with no other thread. *)
Definition slice_upgrade {E} (s : shared E) : shared E :=
  let c := a_strong s in
  if (c =? 0) || (c =? top_bit) then a_handles (a_arcs s) (a_weaks s) [Upgraded false] (a_counts 0 (a_weak s) s)
  else a_handles (S (a_arcs s)) (a_weaks s) [Upgraded true]
         (a_counts (clear_top (inc (set_top c))) (a_weak s) s).

(** sync.rs:451-453 [is_unique]. *)
Definition slice_unique {E} (s : shared E) : bool := (a_strong s =? 1) && (a_weak s =? 1).
(** sync.rs:540-563 [TryFrom<ArcSlice> for Vec] ([T] is not zero-sized). *)
Definition vec_of_slice {E} (s : shared E) : shared E :=
  if slice_unique s then
    Shared (a_mem s) (a_len s) (a_cap s) (a_strong s) (a_weak s) (a_init s) (pred (a_arcs s)) (a_weaks s)
      false (a_dropped s) (Some (Vec (a_mem s) (a_len s) (a_cap s))) (a_freed s)
      (a_bad s || (0 <? a_freed s)%nat || negb (a_init s)) (a_log s ++ [Unique IntoInner true])
  else a_handles (a_arcs s) (a_weaks s) [Unique IntoInner false] s.

(** A whole operation, if the handle it needs exists.  The operations of [Arc] (M_Arc) name their
    counterparts of sync.rs:414-724: [OUnique GetMut] is 430-433 [as_slice_mut],
    [OUnique IntoInner] the conversion to [Vec]; [ArcSlice] has no [make_mut] and is not a trait object's pointer. *)
Definition slice_op {E} (s : shared E) (o : op) : shared E :=
  match o with
  | OClone => if (a_arcs s =? 0)%nat then s else
      a_handles (S (a_arcs s)) (a_weaks s) [] (a_counts (inc (a_strong s)) (a_weak s) s)
  | ODowngrade => if (a_arcs s =? 0)%nat then s else
      a_handles (a_arcs s) (S (a_weaks s)) [] (a_counts (a_strong s) (inc (a_weak s)) s)
  | ODropArc => if (a_arcs s =? 0)%nat then s else
      a_handles (pred (a_arcs s)) (a_weaks s) [] (strong_release s)
  | ORead => if (a_arcs s =? 0)%nat then s else
      match slice_read s with
      | Some _ => s
      | None => Shared (a_mem s) (a_len s) (a_cap s) (a_strong s) (a_weak s) (a_init s) (a_arcs s) (a_weaks s)
                  (a_there s) (a_dropped s) (a_vec s) (a_freed s) true (a_log s)
      end
  | OStrongCount => if (a_arcs s =? 0)%nat then s else a_handles (a_arcs s) (a_weaks s) [Count (a_strong s)] s
  | OWeakCount => if (a_arcs s =? 0)%nat then s else a_handles (a_arcs s) (a_weaks s) [Count (a_weak s)] s
  | OWeakClone => if (a_weaks s =? 0)%nat then s else
      a_handles (a_arcs s) (S (a_weaks s)) [] (a_counts (a_strong s) (inc (a_weak s)) s)
  | OUpgrade => if (a_weaks s =? 0)%nat then s else slice_upgrade s
  | ODropWeak => if (a_weaks s =? 0)%nat then s else
      a_handles (a_arcs s) (pred (a_weaks s)) [] (weak_release s)
  | OUnique GetMut => if (a_arcs s =? 0)%nat then s else
      a_handles (a_arcs s) (a_weaks s) [Unique GetMut (slice_unique s)] s
  | OUnique IntoInner => if (a_arcs s =? 0)%nat then s else vec_of_slice s
  | OUnique MakeMut | ODynWeakDrop => s
  end.
(** Any history of operations on the shared slice made of a vector (sync.rs:396-700). *)
Definition slice_history {E} (zst : bool) (v : vec E) (ops : list op) : shared E :=
  fold_left slice_op ops (slice_of_vec zst v).

(** The allocation of an [Arc] (sync.rs:31-34) with [n] Arcs, seen as memory for one element. *)
Definition arc_alloc {E} (x : E) (n : nat) : shared E :=
  Shared [Some x] 1 0 (N.of_nat n) 1 true n 0 true [] None 0 false [].
(** sync.rs:484-494 [From<Arc>]: the capacity is written, the pointer is copied, and then the Arc, which was
    not forgotten, is dropped (one handle is replaced by one handle, but the count decreases). *)
Definition slice_of_arc {E} (s : shared E) : shared E :=
  strong_release
    (Shared (a_mem s) 1 1 (a_strong s) (a_weak s) (a_init s) (a_arcs s) (a_weaks s) (a_there s)
       (a_dropped s) (a_vec s) (a_freed s) (a_bad s) (a_log s)).

(** sync.rs:670-684 [force_upgrade] ([T: Copy], so elements never need dropping and stay readable while the
    memory is there). *)
Definition force_upgrade {E} (s : shared E) : shared E :=
  let s1 := a_counts (inc (a_strong s)) (a_weak s) s in
  let s2 := if (a_strong s =? 0) || (a_strong s =? top_bit) then a_counts (a_strong s1) (inc (a_weak s1)) s1 else s1 in
  Shared (a_mem s2) (a_len s2) (a_cap s2) (a_strong s2) (a_weak s2) (a_init s2) (S (a_arcs s2)) (a_weaks s2)
    true (a_dropped s2) (a_vec s2) (a_freed s2) (a_bad s2) (a_log s2).
(** A whole operation on a slice of [Copy] elements: as [slice_op], or sync.rs:670-684 ([None]). *)
Definition copy_slice_op {E} (s : shared E) (f : option op) : shared E :=
  match f with
  | Some o => slice_op s o
  | None => if (a_weaks s =? 0)%nat then s else force_upgrade s
  end.
