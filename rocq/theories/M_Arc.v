(** Model of [Arc] and [Weak] (stabby-abi/src/alloc/sync.rs:31-399): one shared allocation used by
    any number of threads.  A scheduler chooses which thread makes its next atomic step; each atomic
    operation of the code is one step.  Values of atomics are read in modification order
    (the orderings requested by the code are dealt with in M_ArcOrder).
    The content of the value is left out: only whether it is still there matters here.
    A fault (use of released memory or of a value that is gone) is recorded and execution goes on. *)
From Coq Require Import List NArith Bool Arith.
Import ListNotations.
Local Open Scope N_scope.

(** core::sync::atomic::AtomicUsize on 64-bit targets: additions and subtractions wrap (the counters of alloc/mod.rs:227-239). *)
Definition usize_mod : N := 2 ^ 64.
(** sync.rs:40 [USIZE_TOP_BIT]. *)
Definition top_bit : N := 2 ^ 63.
(** core::sync::atomic [fetch_add(1)]: the new content (called at sync.rs:304, 338, 367, 378). *)
Definition inc (x : N) : N := (x + 1) mod usize_mod.
(** core::sync::atomic [fetch_sub(1)]: the new content (called at sync.rs:289, 386). *)
Definition dec (x : N) : N := (x + (usize_mod - 1)) mod usize_mod.
(** sync.rs:360 [fetch_or(USIZE_TOP_BIT)]: the new content. *)
Definition set_top (x : N) : N := N.lor x top_bit.
(** sync.rs:368 [fetch_and(!USIZE_TOP_BIT)]: the new content. *)
Definition clear_top (x : N) : N := N.land x (top_bit - 1).

(** An allocation: the counters of the prefix (stabby-abi/src/alloc/mod.rs [AllocPrefix]) and, as
    ghosts, whether the value is there, how many times its destructor ran, how many times it was
    moved out, how many times the memory was released, and whether a fault occurred (alloc/mod.rs:227-239). *)
Record block := Block {
  strong : N; weak : N;
  alive : bool; dropped : nat; taken : nat; frees : nat; bad : bool
}.

(** Access to the prefix of an allocation: a fault once the memory is released (alloc/mod.rs:306-322). *)
Definition touch (b : block) : block :=
  Block (strong b) (weak b) (alive b) (dropped b) (taken b) (frees b)
    (bad b || (0 <? frees b)%nat).
(** Access to the value: a fault if it is no longer there (sync.rs:310-312). *)
Definition use (b : block) : block :=
  Block (strong b) (weak b) (alive b) (dropped b) (taken b) (frees b)
    (bad b || (0 <? frees b)%nat || negb (alive b)).
(** Writes of the two counters (sync.rs:289, 304, 360-368). *)
Definition set_strong (n : N) (b : block) : block :=
  Block n (weak b) (alive b) (dropped b) (taken b) (frees b) (bad b).
(** Likewise, sync.rs:338, 378, 386. *)
Definition set_weak (n : N) (b : block) : block :=
  Block (strong b) n (alive b) (dropped b) (taken b) (frees b) (bad b).
(** sync.rs:295 [core::ptr::drop_in_place]. *)
Definition destroy (b : block) : block :=
  let b := use b in
  Block (strong b) (weak b) false (S (dropped b)) (taken b) (frees b) (bad b).
(** sync.rs:264 [core::ptr::read], after which the value belongs to the caller. *)
Definition move_out (b : block) : block :=
  let b := use b in
  Block (strong b) (weak b) false (dropped b) (S (taken b)) (frees b) (bad b).
(** sync.rs:391-394: reads the allocator out of the prefix, and releases the memory. *)
Definition free (b : block) : block :=
  let b := touch b in
  Block (strong b) (weak b) (alive b) (dropped b) (taken b) (S (frees b)) (bad b).

(** The users of sync.rs:254-256 [is_unique]: 194-200 [get_mut], 239-252 [make_mut],
    260-268 [try_into_inner]. *)
Inductive unique_use := GetMut | MakeMut | IntoInner.

(** Operations a thread may start. *)
Inductive op :=
| OClone        (* sync.rs:301-306 Arc::clone *)
| ODowngrade    (* sync.rs:335-340 Arc::downgrade *)
| ODropArc      (* sync.rs:286-298 Arc::drop *)
| ORead         (* sync.rs:310-312 Arc::deref *)
| OStrongCount  (* sync.rs:212-214 *)
| OWeakCount    (* sync.rs:228-230 *)
| OWeakClone    (* sync.rs:375-380 Weak::clone *)
| OUpgrade      (* sync.rs:358-372 Weak::upgrade *)
| ODropWeak     (* sync.rs:383-395 Weak::drop *)
| OUnique (k : unique_use)
| ODynWeakDrop. (* sync.rs:772-784, run when a Dyn<Weak<()>> is dropped (fatptr.rs) *)

(** Where a thread stands between two atomic steps (sync.rs:194-395). *)
Inductive pc :=
| Idle
| DropVal       (* line 295: the last Arc was dropped, about to destroy the value *)
| RelWeak       (* line 296 (267 for try_into_inner): about to release the Arcs' common Weak *)
| FreeMem       (* line 391: the last Weak was dropped, about to release the memory *)
| UpNone        (* line 363: about to store 0 *)
| UpAdd         (* line 367: about to increment *)
| UpAnd         (* line 368: about to clear the top bit *)
| Check (k : unique_use)  (* line 255: the strong count was 1, about to load the weak count *)
| Mutating      (* the caller has a mutable reference to the value *)
| CloneVal      (* line 245: about to clone the value into a new Arc *)
| DropOld       (* line 244: about to drop the Arc that is replaced *)
| TakeVal.      (* line 264: about to move the value out *)

(** Answers of operations, as seen by their callers (sync.rs:194-268, 358-372). *)
Inductive answer := Upgraded (ok : bool) | Unique (k : unique_use) (granted : bool) | Count (n : N).

(** The allocation, the position of each thread, and the handles that exist and are
    not in use by a running operation: how many Arc and how many Weak values.  Handles may be sent to and borrowed by
    any thread ([Arc] and [Weak] are Send and Sync, sync.rs:37-39,319-322), hence they
    form a common pool.  [log] is what operations answered. *)
Record sys := Sys {
  blk : block; pcs : list pc; arcs : nat; weaks : nat; log : list (nat * answer)
}.

(** sync.rs:92-118 [try_make_in] (through [new]): one Arc, counters at 1; [n] idle threads. *)
Definition arc_new (n : nat) : sys :=
  Sys (Block 1 1 true 0 0 0 false) (repeat Idle n) 1 0 [].

(** Replaces the position of a thread (threads using sync.rs:31-399). *)
Fixpoint put {A} (l : list A) (i : nat) (a : A) : list A :=
  match l, i with
  | [], _ => []
  | _ :: l, O => a :: l
  | x :: l, S i => x :: put l i a
  end.

(** Whether a thread is inside sync.rs:358-372 [upgrade], borrowing a Weak. *)
Definition upgrading (p : pc) : bool :=
  match p with UpNone | UpAdd | UpAnd => true | _ => false end.
(** A Weak can be dropped if one exists that is not borrowed.  All running upgrades may borrow
    the same Weak, so this is possible if there are two, or if no upgrade is running (sync.rs:358, 383). *)
Definition spare_weak (s : sys) : bool :=
  (1 <? weaks s)%nat || ((0 <? weaks s)%nat && negb (existsb upgrading (pcs s))).

(** sync.rs:286-298 (and 743-757): the decrement that starts dropping an Arc, as thread [t]. *)
Definition drop_strong (t : nat) (s : sys) : sys :=
  let b := touch (blk s) in
  Sys (set_strong (dec (strong b)) b)
    (put (pcs s) t (if strong b =? 1 then DropVal else Idle)) (arcs s) (weaks s) (log s).
(** sync.rs:383-395: the decrement that starts dropping a Weak, as thread [t]. *)
Definition drop_weak (t : nat) (s : sys) : sys :=
  let b := touch (blk s) in
  Sys (set_weak (dec (weak b)) b)
    (put (pcs s) t (if weak b =? 1 then FreeMem else Idle)) (arcs s) (weaks s) (log s).

(** One of the handles of the pool is taken by, or given by, an operation (sync.rs:286-306, 358-372). *)
Definition with_arcs (n : nat) (s : sys) : sys := Sys (blk s) (pcs s) n (weaks s) (log s).
(** Likewise, sync.rs:335-340, 375-395. *)
Definition with_weaks (n : nat) (s : sys) : sys := Sys (blk s) (pcs s) (arcs s) n (log s).

(** The first step of an operation by an idle thread [t].  Nothing happens if the handle it needs does
    not exist (the caller could not have written the call) (sync.rs:194-395, see [op]). *)
Definition start (t : nat) (o : op) (s : sys) : sys :=
  let b := touch (blk s) in
  match o with
  | OClone => match arcs s with O => s | S _ =>
      Sys (set_strong (inc (strong b)) b) (pcs s) (S (arcs s)) (weaks s) (log s) end
  | ODowngrade => match arcs s with O => s | S _ =>
      Sys (set_weak (inc (weak b)) b) (pcs s) (arcs s) (S (weaks s)) (log s) end
  | ODropArc => match arcs s with O => s | S a => drop_strong t (with_arcs a s) end
  | ORead => match arcs s with O => s | S _ => Sys (use (blk s)) (pcs s) (arcs s) (weaks s) (log s) end
  | OStrongCount => match arcs s with O => s | S _ =>
      Sys b (pcs s) (arcs s) (weaks s) (log s ++ [(t, Count (strong b))]) end
  | OWeakCount => match arcs s with O => s | S _ =>
      Sys b (pcs s) (arcs s) (weaks s) (log s ++ [(t, Count (weak b))]) end
  | OWeakClone => match weaks s with O => s | S _ =>
      Sys (set_weak (inc (weak b)) b) (pcs s) (arcs s) (S (weaks s)) (log s) end
  | OUpgrade => match weaks s with O => s | S _ =>
      Sys (set_strong (set_top (strong b)) b)
        (put (pcs s) t (if (strong b =? 0) || (strong b =? top_bit) then UpNone else UpAdd))
        (arcs s) (weaks s) (log s) end
  | ODropWeak => if spare_weak s then drop_weak t (with_weaks (pred (weaks s)) s) else s
  | OUnique k => match arcs s with O => s | S a =>
      if strong b =? 1 then Sys b (put (pcs s) t (Check k)) a (weaks s) (log s)
      else match k with
           | GetMut | IntoInner => Sys b (pcs s) (arcs s) (weaks s) (log s ++ [(t, Unique k false)])
           | MakeMut => Sys b (put (pcs s) t CloneVal) a (weaks s) (log s ++ [(t, Unique k false)])
           end end
  | ODynWeakDrop => if spare_weak s then drop_strong t (with_weaks (pred (weaks s)) s) else s
  end.

(** The next step of a thread [t] that is at [p]; an idle thread starts [o] (sync.rs:194-395, see [pc]). *)
Definition step (s : sys) (act : nat * op) : sys :=
  let (t, o) := act in
  let b := touch (blk s) in
  match nth_error (pcs s) t with
  | None => s
  | Some Idle => start t o s
  | Some DropVal => Sys (destroy (blk s)) (put (pcs s) t RelWeak) (arcs s) (weaks s) (log s)
  | Some RelWeak => drop_weak t s
  | Some FreeMem => Sys (free (blk s)) (put (pcs s) t Idle) (arcs s) (weaks s) (log s)
  | Some UpNone =>
      Sys (set_strong 0 b) (put (pcs s) t Idle) (arcs s) (weaks s) (log s ++ [(t, Upgraded false)])
  | Some UpAdd => Sys (set_strong (inc (strong b)) b) (put (pcs s) t UpAnd) (arcs s) (weaks s) (log s)
  | Some UpAnd =>
      Sys (set_strong (clear_top (strong b)) b) (put (pcs s) t Idle) (S (arcs s)) (weaks s)
        (log s ++ [(t, Upgraded true)])
  | Some (Check k) =>
      if weak b =? 1 then
        Sys b (put (pcs s) t (match k with IntoInner => TakeVal | _ => Mutating end)) (arcs s) (weaks s)
          (log s ++ [(t, Unique k true)])
      else match k with
           | GetMut | IntoInner =>
               Sys b (put (pcs s) t Idle) (S (arcs s)) (weaks s) (log s ++ [(t, Unique k false)])
           | MakeMut => Sys b (put (pcs s) t CloneVal) (arcs s) (weaks s) (log s ++ [(t, Unique k false)])
           end
  | Some Mutating => Sys (use (blk s)) (put (pcs s) t Idle) (S (arcs s)) (weaks s) (log s)
  | Some CloneVal => Sys (use (blk s)) (put (pcs s) t DropOld) (arcs s) (weaks s) (log s)
  | Some DropOld => drop_strong t s
  | Some TakeVal => Sys (move_out (blk s)) (put (pcs s) t RelWeak) (arcs s) (weaks s) (log s)
  end.
(** Any execution of sync.rs:31-399 on one allocation, by any number of threads. *)
Definition run (sched : list (nat * op)) (s : sys) : sys := fold_left step sched s.

(** One thread alone: runs its current operation to its end (no operation takes
    more than five further steps) (sync.rs:31-399). *)
Fixpoint finish (steps : nat) (o : op) (s : sys) : sys :=
  match steps, pcs s with
  | O, _ | _, [Idle] => s
  | S n, _ => finish n o (step s (0%nat, o))
  end.
(** One thread alone: a whole operation, from its start to its end (sync.rs:31-399). *)
Definition whole (s : sys) (o : op) : sys := finish 5 o (step s (0%nat, o)).
(** One thread alone: any history of operations (sync.rs:31-399). *)
Definition history (ops : list op) : sys := fold_left whole ops (arc_new 1).
