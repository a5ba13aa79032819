(** Model of the memory orderings of sync.rs:31-399: which accesses to the shared value happen before
    its destruction or an exclusive access.  Each thread has a vector clock: how many of
    the accesses of each thread happen before its next step.  The strong counter carries the clock that its
    release sequence publishes (all its writes are read-modify-writes, which continue the sequence).
    Only the operations needed to share and to destroy are modelled (no [Weak]). *)
From Coq Require Import List Arith Bool.
From Verif Require Import M_Import.
Import ListNotations.

(** core::sync::atomic::Ordering, of the decrement of sync.rs:287-290 and of the load of
    sync.rs:213; both are Relaxed in the code. *)
Inductive ordering := Relaxed | AcqRel.
(** The ordering that the code requests (sync.rs:213,289). *)
Definition code_order : ordering := Relaxed.

(** Clocks (accesses made through sync.rs:310-312). *)
Definition clock := nat -> nat.
(** Likewise, what an Acquire at sync.rs:213, 289 would do. *)
Definition join (c d : clock) : clock := fun t => Nat.max (c t) (d t).

(** [holders]: the thread that owns each of the existing Arcs; [acc]: accesses made so far;
    [know]: the clock of each thread; [rel]: the clock carried by the strong counter;
    [excl]: for each destruction or exclusive access so far, the accesses made before it and the clock of
    the thread that makes it (alloc/mod.rs:227-239). *)
Record oblock := OBlock {
  count : nat; holders : list nat;
  acc : clock; know : nat -> clock; rel : clock;
  excl : list (clock * clock)
}.

(** sync.rs:92-118: thread 0 creates the Arc. *)
Definition oblock_new : oblock :=
  OBlock 1 [0] (fun _ => 0) (fun _ _ => 0) (fun _ => 0) [].

(** What a thread may do with an Arc it owns. *)
Inductive oop :=
| Access (t : nat)          (* sync.rs:310-312 deref, and use of the value *)
| OClone (t : nat)          (* sync.rs:301-306 *)
| Give (t u : nat)          (* t sends an Arc to u (spawn, channel: synchronises) *)
| ODrop (t : nat)           (* sync.rs:286-298 *)
| OGetMut (t : nat).        (* sync.rs:194-200: only the load of the strong count *)

(** Removes one handle of a thread (sync.rs:286-298). *)
Fixpoint remove_one (t : nat) (l : list nat) : list nat :=
  match l with [] => [] | x :: l => if x =? t then l else x :: remove_one t l end.
(** Whether a thread owns an Arc (sync.rs:31-35). *)
Definition owns (t : nat) (s : oblock) : bool := existsb (Nat.eqb t) (holders s).

(** One step, as thread [t] (sync.rs:31-399, see [oop]); nothing if it owns no Arc. *)
Definition ostep (o : ordering) (s : oblock) (op : oop) : oblock :=
  match op with
  | Access t =>
      if owns t s then
        let n := S (acc s t) in
        OBlock (count s) (holders s) (upd (acc s) t n) (upd (know s) t (upd (know s t) t n)) (rel s) (excl s)
      else s
  | OClone t =>
      if owns t s then OBlock (S (count s)) (t :: holders s) (acc s) (know s) (rel s) (excl s) else s
  | Give t u =>
      if owns t s then
        OBlock (count s) (u :: remove_one t (holders s)) (acc s)
          (upd (know s) u (join (know s u) (know s t))) (rel s) (excl s)
      else s
  | ODrop t =>
      if owns t s then
        let k := match o with Relaxed => know s t | AcqRel => join (know s t) (rel s) end in
        let r := match o with Relaxed => rel s | AcqRel => k end in
        OBlock (pred (count s)) (remove_one t (holders s)) (acc s) (upd (know s) t k) r
          (if count s =? 1 then (acc s, k) :: excl s else excl s)
      else s
  | OGetMut t =>
      if owns t s then
        let k := match o with Relaxed => know s t | AcqRel => join (know s t) (rel s) end in
        OBlock (count s) (holders s) (acc s) (upd (know s) t k) (rel s)
          (if count s =? 1 then (acc s, k) :: excl s else excl s)
      else s
  end.
(** Any execution (sync.rs:31-314). *)
Definition orun (o : ordering) (ops : list oop) : oblock := fold_left (ostep o) ops oblock_new.
