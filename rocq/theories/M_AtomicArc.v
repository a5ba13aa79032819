(** Model of [AtomicArc] (stabby-abi/src/alloc/sync.rs:830-934): one cell used by any number of
    threads, whose content is an Arc among any number of allocations.  A scheduler chooses which
    thread makes its next atomic step; each atomic operation is one step.  Strong counts do not overflow
    here (M_Arc deals with that), there are no Weak, and an allocation's number is never used again
    (the [current] Arc of a comparison is borrowed, so its address cannot be). *)
From Coq Require Import List Arith Bool.
From Verif Require Import M_Import.
Import ListNotations.

(** Points of a call: between the load of the pointer and the increment of its count
    (sync.rs:868-870, 890-898, 925-926). *)
Inductive apc := AIdle | AIncr (b : nat).

(** sync.rs:832-835: the pointer.  For each allocation: its strong count, how many Arcs to it exist outside
    of the cell, whether its value was dropped.  [next] is the next allocation's number. [fault]: a count of a released
    allocation was changed.  [got]: what loads, comparisons and exchanges returned. *)
Record acell := ACell {
  cell : option nat;
  st : nat -> nat; hs : nat -> nat; gone : nat -> bool; next : nat;
  apcs : nat -> apc; fault : bool; got : list (nat * option nat)
}.
(** sync.rs:858-865 [new], of no Arc. *)
Definition acell_new : acell :=
  ACell None (fun _ => 0) (fun _ => 0) (fun _ => false) 0 (fun _ => AIdle) false [].

(** Calls; [b] stands for an Arc to allocation [b]. *)
Inductive aop :=
| ANew                                    (* Arc::new, sync.rs:70-72 *)
| AClone (b : nat)                        (* Arc::clone, sync.rs:301-306 *)
| ADropArc (b : nat)                      (* Arc::drop, sync.rs:286-298 *)
| ALoad                                   (* sync.rs:867-876 *)
| AStore (n : option nat)                 (* sync.rs:878-881 *)
| AIs (cur : option nat)                  (* sync.rs:885-905 *)
| ACas (cur n : option nat).              (* sync.rs:909-933 *)

(** The decrement of Arc::drop, sync.rs:286-298, destroying the value if the count was 1. *)
Definition a_release (b : nat) (s : acell) : acell :=
  ACell (cell s) (upd (st s) b (pred (st s b))) (hs s)
    (if st s b =? 1 then upd (gone s) b true else gone s) (next s) (apcs s) (fault s || gone s b) (got s).
(** Pointer comparison, sync.rs:894 and the compare_exchange of sync.rs:918. *)
Definition same (x y : option nat) : bool :=
  match x, y with None, None => true | Some a, Some b => a =? b | _, _ => false end.
(** An Arc is moved into the call (sync.rs:878, 909-913). *)
Definition give (n : option nat) (s : acell) : acell :=
  match n with
  | None => s
  | Some b => ACell (cell s) (st s) (upd (hs s) b (pred (hs s b))) (gone s) (next s) (apcs s) (fault s) (got s)
  end.
(** An Arc is returned by the call of thread [t] (sync.rs:867-876, 885-933). *)
Definition receive (t : nat) (n : option nat) (s : acell) : acell :=
  ACell (cell s) (st s) (match n with None => hs s | Some b => upd (hs s) b (S (hs s b)) end)
    (gone s) (next s) (upd (apcs s) t AIdle) (fault s) (got s ++ [(t, n)]).
(** The pointer is written (sync.rs:880, 918). *)
Definition put_cell (n : option nat) (s : acell) : acell :=
  ACell n (st s) (hs s) (gone s) (next s) (apcs s) (fault s) (got s).
(** The content was read, and is about to be cloned (sync.rs:868-870, 890-898, 925-926). *)
Definition fetch (t : nat) (s : acell) : acell :=
  match cell s with
  | None => receive t None s
  | Some b => ACell (cell s) (st s) (hs s) (gone s) (next s) (upd (apcs s) t (AIncr b)) (fault s) (got s)
  end.
(** Do the Arcs that the call uses exist (one is borrowed, the other moved in)? (the parameters of sync.rs:878-913). *)
Definition has (s : acell) (x : option nat) (k : nat) : bool :=
  match x with None => true | Some b => k <=? hs s b end.

(** The next step of thread [t]; an idle thread starts [o] (nothing happens if the Arcs it uses do not exist) (sync.rs:866-933, see [aop]). *)
Definition astep (s : acell) (act : nat * aop) : acell :=
  let (t, o) := act in
  match apcs s t with
  | AIncr b =>
      receive t (Some b)
        (ACell (cell s) (upd (st s) b (S (st s b))) (hs s) (gone s) (next s) (apcs s) (fault s || gone s b) (got s))
  | AIdle =>
      match o with
      | ANew => ACell (cell s) (upd (st s) (next s) 1) (upd (hs s) (next s) 1) (gone s) (S (next s)) (apcs s) (fault s) (got s)
      | AClone b =>
          if has s (Some b) 1 then
            ACell (cell s) (upd (st s) b (S (st s b))) (upd (hs s) b (S (hs s b))) (gone s) (next s) (apcs s)
              (fault s || gone s b) (got s)
          else s
      | ADropArc b => if has s (Some b) 1 then a_release b (give (Some b) s) else s
      | ALoad => fetch t s
      | AStore n => if has s n 1 then put_cell n (give n s) else s
      | AIs cur => if has s cur 1 then if same (cell s) cur then s else fetch t s else s
      | ACas cur n =>
          if has s cur 1 && has s n (if same cur n then 2 else 1) then
            if same (cell s) cur then receive t cur (put_cell n (give n s))
            else fetch t (give n s)
          else s
      end
  end.
(** Any execution (sync.rs:866-933 by any number of threads). *)
Definition arun (sched : list (nat * aop)) (s : acell) : acell := fold_left astep sched s.
(** sync.rs:841-853 [Drop], when no call is running. *)
Definition acell_drop (s : acell) : acell :=
  match cell s with None => s | Some b => put_cell None (a_release b s) end.
