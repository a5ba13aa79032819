(** What users of [Arc] and [Weak] rely on, stated over handles only (no counters). *)
From Coq Require Import List NArith Bool Arith.
From Verif Require Import M_Arc.
Import ListNotations.

(** What became of the value. *)
Inductive fate := Held | Destroyed | Given.
(** How many Arc and Weak handles exist, and the fate of the value. *)
Record owners := Owners { n_arc : nat; n_weak : nat; value : fate }.

(** The effect of an operation on the handles: who exists, what became of the value, the answer. *)
Definition lose_arc (o : owners) : owners :=
  Owners (pred (n_arc o)) (n_weak o) (match n_arc o with 1 => Destroyed | _ => value o end).
Definition sole (o : owners) : bool := (n_arc o =? 1) && (n_weak o =? 0).
Definition effect (op : op) (o : owners) : owners * list answer :=
  if n_arc o =? 0 then
    match op with
    | OWeakClone => if n_weak o =? 0 then (o, []) else (Owners 0 (S (n_weak o)) (value o), [])
    | ODropWeak => (Owners 0 (pred (n_weak o)) (value o), [])
    | OUpgrade => if n_weak o =? 0 then (o, []) else (o, [Upgraded false])
    | _ => (o, [])
    end
  else
    match op with
    | OClone => (Owners (S (n_arc o)) (n_weak o) (value o), [])
    | ODowngrade => (Owners (n_arc o) (S (n_weak o)) (value o), [])
    | ODropArc => (lose_arc o, [])
    | ORead => (o, [])
    | OStrongCount => (o, [Count (N.of_nat (n_arc o))])
    | OWeakCount => (o, [Count (N.of_nat (S (n_weak o)))])
    | OWeakClone => if n_weak o =? 0 then (o, []) else (Owners (n_arc o) (S (n_weak o)) (value o), [])
    | ODropWeak => (Owners (n_arc o) (pred (n_weak o)) (value o), [])
    | OUpgrade => if n_weak o =? 0 then (o, []) else (Owners (S (n_arc o)) (n_weak o) (value o), [Upgraded true])
    | OUnique GetMut => (o, [Unique GetMut (sole o)])
    | OUnique MakeMut => if sole o then (o, [Unique MakeMut true]) else (lose_arc o, [Unique MakeMut false])
    | OUnique IntoInner =>
        if sole o then (Owners 0 0 Given, [Unique IntoInner true]) else (o, [Unique IntoInner false])
    | ODynWeakDrop => (Owners (n_arc o) (pred (n_weak o)) (value o), [])
    end.
(** A history of operations from a new Arc. *)
Definition owners_after (ops : list op) : owners * list answer :=
  fold_left (fun st op => let (o, l) := effect op (fst st) in (o, snd st ++ l)) ops
    (Owners 1 0 Held, []).

(** A program that never holds weak trait objects. *)
Definition no_dyn_weak (ops : list op) : Prop := ~ In ODynWeakDrop ops.

(** A thread between the two loads of [is_unique]. *)
Definition checking (p : pc) : bool := match p with Check _ => true | _ => false end.
(** At this point, an upgrade is not run by two threads at once, nor together with a test of uniqueness. *)
Definition calm (s : sys) : Prop :=
  forall i j p q, nth_error (pcs s) i = Some p -> nth_error (pcs s) j = Some q -> i <> j ->
    upgrading p = true -> upgrading q = false /\ checking q = false.
(** A schedule that is calm throughout. *)
Definition calm_run (sched : list (nat * op)) (s : sys) : Prop :=
  forall k, calm (run (firstn k sched) s).
(** No thread is within an operation. *)
Definition all_idle (s : sys) : Prop := forall p, In p (pcs s) -> p = Idle.
(** A thread that has, or is about to have, access to the value (from the code: it owns an Arc taken out
    of the pool, or is past the point where an upgrade decides to give one, or is destroying the value). *)
Definition reaches_value (p : pc) : bool :=
  match p with
  | Idle | RelWeak | FreeMem | UpNone => false
  | DropVal | UpAdd | UpAnd | Check _ | Mutating | CloneVal | DropOld | TakeVal => true
  end.
