(** What wakers should do: each stands for a waker of the executor. *)
From Coq Require Import List Arith Bool.
From Verif Require Import M_Waker.
Import ListNotations.

(** The wakers at hand, and those of the calls in progress, by the number of the executor's waker they stand for; [true]: the call holds the owned waker.
    [woken]: the wakers of the executor woken so far, last first. *)
Record spec := Spec { pool : list nat; frames : list (nat * bool); woken : list nat }.
Definition find (s : spec) (x : source) : option nat :=
  match x with SOwn k => nth_error (pool s) k | SFrame j | SUnder j => option_map fst (nth_error (frames s) j) end.
Definition spec_step (s : spec) (o : op) : spec :=
  match o with
  | OpClone x => match find s x with Some i => Spec (i :: pool s) (frames s) (woken s) | None => s end
  | OpWakeRef x => match find s x with Some i => Spec (pool s) (frames s) (i :: woken s) | None => s end
  | OpWake k => match nth_error (pool s) k with Some i => Spec (take k (pool s)) (frames s) (i :: woken s) | None => s end
  | OpDrop k => Spec (take k (pool s)) (frames s) (woken s)
  | OpEnter _ (SOwn k) => match nth_error (pool s) k with Some i => Spec (take k (pool s)) ((i, true) :: frames s) (woken s) | None => s end
  | OpEnter _ x => match find s x with Some i => Spec (pool s) ((i, false) :: frames s) (woken s) | None => s end
  | OpExit => match frames s with [] => s | (i, b) :: fs => Spec (if b then i :: pool s else pool s) fs (woken s) end
  end.
Definition spec_run (s : spec) (l : list op) : spec := fold_left spec_step l s.
Definition spec_start (ids : list nat) : spec := Spec ids [] [].
(** Some waker that has to be released stands for [i]. *)
Definition in_use (s : spec) (i : nat) : Prop := In i (pool s) \/ In (i, true) (frames s).

(** What the log says. *)
Fixpoint wakes (l : list event) : list nat := match l with [] => [] | EWake i :: l => i :: wakes l | _ :: l => wakes l end.
Fixpoint clones (i : nat) (l : list event) : nat := match l with [] => 0 | EClone j :: l => (if i =? j then 1 else 0) + clones i l | _ :: l => clones i l end.
Fixpoint drops (i : nat) (l : list event) : nat := match l with [] => 0 | EDrop j :: l => (if i =? j then 1 else 0) + drops i l | _ :: l => drops i l end.
(** The wakers made from [StableWaker<_, DefaultAllocator>]. *)
Definition default_alloc (o : op) : Prop := match o with OpEnter a _ => a = 0 | _ => True end.
