(** What adapters should do: nothing. *)
From Coq Require Import List Arith NArith Bool.
From Verif Require Import M_Layout M_Result M_Dyn M_Waker M_Adapter S_Dyn.
Import ListNotations.

(** The layers are trait objects around the next one, whose last trait is [h] ([Iterator] or [Future]), made and moved as [S_Dyn.built] says. *)
Fixpoint layered {S} (pg : program) (reg : list nat -> nat) (mem : nat -> nat) (h : nat) (i : iter S) : Prop :=
  match i with
  | Base _ _ _ => True
  | Layer _ o i => built pg reg mem true o (type_of i) (addr_of i) /\ nth_error (heads (vtype o)) 0 = Some h /\ layered pg reg mem h i
  end.
(** What is left when the layers are removed; how many there are. *)
Fixpoint inside {S} (i : iter S) : S := match i with Base _ _ st => st | Layer _ _ i => inside i end.
Fixpoint depth {S} (i : iter S) : nat := match i with Base _ _ _ => 0 | Layer _ _ i => Datatypes.S (depth i) end.
(** The same item (or no item). *)
Definition same_item (T : ty) (a b : option (list N)) : Prop :=
  match a, b with Some x, Some y => exists v, decode T x = Some v /\ decode T y = Some v | None, None => True | _, _ => False end.
(** The items of the base iterator, and its state afterwards. *)
Fixpoint base_nexts {S} (f : S -> option (list N) * S) (n : nat) (st : S) : list (option (list N)) * S :=
  match n with O => ([], st) | Datatypes.S n => let (r, st) := f st in let (l, st) := base_nexts f n st in (r :: l, st) end.
(** Its items are values of [T]. *)
Definition yields {S} (T : ty) (f : S -> option (list N) * S) : Prop := forall st v, fst (f st) = Some v -> exists x, decode T v = Some x.
(** [n] wrappers around a waker. *)
Fixpoint wrap (n : nat) (w : waker) : waker := match n with O => w | Datatypes.S n => wrap n (Borrowed 0 w) end.
Fixpoint base_polls {S} (f : S -> waker -> option (list N) * S) (ws : list waker) (st : S) : list (option (list N)) * S :=
  match ws with [] => ([], st) | w :: ws => let (r, st) := f st w in let (l, st) := base_polls f ws st in (r :: l, st) end.
(** The waker of the executor a waker is about. *)
Fixpoint root (k : waker) : M_Waker.owned := match k with Own o => o | Borrowed _ u => root u end.
(** A future that uses its waker only to wake or clone it: another waker with the same root makes no difference. *)
Definition same_waker_same {S} (f : S -> waker -> option (list N) * S) : Prop := forall st w w', root w = root w' -> f st w = f st w'.
