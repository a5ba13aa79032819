(** What iterating over fields should give. *)
From Coq Require Import List NArith Bool.
From Verif Require Import M_Report M_RepList.
Import ListNotations.

(** The first [n] answers of an iterator. *)
Fixpoint answers {S A} (step : S -> S * option A) (n : nat) (s : S) : list (option A) :=
  match n with
  | O => []
  | Datatypes.S n' => let '(s', x) := step s in x :: answers step n' s'
  end.
(** Its answers are the elements of [l], then nothing, for ever. *)
Definition yields {S A} (step : S -> S * option A) (s : S) (l : list A) : Prop :=
  forall n, answers step n s = firstn n (map Some l ++ repeat None n).
(** A report, read with its iterator, is the tree [r]. *)
Inductive reads_as : trep -> report -> Prop :=
| reads_report a n m v k fs fs' :
    a = TRep n m v k (fields a) -> yields next (fields a) fs -> reads_fields fs fs' -> reads_as a (Rep n m v k fs')
with reads_fields : list (list N * trep) -> list (list N * report) -> Prop :=
| reads_nil : reads_fields [] []
| reads_cons n t r fs fs' : reads_as t r -> reads_fields fs fs' -> reads_fields ((n, t) :: fs) ((n, r) :: fs').
(** Calls of [add_field]. *)
Definition declared (name module : list N) (version : N) (kind : tyty) (fs : list (list N * trep)) : builder :=
  fold_left (fun b f => add_field b (fst f) (snd f)) fs (new_builder name module version kind).
