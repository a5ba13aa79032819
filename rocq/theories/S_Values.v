(** Vocabulary about the values held by objects. *)
From Coq Require Import List Arith NArith Bool.
From Verif Require Import M_Layout M_Result.
Import ListNotations.

(** The object with bytes [s] holds, for each field [i], the value [vals[i]] at the
    offset [os[i]]. *)
Definition reads_at (fields : list ty) (os : list nat) (s : list N) (vals : list val) : Prop :=
  length vals = length fields /\
  forall i t o d, nth_error fields i = Some t -> nth_error os i = Some o -> layout t = Some d ->
    exists x, nth_error vals i = Some x /\ decode t (firstn (dsize d) (skipn o s)) = Some x.
