(** Specification of writes through shared references to the payload of a [Result]. *)
From Coq Require Import List Arith NArith Bool.
From Verif Require Import M_Layout S_Layout.
Import ListNotations.

(** The bytes [s'] have the same unused bits (those of [m]) as [s]. *)
Definition keeps_unused (m : mask) (s s' : list N) : Prop :=
  forall o b b' i, nth_error s o = Some b -> nth_error s' o = Some b' -> bit_unused m o i ->
    N.testbit b i = N.testbit b' i.
