(** Specification of the restricted integers: the ranges, independently of the code. *)
From Coq Require Import NArith ZArith List.
Import ListNotations.

(** The values of a [w]-bit unsigned integer. *)
Definition fits_u (w v : N) : Prop := (v < 2 ^ w)%N.
(** The values of a [w]-bit two's complement integer. *)
Definition fits_i (w v : Z) : Prop := (- 2 ^ (w - 1) <= v < 2 ^ (w - 1))%Z.
(** Little-endian bytes of [v] on [k] bytes. *)
Fixpoint le_bytes (k : nat) (v : N) : list N :=
  match k with
  | O => []
  | S k' => (v mod 256)%N :: le_bytes k' (v / 256)%N
  end.
