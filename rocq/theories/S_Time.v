(** Specification of durations: their value in nanoseconds. *)
From Coq Require Import NArith ZArith.
From Verif Require Import M_Time.

(** The fields fit their types. *)
Definition dur_wf (d : duration) : Prop := (secs d < 2 ^ 64)%N /\ (nanos d < 2 ^ 32)%N.
(** A duration as every constructor but [new] builds it: sub-second nanoseconds. *)
Definition normal (d : duration) : Prop := (secs d < 2 ^ 64)%N /\ (nanos d < 1000000000)%N.
(** Number of nanoseconds. *)
Definition value (d : duration) : N := (secs d * 1000000000 + nanos d)%N.
(** Signed number of nanoseconds. *)
Definition svalue (d : duration) (s : sign) : Z :=
  match s with Positive => Z.of_N (value d) | Negative => (- Z.of_N (value d))%Z end.
(** Rounded toward zero to the microsecond. *)
Definition to_micros (z : Z) : Z := (Z.quot z 1000 * 1000)%Z.
