(** Model of the conversions of [Duration] through [f64] (stabby/src/time.rs:35-46, 55-58).
    A finite [f64] is a sign and a number of units of 2^-1074, the least positive one.  Operations of IEEE 754 round to nearest, ties to even; casts from floats to
    integers truncate and saturate, and send NaN to 0 (Rust reference, used at time.rs:43-44). *)
From Coq Require Import NArith Bool.
From Verif Require Import M_Time.
Local Open Scope N_scope.

(** [f64] (time.rs:40, 56). *)
Inductive f64 := Nan | Inf (neg : bool) | Fin (neg : bool) (units : N).
(** 1.0 in units (time.rs:44). *)
Definition ONE : N := 2 ^ 1074.
(** IEEE 754 rounding of a quotient to an integer, ties to even (used by the product of time.rs:44, the conversion and quotient of 57). *)
Definition nearest (a b : N) : N :=
  let q := a / b in let r := a mod b in
  if 2 * r <? b then q else if b <? 2 * r then q + 1 else if N.even q then q else q + 1.
(** IEEE 754 rounding of [p/q] units to 53 significant bits (the operations of time.rs:44, 57); without overflow, which needs 2^2098 units. *)
Definition round64 (p q : N) : N :=
  let k := N.log2 (p / q) - 52 in nearest p (q * 2 ^ k) * 2 ^ k.
(** time.rs:40-46 [from_secs_f64]; [None]: the assertion of 41 fails.  [floor] and [%] are exact (IEEE 754); infinity [% 1.] is NaN. *)
Definition from_secs_f64 (s : f64) : option duration :=
  match s with
  | Nan | Inf true => None
  | Inf false => Some (Dur (2 ^ 64 - 1) 0)
  | Fin neg n =>
      if neg && negb (n =? 0) then None
      else Some (Dur (N.min (n / ONE) (2 ^ 64 - 1)) (N.min (round64 (n mod ONE * 1000000000) 1 / ONE) (2 ^ 32 - 1)))
  end.
(** time.rs:56-58 [as_secs_f64]: a conversion from [u128] and a quotient. *)
Definition as_secs_f64 (d : duration) : f64 := Fin false (round64 (round64 (as_nanos d * ONE) 1) 1000000000).
