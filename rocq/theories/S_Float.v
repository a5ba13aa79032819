(** C78: durations as numbers of seconds in floating point. *)
From Coq Require Import NArith Bool.
From Verif Require Import M_Time S_Time M_Float.
Local Open Scope N_scope.

(** Values of [f64] are those with 53 significant bits. *)
Definition representable (n : N) : Prop := exists m k, m < 2 ^ 53 /\ n = m * 2 ^ k.
Definition is_f64 (s : f64) : Prop := match s with Fin _ n => representable n /\ n < 2 ^ 1024 * ONE | _ => True end.
(** [s >= 0.]. *)
Definition nonneg (s : f64) : Prop := match s with Nan => False | Inf neg => neg = false | Fin neg n => neg = false \/ n = 0 end.
(** [s <= s'], for numbers that are not negative. *)
Definition le64 (s s' : f64) : Prop :=
  match s, s' with
  | Fin _ n, Fin _ n' => n <= n'
  | _, Inf false => True
  | _, _ => False
  end.
(** [v] nanoseconds are less than a nanosecond (and [2^-24]) below [n] units, and at most [2^-24] nanoseconds above. *)
Definition truncated (v n : N) : Prop := v * ONE <= n * 1000000000 + 2 ^ 1050 /\ n * 1000000000 < (v + 1) * ONE + 2 ^ 1050.
