(** Model of stabby/src/time.rs.  [u64]/[u32] are [N], [i64] is [Z] with explicit
    wrap-around; [None] is an overflow panic (builds with overflow checks), unless said
    otherwise.  The [f64] conversions (time.rs:40-46,56-58) are in M_Float, clocks in M_Instant. *)
From Coq Require Import NArith ZArith Bool.
From Verif Require Import M_Num.

(** time.rs:4-11 [Duration]. *)
Record duration := Dur { secs : N; nanos : N }.

(** time.rs:14-19 [new]. *)
Definition dur_new (s n : N) : duration := Dur s n.
(** time.rs:21-26 [from_millis]; the product is below 2^32, so is the [as u32]. *)
Definition from_millis (m : N) : duration :=
  Dur (m / 1000) (((m mod 1000) * 1000000) mod 2 ^ 32).
(** time.rs:28-33 [from_micros]. *)
Definition from_micros (m : N) : duration :=
  Dur (m / 1000000) (((m mod 1000000) * 1000) mod 2 ^ 32).
(** time.rs:52-54 [as_nanos], a [u128]. *)
Definition as_nanos (d : duration) : N := ((secs d * 1000000000 + nanos d) mod 2 ^ 128)%N.
(** time.rs:64-66 [subsec_micros]. *)
Definition subsec_micros (d : duration) : N := (nanos d / 1000)%N.
(** time.rs:68-70 [subsec_millis]. *)
Definition subsec_millis (d : duration) : N := (nanos d / 1000000)%N.
(** core [u64]/[u32] addition in a build with overflow checks (time.rs:74,75). *)
Definition checked_add (w a b : N) : option N :=
  if N.ltb (a + b) (2 ^ w) then Some (a + b)%N else None.
(** time.rs:72-78 [add_assign] (also [add] 79-85, [SystemTime] 191-202, [Instant] 264-275). *)
Definition dur_add (a b : duration) : option duration :=
  match checked_add 32 (nanos a) (nanos b) with
  | None => None
  | Some n =>
      match checked_add 64 (secs b) (n / 1000000000) with
      | None => None
      | Some s =>
          match checked_add 64 (secs a) s with
          | None => None
          | Some s' => Some (Dur s' (n mod 1000000000))
          end
      end
  end.
(** time.rs:4 [#[derive(PartialOrd, Ord)]]: lexicographic. *)
Definition dur_cmp (a b : duration) : comparison :=
  match N.compare (secs a) (secs b) with
  | Eq => N.compare (nanos a) (nanos b)
  | c => c
  end.
(** time.rs:4 [#[derive(PartialEq)]]. *)
Definition dur_eqb (a b : duration) : bool := N.eqb (secs a) (secs b) && N.eqb (nanos a) (nanos b).

(** core [Duration]: seconds and nanoseconds below 10^9 (its documented invariant) (core, used at time.rs:86-98). *)
Record core_duration := CDur { c_secs : N; c_nanos : N }.
(** core [Duration::new]: carries the nanoseconds, panics ([None]) on overflow (core, called at time.rs:94-98). *)
Definition core_duration_new (s n : N) : option core_duration :=
  match checked_add 64 s (n / 1000000000) with
  | Some s' => Some (CDur s' (n mod 1000000000))
  | None => None
  end.
(** time.rs:86-93 [From<core::time::Duration>]. *)
Definition dur_from_core (c : core_duration) : duration := Dur (c_secs c) (c_nanos c).
(** time.rs:94-98 [From<Duration> for core::time::Duration]. *)
Definition dur_into_core (d : duration) : option core_duration := core_duration_new (secs d) (nanos d).

(** ** [AtomicDuration] *)

(** time.rs:112-119 [Sign]. *)
Inductive sign := Positive | Negative.
(** time.rs:107-108 [SHIFT], [MASK]. *)
Definition SHIFT : Z := 20.
(** time.rs:108. *)
Definition MASK : Z := 1048575.
(** [x as u64] from [i64], [x as u32] from [i64] (time.rs:128,130). *)
Definition z_as_u (w : N) (z : Z) : N := Z.to_N (z mod Z.of_N (2 ^ w)).
(** time.rs:121-131 [i64_to_duration]; [None]: [-t] or [micros * 1000] overflows. *)
Definition i64_to_duration (t : Z) : option (duration * sign) :=
  let go (t : Z) (s : sign) :=
    let micros := z_as_u 32 (Z.land t MASK) in
    let sc := Z.shiftr t SHIFT in
    if N.ltb (micros * 1000) (2 ^ 32)
    then Some (dur_new (z_as_u 64 sc) (micros * 1000), s) else None in
  if Z.ltb t 0 then (if Z.eqb t (- 2 ^ 63) then None else go (- t)%Z Negative) else go t Positive.
(** time.rs:132-138 [duration_to_i64]; [<<] drops the high bits silently, [None]: the
    addition or the negation overflows. *)
Definition duration_to_i64 (d : duration) (s : sign) : option Z :=
  let hi := wrap 64 (Z.shiftl (wrap 64 (Z.of_N (secs d))) SHIFT) in
  let t := (hi + Z.of_N (subsec_micros d))%Z in
  if Z.ltb t (2 ^ 63) then
    match s with
    | Positive => Some t
    | Negative => if Z.eqb t (- 2 ^ 63) then None else Some (- t)%Z
    end
  else None.
(** time.rs:140 [RESOLUTION]. *)
Definition RESOLUTION : option duration := option_map fst (i64_to_duration 1).
(** time.rs:142 [MAX]. *)
Definition MAX : option duration := option_map fst (i64_to_duration (2 ^ 63 - 1)).
(** The cell is one [i64]; [load] time.rs:146-148. *)
Definition ad_load (cell : Z) : option (duration * sign) := i64_to_duration cell.
(** time.rs:152-154 [store]; also [new] 160-164. *)
Definition ad_store (d : duration) (s : sign) : option Z := duration_to_i64 d s.
(** time.rs:156-158 [swap]: the previous value and the new cell. *)
Definition ad_swap (cell : Z) (d : duration) (s : sign) : option ((duration * sign) * Z) :=
  match duration_to_i64 d s with
  | Some c' => match i64_to_duration cell with Some r => Some (r, c') | None => None end
  | None => None
  end.
(** time.rs:318-328 [AtomicInstant::swap]/[load]/[store]: an instant is its duration since
    the epoch. *)
Definition ai_store (d : duration) : option Z := ad_store d Positive.
(** time.rs:322-324. *)
Definition ai_load (cell : Z) : option duration := option_map fst (ad_load cell).
(** time.rs:318-320. *)
Definition ai_swap (cell : Z) (d : duration) : option (duration * Z) :=
  match ad_swap cell d Positive with Some (r, c) => Some (fst r, c) | None => None end.

(** ** [SystemTime], [Instant] *)

(** [std::time::SystemTime] as nanoseconds from the Unix epoch (may be negative); time.rs:204-213
    [From<std::time::SystemTime>]: [duration_since] fails before the epoch and gives 0. *)
Definition systime_from_std (t : Z) : duration :=
  if Z.ltb t 0 then Dur 0 0
  else dur_from_core (CDur (Z.to_N (t / 1000000000)) (Z.to_N (t mod 1000000000))).
(** time.rs:214-218 [From<SystemTime> for std::time::SystemTime]; the addition to the epoch is
    taken as exact. *)
Definition systime_into_std (d : duration) : option Z :=
  option_map (fun c => Z.of_N (c_secs c) * 1000000000 + Z.of_N (c_nanos c))%Z (dur_into_core d).
