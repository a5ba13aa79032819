(** C78: durations as numbers of seconds in floating point (stabby/src/time.rs). *)
From Coq Require Import NArith ZArith Bool Lia Floats.SpecFloat.
From Verif Require Import M_Time S_Time L_Time M_Float S_Float L_Float.
Local Open Scope N_scope.

(** The rounding of the model is that of [SpecFloat], here for the operations of 2.3 and 2^-1074 / 3 seconds. *)
Definition sf_units (x : spec_float) : N := match x with S754_finite false m e => Npos m * 2 ^ Z.to_N (e + 1074) | _ => 0 end.
Example rounding_ex :
  as_secs_f64 (Dur 2 300000000) = Fin false (sf_units (SFdiv 53 1024 (S754_finite false 2300000000 0) (S754_finite false 1000000000 0))) /\
  round64 (sf_units (S754_finite false 5404319552844594 (-54)) * 1000000000) 1 =
    sf_units (SFmul 53 1024 (S754_finite false 5404319552844594 (-54)) (S754_finite false 1000000000 0)) /\
  round64 (2 ^ 1022 * 7 + 3) 3 = sf_units (SFdiv 53 1024 (S754_finite false (2 ^ 50 * 7) (-102)) (S754_finite false 3 0)).
Proof. vm_compute. auto. Qed.

(** C78: [from_secs_f64] panics exactly on NaN and negative numbers; otherwise it gives a duration with less than a second of nanoseconds. Below 2^64 seconds, its
    seconds are the integral part, and it is the number truncated to the nanosecond, up to 2^-24 nanoseconds. *)
Theorem duration_from_secs_f64 : forall s, is_f64 s ->
  match from_secs_f64 s with
  | None => ~ nonneg s
  | Some d => nonneg s /\ normal d /\ forall neg n, s = Fin neg n -> n < 2 ^ 64 * ONE -> secs d = n / ONE /\ truncated (value d) n
  end.
Proof.
  intros s F. destruct (from_secs_f64 s) as [d|] eqn:E.
  - destruct (from_normal s d F E) as [P N]. split; [exact P|]. split; [exact N|]. intros neg n -> L. destruct (from_truncated neg n (proj1 F) P L) as (d' & E' & A & B).
    rewrite E in E'. injection E' as <-. auto.
  - intro P. destruct (from_some s P) as [d D]. congruence.
Qed.
Print Assumptions duration_from_secs_f64.
Example from_secs_ex : is_f64 (Fin false (2 ^ 1073 * 5)) /\ from_secs_f64 (Fin false (2 ^ 1073 * 5)) = Some (Dur 2 500000000) /\
  from_secs_f64 (Fin true 1) = None /\ from_secs_f64 (Fin true 0) = Some (Dur 0 0).
Proof. split; [split; [exists 5, 1073; split; reflexivity|vm_compute; reflexivity]|]. vm_compute. auto. Qed.

(** C78: it is monotone. *)
Theorem duration_from_secs_f64_monotone : forall s s' d d', is_f64 s -> is_f64 s' -> le64 s s' ->
  from_secs_f64 s = Some d -> from_secs_f64 s' = Some d' -> value d <= value d'.
Proof. exact from_mono. Qed.
Print Assumptions duration_from_secs_f64_monotone.
Example from_secs_mono_ex : le64 (Fin false (2 ^ 1073 * 5)) (Inf false) /\ from_secs_f64 (Inf false) = Some (Dur 18446744073709551615 0) /\
  le64 (Fin false (2 ^ 1073 * 5)) (Fin false (2 ^ 1072 * 11)) /\ from_secs_f64 (Fin false (2 ^ 1072 * 11)) = Some (Dur 2 750000000).
Proof. vm_compute. repeat split; discriminate. Qed.

(** C78: [as_secs_f64] is monotone and exact to one part in 2^51. *)
Theorem duration_as_secs_f64 : forall d, dur_wf d -> exists n, as_secs_f64 d = Fin false n /\ is_f64 (as_secs_f64 d) /\
  value d * ONE * 2 ^ 51 <= n * 1000000000 * 2 ^ 51 + value d * ONE /\ n * 1000000000 * 2 ^ 51 <= value d * ONE * 2 ^ 51 + value d * ONE /\
  forall d', dur_wf d' -> value d <= value d' -> le64 (as_secs_f64 d) (as_secs_f64 d').
Proof.
  intros d W. exists (to_units (value d)). rewrite as_units by exact W. fold (to_units (value d)). split; [reflexivity|].
  assert (V : value d < 2 ^ 100). { destruct W as [A B]. unfold value. rewrite p64 in A. rewrite p32 in B. change (2 ^ 100) with 1267650600228229401496703205376. lia. }
  destruct (to_f64 _ V) as (R & L & _). split; [exact (conj R L)|]. destruct (to_error (value d)) as [A B]. split; [exact A|]. split; [exact B|].
  intros d' W' L'. rewrite (as_units d' W'). exact (to_mono _ _ L').
Qed.
Print Assumptions duration_as_secs_f64.
Example as_secs_ex : as_secs_f64 (Dur 2 500000000) = Fin false (2 ^ 1073 * 5).
Proof. vm_compute. reflexivity. Qed.

(** C78: below 2^50 nanoseconds (13 days), a duration that goes through [f64] loses at most one nanosecond.  Missing: that it loses none, and longer durations. *)
Theorem duration_f64_round_trip_partial : forall d, normal d -> value d < 2 ^ 50 ->
  exists d', from_secs_f64 (as_secs_f64 d) = Some d' /\ normal d' /\ (value d' = value d \/ value d' + 1 = value d).
Proof.
  intros d [N1 N2] V. assert (W : dur_wf d) by (split; [exact N1|rewrite p32; lia]). rewrite (as_units d W). fold (to_units (value d)).
  assert (V' : value d < 2 ^ 100) by (eapply N.lt_trans; [exact V|reflexivity]).
  destruct (to_f64 _ V') as (R & L & H). destruct (to_error (value d)) as [A B].
  assert (L64 : to_units (value d) < 2 ^ 64 * ONE).
  { change (2 ^ 50) with 1125899906842624 in V. change (2 ^ 64) with 18446744073709551616. pose proof one_pos. set (u := ONE) in *. clearbody u. set (n := to_units (value d)) in *. clearbody n. nia. }
  destruct (from_truncated false (to_units (value d)) R (or_introl eq_refl) L64) as (d' & E & _ & T1 & T2). exists d'. split; [exact E|].
  split; [exact (proj2 (from_normal (Fin false (to_units (value d))) d' (conj R L) E))|].
  set (n := to_units (value d)) in *. clearbody n. set (v := value d) in *. clearbody v. set (x := value d') in *. clearbody x. clear H E R L L64 W.
  assert (U : ONE = 2 ^ 1050 * 16777216). { unfold ONE. change 16777216 with (2 ^ 24). rewrite <- N.pow_add_r. reflexivity. }
  rewrite U in *. clear U. pose proof (pow_pos 1050) as P. set (w := 2 ^ 1050) in *. clearbody w. change (2 ^ 51) with 2251799813685248 in *. change (2 ^ 50) with 1125899906842624 in V.
  assert (C1 : n * 1000000000 * 2 <= v * (w * 16777216) * 2 + w * 16777216) by nia.
  assert (C2 : v * (w * 16777216) * 2 <= n * 1000000000 * 2 + w * 16777216) by nia.
  assert (D1 : x < v + 1) by nia. assert (D2 : v < x + 2) by nia. lia.
Qed.
Print Assumptions duration_f64_round_trip_partial.
Example f64_round_trip_ex : normal (Dur 1048575 999999938) /\ value (Dur 1048575 999999938) < 2 ^ 50 /\
  from_secs_f64 (as_secs_f64 (Dur 1048575 999999938)) = Some (Dur 1048575 999999937).
Proof. split; [split; reflexivity|]. vm_compute. auto. Qed.

(** C78, refuted as stated: 2.3 seconds become 2.299999999, and 15 nanoseconds 14 (core's [from_secs_f64] rounds). *)
Theorem duration_f64_round_trip_refuted :
  from_secs_f64 (as_secs_f64 (Dur 2 300000000)) = Some (Dur 2 299999999) /\ from_secs_f64 (as_secs_f64 (Dur 0 15)) = Some (Dur 0 14).
Proof. vm_compute. auto. Qed.
Print Assumptions duration_f64_round_trip_refuted.

(** C78: whole seconds below 2^53 nanoseconds (104 days) are exact both ways. *)
Theorem duration_f64_whole_partial : forall m, m * 1000000000 < 2 ^ 53 ->
  as_secs_f64 (Dur m 0) = Fin false (m * ONE) /\ from_secs_f64 (Fin false (m * ONE)) = Some (Dur m 0).
Proof.
  intros m L. change (2 ^ 53) with 9007199254740992 in L. split.
  - rewrite as_units by (split; cbn [secs nanos]; [rewrite p64; lia|reflexivity]). unfold value. cbn [secs nanos]. rewrite N.add_0_r.
    assert (R1 : representable (m * 1000000000 * ONE)) by (exists (m * 1000000000), 1074; split; [exact L|reflexivity]).
    assert (R2 : representable (m * ONE)) by (exists m, 1074; split; [change (2 ^ 53) with 9007199254740992; lia|reflexivity]).
    pose proof (round_exact _ 1 ltac:(discriminate) R1) as E1. rewrite N.mul_1_l in E1. rewrite E1. f_equal.
    pose proof (round_exact _ 1000000000 ltac:(discriminate) R2) as E2. transitivity (round64 (1000000000 * (m * ONE)) 1000000000); [f_equal; lia|exact E2].
  - assert (R2 : representable (m * ONE)) by (exists m, 1074; split; [change (2 ^ 53) with 9007199254740992; lia|reflexivity]).
    destruct (from_fin false (m * ONE) R2 (or_introl eq_refl)) as [E _]. rewrite E, N.mod_mul, N.div_mul by apply one_pos. f_equal. f_equal.
    apply N.min_l. change (2 ^ 64 - 1) with 18446744073709551615. lia.
Qed.
Print Assumptions duration_f64_whole_partial.
Example f64_whole_ex : 9007199 * 1000000000 < 2 ^ 53. Proof. reflexivity. Qed.
(** C78, refuted beyond: 16334996914 seconds become 16334996913.999998 (core's [as_secs_f64] is exact, it does not go through nanoseconds). *)
Theorem duration_f64_whole_refuted : exists n, as_secs_f64 (Dur 16334996914 0) = Fin false n /\ n < 16334996914 * ONE /\
  from_secs_f64 (Fin false n) = Some (Dur 16334996913 999998092).
Proof. eexists. split; [vm_compute; reflexivity|]. vm_compute. auto. Qed.
Print Assumptions duration_f64_whole_refuted.
