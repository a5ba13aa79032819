(** C44, C45, C56: durations (stabby/src/time.rs). *)
From Coq Require Import NArith ZArith Bool Lia.
From Verif Require Import M_Num M_Time S_Time L_Time.
Ltac Zify.zify_post_hook ::= idtac.

(** C44 *)
Theorem duration_from_millis : forall m, (m < 2 ^ 64)%N ->
  normal (from_millis m) /\ value (from_millis m) = (m * 1000000)%N.
Proof. exact from_millis_value. Qed.
Print Assumptions duration_from_millis.
Example duration_from_millis_ex : from_millis 18446744073709551615 = Dur 18446744073709551 615000000.
Proof. reflexivity. Qed.
(** C44 *)
Theorem duration_from_micros : forall m, (m < 2 ^ 64)%N ->
  normal (from_micros m) /\ value (from_micros m) = (m * 1000)%N.
Proof. exact from_micros_value. Qed.
Print Assumptions duration_from_micros.
Example duration_from_micros_ex : from_micros 1999999 = Dur 1 999999000.
Proof. reflexivity. Qed.
(** C44 *)
Theorem duration_as_nanos : forall d, dur_wf d -> as_nanos d = value d.
Proof. exact as_nanos_value. Qed.
Print Assumptions duration_as_nanos.
Example duration_as_nanos_ex : dur_wf (Dur 18446744073709551615 4294967295) /\
  as_nanos (Dur 18446744073709551615 4294967295) = 18446744073709551619294967295%N.
Proof. repeat split; reflexivity. Qed.
(** C44 *)
Theorem duration_subsec : forall d, normal d ->
  subsec_micros d = (value d / 1000 mod 1000000)%N /\
  subsec_millis d = (value d / 1000000 mod 1000)%N.
Proof. exact subsec_value. Qed.
Print Assumptions duration_subsec.
Example duration_subsec_ex : normal (Dur 3 123456789) /\ subsec_micros (Dur 3 123456789) = 123456%N /\
  subsec_millis (Dur 3 123456789) = 123%N.
Proof. repeat split; reflexivity. Qed.
(** C44: addition is exact; it panics only when the sum is not representable. *)
Theorem duration_add_exact : forall a b, normal a -> normal b ->
  match dur_add a b with
  | Some c => normal c /\ value c = (value a + value b)%N
  | None => (1000000000 * 2 ^ 64 <= value a + value b)%N
  end.
Proof. exact dur_add_value. Qed.
Print Assumptions duration_add_exact.
Example duration_add_ex : dur_add (Dur 1 999999999) (Dur 2 999999999) = Some (Dur 4 999999998) /\
  dur_add (Dur 18446744073709551615 999999999) (Dur 0 1) = None.
Proof. split; reflexivity. Qed.
(** C44: the derived order and equality are those of the values. *)
Theorem duration_order : forall a b, normal a -> normal b ->
  dur_cmp a b = N.compare (value a) (value b) /\ dur_eqb a b = N.eqb (value a) (value b).
Proof. intros a b Ha Hb. exact (conj (dur_cmp_value a b Ha Hb) (dur_eqb_value a b Ha Hb)). Qed.
Print Assumptions duration_order.
Example duration_order_ex : dur_cmp (Dur 1 999999999) (Dur 2 0) = Lt.
Proof. reflexivity. Qed.
(** C44: [Duration::new] and the public fields accept nanoseconds above a second, where the
    order is no longer that of the values. *)
Theorem duration_order_refuted : exists a b, dur_wf a /\ dur_wf b /\
  dur_cmp a b = Lt /\ N.compare (value a) (value b) = Gt.
Proof. exists (Dur 0 2000000000), (Dur 1 0). repeat split; vm_compute; reflexivity. Qed.
Print Assumptions duration_order_refuted.
(** C44: conversions with core are lossless. *)
Theorem duration_core_round_trip : forall c, (c_secs c < 2 ^ 64)%N -> (c_nanos c < 1000000000)%N ->
  dur_into_core (dur_from_core c) = Some c.
Proof. exact core_round1. Qed.
Print Assumptions duration_core_round_trip.
(** C44 *)
Theorem duration_stabby_round_trip : forall d, normal d ->
  option_map dur_from_core (dur_into_core d) = Some d.
Proof. exact core_round2. Qed.
Print Assumptions duration_stabby_round_trip.
Example duration_round_trip_ex : dur_into_core (Dur 5 7) = Some (CDur 5 7).
Proof. reflexivity. Qed.
(** C44: even out of the normal form, the conversion to core keeps the value. *)
Theorem duration_into_core_value : forall d, dur_wf d ->
  match dur_into_core d with
  | Some c => (c_secs c * 1000000000 + c_nanos c = value d)%N /\ (c_nanos c < 1000000000)%N
  | None => (1000000000 * 2 ^ 64 <= value d)%N
  end.
Proof. exact core_value. Qed.
Print Assumptions duration_into_core_value.
Example duration_into_core_ex : dur_into_core (Dur 5 4000000001) = Some (CDur 9 1).
Proof. reflexivity. Qed.

(** C45: below [2^43] seconds, a stored signed duration is loaded back rounded toward zero to the
    microsecond. *)
Theorem atomic_duration_round_trip_partial : forall d s, (secs d < 2 ^ 43)%N -> (nanos d < 1000000000)%N ->
  exists c d' s', ad_store d s = Some c /\ ad_load c = Some (d', s') /\
    normal d' /\ svalue d' s' = to_micros (svalue d s).
Proof. exact store_load_value. Qed.
Print Assumptions atomic_duration_round_trip_partial.
Example atomic_duration_ex : ad_store (Dur 8796093022207 999999999) Negative = Some (-9223372036854727231)%Z /\
  ad_load (-9223372036854727231) = Some (Dur 8796093022207 999999000, Negative).
Proof. split; vm_compute; reflexivity. Qed.
(** C45: field by field; the sign is lost only for durations below a microsecond. *)
Theorem atomic_duration_fields : forall d s, (secs d < 2 ^ 43)%N -> (nanos d < 1000000000)%N ->
  exists c, ad_store d s = Some c /\
    ad_load c = Some (Dur (secs d) (nanos d / 1000 * 1000),
                      if N.eqb (secs d) 0 && N.ltb (nanos d) 1000 then Positive else s).
Proof. exact store_load. Qed.
Print Assumptions atomic_duration_fields.
Example atomic_duration_fields_ex : ad_store (Dur 0 999) Negative = Some 0%Z /\
  ad_load 0 = Some (Dur 0 0, Positive).
Proof. split; vm_compute; reflexivity. Qed.
(** C45: less than [RESOLUTION] is lost, [RESOLUTION] itself is kept, and anything shorter is lost. *)
Theorem atomic_duration_resolution : exists r, RESOLUTION = Some r /\
  (forall d s, (secs d < 2 ^ 43)%N -> (nanos d < 1000000000)%N ->
    exists c d' s', ad_store d s = Some c /\ ad_load c = Some (d', s') /\ (value d' <= value d < value d' + value r)%N) /\
  (exists c, ad_store r Positive = Some c /\ ad_load c = Some (r, Positive)) /\
  (forall d s, (secs d < 2 ^ 43)%N -> (nanos d < 1000000000)%N -> (value d < value r)%N ->
    exists c d' s', ad_store d s = Some c /\ ad_load c = Some (d', s') /\ value d' = 0%N).
Proof.
  exists (Dur 0 1000). split; [vm_compute; reflexivity|].
  assert (F : forall n, (n / 1000 * 1000 <= n < n / 1000 * 1000 + 1000)%N)
    by (intros n; pose proof (N.div_mod n 1000 ltac:(discriminate)); pose proof (N.mod_lt n 1000 ltac:(discriminate)); lia).
  split; [|split; [exists 1%Z; split; vm_compute; reflexivity|]].
  - intros d s S N. destruct (store_load d s S N) as (c & E & L). do 3 eexists. split; [exact E|]. split; [exact L|].
    unfold value. cbn [secs nanos]. specialize (F (nanos d)). clear - F. generalize dependent (nanos d / 1000 * 1000)%N. generalize (secs d * 1000000000)%N. intros. lia.
  - intros d s S N V. destruct (store_load d s S N) as (c & E & L). do 3 eexists. split; [exact E|]. split; [exact L|].
    unfold value in V |- *. cbn [secs nanos] in V |- *. assert (Q : (secs d = 0 /\ nanos d < 1000)%N) by (clear - V; lia).
    destruct Q as [-> Q]. rewrite N.div_small by exact Q. reflexivity.
Qed.
Print Assumptions atomic_duration_resolution.
Example atomic_duration_resolution_ex : ad_store (Dur 3 1999) Positive = Some 3145729%Z /\ ad_load 3145729 = Some (Dur 3 1000, Positive).
Proof. split; vm_compute; reflexivity. Qed.
(** C45: [swap] returns the previous value. *)
Theorem atomic_duration_swap : forall c d0 s0 d s, (secs d0 < 2 ^ 43)%N -> (nanos d0 < 1000000000)%N ->
  (secs d < 2 ^ 43)%N -> (nanos d < 1000000000)%N -> ad_store d0 s0 = Some c ->
  exists c' r rs, ad_swap c d s = Some ((r, rs), c') /\ ad_store d s = Some c' /\
    svalue r rs = to_micros (svalue d0 s0).
Proof. exact swap_value. Qed.
Print Assumptions atomic_duration_swap.
Example atomic_duration_swap_ex : ad_swap 1048577 (Dur 2 0) Negative = Some ((Dur 1 1000, Positive), (-2097152)%Z).
Proof. vm_compute; reflexivity. Qed.
(** C45, refuted as stated: the duration of [2^43] seconds is below [MAX] (whose fields are not in
    normal form) but loading it overflows. *)
Theorem atomic_duration_max_refuted : exists m d, MAX = Some m /\ normal d /\ (value d <= value m)%N /\
  ~ normal m /\
  match ad_store d Positive with Some c => ad_load c = None | None => True end.
Proof.
  exists (Dur 8796093022207 1048575000), (Dur 8796093022208 0).
  split; [vm_compute; reflexivity|]. split; [split; vm_compute; reflexivity|].
  split; [vm_compute; discriminate|]. split; [intros (_ & H); vm_compute in H; discriminate|].
  vm_compute; reflexivity.
Qed.
Print Assumptions atomic_duration_max_refuted.
(** C45: above, the value is silently replaced by another one: [2^44] seconds and one are
    loaded back as one second. *)
Theorem atomic_duration_overflow_refuted : exists d c, normal d /\ ad_store d Positive = Some c /\
  ad_load c = Some (Dur 1 0, Positive) /\ secs d = 17592186044417%N.
Proof. exists (Dur 17592186044417 0), 1048576%Z. repeat split; vm_compute; reflexivity. Qed.
Print Assumptions atomic_duration_overflow_refuted.

(** C56: times after the epoch are converted both ways without loss, and keep their order. Missing:
    times before the epoch, all of which become the epoch. *)
Theorem system_time_round_trip_partial : forall t, (t < 1000000000 * 2 ^ 64)%Z ->
  systime_into_std (systime_from_std t) = Some (Z.max 0 t).
Proof. exact systime_round. Qed.
Print Assumptions system_time_round_trip_partial.
Example system_time_ex : systime_into_std (systime_from_std 1700000000123456789) = Some 1700000000123456789%Z.
Proof. vm_compute; reflexivity. Qed.
(** C56 *)
Theorem system_time_order_partial : forall a b,
  (a < 1000000000 * 2 ^ 64)%Z -> (b < 1000000000 * 2 ^ 64)%Z ->
  dur_cmp (systime_from_std a) (systime_from_std b) = Z.compare (Z.max 0 a) (Z.max 0 b).
Proof. exact systime_mono. Qed.
Print Assumptions system_time_order_partial.
Example system_time_order_ex : dur_cmp (systime_from_std 1700000000123456789) (systime_from_std 1700000001000000000) = Lt.
Proof. vm_compute; reflexivity. Qed.
(** C56, refuted as stated: all the times before the epoch become the epoch. *)
Theorem system_time_round_trip_refuted : exists a b, Z.compare a b = Lt /\
  dur_cmp (systime_from_std a) (systime_from_std b) = Eq /\
  systime_into_std (systime_from_std a) <> Some a.
Proof. exists (-5)%Z, (-3)%Z. repeat split; vm_compute; congruence. Qed.
Print Assumptions system_time_round_trip_refuted.
