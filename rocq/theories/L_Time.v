From Coq Require Import NArith ZArith Bool Lia ZifyBool ZifyN.
From Verif Require Import M_Num M_Time S_Time S_Num L_Num.
Ltac Zify.zify_post_hook ::= Z.div_mod_to_equations.
Local Opaque Z.pow N.pow.

Lemma p64 : (2 ^ 64 = 18446744073709551616)%N. Proof. reflexivity. Qed.
Lemma p32 : (2 ^ 32 = 4294967296)%N. Proof. reflexivity. Qed.
Lemma p128 : (2 ^ 128 = 340282366920938463463374607431768211456)%N. Proof. reflexivity. Qed.
Lemma z63 : (2 ^ 63 = 9223372036854775808)%Z. Proof. reflexivity. Qed.

Lemma from_millis_value m : (m < 2 ^ 64)%N ->
  normal (from_millis m) /\ value (from_millis m) = (m * 1000000)%N.
Proof. unfold normal, value, from_millis; cbn [secs nanos]. rewrite p32, p64. lia. Qed.
Lemma from_micros_value m : (m < 2 ^ 64)%N ->
  normal (from_micros m) /\ value (from_micros m) = (m * 1000)%N.
Proof. unfold normal, value, from_micros; cbn [secs nanos]. rewrite p32, p64. lia. Qed.
Lemma as_nanos_value d : dur_wf d -> as_nanos d = value d.
Proof.
  unfold dur_wf, as_nanos, value. rewrite p64, p32, p128. intros.
  apply N.mod_small; lia.
Qed.
Lemma subsec_value d : normal d ->
  subsec_micros d = (value d / 1000 mod 1000000)%N /\
  subsec_millis d = (value d / 1000000 mod 1000)%N.
Proof. unfold normal, subsec_micros, subsec_millis, value. destruct d as [s n]; cbn [secs nanos]. rewrite p64. lia. Qed.
Lemma dur_add_value a b : normal a -> normal b ->
  match dur_add a b with
  | Some c => normal c /\ value c = (value a + value b)%N
  | None => (1000000000 * 2 ^ 64 <= value a + value b)%N
  end.
Proof.
  unfold normal, dur_add, checked_add, value. destruct a as [sa na], b as [sb nb]; cbn [secs nanos].
  rewrite p32, p64. intros.
  destruct (N.ltb_spec (na + nb) 4294967296); [|lia].
  destruct (N.ltb_spec (sb + (na + nb) / 1000000000) 18446744073709551616); [|lia].
  destruct (N.ltb_spec (sa + (sb + (na + nb) / 1000000000)) 18446744073709551616); [|lia].
  cbn [secs nanos]. lia.
Qed.
Lemma dur_cmp_value a b : normal a -> normal b -> dur_cmp a b = N.compare (value a) (value b).
Proof.
  unfold normal, dur_cmp, value. destruct a as [sa na], b as [sb nb]; cbn [secs nanos]. intros.
  destruct (N.compare_spec sa sb); symmetry.
  - subst. destruct (N.compare_spec na nb);
    [apply N.compare_eq_iff | apply N.compare_lt_iff | apply N.compare_gt_iff]; lia.
  - apply N.compare_lt_iff; lia.
  - apply N.compare_gt_iff; lia.
Qed.
Lemma dur_eqb_value a b : normal a -> normal b -> dur_eqb a b = N.eqb (value a) (value b).
Proof.
  unfold normal, dur_eqb, value. destruct a as [sa na], b as [sb nb]; cbn [secs nanos]. intros.
  destruct (N.eqb_spec sa sb), (N.eqb_spec na nb); cbn [andb]; symmetry;
  [apply N.eqb_eq | apply N.eqb_neq | apply N.eqb_neq | apply N.eqb_neq]; lia.
Qed.
Lemma core_round1 c : (c_secs c < 2 ^ 64)%N -> (c_nanos c < 1000000000)%N ->
  dur_into_core (dur_from_core c) = Some c.
Proof.
  destruct c as [s n]; unfold dur_into_core, dur_from_core, core_duration_new, checked_add;
  cbn [secs nanos c_secs c_nanos]. rewrite p64. intros.
  rewrite N.div_small, N.mod_small by lia. rewrite N.add_0_r.
  destruct (N.ltb_spec s 18446744073709551616); [reflexivity|lia].
Qed.
Lemma core_round2 d : normal d -> option_map dur_from_core (dur_into_core d) = Some d.
Proof.
  destruct d as [s n]; unfold normal, dur_into_core, dur_from_core, core_duration_new, checked_add;
  cbn [secs nanos]. rewrite p64. intros.
  rewrite N.div_small, N.mod_small by lia. rewrite N.add_0_r.
  destruct (N.ltb_spec s 18446744073709551616); [reflexivity|lia].
Qed.
Lemma core_value d : dur_wf d ->
  match dur_into_core d with
  | Some c => (c_secs c * 1000000000 + c_nanos c = value d)%N /\ (c_nanos c < 1000000000)%N
  | None => (1000000000 * 2 ^ 64 <= value d)%N
  end.
Proof.
  destruct d as [s n]; unfold dur_wf, value, dur_into_core, core_duration_new, checked_add;
  cbn [secs nanos]. rewrite p64, p32. intros.
  destruct (N.ltb_spec (s + n / 1000000000) 18446744073709551616); cbn [c_secs c_nanos]; lia.
Qed.

(** AtomicDuration *)
Lemma land_mask t : Z.land t MASK = (t mod 1048576)%Z.
Proof. change MASK with (Z.ones 20). rewrite Z.land_ones by lia. reflexivity. Qed.
Lemma shiftr20 t : Z.shiftr t SHIFT = (t / 1048576)%Z.
Proof. unfold SHIFT. rewrite Z.shiftr_div_pow2 by lia. reflexivity. Qed.
Lemma d2i d s : (secs d < 2 ^ 43)%N -> (nanos d < 1000000000)%N ->
  duration_to_i64 d s =
  Some ((match s with Positive => 1 | Negative => -1 end) * (Z.of_N (secs d) * 1048576 + Z.of_N (nanos d / 1000)))%Z.
Proof.
  destruct d as [sc n]; unfold duration_to_i64, subsec_micros; cbn [secs nanos].
  change (2 ^ 43)%N with 8796093022208%N. intros.
  rewrite (wrap_id 64 (Z.of_N sc)) by (unfold fits_i; change (2 ^ (64 - 1))%Z with 9223372036854775808%Z; lia).
  unfold SHIFT. rewrite Z.shiftl_mul_pow2 by lia. change (2 ^ 20)%Z with 1048576%Z.
  rewrite (wrap_id 64) by (unfold fits_i; change (2 ^ (64 - 1))%Z with 9223372036854775808%Z; lia).
  rewrite z63.
  destruct (Z.ltb_spec (Z.of_N sc * 1048576 + Z.of_N (n / 1000)) 9223372036854775808); [|lia].
  destruct s; [f_equal; lia|].
  destruct (Z.eqb_spec (Z.of_N sc * 1048576 + Z.of_N (n / 1000)) (- (9223372036854775808))); [lia|f_equal; lia].
Qed.
Lemma i2d sc m s : (0 <= sc < 8796093022208)%Z -> (0 <= m < 1048576)%Z ->
  i64_to_duration ((match s with Positive => 1 | Negative => -1 end) * (sc * 1048576 + m)) =
  Some (Dur (Z.to_N sc) (Z.to_N m * 1000),
        if Z.eqb (sc * 1048576 + m) 0 then Positive else s).
Proof.
  intros Hs Hm.
  assert (forall t (s' : sign), t = (sc * 1048576 + m)%Z ->
    (let micros := z_as_u 32 (Z.land t MASK) in
     let hi := Z.shiftr t SHIFT in
     if N.ltb (micros * 1000) (2 ^ 32)
     then Some (dur_new (z_as_u 64 hi) (micros * 1000), s') else None) =
    Some (Dur (Z.to_N sc) (Z.to_N m * 1000), s')) as G.
  { intros t s' ->. cbv zeta. rewrite land_mask, shiftr20. unfold z_as_u, dur_new. rewrite p32, p64.
    replace ((sc * 1048576 + m) mod 1048576)%Z with m by lia.
    replace ((sc * 1048576 + m) / 1048576)%Z with sc by lia.
    rewrite (Z.mod_small m), (Z.mod_small sc) by lia.
    destruct (N.ltb_spec (Z.to_N m * 1000) 4294967296); [reflexivity|lia]. }
  unfold i64_to_duration. rewrite z63.
  destruct s.
  - destruct (Z.ltb_spec (1 * (sc * 1048576 + m)) 0); [lia|].
    rewrite (G _ Positive) by lia. destruct (Z.eqb (sc * 1048576 + m) 0); reflexivity.
  - destruct (Z.ltb_spec (-1 * (sc * 1048576 + m)) 0).
    + destruct (Z.eqb_spec (-1 * (sc * 1048576 + m)) (- (9223372036854775808))); [lia|].
      rewrite (G _ Negative) by lia.
      destruct (Z.eqb_spec (sc * 1048576 + m) 0); [lia|reflexivity].
    + rewrite (G _ Positive) by lia.
      destruct (Z.eqb_spec (sc * 1048576 + m) 0); [reflexivity|lia].
Qed.
Lemma store_load d s : (secs d < 2 ^ 43)%N -> (nanos d < 1000000000)%N ->
  exists c, ad_store d s = Some c /\
    ad_load c = Some (Dur (secs d) (nanos d / 1000 * 1000),
                      if N.eqb (secs d) 0 && N.ltb (nanos d) 1000 then Positive else s).
Proof.
  intros A B. eexists. split; [exact (d2i d s A B)|]. unfold ad_load.
  change (2 ^ 43)%N with 8796093022208%N in A.
  rewrite i2d by lia. do 2 f_equal; [f_equal; lia|].
  destruct (Z.eqb_spec (Z.of_N (secs d) * 1048576 + Z.of_N (nanos d / 1000)) 0),
    (N.eqb_spec (secs d) 0), (N.ltb_spec (nanos d) 1000); cbn [andb]; auto; lia.
Qed.
Lemma store_load_value d s : (secs d < 2 ^ 43)%N -> (nanos d < 1000000000)%N ->
  exists c d' s', ad_store d s = Some c /\ ad_load c = Some (d', s') /\
    normal d' /\ svalue d' s' = to_micros (svalue d s).
Proof.
  intros A B. destruct (store_load d s A B) as (c & E & F).
  exists c. eexists. eexists. split; [exact E|]. split; [exact F|].
  change (2 ^ 43)%N with 8796093022208%N in A.
  assert (0 <= Z.of_N (value d))%Z as V by lia.
  split; [unfold normal; cbn [secs nanos]; rewrite p64; lia|].
  unfold svalue, to_micros, value. cbn [secs nanos]. destruct d as [sc n]; cbn [secs nanos] in *.
  destruct s.
  - replace (if (sc =? 0)%N && (n <? 1000)%N then Positive else Positive) with Positive
      by (destruct (_ && _); reflexivity).
    rewrite Z.quot_div_nonneg by lia. lia.
  - rewrite Z.quot_opp_l, Z.quot_div_nonneg by lia.
    destruct (N.eqb_spec sc 0), (N.ltb_spec n 1000); cbn [andb]; lia.
Qed.
Lemma swap_value c d0 s0 d s : (secs d0 < 2 ^ 43)%N -> (nanos d0 < 1000000000)%N ->
  (secs d < 2 ^ 43)%N -> (nanos d < 1000000000)%N -> ad_store d0 s0 = Some c ->
  exists c' r rs, ad_swap c d s = Some ((r, rs), c') /\ ad_store d s = Some c' /\
    svalue r rs = to_micros (svalue d0 s0).
Proof.
  intros A B A' B' E.
  destruct (store_load_value d0 s0 A B) as (c1 & r & rs & E1 & L & _ & V).
  rewrite E in E1. injection E1 as <-.
  exists (match duration_to_i64 d s with Some c' => c' | None => 0%Z end), r, rs.
  unfold ad_swap, ad_store, ad_load in *. rewrite (d2i d s A' B') in *. rewrite L. auto.
Qed.
Lemma systime_round t : (t < 1000000000 * 2 ^ 64)%Z ->
  systime_into_std (systime_from_std t) = Some (Z.max 0 t).
Proof.
  change (2 ^ 64)%Z with 18446744073709551616%Z. intros H. unfold systime_from_std.
  destruct (Z.ltb_spec t 0) as [L|L]; [rewrite Z.max_l by lia; vm_compute; reflexivity|]. unfold systime_into_std.
  rewrite core_round1 by (cbn [c_secs c_nanos]; rewrite ?p64; lia).
  cbn [option_map c_secs c_nanos]. f_equal. lia.
Qed.
Lemma systime_nonneg a b : (0 <= a < 1000000000 * 2 ^ 64)%Z -> (0 <= b < 1000000000 * 2 ^ 64)%Z ->
  dur_cmp (systime_from_std a) (systime_from_std b) = Z.compare a b.
Proof.
  change (2 ^ 64)%Z with 18446744073709551616%Z. intros A B. unfold systime_from_std.
  destruct (Z.ltb_spec a 0); [lia|]. destruct (Z.ltb_spec b 0); [lia|].
  rewrite dur_cmp_value by (unfold normal, dur_from_core; cbn [secs nanos c_secs c_nanos]; rewrite p64; lia).
  unfold value, dur_from_core; cbn [secs nanos c_secs c_nanos].
  replace (Z.to_N (a / 1000000000) * 1000000000 + Z.to_N (a mod 1000000000))%N with (Z.to_N a) by lia.
  replace (Z.to_N (b / 1000000000) * 1000000000 + Z.to_N (b mod 1000000000))%N with (Z.to_N b) by lia.
  rewrite Z2N.inj_compare by lia. reflexivity.
Qed.
Lemma systime_max t : systime_from_std (Z.max 0 t) = systime_from_std t.
Proof.
  destruct (Z.max_spec 0 t) as [[H ->]|[H ->]]; [reflexivity|]. destruct (Z.eq_dec t 0) as [->|]; [reflexivity|].
  unfold systime_from_std. destruct (Z.ltb_spec t 0); [|lia]. reflexivity.
Qed.
Lemma systime_mono a b : (a < 1000000000 * 2 ^ 64)%Z -> (b < 1000000000 * 2 ^ 64)%Z ->
  dur_cmp (systime_from_std a) (systime_from_std b) = Z.compare (Z.max 0 a) (Z.max 0 b).
Proof.
  intros A B. rewrite <- (systime_max a), <- (systime_max b). apply systime_nonneg; lia.
Qed.
