(** Lemmas for C78. *)
From Coq Require Import NArith ZArith Bool Lia.
From Verif Require Import M_Time S_Time L_Time M_Float S_Float.
Local Open Scope N_scope.
Ltac Zify.zify_post_hook ::= idtac.

Lemma nearest_low : forall a b, b <> 0 -> a / b <= nearest a b.
Proof. intros a b B. unfold nearest. cbv zeta. destruct (2 * (a mod b) <? b); [lia|]. destruct (b <? 2 * (a mod b)); [lia|]. destruct (N.even (a / b)); lia. Qed.
Lemma nearest_high : forall a b, b <> 0 -> nearest a b <= a / b + 1.
Proof. intros a b B. unfold nearest. cbv zeta. destruct (2 * (a mod b) <? b); [lia|]. destruct (b <? 2 * (a mod b)); [lia|]. destruct (N.even (a / b)); lia. Qed.
Lemma nearest_mono : forall a a' b, b <> 0 -> a <= a' -> nearest a b <= nearest a' b.
Proof.
  intros a a' b B L. assert (Q : a / b <= a' / b) by (apply N.div_le_mono; assumption).
  destruct (N.eq_dec (a / b) (a' / b)) as [E|E].
  - assert (R : a mod b <= a' mod b) by (pose proof (N.div_mod a b B); pose proof (N.div_mod a' b B); rewrite E in *; lia).
    unfold nearest. cbv zeta. rewrite <- E. destruct (N.ltb_spec (2 * (a mod b)) b), (N.ltb_spec (2 * (a' mod b)) b), (N.ltb_spec b (2 * (a mod b))), (N.ltb_spec b (2 * (a' mod b)));
      try destruct (N.even (a / b)); lia.
  - pose proof (nearest_high a b B). pose proof (nearest_low a' b B). lia.
Qed.
Lemma nearest_error : forall a b, b <> 0 -> 2 * a <= 2 * (nearest a b * b) + b /\ 2 * (nearest a b * b) <= 2 * a + b.
Proof.
  intros a b B. pose proof (N.div_mod a b B) as D. pose proof (N.mod_lt a b B) as M. unfold nearest. cbv zeta.
  set (q := a / b) in *. set (r := a mod b) in *. clearbody q r. rewrite D. clear D.
  destruct (N.ltb_spec (2 * r) b); [nia|]. destruct (N.ltb_spec b (2 * r)); [nia|]. destruct (N.even q); nia.
Qed.
Lemma nearest_exact : forall x b, b <> 0 -> nearest (x * b) b = x.
Proof. intros x b B. unfold nearest. cbv zeta. rewrite N.div_mul, N.mod_mul by assumption. destruct (N.ltb_spec (2 * 0) b); [reflexivity|lia]. Qed.

Lemma pow_pos : forall k, 2 ^ k <> 0. Proof. intro k. apply N.pow_nonzero. lia. Qed.
Definition kof (p q : N) : N := N.log2 (p / q) - 52.
Lemma scale_pos : forall q k, q <> 0 -> q * 2 ^ k <> 0.
Proof. intros q k Q. pose proof (pow_pos k). nia. Qed.
Lemma kof_high : forall p q, q <> 0 -> p < q * 2 ^ kof p q * 2 ^ 53.
Proof.
  intros p q Q. unfold kof. rewrite <- N.mul_assoc, <- N.pow_add_r. destruct (N.eq_dec (p / q) 0) as [Z|Z].
  - apply N.div_small_iff in Z; [|exact Q]. pose proof (pow_pos (N.log2 (p / q) - 52 + 53)). nia.
  - assert (H : p / q < 2 ^ (N.log2 (p / q) - 52 + 53)).
    { eapply N.lt_le_trans; [apply (N.log2_spec (p / q)); apply N.neq_0_lt_0; exact Z|]. apply N.pow_le_mono_r; lia. }
    pose proof (N.mul_succ_div_gt p q Q) as G. set (w := 2 ^ (N.log2 (p / q) - 52 + 53)) in *. clearbody w. set (x := p / q) in *. clearbody x.
    assert (q * N.succ x <= q * w) by (apply N.mul_le_mono_l; lia). lia.
Qed.
Lemma kof_low : forall p q, q <> 0 -> kof p q <> 0 -> q * 2 ^ kof p q * 2 ^ 52 <= p.
Proof.
  intros p q Q K. unfold kof in *. rewrite <- N.mul_assoc, <- N.pow_add_r. replace (N.log2 (p / q) - 52 + 52) with (N.log2 (p / q)) by lia.
  destruct (N.eq_dec (p / q) 0) as [Z|Z]; [rewrite Z in K; cbn in K; lia|].
  pose proof (N.log2_spec (p / q) (proj1 (N.neq_0_lt_0 _) Z)) as [H _]. pose proof (N.mul_div_le p q Q). nia.
Qed.
Lemma kof_mono : forall p p' q, q <> 0 -> p <= p' -> kof p q <= kof p' q.
Proof. intros p p' q Q L. unfold kof. pose proof (N.log2_le_mono (p / q) (p' / q) (N.div_le_mono _ _ _ Q L)). lia. Qed.
Lemma nearest_le_mul : forall a b m, b <> 0 -> a <= b * m -> nearest a b <= m.
Proof. intros a b m B L. rewrite <- (nearest_exact m b B). apply nearest_mono; [exact B|lia]. Qed.
Lemma nearest_ge_mul : forall a b m, b <> 0 -> b * m <= a -> m <= nearest a b.
Proof. intros a b m B L. rewrite <- (nearest_exact m b B). apply nearest_mono; [exact B|lia]. Qed.
Lemma round_mono : forall p p' q, q <> 0 -> p <= p' -> round64 p q <= round64 p' q.
Proof.
  intros p p' q Q L. unfold round64. cbv zeta. fold (kof p q) (kof p' q). pose proof (kof_mono p p' q Q L) as K.
  destruct (N.eq_dec (kof p q) (kof p' q)) as [E|E].
  - rewrite E. apply N.mul_le_mono_r. apply nearest_mono; [apply scale_pos; exact Q|exact L].
  - pose proof (kof_high p q Q) as H. pose proof (kof_low p' q Q ltac:(lia)) as H'.
    apply N.lt_le_incl in H. apply nearest_le_mul in H; [|apply scale_pos; exact Q]. apply nearest_ge_mul in H'; [|apply scale_pos; exact Q].
    assert (G : 2 ^ 53 * 2 ^ kof p q <= 2 ^ 52 * 2 ^ kof p' q). { rewrite <- !N.pow_add_r. apply N.pow_le_mono_r; lia. }
    pose proof (pow_pos (kof p q)). pose proof (pow_pos (kof p' q)). nia.
Qed.
Lemma round_error : forall p q, q <> 0 ->
  2 * p <= 2 * (round64 p q * q) + q * 2 ^ kof p q /\ 2 * (round64 p q * q) <= 2 * p + q * 2 ^ kof p q.
Proof.
  intros p q Q. unfold round64. cbv zeta. fold (kof p q). pose proof (nearest_error p (q * 2 ^ kof p q) (scale_pos _ _ Q)) as [A B]. split; nia.
Qed.
Lemma round_relative : forall p q, q <> 0 -> q * 2 ^ 52 <= p ->
  p * 2 ^ 53 <= round64 p q * q * 2 ^ 53 + p /\ round64 p q * q * 2 ^ 53 <= p * 2 ^ 53 + p.
Proof.
  intros p q Q L. destruct (round_error p q Q) as [A B].
  assert (K : q * 2 ^ kof p q * 2 ^ 52 <= p).
  { destruct (N.eq_dec (kof p q) 0) as [Z|Z]; [rewrite Z; cbn [N.pow]; lia|]. apply kof_low; assumption. }
  change (2 ^ 53) with (2 * 2 ^ 52). set (u := 2 ^ 52) in *. clearbody u. set (r := round64 p q * q) in *. set (w := q * 2 ^ kof p q) in *. clearbody r w. nia.
Qed.
Lemma round_representable : forall p q, q <> 0 -> representable (round64 p q).
Proof.
  intros p q Q. unfold round64. cbv zeta. fold (kof p q). pose proof (kof_high p q Q) as H. apply N.lt_le_incl in H. apply nearest_le_mul in H; [|apply scale_pos; exact Q].
  destruct (N.eq_dec (nearest p (q * 2 ^ kof p q)) (2 ^ 53)) as [E|E].
  - exists 1, (53 + kof p q). split; [reflexivity|]. rewrite E, N.pow_add_r. lia.
  - exists (nearest p (q * 2 ^ kof p q)), (kof p q). split; [lia|reflexivity].
Qed.
Lemma round_exact : forall x q, q <> 0 -> representable x -> round64 (q * x) q = x.
Proof.
  intros x q Q (m & j & M & E). unfold round64. cbv zeta. rewrite (N.mul_comm q x), N.div_mul by exact Q.
  assert (K : exists y, x = y * 2 ^ (N.log2 x - 52)).
  { destruct (N.eq_dec m 0) as [->|Z]; [exists 0; lia|]. exists (m * 2 ^ (j - (N.log2 x - 52))). rewrite <- N.mul_assoc, <- N.pow_add_r.
    assert (Lx : N.log2 x <= 52 + j). { rewrite E. rewrite <- N.shiftl_mul_pow2, N.log2_shiftl by exact Z. apply N.log2_lt_pow2 in M; lia. }
    replace (j - (N.log2 x - 52) + (N.log2 x - 52)) with j by lia. exact E. }
  destruct K as [y K]. set (k := N.log2 x - 52) in *. clearbody k. rewrite K. replace (y * 2 ^ k * q) with (y * (q * 2 ^ k)) by lia.
  rewrite nearest_exact by (apply scale_pos; exact Q). reflexivity.
Qed.

(** ** From seconds *)
Lemma one_u : ONE = 9007199254740992 * 2 ^ 1021. Proof. unfold ONE. change 9007199254740992 with (2 ^ 53). rewrite <- N.pow_add_r. reflexivity. Qed.
Lemma one_pos : ONE <> 0. Proof. apply pow_pos. Qed.
Lemma frac_bound : forall n, representable n -> n mod ONE <= ONE - 2 ^ 1021.
Proof.
  intros n (m & k & M & E). change (2 ^ 53) with 9007199254740992 in M. pose proof (pow_pos 1021) as U0.
  destruct (N.le_gt_cases 1021 k) as [H|H].
  - assert (Q : n mod ONE = (m * 2 ^ (k - 1021)) mod 9007199254740992 * 2 ^ 1021).
    { rewrite <- N.mul_mod_distr_r by (exact U0 || discriminate). rewrite one_u. f_equal. rewrite E, <- N.mul_assoc, <- N.pow_add_r. repeat f_equal. lia. }
    pose proof (N.mod_lt (m * 2 ^ (k - 1021)) 9007199254740992 ltac:(discriminate)) as R. rewrite Q, one_u.
    set (u := 2 ^ 1021) in *. clearbody u. set (r := (m * 2 ^ (k - 1021)) mod 9007199254740992) in *. clearbody r. nia.
  - assert (P : 2 ^ k * 2 <= 2 ^ 1021). { replace (2 ^ k * 2) with (2 ^ (k + 1)) by (rewrite N.pow_add_r; reflexivity). apply N.pow_le_mono_r; lia. }
    rewrite one_u. set (u := 2 ^ 1021) in *. clearbody u. pose proof (pow_pos k). set (w := 2 ^ k) in *. clearbody w. rewrite N.mod_small; nia.
Qed.
Lemma frac_zero : forall n, representable n -> 2 ^ 53 * ONE <= n -> n mod ONE = 0.
Proof.
  intros n (m & k & M & E) L. destruct (N.le_gt_cases 1074 k) as [H|H].
  - replace n with (m * 2 ^ (k - 1074) * ONE); [apply N.mod_mul, one_pos|]. rewrite E. unfold ONE. rewrite <- N.mul_assoc, <- N.pow_add_r. repeat f_equal. lia.
  - exfalso. assert (P : 2 ^ k <= ONE) by (apply N.pow_le_mono_r; lia). pose proof one_pos. set (u := ONE) in *. clearbody u. pose proof (pow_pos k). set (w := 2 ^ k) in *. clearbody w. nia.
Qed.
Definition nan_of (f : N) : N := round64 (f * 1000000000) 1 / ONE.
Lemma top_value : nan_of (ONE - 2 ^ 1021) = 999999999.
Proof. vm_compute. reflexivity. Qed.
Lemma one_def : ONE = 2 ^ 1074. Proof. reflexivity. Qed.
Lemma one_52 : 2 ^ 52 <= ONE. Proof. vm_compute. discriminate. Qed.
Lemma one_big : 1000000000 * 2 ^ 52 * 2 <= ONE. Proof. vm_compute. discriminate. Qed.
Local Opaque ONE.
Lemma nan_of_mono : forall f f', f <= f' -> nan_of f <= nan_of f'.
Proof. intros f f' L. unfold nan_of. apply N.div_le_mono; [apply one_pos|]. apply round_mono; [discriminate|]. lia. Qed.
Lemma nan_of_bound : forall f, f <= ONE - 2 ^ 1021 -> nan_of f <= 999999999.
Proof. intros f L. rewrite <- top_value. exact (nan_of_mono f (ONE - 2 ^ 1021) L). Qed.
Lemma from_fin : forall neg n, representable n -> nonneg (Fin neg n) ->
  from_secs_f64 (Fin neg n) = Some (Dur (N.min (n / ONE) (2 ^ 64 - 1)) (nan_of (n mod ONE))) /\ nan_of (n mod ONE) <= 999999999.
Proof.
  intros neg n R P. pose proof (nan_of_bound _ (frac_bound n R)) as B. split; [|exact B]. cbn [from_secs_f64]. fold (nan_of (n mod ONE)).
  rewrite (N.min_l (nan_of (n mod ONE))) by (change (2 ^ 32 - 1) with 4294967295; lia).
  destruct P as [->| ->]; [reflexivity|]. rewrite andb_false_r. reflexivity.
Qed.
Lemma from_normal : forall s d, is_f64 s -> from_secs_f64 s = Some d -> nonneg s /\ normal d.
Proof.
  intros s d F H. destruct s as [|[]|neg n]; try discriminate.
  - injection H as <-. split; [reflexivity|]. split; reflexivity.
  - assert (P : nonneg (Fin neg n)). { cbn in *. destruct neg; [right|left; reflexivity]. destruct (N.eqb_spec n 0); [assumption|discriminate]. }
    split; [exact P|]. destruct (from_fin neg n (proj1 F) P) as [E B]. rewrite E in H. injection H as <-. split; cbn [secs nanos]; [|lia].
    change (2 ^ 64 - 1) with 18446744073709551615. rewrite p64. lia.
Qed.
Lemma from_some : forall s, nonneg s -> exists d, from_secs_f64 s = Some d.
Proof.
  intros [|[]|neg n] P; cbn [nonneg] in P; try contradiction; try discriminate; [eexists; reflexivity|].
  unfold from_secs_f64. destruct P as [->| ->]; [eexists; reflexivity|]. destruct neg; eexists; reflexivity.
Qed.
Lemma frac_error : forall f, f < ONE -> f * 1000000000 <= round64 (f * 1000000000) 1 + 2 ^ 1050 /\ round64 (f * 1000000000) 1 <= f * 1000000000 + 2 ^ 1050.
Proof.
  intros f L. destruct (round_error (f * 1000000000) 1 ltac:(discriminate)) as [A B]. rewrite N.mul_1_r, N.mul_1_l in *.
  assert (K : kof (f * 1000000000) 1 <= 1051).
  { unfold kof. rewrite N.div_1_r. destruct (N.eq_dec f 0) as [->|Z]; [cbn; lia|].
    assert (N.log2 (f * 1000000000) < 1104); [|lia]. apply N.log2_lt_pow2; [lia|]. eapply N.lt_le_trans; [apply (N.mul_lt_mono_pos_r 1000000000 f ONE); [lia|exact L]|].
    change 1104 with (1074 + 30). rewrite N.pow_add_r. rewrite one_def. apply N.mul_le_mono_l. vm_compute. discriminate. }
  apply (N.pow_le_mono_r 2) in K; [|discriminate]. change 1051 with (1 + 1050) in K. rewrite N.pow_add_r in K. change (2 ^ 1) with 2 in K.
  set (w := 2 ^ 1050) in *. clearbody w. split; lia.
Qed.
Lemma from_truncated : forall neg n, representable n -> nonneg (Fin neg n) -> n < 2 ^ 64 * ONE ->
  exists d, from_secs_f64 (Fin neg n) = Some d /\ secs d = n / ONE /\ truncated (value d) n.
Proof.
  intros neg n R P L. destruct (from_fin neg n R P) as [E B]. eexists. split; [exact E|]. cbn [secs].
  assert (S : n / ONE < 18446744073709551616). { apply N.div_lt_upper_bound; [apply one_pos|]. rewrite N.mul_comm. exact L. }
  change (2 ^ 64 - 1) with 18446744073709551615. rewrite N.min_l by lia. split; [reflexivity|].
  pose proof (N.div_mod n ONE one_pos) as D. pose proof (N.mod_lt n ONE one_pos) as M. destruct (frac_error (n mod ONE) M) as [A1 A2].
  unfold truncated, value, nan_of in *. cbn [secs nanos]. set (r := round64 (n mod ONE * 1000000000) 1) in *. clearbody r.
  pose proof (N.div_mod r ONE one_pos) as D2. pose proof (N.mod_lt r ONE one_pos) as M2. set (w := 2 ^ 1050) in *. clearbody w. pose proof one_pos. set (u := ONE) in *. clearbody u.
  set (a := n / u) in *. set (b := n mod u) in *. set (c := r / u) in *. set (e := r mod u) in *. clearbody a b c e. split; nia.
Qed.
Lemma from_mono : forall s s' d d', is_f64 s -> is_f64 s' -> le64 s s' -> from_secs_f64 s = Some d -> from_secs_f64 s' = Some d' -> value d <= value d'.
Proof.
  intros s s' d d' F F' L H H'. pose proof (from_normal s d F H) as [P [N1 N2]]. pose proof (from_normal s' d' F' H') as [P' [N1' N2']].
  destruct s' as [|[]|neg' n']; try discriminate.
  - injection H' as <-. destruct s as [|[]|neg n]; try contradiction.
    + discriminate.
    + injection H as <-. lia.
    + destruct (from_fin neg n (proj1 F) P) as [E B]. rewrite E in H. injection H as <-. unfold value. cbn [secs nanos] in *.
      change (2 ^ 64 - 1) with 18446744073709551615 in *. destruct (N.le_gt_cases (2 ^ 53 * ONE) n) as [G|G].
      * rewrite (frac_zero n (proj1 F) G). replace (nan_of 0) with 0 by (symmetry; apply N.div_small; rewrite N.mul_0_l; change (round64 0 1) with 0; pose proof one_pos; lia). lia.
      * assert (n / ONE < 9007199254740992). { apply N.div_lt_upper_bound; [apply one_pos|]. rewrite N.mul_comm. exact G. } lia.
  - destruct s as [|[]|neg n]; try contradiction. cbn [le64] in L.
    destruct (from_fin neg n (proj1 F) P) as [E B]. rewrite E in H. injection H as <-. destruct (from_fin neg' n' (proj1 F') P') as [E' B']. rewrite E' in H'. injection H' as <-.
    unfold value. cbn [secs nanos] in *. change (2 ^ 64 - 1) with 18446744073709551615 in *.
    assert (Q : n / ONE <= n' / ONE) by (apply N.div_le_mono; [apply one_pos|exact L]).
    assert (Z : forall x, representable x -> 18446744073709551615 <= x / ONE -> nan_of (x mod ONE) = 0).
    { intros x Rx Gx. rewrite (frac_zero x Rx).
      - apply N.div_small. rewrite N.mul_0_l. change (round64 0 1) with 0. pose proof one_pos. lia.
      - pose proof (N.mul_div_le x ONE one_pos) as V. change (2 ^ 53) with 9007199254740992. pose proof one_pos. set (u := ONE) in *. clearbody u. nia. }
    destruct (N.eq_dec (n / ONE) (n' / ONE)) as [Eq|Ne].
    + rewrite Eq. assert (M : n mod ONE <= n' mod ONE).
      { pose proof (N.div_mod n ONE one_pos). pose proof (N.div_mod n' ONE one_pos). rewrite Eq in *. set (w := ONE * (n' / ONE)) in *. clearbody w. lia. }
      apply nan_of_mono in M. lia.
    + destruct (N.le_gt_cases 18446744073709551615 (n / ONE)) as [G|G]; [rewrite (Z n (proj1 F) G), (Z n' (proj1 F')) by lia; lia|]. lia.
Qed.

(** ** To seconds *)
Lemma as_units : forall d, dur_wf d -> as_secs_f64 d = Fin false (round64 (round64 (value d * ONE) 1) 1000000000).
Proof. intros d W. unfold as_secs_f64. rewrite as_nanos_value by exact W. reflexivity. Qed.
Definition to_units (v : N) : N := round64 (round64 (v * ONE) 1) 1000000000.
Lemma to_mono : forall v v', v <= v' -> to_units v <= to_units v'.
Proof. intros v v' L. unfold to_units. do 2 (apply round_mono; [discriminate|]). apply N.mul_le_mono_r. exact L. Qed.
Lemma to_error : forall v, v * ONE * 2 ^ 51 <= to_units v * 1000000000 * 2 ^ 51 + v * ONE /\ to_units v * 1000000000 * 2 ^ 51 <= v * ONE * 2 ^ 51 + v * ONE.
Proof.
  intros v. destruct (N.eq_dec v 0) as [->|Z]; [split; vm_compute; discriminate|].
  assert (L1 : 1 * 2 ^ 52 <= v * ONE). { pose proof one_52. set (w := 2 ^ 52) in *. clearbody w. set (u := ONE) in *. clearbody u. nia. }
  destruct (round_relative (v * ONE) 1 ltac:(discriminate) L1) as [A B]. unfold to_units. set (n1 := round64 (v * ONE) 1) in *. clearbody n1. rewrite N.mul_1_r in *.
  assert (L2 : 1000000000 * 2 ^ 52 <= n1).
  { pose proof one_big as H.
    change (2 ^ 53) with 9007199254740992 in A. change (2 ^ 52) with 4503599627370496 in *. set (u := ONE) in *. clearbody u. nia. }
  destruct (round_relative n1 1000000000 ltac:(discriminate) L2) as [C D]. set (r := round64 n1 1000000000) in *. clearbody r.
  change (2 ^ 53) with 9007199254740992 in *. change (2 ^ 51) with 2251799813685248. set (x := v * ONE) in *. clearbody x. split; lia.
Qed.
Lemma to_f64 : forall v, v < 2 ^ 100 -> representable (to_units v) /\ to_units v < 2 ^ 1024 * ONE /\ to_units v * 1000000000 <= 2 * (v * ONE).
Proof.
  intros v L. split; [apply round_representable; discriminate|]. destruct (to_error v) as [_ B]. change (2 ^ 51) with 2251799813685248 in B.
  assert (G : 2 ^ 100 * 2 <= 2 ^ 1024) by (vm_compute; discriminate). set (c := 2 ^ 1024) in *. clearbody c. set (h := 2 ^ 100) in *. clearbody h.
  pose proof one_pos. set (u := ONE) in *. clearbody u. set (r := to_units v) in *. clearbody r. split; nia.
Qed.
