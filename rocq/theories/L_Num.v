From Coq Require Import NArith ZArith List Bool Lia.
From Verif Require Import M_Num S_Num M_Layout M_Result.
Import ListNotations.

Lemma pow2_pos w : (0 < 2 ^ w)%N.
Proof. apply N.neq_0_lt_0, N.pow_nonzero; discriminate. Qed.
Lemma zpow2_pos w : (0 <= w -> 0 < 2 ^ w)%Z.
Proof. intros; apply Z.pow_pos_nonneg; lia. Qed.

(** NonMax *)
Lemma nonmax_accepts w n : fits_u w n ->
  (exists x, nonmax_new w n = Some x) <-> n <> (2 ^ w - 1)%N.
Proof.
  unfold fits_u, nonmax_new, nonzero_new, u_not. intros H.
  destruct (N.eqb_spec (2 ^ w - 1 - n) 0).
  - split; [intros (x & E); discriminate | intros; lia].
  - split; [lia | eauto].
Qed.
Lemma nonmax_round w n x : fits_u w n -> nonmax_new w n = Some x -> nonmax_get w x = n.
Proof.
  unfold fits_u, nonmax_new, nonzero_new, nonmax_get, u_not. intros H.
  destruct (N.eqb_spec (2 ^ w - 1 - n) 0); intros E; inversion E; lia.
Qed.
Lemma nonmax_patterns w x : fits_u w x ->
  (exists n, fits_u w n /\ nonmax_new w n = Some x) <-> x <> 0%N.
Proof.
  unfold fits_u, nonmax_new, nonzero_new, u_not. intros H. split.
  - intros (n & Hn & E). destruct (N.eqb_spec (2 ^ w - 1 - n) 0); inversion E; lia.
  - intros Hx. exists (2 ^ w - 1 - x)%N. split; [lia|].
    destruct (N.eqb_spec (2 ^ w - 1 - (2 ^ w - 1 - x)) 0); [lia | f_equal; lia].
Qed.
Lemma nonmax_order w a b x y : fits_u w a -> fits_u w b ->
  nonmax_new w a = Some x -> nonmax_new w b = Some y ->
  nonmax_eq x y = N.eqb a b /\ nonmax_cmp w x y = N.compare a b.
Proof.
  intros Ha Hb Ex Ey.
  pose proof (nonmax_round _ _ _ Ha Ex) as Rx. pose proof (nonmax_round _ _ _ Hb Ey) as Ry.
  split; [|unfold nonmax_cmp; congruence].
  unfold nonmax_eq. destruct (N.eqb_spec x y), (N.eqb_spec a b); congruence.
Qed.

(** NonX unsigned *)
Lemma nonxu_round w f n x : fits_u w f -> fits_u w n -> nonxu_new w f n = Some x ->
  nonxu_get w f x = n.
Proof.
  unfold fits_u, nonxu_new, nonzero_new, nonxu_get, u_wsub, u_wadd. intros Hf Hn.
  destruct (N.eqb_spec ((n + 2 ^ w - f) mod 2 ^ w) 0); intros E; inversion E; subst x.
  pose proof (pow2_pos w).
  rewrite N.add_mod_idemp_l by lia.
  replace (n + 2 ^ w - f + f)%N with (n + 1 * 2 ^ w)%N by lia.
  rewrite N.mod_add by lia. apply N.mod_small; lia.
Qed.
Lemma nonxu_accepts w f n : fits_u w f -> fits_u w n ->
  (exists x, nonxu_new w f n = Some x) <-> n <> f.
Proof.
  unfold fits_u, nonxu_new, nonzero_new, u_wsub. intros Hf Hn. pose proof (pow2_pos w).
  destruct (N.lt_ge_cases n f).
  - replace ((n + 2 ^ w - f) mod 2 ^ w)%N with (n + 2 ^ w - f)%N by (symmetry; apply N.mod_small; lia).
    destruct (N.eqb_spec (n + 2 ^ w - f) 0); [lia | split; [lia | eauto]].
  - replace ((n + 2 ^ w - f) mod 2 ^ w)%N with (n - f)%N.
    2:{ replace (n + 2 ^ w - f)%N with ((n - f) + 1 * 2 ^ w)%N by lia.
        rewrite N.mod_add by lia. symmetry; apply N.mod_small; lia. }
    destruct (N.eqb_spec (n - f) 0).
    + split; [intros (x & E); discriminate | lia].
    + split; [lia | eauto].
Qed.
Lemma nonxu_fits w f n x : nonxu_new w f n = Some x -> fits_u w x.
Proof.
  unfold nonxu_new, nonzero_new, u_wsub, fits_u. pose proof (pow2_pos w).
  destruct (N.eqb _ 0); intros E; inversion E. apply N.mod_lt; lia.
Qed.
Lemma nonxu_patterns w f x : fits_u w f -> fits_u w x ->
  (exists n, fits_u w n /\ nonxu_new w f n = Some x) <-> x <> 0%N.
Proof.
  intros Hf Hx. pose proof (pow2_pos w). split.
  - intros (n & Hn & E) ->. unfold nonxu_new, nonzero_new in E.
    destruct (N.eqb_spec (u_wsub w n f) 0); congruence.
  - intros H0. exists (nonxu_get w f x). unfold nonxu_get, u_wadd, fits_u in *.
    split; [apply N.mod_lt; lia|].
    unfold nonxu_new, nonzero_new, u_wsub.
    assert (((x + f) mod 2 ^ w + 2 ^ w - f) mod 2 ^ w = x)%N as ->.
    { rewrite <- N.add_sub_assoc by (apply N.lt_le_incl; exact Hf).
      rewrite N.add_mod_idemp_l by lia.
      replace (x + f + (2 ^ w - f))%N with (x + 1 * 2 ^ w)%N by lia.
      rewrite N.mod_add by lia. apply N.mod_small; lia. }
    destruct (N.eqb_spec x 0); [contradiction | reflexivity].
Qed.
Lemma nonxu_order w f a b x y : fits_u w f -> fits_u w a -> fits_u w b ->
  nonxu_new w f a = Some x -> nonxu_new w f b = Some y ->
  N.eqb x y = N.eqb a b /\ nonxu_cmp w f x y = N.compare a b.
Proof.
  intros Hf Ha Hb Ex Ey.
  pose proof (nonxu_round _ _ _ _ Hf Ha Ex) as Rx. pose proof (nonxu_round _ _ _ _ Hf Hb Ey) as Ry.
  split; [|unfold nonxu_cmp; congruence].
  destruct (N.eqb_spec x y), (N.eqb_spec a b); congruence.
Qed.

(** wrap *)
Lemma zpow_half w : (0 < w -> 2 ^ w = 2 * 2 ^ (w - 1))%Z.
Proof.
  intros. replace w with (Z.succ (w - 1)) at 1 by lia. rewrite Z.pow_succ_r by lia. reflexivity.
Qed.
Lemma wrap_fits w z : (0 < w)%Z -> fits_i w (wrap w z).
Proof.
  intros H. unfold fits_i, wrap. pose proof (zpow_half w H).
  pose proof (zpow2_pos (w - 1) ltac:(lia)).
  pose proof (Z.mod_pos_bound (z + 2 ^ (w - 1)) (2 ^ w) ltac:(lia)). lia.
Qed.
Lemma wrap_id w z : (0 < w)%Z -> fits_i w z -> wrap w z = z.
Proof.
  intros H (H1 & H2). unfold wrap. pose proof (zpow_half w H).
  rewrite Z.mod_small by lia. lia.
Qed.
Lemma wrap_eqm w a b : (0 < w)%Z -> ((a - b) mod 2 ^ w = 0)%Z -> wrap w a = wrap w b.
Proof.
  intros H E. unfold wrap. f_equal.
  pose proof (zpow2_pos w ltac:(lia)).
  apply Z.mod_divide in E; [|lia]. destruct E as (k & E).
  replace (a + 2 ^ (w - 1))%Z with (b + 2 ^ (w - 1) + k * 2 ^ w)%Z by lia.
  apply Z.mod_add; lia.
Qed.
Lemma wrap_mod w z : (0 < w)%Z -> ((wrap w z - z) mod 2 ^ w = 0)%Z.
Proof.
  intros H. unfold wrap. pose proof (zpow2_pos w ltac:(lia)).
  rewrite (Z.mod_eq (z + 2 ^ (w - 1)) (2 ^ w)) by lia.
  replace (z + 2 ^ (w - 1) - 2 ^ w * ((z + 2 ^ (w - 1)) / 2 ^ w) - 2 ^ (w - 1) - z)%Z
    with ((- ((z + 2 ^ (w - 1)) / 2 ^ w)) * 2 ^ w)%Z by lia.
  apply Z.mod_mul; lia.
Qed.
Lemma nonxi_round w f n x : (0 < w)%Z -> fits_i w f -> fits_i w n -> nonxi_new w f n = Some x ->
  nonxi_get w f x = n.
Proof.
  unfold nonxi_new, nonxi_get. intros Hw Hf Hn.
  destruct (Z.eqb_spec (wrap w (n - f)) 0); intros E; inversion E; subst x.
  rewrite <- (wrap_id w n Hw Hn) at 2. apply wrap_eqm; [lia|].
  replace (wrap w (n - f) + f - n)%Z with (wrap w (n - f) - (n - f))%Z by lia.
  apply wrap_mod; lia.
Qed.
Lemma nonxi_accepts w f n : (0 < w)%Z -> fits_i w f -> fits_i w n ->
  (exists x, nonxi_new w f n = Some x) <-> n <> f.
Proof.
  unfold nonxi_new. intros Hw Hf Hn.
  destruct (Z.eqb_spec (wrap w (n - f)) 0) as [e|e].
  - split; [intros (x & E); discriminate|]. intros D.
    pose proof (wrap_mod w (n - f) Hw) as M. rewrite e in M.
    pose proof (zpow2_pos w ltac:(lia)). pose proof (zpow_half w Hw).
    unfold fits_i in *. apply Z.mod_divide in M; [|lia]. destruct M as (k & M).
    assert (k = 0)%Z by nia. nia.
  - split; [|eauto]. intros _ ->. apply e. rewrite Z.sub_diag.
    apply wrap_id; [lia|]. unfold fits_i. pose proof (zpow2_pos (w - 1) ltac:(lia)). lia.
Qed.
Lemma nonxi_patterns w f x : (0 < w)%Z -> fits_i w f -> fits_i w x ->
  (exists n, fits_i w n /\ nonxi_new w f n = Some x) <-> x <> 0%Z.
Proof.
  intros Hw Hf Hx. split.
  - intros (n & Hn & E) ->. unfold nonxi_new in E.
    destruct (Z.eqb_spec (wrap w (n - f)) 0); congruence.
  - intros H0. exists (wrap w (x + f)). split; [apply wrap_fits; lia|].
    unfold nonxi_new.
    assert (wrap w (wrap w (x + f) - f) = x) as ->.
    { rewrite <- (wrap_id w x Hw Hx) at 2. apply wrap_eqm; [lia|].
      replace (wrap w (x + f) - f - x)%Z with (wrap w (x + f) - (x + f))%Z by lia.
      apply wrap_mod; lia. }
    destruct (Z.eqb_spec x 0); [contradiction|reflexivity].
Qed.
Lemma nonxi_order w f a b x y : (0 < w)%Z -> fits_i w f -> fits_i w a -> fits_i w b ->
  nonxi_new w f a = Some x -> nonxi_new w f b = Some y ->
  Z.eqb x y = Z.eqb a b /\ nonxi_cmp w f x y = Z.compare a b.
Proof.
  intros Hw Hf Ha Hb Ex Ey.
  pose proof (nonxi_round _ _ _ _ Hw Hf Ha Ex) as Rx. pose proof (nonxi_round _ _ _ _ Hw Hf Hb Ey) as Ry.
  split; [|unfold nonxi_cmp; congruence].
  destruct (Z.eqb_spec x y), (Z.eqb_spec a b); congruence.
Qed.

(** memory *)
Lemma le_bytes_length k v : length (le_bytes k v) = k.
Proof. revert v; induction k; cbn; auto. Qed.
Lemma le_bytes_bytes k v : forallb (fun b => N.ltb b 256) (le_bytes k v) = true.
Proof.
  revert v; induction k; intros; cbn [le_bytes forallb]; auto. rewrite IHk, andb_true_r.
  apply N.ltb_lt, N.mod_lt; discriminate.
Qed.
Lemma le_bytes_zero k v : fits_u (8 * N.of_nat k) v ->
  forallb (N.eqb 0) (le_bytes k v) = true <-> v = 0%N.
Proof.
  unfold fits_u. revert v; induction k; intros v H.
  - cbn. cbn in H. split; intros; [lia|reflexivity].
  - cbn [le_bytes forallb]. rewrite andb_true_iff, IHk.
    2:{ apply N.div_lt_upper_bound; [discriminate|].
        replace (8 * N.of_nat (S k))%N with (8 + 8 * N.of_nat k)%N in H by lia.
        rewrite N.pow_add_r in H. exact H. }
    rewrite N.eqb_eq. pose proof (N.div_mod v 256 ltac:(discriminate)).
    split; [intros (A & B); lia|]. intros ->. split; reflexivity.
Qed.
Lemma nonzero_memory k a v : fits_u (8 * N.of_nat k) v ->
  decode (TNonZero k a) (le_bytes k v) <> None <-> v <> 0%N.
Proof.
  intros H. cbn [decode layout]. unfold nonzero_d; cbn [dsize].
  rewrite le_bytes_length, Nat.eqb_refl, le_bytes_bytes. cbn [andb negb].
  pose proof (le_bytes_zero k v H) as E.
  destruct (forallb (N.eqb 0) (le_bytes k v)).
  - split; [congruence|]. intros D; exfalso; apply D, E; reflexivity.
  - split; [|congruence]. intros _ D. apply E in D; discriminate.
Qed.

(** uN *)
Lemma um_mask_ones w n : (n <= w)%N -> um_mask w n = N.ones n.
Proof.
  intros. unfold um_mask. rewrite N.shiftr_div_pow2, N.ones_equiv, <- N.sub_1_r.
  pose proof (pow2_pos n). pose proof (pow2_pos (w - n)).
  assert (2 ^ w = 2 ^ n * 2 ^ (w - n))%N as E by (rewrite <- N.pow_add_r; f_equal; lia).
  symmetry. apply (N.div_unique _ _ _ (2 ^ (w - n) - 1)); nia.
Qed.
Lemma um_get_mod w n x : (n <= w)%N -> um_get w n x = (x mod 2 ^ n)%N.
Proof. intros. unfold um_get. rewrite um_mask_ones by auto. apply N.land_ones. Qed.
Lemma um_max_val w n : (n <= w)%N -> um_max w n = (2 ^ n - 1)%N.
Proof. intros. unfold um_max. rewrite um_mask_ones, N.ones_equiv by auto. lia. Qed.
Lemma um_new_spec w n v : (n <= w)%N ->
  um_new w n v = if N.ltb v (2 ^ n) then Some v else None.
Proof.
  intros. unfold um_new. rewrite um_mask_ones, N.ones_equiv by auto. pose proof (pow2_pos n).
  destruct (N.leb_spec v (N.pred (2 ^ n))), (N.ltb_spec v (2 ^ n)); auto; lia.
Qed.
Lemma um_round w n v x : (n <= w)%N -> um_new w n v = Some x -> x = v /\ um_get w n x = v.
Proof.
  intros H. rewrite um_new_spec by auto. destruct (N.ltb_spec v (2 ^ n)); intros E; inversion E; subst.
  rewrite um_get_mod by auto. split; auto. apply N.mod_small; lia.
Qed.
Lemma um_unused w n x h : (n <= w)%N -> um_get w n (N.lor x (N.shiftl h n)) = um_get w n x.
Proof.
  intros. rewrite !um_get_mod, <- !N.land_ones by auto.
  apply N.bits_inj; intros i. rewrite !N.land_spec, N.lor_spec.
  destruct (N.lt_ge_cases i n).
  - rewrite (N.shiftl_spec_low h n i) by auto. rewrite orb_false_r; reflexivity.
  - rewrite N.ones_spec_high by auto. rewrite !andb_false_r; reflexivity.
Qed.
Lemma um_add_ok w n x y : (n < w)%N ->
  um_add w n x y = Some (um_get w n x + um_get w n y)%N.
Proof.
  intros. unfold um_add. rewrite !um_get_mod by lia. pose proof (pow2_pos n).
  pose proof (N.mod_lt x (2 ^ n) ltac:(lia)). pose proof (N.mod_lt y (2 ^ n) ltac:(lia)).
  assert (2 ^ n * 2 <= 2 ^ w)%N.
  { replace w with (n + 1 + (w - n - 1))%N by lia. rewrite !N.pow_add_r.
    pose proof (pow2_pos (w - n - 1)). change (2 ^ 1)%N with 2%N. nia. }
  destruct (N.ltb_spec (x mod 2 ^ n + y mod 2 ^ n) (2 ^ w)); [reflexivity|lia].
Qed.
Lemma um_sub_spec w n x y : (n <= w)%N ->
  um_sub w n x y = if N.leb (um_get w n y) (um_get w n x)
                   then um_new w n (um_get w n x - um_get w n y) else None.
Proof.
  intros. unfold um_sub, um_sub_base. destruct (N.leb_spec (um_get w n y) (um_get w n x)); auto.
  rewrite um_new_spec by auto. rewrite !um_get_mod in * by auto. pose proof (pow2_pos n).
  pose proof (N.mod_lt x (2 ^ n) ltac:(lia)) as L.
  destruct (N.ltb_spec (x mod 2 ^ n - y mod 2 ^ n) (2 ^ n)) as [|G]; [reflexivity|].
  exfalso. revert L G. generalize (x mod 2 ^ n)%N (y mod 2 ^ n)%N. lia.
Qed.
Lemma um_bits w n x y : (n <= w)%N ->
  um_get w n (um_and x y) = N.land (um_get w n x) (um_get w n y) /\
  um_get w n (um_or x y) = N.lor (um_get w n x) (um_get w n y) /\
  um_or_base w n x y = N.lor (um_get w n x) y.
Proof.
  intros. split; [|split; [|reflexivity]]; unfold um_get, um_and, um_or; apply N.bits_inj; intros i;
  repeat rewrite ?N.land_spec, ?N.lor_spec;
  destruct (N.testbit x i), (N.testbit y i), (N.testbit (um_mask w n) i); reflexivity.
Qed.

(** iN *)
Lemma zones n : (0 <= n)%Z -> Z.ones n = (2 ^ n - 1)%Z.
Proof. intros. rewrite Z.ones_equiv. lia. Qed.
Lemma im_min_val w n : (0 < n < w)%Z -> im_min w n = (2 ^ (n - 1))%Z.
Proof.
  intros. unfold im_min. rewrite Z.shiftl_1_l. apply wrap_id; [lia|]. unfold fits_i.
  pose proof (zpow2_pos (n - 1) ltac:(lia)). pose proof (zpow2_pos (w - 1) ltac:(lia)).
  pose proof (Z.pow_lt_mono_r 2 (n - 1) (w - 1) ltac:(lia) ltac:(lia) ltac:(lia)). lia.
Qed.
Lemma shiftr_ones a b : (0 <= b <= a)%Z -> Z.shiftr (2 ^ a - 1) b = (2 ^ (a - b) - 1)%Z.
Proof.
  intros. rewrite Z.shiftr_div_pow2 by lia.
  assert (2 ^ a = 2 ^ (a - b) * 2 ^ b)%Z as E by (rewrite <- Z.pow_add_r by lia; f_equal; lia).
  pose proof (zpow2_pos b ltac:(lia)).
  symmetry. apply (Z.div_unique _ _ _ (2 ^ b - 1)); [lia | nia].
Qed.
Lemma im_mask_val w n : (0 < n < w)%Z -> im_mask w n = Z.ones n.
Proof.
  intros H. unfold im_mask. fold (im_min w n). rewrite im_min_val by auto.
  rewrite shiftr_ones by lia. replace (w - 1 - (w - n))%Z with (n - 1)%Z by lia.
  rewrite <- zones by lia. apply Z.bits_inj'. intros i Hi. rewrite Z.lor_spec.
  rewrite !Z.testbit_ones by lia. rewrite Z.pow2_bits_eqb by lia.
  destruct (Z.leb_spec 0 i), (Z.ltb_spec i (n - 1)), (Z.ltb_spec i n), (Z.eqb_spec (n - 1) i); try reflexivity; lia.
Qed.
(** The value represented by the [n] low bits of [x]. *)
Lemma im_sign_extend_val w n v : (0 < n < w)%Z -> (0 <= v < 2 ^ n)%Z ->
  im_sign_extend w n v = wrap n v.
Proof.
  intros H Hv. unfold im_sign_extend. rewrite im_min_val by auto.
  pose proof (zpow_half n ltac:(lia)) as En.
  pose proof (zpow2_pos (n - 1) ltac:(lia)). pose proof (zpow2_pos (w - n) ltac:(lia)).
  pose proof (zpow2_pos (w - 1) ltac:(lia)). pose proof (zpow_half w ltac:(lia)) as Ew.
  assert (Z.land v (2 ^ (n - 1)) = if Z.leb (2 ^ (n - 1)) v then 2 ^ (n - 1) else 0)%Z as ->.
  { apply Z.bits_inj'. intros i Hi. rewrite Z.land_spec, Z.pow2_bits_eqb by lia.
    destruct (Z.eqb_spec (n - 1) i) as [<-|D].
    - rewrite andb_true_r. rewrite Z.testbit_eqb by lia.
      destruct (Z.leb_spec (2 ^ (n - 1)) v).
      + rewrite Z.pow2_bits_true by lia.
        replace (v / 2 ^ (n - 1))%Z with 1%Z by (apply (Z.div_unique _ _ _ (v - 2 ^ (n - 1))); lia).
        reflexivity.
      + rewrite Z.div_small by lia. rewrite Z.bits_0. reflexivity.
    - rewrite andb_false_r. destruct (Z.leb_spec (2 ^ (n - 1)) v).
      + rewrite Z.pow2_bits_false by lia. reflexivity.
      + rewrite Z.bits_0; reflexivity. }
  destruct (Z.leb_spec (2 ^ (n - 1)) v).
  - rewrite Z.shiftl_mul_pow2, <- Z.pow_add_r by lia. replace (n - 1 + (w - n))%Z with (w - 1)%Z by lia.
    assert (wrap w (2 ^ (w - 1)) = - 2 ^ (w - 1))%Z as ->.
    { unfold wrap. replace (2 ^ (w - 1) + 2 ^ (w - 1))%Z with (1 * 2 ^ w)%Z by lia.
      rewrite Z.mod_mul by lia. lia. }
    assert (Z.shiftr (- 2 ^ (w - 1)) (w - n - 1) = - 2 ^ n)%Z as ->.
    { rewrite Z.shiftr_div_pow2 by lia. pose proof (zpow2_pos (w - n - 1) ltac:(lia)).
      replace (2 ^ (w - 1))%Z with (2 ^ n * 2 ^ (w - n - 1))%Z by (rewrite <- Z.pow_add_r by lia; f_equal; lia).
      rewrite <- Z.mul_opp_l. apply Z.div_mul; lia. }
    assert (Z.lor v (- 2 ^ n) = v - 2 ^ n)%Z as ->.
    { rewrite Z.add_nocarry_lxor || idtac.
      assert (Z.land v (- 2 ^ n) = 0)%Z as L.
      { replace (- 2 ^ n)%Z with (Z.lnot (Z.ones n)) by (rewrite zones by lia; unfold Z.lnot; lia).
        apply Z.bits_inj'. intros i Hi. rewrite Z.land_spec, Z.lnot_spec, Z.bits_0 by lia.
        rewrite Z.testbit_ones by lia.
        destruct (Z.ltb_spec i n).
        - destruct (Z.leb_spec 0 i); [|lia]. cbn. apply andb_false_r.
        - rewrite Z.testbit_eqb by lia. rewrite Z.div_small; [reflexivity|].
          split; [lia|]. apply Z.lt_le_trans with (2 ^ n)%Z; [lia|]. apply Z.pow_le_mono_r; lia. }
      rewrite <- (Z.lxor_lor _ _ L), <- (Z.add_nocarry_lxor _ _ L). lia. }
    unfold wrap. replace (v + 2 ^ (n - 1))%Z with (v - 2 ^ (n - 1) + 1 * 2 ^ n)%Z by lia.
    rewrite Z.mod_add by lia. rewrite Z.mod_small by lia. lia.
  - rewrite Z.shiftl_0_l.
    rewrite (wrap_id w 0) by (unfold fits_i; lia). rewrite Z.shiftr_0_l, Z.lor_0_r.
    symmetry. apply wrap_id; [lia|]. unfold fits_i; lia.
Qed.
Lemma im_get_val w n x : (0 < n < w)%Z -> im_get w n x = wrap n x.
Proof.
  intros H. unfold im_get. rewrite im_mask_val by auto. rewrite Z.land_ones by lia.
  pose proof (zpow2_pos n ltac:(lia)).
  rewrite im_sign_extend_val by (auto; apply Z.mod_pos_bound; lia).
  apply wrap_eqm; [lia|]. rewrite Zminus_mod_idemp_l, Z.sub_diag. reflexivity.
Qed.
Lemma im_get_fits w n x : (0 < n < w)%Z -> fits_i n (im_get w n x).
Proof. intros. rewrite im_get_val by auto. apply wrap_fits; lia. Qed.
Lemma im_get_min w n : (0 < n < w)%Z -> im_get w n (im_min w n) = (- 2 ^ (n - 1))%Z.
Proof.
  intros H. rewrite im_get_val, im_min_val by auto. unfold wrap.
  pose proof (zpow_half n ltac:(lia)). pose proof (zpow2_pos (n - 1) ltac:(lia)).
  replace (2 ^ (n - 1) + 2 ^ (n - 1))%Z with (1 * 2 ^ n)%Z by lia.
  rewrite Z.mod_mul by lia. lia.
Qed.
Lemma im_get_max w n : (0 < n < w)%Z ->
  im_get w n (im_max w n) = if Z.leb (w - 1 - n) (n - 1) then (2 ^ (w - 1 - n) - 1)%Z else (-1)%Z.
Proof.
  intros H. rewrite im_get_val by auto. unfold im_max. rewrite shiftr_ones by lia.
  pose proof (zpow2_pos (n - 1) ltac:(lia)). pose proof (zpow2_pos (w - 1 - n) ltac:(lia)).
  destruct (Z.leb_spec (w - 1 - n) (n - 1)).
  - apply wrap_id; [lia|]. unfold fits_i.
    pose proof (Z.pow_le_mono_r 2 (w - 1 - n) (n - 1) ltac:(lia) ltac:(lia)). lia.
  - rewrite <- (wrap_id n (-1)) by (unfold fits_i; lia). apply wrap_eqm; [lia|].
    replace (2 ^ (w - 1 - n) - 1 - -1)%Z with (2 ^ (w - 1 - n))%Z by lia.
    replace (w - 1 - n)%Z with (w - 1 - n - n + n)%Z by lia. rewrite Z.pow_add_r by lia.
    apply Z.mod_mul. pose proof (zpow2_pos n ltac:(lia)). lia.
Qed.
Lemma im_max_iff w n : (0 < n < w)%Z ->
  im_get w n (im_max w n) = (2 ^ (n - 1) - 1)%Z <-> w = (2 * n)%Z.
Proof.
  intros H. rewrite im_get_max by auto. pose proof (zpow2_pos (n - 1) ltac:(lia)).
  destruct (Z.leb_spec (w - 1 - n) (n - 1)).
  - split; intros E.
    + assert (2 ^ (w - 1 - n) = 2 ^ (n - 1))%Z as P by lia.
      apply Z.pow_inj_r in P; lia.
    + replace (w - 1 - n)%Z with (n - 1)%Z by lia. reflexivity.
  - split; lia.
Qed.
Lemma im_new_some w n v x : im_new w n v = Some x -> x = v.
Proof. unfold im_new. destruct (_ && _); congruence. Qed.
Lemma im_new_sound w n v x : (0 < n < w)%Z -> im_new w n v = Some x ->
  fits_i n v /\ im_get w n x = v.
Proof.
  intros H E. pose proof (im_new_some _ _ _ _ E) as ->. unfold im_new in E.
  destruct (Z.leb_spec v (im_get w n (im_max w n))) as [A|]; [|discriminate].
  destruct (Z.leb_spec (im_get w n (im_min w n)) v) as [B|]; [|discriminate].
  rewrite im_get_min in B by auto. pose proof (im_get_fits w n (im_max w n) H) as F.
  assert (fits_i n v) by (unfold fits_i in *; lia).
  split; auto. rewrite im_get_val by auto. apply wrap_id; [lia|auto].
Qed.
Lemma im_new_iff w n v : (0 < n < w)%Z ->
  im_new w n v <> None <-> (- 2 ^ (n - 1) <= v <= im_get w n (im_max w n))%Z.
Proof.
  intros H. unfold im_new. rewrite im_get_min by auto.
  destruct (Z.leb_spec v (im_get w n (im_max w n))), (Z.leb_spec (- 2 ^ (n - 1)) v); cbn [andb];
  split; intros; try congruence; try lia.
Qed.
