(** Lemmas on computing with narrow integers. *)
From Coq Require Import NArith ZArith List Bool Lia.
From Verif Require Import M_Num S_Num L_Num M_NumOps S_NumOps.
Ltac Zify.zify_post_hook ::= idtac.

(** ** Unsigned *)
Lemma mod_land n x : (x mod 2 ^ n = N.land x (N.ones n))%N.
Proof. symmetry. apply N.land_ones. Qed.
Lemma small_mod n x : (x < 2 ^ n)%N -> (x mod 2 ^ n = x)%N.
Proof. apply N.mod_small. Qed.
Lemma mod_small_lt n x : (x mod 2 ^ n = x)%N -> (x < 2 ^ n)%N.
Proof. intros <-. apply N.mod_lt. apply N.pow_nonzero. discriminate. Qed.
Lemma land_lt n x r : (x < 2 ^ n)%N -> (N.land x r < 2 ^ n)%N.
Proof.
  intros H. apply mod_small_lt. apply small_mod in H. rewrite mod_land in *. rewrite <- N.land_assoc, (N.land_comm r), N.land_assoc, H. reflexivity.
Qed.
Lemma lor_lt n x y : (x < 2 ^ n)%N -> (y < 2 ^ n)%N -> (N.lor x y < 2 ^ n)%N.
Proof.
  intros H K. apply mod_small_lt. apply small_mod in H, K. rewrite mod_land in *. rewrite N.land_lor_distr_l, H, K. reflexivity.
Qed.
Lemma um_new_lt w n v : (n <= w)%N -> um_new w n v = if N.ltb v (2 ^ n) then Some v else None.
Proof.
  intros H. unfold um_new. rewrite um_mask_ones by exact H. rewrite N.ones_equiv. pose proof (pow2_pos n).
  destruct (N.leb_spec v (N.pred (2 ^ n))), (N.ltb_spec v (2 ^ n)); try reflexivity; lia.
Qed.
Lemma um_get_lt w n x : (n <= w)%N -> (x < 2 ^ n)%N -> um_get w n x = x.
Proof. intros H X. rewrite um_get_mod by exact H. now apply small_mod. Qed.
Lemma ueval_checked w n e : (n <= w)%N -> ueval true w n e = uvalue n e /\ (forall x, uvalue n e = Some x -> (x < 2 ^ n)%N).
Proof.
  intros H. pose proof (pow2_pos n) as P.
  induction e as [v| | | |a [IA LA] b [IB LB]|a [IA LA] r|a [IA LA] b [IB LB]|a [IA LA] b [IB LB]|a [IA LA] r]; cbn [ueval uvalue].
  - rewrite um_new_lt by exact H. destruct (N.ltb_spec v (2 ^ n)); split; try reflexivity; intros x E; inversion E; subst; assumption.
  - rewrite um_max_val by exact H. split; [reflexivity|]. intros x E. inversion E; subst. lia.
  - split; [reflexivity|]. intros x E. inversion E; subst. exact P.
  - split; [reflexivity|]. intros x E. inversion E; subst. exact P.
  - rewrite IA, IB. split; [reflexivity|]. destruct (uvalue n a) as [x|]; [|discriminate]. destruct (uvalue n b) as [y|]; [|discriminate].
    intros z E. inversion E; subst. apply land_lt, LA. reflexivity.
  - rewrite IA. split; [reflexivity|]. destruct (uvalue n a) as [x|]; [|discriminate]. intros z E. inversion E; subst. apply land_lt, LA. reflexivity.
  - rewrite IA, IB. split; [reflexivity|]. destruct (uvalue n a) as [x|]; [|discriminate]. destruct (uvalue n b) as [y|]; [|discriminate].
    intros z E. inversion E; subst. apply lor_lt; [apply LA|apply LB]; reflexivity.
  - rewrite IA, IB. destruct (uvalue n a) as [x|]; [|split; [reflexivity|discriminate]]. destruct (uvalue n b) as [y|]; [|split; [reflexivity|discriminate]].
    unfold um_sub, um_sub_base. rewrite !um_get_lt by (auto). split; [reflexivity|]. specialize (LA x eq_refl).
    destruct (N.leb_spec y x); [|discriminate]. intros z E. inversion E; subst. lia.
  - rewrite IA. destruct (uvalue n a) as [x|]; [|split; [reflexivity|discriminate]].
    unfold um_sub_base. rewrite !um_get_lt by (auto). split; [reflexivity|]. specialize (LA x eq_refl).
    destruct (N.leb_spec r x); [|discriminate]. intros z E. inversion E; subst. lia.
Qed.
(** Without checks, the low bits are right. *)
Lemma wsub_mod w n x y : (n <= w)%N -> (x < 2 ^ w)%N -> (y < 2 ^ w)%N ->
  (u_wsub w x y mod 2 ^ n)%N = Z.to_N ((Z.of_N x - Z.of_N y) mod 2 ^ Z.of_N n).
Proof.
  intros H X Y. apply N2Z.inj. pose proof (pow2_pos n) as P. rewrite Z2N.id; [|apply Z.mod_pos_bound; apply Z.pow_pos_nonneg; lia].
  unfold u_wsub. rewrite !N2Z.inj_mod, N2Z.inj_sub by lia. rewrite N2Z.inj_add, !N2Z.inj_pow. change (Z.of_N 2) with 2%Z.
  set (W := Z.of_N w). set (M := Z.of_N n). assert (L : (0 <= M <= W)%Z) by (unfold M, W; lia).
  assert (D : (2 ^ W = 2 ^ (W - M) * 2 ^ M)%Z) by (rewrite <- Z.pow_add_r by lia; f_equal; lia).
  assert (PM : (0 < 2 ^ M)%Z) by (apply Z.pow_pos_nonneg; lia). assert (PW : (0 < 2 ^ (W - M))%Z) by (apply Z.pow_pos_nonneg; lia).
  rewrite <- (Znumtheory.Zmod_div_mod (2 ^ M) (2 ^ W)); [|lia|apply Z.pow_pos_nonneg; lia|exists (2 ^ (W - M))%Z; exact D].
  rewrite D. replace (Z.of_N x + 2 ^ (W - M) * 2 ^ M - Z.of_N y)%Z with (Z.of_N x - Z.of_N y + 2 ^ (W - M) * 2 ^ M)%Z by lia.
  apply Z.mod_add. lia.
Qed.
Lemma ueval_unchecked w n e : (n <= w)%N -> ubase w e ->
  match ueval false w n e, uvalue_mod n e with
  | Some x, Some v => (x < 2 ^ w)%N /\ (x mod 2 ^ n)%N = v
  | None, None => True
  | _, _ => False
  end.
Proof.
  intros H. pose proof (pow2_pos n) as P. assert (PW : (2 ^ n <= 2 ^ w)%N) by (apply N.pow_le_mono_r; [discriminate|exact H]).
  induction e as [v| | | |a IA b IB|a IA r|a IA b IB|a IA b IB|a IA r]; cbn [ueval uvalue_mod ubase].
  - intros F. rewrite um_new_lt by exact H. destruct (N.ltb_spec v (2 ^ n)); [|exact I]. split; [exact F|]. now apply small_mod.
  - intros _. rewrite um_max_val by exact H. split; [lia|]. apply small_mod. lia.
  - intros _. split; [unfold um_min; lia|]. apply small_mod. unfold um_min. lia.
  - intros _. split; [lia|]. apply small_mod. lia.
  - intros [A B]. specialize (IA A). specialize (IB B). destruct (ueval false w n a) as [x|], (uvalue_mod n a) as [v|]; try contradiction; [|exact I].
    destruct (ueval false w n b) as [y|], (uvalue_mod n b) as [u|]; try contradiction; [|exact I]. destruct IA as [X <-], IB as [Y <-].
    unfold um_and. split; [now apply land_lt|]. rewrite !mod_land. apply N.bits_inj. intros i. rewrite !N.land_spec.
    destruct (N.testbit x i), (N.testbit y i), (N.testbit (N.ones n) i); reflexivity.
  - intros [A B]. specialize (IA A). destruct (ueval false w n a) as [x|], (uvalue_mod n a) as [v|]; try contradiction; [|exact I].
    destruct IA as [X <-]. unfold um_and. split; [now apply land_lt|]. rewrite !mod_land. apply N.bits_inj. intros i. rewrite !N.land_spec.
    destruct (N.testbit x i), (N.testbit r i), (N.testbit (N.ones n) i); reflexivity.
  - intros [A B]. specialize (IA A). specialize (IB B). destruct (ueval false w n a) as [x|], (uvalue_mod n a) as [v|]; try contradiction; [|exact I].
    destruct (ueval false w n b) as [y|], (uvalue_mod n b) as [u|]; try contradiction; [|exact I]. destruct IA as [X <-], IB as [Y <-].
    unfold um_or. split; [now apply lor_lt|]. rewrite !mod_land. apply N.land_lor_distr_l.
  - intros [A B]. specialize (IA A). specialize (IB B). destruct (ueval false w n a) as [x|], (uvalue_mod n a) as [v|]; try contradiction; [|exact I].
    destruct (ueval false w n b) as [y|], (uvalue_mod n b) as [u|]; try contradiction; [|exact I]. destruct IA as [X <-], IB as [Y <-].
    unfold um_sub_release. rewrite !um_get_mod by exact H.
    assert (Lx : (x mod 2 ^ n < 2 ^ n)%N) by (apply N.mod_lt; lia). assert (Ly : (y mod 2 ^ n < 2 ^ n)%N) by (apply N.mod_lt; lia).
    split; [unfold u_wsub; apply N.mod_lt; lia|]. apply wsub_mod; [exact H|lia|lia].
  - intros [A B]. specialize (IA A). destruct (ueval false w n a) as [x|], (uvalue_mod n a) as [v|]; try contradiction; [|exact I].
    destruct IA as [X <-]. rewrite !um_get_mod by exact H. assert (Lx : (x mod 2 ^ n < 2 ^ n)%N) by (apply N.mod_lt; lia).
    split; [unfold u_wsub; apply N.mod_lt; lia|]. apply wsub_mod; [exact H|lia|exact B].
Qed.

(** ** Signed *)
Lemma wrap_bits n x i : (0 < n)%Z -> (0 <= i)%Z -> Z.testbit (wrap n x) i = Z.testbit x (Z.min i (n - 1)).
Proof.
  intros H J. pose proof (wrap_fits n x H) as F. pose proof (wrap_mod n x H) as M. set (v := wrap n x) in *. unfold fits_i in F.
  assert (PN : (0 < 2 ^ n)%Z) by (apply Z.pow_pos_nonneg; lia). assert (PH : (0 < 2 ^ (n - 1))%Z) by (apply Z.pow_pos_nonneg; lia).
  assert (Low : forall k, (0 <= k < n)%Z -> Z.testbit v k = Z.testbit x k).
  { intros k K. rewrite <- (Z.mod_pow2_bits_low v n k), <- (Z.mod_pow2_bits_low x n k) by lia. f_equal.
    apply Z.mod_divide in M; [|lia]. destruct M as [q Q]. replace v with (x + q * 2 ^ n)%Z by lia. apply Z.mod_add. lia. }
  assert (High : forall k, (n - 1 <= k)%Z -> Z.testbit v k = (v <? 0)%Z).
  { intros k K. rewrite Z.testbit_odd, Z.shiftr_div_pow2 by lia.
    assert (PK : (2 ^ (n - 1) <= 2 ^ k)%Z) by (apply Z.pow_le_mono_r; lia).
    destruct (Z.ltb_spec v 0).
    - replace (v / 2 ^ k)%Z with (-1)%Z; [reflexivity|]. apply (Z.div_unique_pos _ _ _ (v + 2 ^ k)); lia.
    - rewrite Z.div_small by lia. reflexivity. }
  destruct (Z.le_gt_cases n i).
  - rewrite Z.min_r by lia. rewrite High by lia. rewrite <- (Low (n - 1)%Z) by lia. symmetry. apply High. lia.
  - rewrite Z.min_l by lia. apply Low. lia.
Qed.
Lemma wrap_land n x y : (0 < n)%Z -> wrap n (Z.land x y) = Z.land (wrap n x) (wrap n y).
Proof. intros H. apply Z.bits_inj'. intros i I. rewrite Z.land_spec, !wrap_bits, Z.land_spec by lia. reflexivity. Qed.
Lemma wrap_lor n x y : (0 < n)%Z -> wrap n (Z.lor x y) = Z.lor (wrap n x) (wrap n y).
Proof. intros H. apply Z.bits_inj'. intros i I. rewrite Z.lor_spec, !wrap_bits, Z.lor_spec by lia. reflexivity. Qed.
Lemma ieval_get w n e x : (0 < n < w)%Z -> iplain true n e -> ieval w n e = Some x -> im_get w n x = ivalue n e.
Proof.
  intros H. revert x. induction e as [v| | | |a IA b IB|a IA r|a IA b IB]; cbn [ieval ivalue iplain]; intros x P E.
  - apply (im_new_sound w n v x H E).
  - contradiction.
  - inversion E; subst. now apply im_get_min.
  - inversion E; subst. rewrite im_get_val by exact H. apply wrap_id; [lia|]. unfold fits_i. assert (0 < 2 ^ (n - 1))%Z by (apply Z.pow_pos_nonneg; lia). lia.
  - destruct (ieval w n a) as [y|]; [|discriminate E]. destruct (ieval w n b) as [z|]; [|discriminate E]. inversion E; subst.
    rewrite im_get_val by exact H. unfold im_and. rewrite wrap_land, <- !(im_get_val w) by lia.
    rewrite (IA y), (IB z) by tauto. reflexivity.
  - destruct (ieval w n a) as [y|]; [|discriminate E]. inversion E; subst. destruct P as [P F].
    rewrite im_get_val by exact H. unfold im_and. rewrite wrap_land, <- (im_get_val w n y) by lia. rewrite (wrap_id n r) by (try lia; exact F).
    rewrite (IA y) by tauto. reflexivity.
  - destruct (ieval w n a) as [y|]; [|discriminate E]. destruct (ieval w n b) as [z|]; [|discriminate E]. inversion E; subst.
    rewrite im_get_val by exact H. unfold im_or. rewrite wrap_lor, <- !(im_get_val w) by lia.
    rewrite (IA y), (IB z) by tauto. reflexivity.
Qed.
Lemma iplain_min n e : iplain false n e -> iplain true n e.
Proof. induction e; cbn [iplain]; try tauto. Qed.
Lemma ieval_stored w n e x : (0 < n < w)%Z -> iplain false n e -> ieval w n e = Some x -> x = ivalue n e.
Proof.
  intros H. revert x. induction e as [v| | | |a IA b IB|a IA r|a IA b IB]; cbn [ieval ivalue iplain]; intros x P E.
  - now apply im_new_some in E.
  - contradiction.
  - discriminate P.
  - now inversion E.
  - destruct (ieval w n a) as [y|]; [|discriminate E]. destruct (ieval w n b) as [z|]; [|discriminate E]. inversion E; subst.
    unfold im_and. rewrite (IA y), (IB z) by tauto. reflexivity.
  - destruct (ieval w n a) as [y|]; [|discriminate E]. inversion E; subst. unfold im_and. rewrite (IA y) by tauto. reflexivity.
  - destruct (ieval w n a) as [y|]; [|discriminate E]. destruct (ieval w n b) as [z|]; [|discriminate E]. inversion E; subst.
    unfold im_or. rewrite (IA y), (IB z) by tauto. reflexivity.
Qed.
