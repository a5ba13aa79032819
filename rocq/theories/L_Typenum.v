From Coq Require Import List ZArith NArith Bool Lia ZifyBool ZifyN.
From Verif Require Import M_Typenum S_Typenum.
Import ListNotations.
Open Scope N_scope.
Arguments N.add : simpl never.
Arguments N.mul : simpl never.
Arguments N.pow : simpl never.
Arguments N.eqb : simpl never.
Arguments N.ltb : simpl never.
Arguments N.sub : simpl never.
Ltac Zify.zify_post_hook ::= Z.div_mod_to_equations.

Definition b2n (b : bool) : N := if b then 1 else 0.

Fixpoint val (u : unum) : N :=
  match u with UTerm => 0 | UInt m b => 2 * val m + b2n b | Saturator => 0 end.
Fixpoint nosat (u : unum) : bool :=
  match u with UTerm => true | UInt m _ => nosat m | Saturator => false end.
(* canonical: no leading zero *)
Fixpoint canon (u : unum) : bool :=
  match u with
  | UTerm => true
  | UInt m b => canon m && (b || negb (is_uterm m))
  | Saturator => false
  end.

Lemma canon_nosat u : canon u = true -> nosat u = true.
Proof. induction u; cbn; try congruence; rewrite andb_true_iff; tauto. Qed.

Lemma val_enc n : val (enc n) = n.
Proof.
  destruct n as [|p]; cbn [enc]; [reflexivity|].
  induction p; cbn [enc_pos val b2n]; lia.
Qed.
Lemma canon_enc n : canon (enc n) = true.
Proof.
  destruct n as [|p]; cbn [enc]; [reflexivity|].
  induction p as [p IH|p IH|]; cbn [enc_pos canon]; rewrite ?IH; cbn; auto.
  assert (H: is_uterm (enc_pos p) = false).
  { clear. induction p; cbn; auto. }
  rewrite H; reflexivity.
Qed.
Lemma nosat_enc n : nosat (enc n) = true.
Proof. apply canon_nosat, canon_enc. Qed.

Lemma enc_inj a b : enc a = enc b -> a = b.
Proof. intros H. rewrite <- (val_enc a), <- (val_enc b), H; reflexivity. Qed.

Lemma is_uterm_val u : nosat u = true -> is_uterm u = (val u =? 0).
Proof.
  induction u as [|m IH b|]; cbn; try congruence; auto.
  intros H. rewrite IH by auto. destruct b; cbn; [|]; lia.
Qed.

Lemma enc_double m b : enc (2 * m + b2n b) =
  if (2 * m + b2n b =? 0) then UTerm else UInt (enc m) b.
Proof.
  destruct m as [|p]; destruct b; cbn; auto.
Qed.
Lemma canon_enc_val u : canon u = true -> u = enc (val u).
Proof.
  induction u as [|m IH b|]; cbn [canon val]; try congruence; auto.
  rewrite andb_true_iff. intros [Hm Hb].
  rewrite enc_double, <- IH by auto.
  rewrite is_uterm_val in Hb by (apply canon_nosat; auto).
  destruct b; cbn [b2n] in *.
  - destruct (N.eqb_spec (2 * val m + 1) 0); auto; lia.
  - destruct (N.eqb_spec (2 * val m + 0) 0); auto; lia.
Qed.
Lemma eq_enc u n : canon u = true -> val u = n -> u = enc n.
Proof. intros H <-; apply canon_enc_val; auto. Qed.

Lemma simplified_spec u : nosat u = true -> canon (simplified u) = true /\ val (simplified u) = val u.
Proof.
  induction u as [|m IH b|]; cbn [nosat simplified val canon]; try congruence; auto.
  intros H. destruct (IH H) as [IH1 IH2].
  destruct (is_uterm (UInt m b)) eqn:E.
  - rewrite is_uterm_val in E by auto. cbn [val] in *. split; auto. cbn. lia.
  - cbn [canon val]. rewrite IH1, IH2. split; auto.
    rewrite is_uterm_val by (apply canon_nosat; auto). rewrite IH2.
    rewrite is_uterm_val in E by auto. cbn [val] in E.
    destruct b; cbn [b2n orb andb] in *; auto. lia.
Qed.
Lemma simplified_enc u n : nosat u = true -> val u = n -> simplified u = enc n.
Proof. intros H1 H2. destruct (simplified_spec u H1). apply eq_enc; congruence. Qed.

Lemma nosat_msb u : nosat u = true -> nosat (msb_of u) = true.
Proof. destruct u; auto. Qed.
Lemma val_parts u : nosat u = true -> val u = 2 * val (msb_of u) + b2n (bit_of u).
Proof. destruct u; cbn; auto; congruence. Qed.
Lemma canon_msb u : canon u = true -> canon (msb_of u) = true.
Proof. destruct u; cbn; auto. rewrite andb_true_iff; tauto. Qed.

Lemma equal_val u : forall t, nosat u = true -> nosat t = true -> equal u t = (val u =? val t).
Proof.
  induction u as [|m IH b|]; cbn [nosat equal val]; intros t Hu Ht; try congruence.
  - rewrite is_uterm_val by auto. lia.
  - rewrite IH by auto using nosat_msb. rewrite (val_parts t) by auto.
    unfold bequals, bxor. destruct b, (bit_of t); cbn; lia.
Qed.

Lemma greater_hint_val u : forall t h, nosat u = true -> nosat t = true ->
  greater_hint u t h = ((val t <? val u) || (h && (val t =? val u))).
Proof.
  induction u as [|m IH b|]; cbn [nosat greater_hint val]; intros t h Hu Ht; try congruence.
  - rewrite is_uterm_val by auto. destruct h; cbn; lia.
  - rewrite IH by auto using nosat_msb. rewrite (val_parts t) by auto.
    destruct b, (bit_of t), h; cbn [b2n andb orb]; lia.
Qed.
Lemma greater_val u t : nosat u = true -> nosat t = true -> greater u t = (val t <? val u).
Proof. intros; unfold greater; rewrite greater_hint_val by auto. cbn. lia. Qed.

Lemma add_uterm_is_add u c : add_carry u UTerm c = add_uterm u c.
Proof.
  revert c; induction u as [|m IH b|]; intros c; cbn; auto. rewrite IH; reflexivity.
Qed.

Ltac destr_bools := repeat match goal with b : bool |- _ => destruct b end.

Lemma adder_spec a b c : b2n a + b2n b + b2n c = 2 * b2n (adder_carry a b c) + b2n (adder_sum a b c).
Proof. destr_bools; reflexivity. Qed.
Lemma suber_spec a b c : b2n a + 2 * b2n (suber_carry a b c) = b2n b + b2n c + b2n (suber_sum a b c).
Proof. destr_bools; reflexivity. Qed.

Lemma add_uterm_spec u : forall c, nosat u = true ->
  nosat (add_uterm u c) = true /\ val (add_uterm u c) = val u + b2n c /\
  (canon u = true -> canon (add_uterm u c) = true).
Proof.
  induction u as [|m IH b|]; cbn [nosat add_uterm val canon]; intros c H; try congruence.
  - destruct c; cbn; auto.
  - destruct (IH (adder_carry b false c) H) as (A & B & C). repeat split; auto.
    + rewrite B. pose proof (adder_spec b false c). change (b2n false) with 0 in *. lia.
    + rewrite !andb_true_iff. intros [Hm Hb]. split; auto.
      rewrite is_uterm_val by auto. rewrite B.
      rewrite is_uterm_val in Hb by auto.
      pose proof (adder_spec b false c) as E. destruct (adder_sum b false c); auto.
      destruct b, c; cbn [b2n orb] in *; try lia.
Qed.
Lemma increment_spec u : nosat u = true ->
  nosat (increment u) = true /\ val (increment u) = val u + 1 /\
  (canon u = true -> canon (increment u) = true).
Proof.
  destruct u as [|m b|]; intros H; cbn [increment].
  - auto.
  - apply (add_uterm_spec (UInt m b) true); auto.
  - cbn in H; congruence.
Qed.
Lemma add_carry_spec u : forall t c, nosat u = true -> nosat t = true ->
  nosat (add_carry u t c) = true /\ val (add_carry u t c) = val u + val t + b2n c /\
  (canon u = true -> canon t = true -> canon (add_carry u t c) = true).
Proof.
  induction u as [|m IH b|]; cbn [nosat add_carry val canon]; intros t c Hu Ht; try congruence.
  - destruct c.
    + destruct (increment_spec t Ht) as (A & B & C). repeat split; auto; rewrite B; cbn [b2n]; lia.
    + repeat split; auto; cbn [b2n]; lia.
  - destruct (IH (msb_of t) (adder_carry b (bit_of t) c) Hu (nosat_msb t Ht)) as (A & B & C).
    repeat split; auto.
    + rewrite B, (val_parts t) by auto. pose proof (adder_spec b (bit_of t) c). lia.
    + rewrite !andb_true_iff. intros [Hm Hb] Hct. split; [auto using canon_msb|].
      rewrite is_uterm_val by auto. rewrite B.
      rewrite is_uterm_val in Hb by auto.
      pose proof (adder_spec b (bit_of t) c) as E.
      destruct (adder_sum b (bit_of t) c); auto.
      destruct b, c, (bit_of t); cbn [b2n orb] in *; try lia.
Qed.
Lemma add_spec u t : nosat u = true -> nosat t = true ->
  nosat (add u t) = true /\ val (add u t) = val u + val t /\
  (canon u = true -> canon t = true -> canon (add u t) = true).
Proof.
  intros Hu Ht. destruct (add_carry_spec u t false Hu Ht) as (A & B & C).
  unfold add. repeat split; auto. rewrite B; cbn [b2n]; lia.
Qed.
Lemma add_enc a b : add (enc a) (enc b) = enc (a + b).
Proof.
  destruct (add_spec (enc a) (enc b)) as (A & B & C); auto using nosat_enc.
  apply eq_enc; auto using canon_enc. rewrite B, !val_enc; reflexivity.
Qed.
Lemma increment_enc a : increment (enc a) = enc (a + 1).
Proof.
  destruct (increment_spec (enc a)) as (A & B & C); auto using nosat_enc.
  apply eq_enc; auto using canon_enc. rewrite B, !val_enc; reflexivity.
Qed.

Lemma sub_carry_spec u : forall t c, nosat u = true -> nosat t = true ->
  val t + b2n c <= val u ->
  nosat (sub_carry u t c) = true /\ val (sub_carry u t c) + val t + b2n c = val u.
Proof.
  induction u as [|m IH b|]; cbn [nosat sub_carry val]; intros t c Hu Ht Hle; try congruence.
  - split; auto; lia.
  - rewrite (val_parts t) in * by auto.
    pose proof (suber_spec b (bit_of t) c) as E.
    unfold suber_sum in *.
    destruct (IH (msb_of t) (suber_carry b (bit_of t) c)) as (A & B); auto using nosat_msb.
    { clear E IH. destruct b, c, (bit_of t); cbn in *; lia. }
    split; auto. lia.
Qed.
Lemma abs_sub_enc_val u t : nosat u = true -> nosat t = true ->
  abs_sub u t = enc ((val u - val t) + (val t - val u)).
Proof.
  intros Hu Ht. unfold abs_sub. rewrite greater_val by auto.
  destruct (N.ltb_spec (val t) (val u)).
  - destruct (sub_carry_spec u t false) as (A & B); auto; cbn [b2n] in *; try lia.
    apply simplified_enc; auto. lia.
  - destruct (sub_carry_spec t u false) as (A & B); auto; cbn [b2n] in *; try lia.
    apply simplified_enc; auto. lia.
Qed.
Lemma abs_sub_enc a b : abs_sub (enc a) (enc b) = enc ((a - b) + (b - a)).
Proof. rewrite abs_sub_enc_val by apply nosat_enc. rewrite !val_enc; reflexivity. Qed.

Lemma equal_enc a b : equal (enc a) (enc b) = (a =? b).
Proof. rewrite equal_val, !val_enc by apply nosat_enc; reflexivity. Qed.
Lemma greater_enc a b : greater (enc a) (enc b) = (b <? a).
Proof. rewrite greater_val, !val_enc by apply nosat_enc; reflexivity. Qed.
Lemma greater_or_eq_enc a b : greater_or_eq (enc a) (enc b) = (b <=? a).
Proof. unfold greater_or_eq; rewrite greater_enc, equal_enc; lia. Qed.
Lemma smaller_enc a b : smaller (enc a) (enc b) = (a <? b).
Proof. unfold smaller; rewrite greater_or_eq_enc; lia. Qed.
Lemma smaller_or_eq_enc a b : smaller_or_eq (enc a) (enc b) = (a <=? b).
Proof. unfold smaller_or_eq; rewrite greater_enc; lia. Qed.
Lemma umin_enc a b : umin (enc a) (enc b) = enc (N.min a b).
Proof. unfold umin; rewrite greater_enc. destruct (N.ltb_spec b a); f_equal; lia. Qed.
Lemma umax_enc a b : umax (enc a) (enc b) = enc (N.max a b).
Proof. unfold umax; rewrite greater_enc. destruct (N.ltb_spec b a); f_equal; lia. Qed.
Lemma ucmp_enc a b : ucmp (enc a) (enc b) = N.compare a b.
Proof.
  unfold ucmp; rewrite greater_enc, equal_enc.
  destruct (N.compare_spec a b); destruct (N.eqb_spec a b); destruct (N.ltb_spec b a); try lia; auto.
Qed.
Lemma not_equal_enc a b : not_equal (enc a) (enc b) = negb (a =? b).
Proof. unfold not_equal; rewrite equal_enc; reflexivity. Qed.

Lemma double_testbit_0 n b : N.testbit (2 * n + b2n b) 0 = b.
Proof. destruct n, b; reflexivity. Qed.
Lemma land_parts a b x y : N.land (2 * a + b2n x) (2 * b + b2n y) = 2 * N.land a b + b2n (x && y).
Proof.
  apply N.bits_inj. intro k. rewrite N.land_spec.
  destruct (N.eq_dec k 0) as [->|Hk].
  - rewrite !double_testbit_0; reflexivity.
  - replace k with (N.succ (N.pred k)) by lia.
    assert (E: forall n c, N.testbit (2 * n + b2n c) (N.succ (N.pred k)) = N.testbit n (N.pred k)).
    { intros n c; destruct c; cbn [b2n].
      - apply N.testbit_odd_succ; lia.
      - rewrite N.add_0_r. apply N.testbit_even_succ; lia. }
    rewrite !E, N.land_spec; reflexivity.
Qed.
Lemma lor_parts a b x y : N.lor (2 * a + b2n x) (2 * b + b2n y) = 2 * N.lor a b + b2n (x || y).
Proof.
  apply N.bits_inj. intro k. rewrite N.lor_spec.
  destruct (N.eq_dec k 0) as [->|Hk].
  - rewrite !double_testbit_0; reflexivity.
  - replace k with (N.succ (N.pred k)) by lia.
    assert (E: forall n c, N.testbit (2 * n + b2n c) (N.succ (N.pred k)) = N.testbit n (N.pred k)).
    { intros n c; destruct c; cbn [b2n].
      - apply N.testbit_odd_succ; lia.
      - rewrite N.add_0_r. apply N.testbit_even_succ; lia. }
    rewrite !E, N.lor_spec; reflexivity.
Qed.

Lemma bitand_inner_spec u : forall t, nosat u = true -> nosat t = true ->
  nosat (bitand_inner u t) = true /\ val (bitand_inner u t) = N.land (val u) (val t).
Proof.
  induction u as [|m IH b|]; cbn [nosat bitand_inner val]; intros t Hu Ht; try congruence.
  - auto.
  - destruct (IH (msb_of t)) as [A B]; auto using nosat_msb. split; auto.
    rewrite B, (val_parts t) by auto. symmetry; apply land_parts.
Qed.
Lemma bitor_inner_spec u : forall t, nosat u = true -> nosat t = true ->
  nosat (bitor_inner u t) = true /\ val (bitor_inner u t) = N.lor (val u) (val t).
Proof.
  induction u as [|m IH b|]; cbn [nosat bitor_inner val]; intros t Hu Ht; try congruence.
  - auto.
  - destruct (IH (msb_of t)) as [A B]; auto using nosat_msb. split; auto.
    rewrite B, (val_parts t) by auto. symmetry; apply lor_parts.
Qed.
Lemma bitand_enc a b : bitand (enc a) (enc b) = enc (N.land a b).
Proof.
  unfold bitand. destruct (bitand_inner_spec (enc a) (enc b)); auto using nosat_enc.
  apply simplified_enc; auto. rewrite H0, !val_enc; reflexivity.
Qed.
Lemma bitor_enc a b : bitor (enc a) (enc b) = enc (N.lor a b).
Proof.
  unfold bitor. destruct (bitor_inner_spec (enc a) (enc b)); auto using nosat_enc.
  apply simplified_enc; auto. rewrite H0, !val_enc; reflexivity.
Qed.

Lemma mod_pow2_succ m b k : (2 * m + b2n b) mod 2 ^ (N.succ k) = 2 * (m mod 2 ^ k) + b2n b.
Proof.
  rewrite N.pow_succ_r'.
  assert (0 < 2 ^ k) by (apply N.neq_0_lt_0, N.pow_nonzero; lia).
  rewrite N.mod_mul_r by lia.
  replace ((2 * m + b2n b) mod 2) with (b2n b)
    by (destruct b; cbn [b2n]; lia).
  replace ((2 * m + b2n b) / 2) with m by (destruct b; cbn [b2n]; lia).
  lia.
Qed.
Lemma div_pow2_succ m b k : (2 * m + b2n b) / 2 ^ (N.succ k) = m / 2 ^ k.
Proof.
  rewrite N.pow_succ_r'.
  assert (2 ^ k <> 0) by (apply N.pow_nonzero; lia).
  rewrite <- N.div_div by lia. f_equal. destruct b; cbn [b2n]; lia.
Qed.

Lemma truncate_inner_spec u : forall n, nosat u = true ->
  nosat (truncate_inner u (enc n)) = true /\ val (truncate_inner u (enc n)) = val u mod 2 ^ n.
Proof.
  induction u as [|m IH b|]; cbn [nosat truncate_inner val]; intros n Hu; try congruence.
  - split; [reflexivity|]. symmetry; apply N.mod_0_l, N.pow_nonzero; lia.
  - rewrite is_uterm_val, val_enc by apply nosat_enc.
    destruct (N.eqb_spec n 0) as [->|Hn].
    + split; auto. cbn [val]. rewrite N.pow_0_r, N.mod_1_r; reflexivity.
    + change U1 with (enc 1). rewrite abs_sub_enc.
      destruct (IH ((n - 1) + (1 - n)) Hu) as [A B].
      cbn [nosat val]. split; auto. rewrite B.
      replace (n - 1 + (1 - n)) with (N.pred n) by lia.
      rewrite <- mod_pow2_succ. rewrite N.succ_pred by auto. reflexivity.
Qed.
Lemma truncate_enc a n : truncate (enc a) (enc n) = enc (a mod 2 ^ n).
Proof.
  unfold truncate. destruct (truncate_inner_spec (enc a) n (nosat_enc a)).
  apply simplified_enc; auto. rewrite H0, val_enc; reflexivity.
Qed.

Lemma enc_pow2 k : enc (2 ^ N.succ k) = UInt (enc (2 ^ k)) false.
Proof.
  rewrite N.pow_succ_r'. assert (2 ^ k <> 0) by (apply N.pow_nonzero; lia).
  destruct (2 ^ k) as [|p]; [congruence|]. reflexivity.
Qed.

Lemma modulate_spec k : forall t, nosat t = true ->
  exists r, modulate (enc (2 ^ k)) t = Some r /\ r = enc (val t mod 2 ^ k).
Proof.
  induction k as [|k IH] using N.peano_ind; intros t Ht.
  - exists UTerm. split; [reflexivity|]. rewrite N.pow_0_r, N.mod_1_r; reflexivity.
  - rewrite enc_pow2; cbn [modulate].
    destruct (IH (msb_of t)) as (r & -> & ->); auto using nosat_msb.
    eexists; split; eauto. apply simplified_enc; cbn [nosat val].
    + apply nosat_enc.
    + rewrite val_enc. rewrite <- mod_pow2_succ, <- val_parts by auto. reflexivity.
Qed.
Lemma umod_enc a k : umod (enc a) (enc (2 ^ k)) = Some (enc (a mod 2 ^ k)).
Proof.
  unfold umod. destruct (modulate_spec k (enc a)) as (r & -> & ->); auto using nosat_enc.
  rewrite val_enc; reflexivity.
Qed.
Lemma msb_enc a : msb_of (enc a) = enc (a / 2).
Proof.
  apply eq_enc; [apply canon_msb, canon_enc|].
  pose proof (val_parts (enc a) (nosat_enc a)) as H. rewrite val_enc in H.
  revert H; generalize (val (msb_of (enc a))) (bit_of (enc a)); intros m b H.
  destruct b; cbn [b2n] in H; lia.
Qed.
Lemma divide_enc a k : divide (enc (2 ^ k)) (enc a) = Some (enc (a / 2 ^ k)).
Proof.
  revert a; induction k as [|k IH] using N.peano_ind; intros a.
  - rewrite N.pow_0_r, N.div_1_r; reflexivity.
  - rewrite enc_pow2; cbn [divide]. rewrite msb_enc, IH. f_equal. f_equal.
    rewrite N.pow_succ_r'. symmetry. rewrite <- N.div_div; [reflexivity|lia|apply N.pow_nonzero; lia].
Qed.
Lemma log2_enc k : log2 (enc (2 ^ k)) = Some (enc k).
Proof.
  induction k as [|k IH] using N.peano_ind.
  - reflexivity.
  - rewrite enc_pow2; cbn [log2]. rewrite IH, increment_enc. f_equal. f_equal. lia.
Qed.
(* being accepted by the two impls of [IPowerOf2] is being a power of two *)
Lemma log2_some_pow2 u : canon u = true -> (exists l, log2 u = Some l) <-> (exists k, u = enc (2 ^ k)).
Proof.
  intros Hc. split.
  - intros [l Hl]. revert l Hl. induction u as [|m IH b|]; cbn [log2]; intros l Hl; try discriminate.
    cbn [canon] in Hc. rewrite andb_true_iff in Hc. destruct Hc as [Hc Hb].
    destruct b.
    + destruct (is_uterm m) eqn:E; [|discriminate].
      exists 0. rewrite is_uterm_val in E by (apply canon_nosat; auto).
      rewrite (canon_enc_val m) by auto. replace (val m) with 0 by lia. reflexivity.
    + destruct (log2 m) as [l'|] eqn:E; [|discriminate].
      destruct (IH Hc l' eq_refl) as [k Hk]. exists (N.succ k).
      rewrite enc_pow2, <- Hk; reflexivity.
  - intros [k ->]. exists (enc k). apply log2_enc.
Qed.

Lemma log2_enc_some_pow2 n : (exists l, log2 (enc n) = Some l) <-> (exists k, n = 2 ^ k).
Proof.
  rewrite (log2_some_pow2 _ (canon_enc n)). split; intros [k H]; exists k.
  - apply enc_inj; auto.
  - congruence.
Qed.

Definition next_mult (a p : N) : N := if a mod p =? 0 then a else a + (p - a mod p).
Lemma next_mult_spec a p : p <> 0 -> is_next_multiple a p (next_mult a p).
Proof.
  intros Hp. unfold next_mult.
  pose proof (N.mod_upper_bound a p Hp) as Hm.
  pose proof (N.div_mod a p Hp) as Hd.
  destruct (N.eqb_spec (a mod p) 0) as [E|E].
  - repeat split; auto; try lia. exists (a / p). lia.
  - repeat split; try lia.
    + exists (a / p + 1). lia.
    + intros s [q Hq] Hs. subst s.
      assert (a / p < q) by nia. nia.
Qed.
Lemma next_multiple_of_enc a k :
  exists r, next_multiple_of (enc a) (enc (2 ^ k)) = Some (enc r) /\ is_next_multiple a (2 ^ k) r.
Proof.
  assert (Hp: 2 ^ k <> 0) by (apply N.pow_nonzero; lia).
  exists (next_mult a (2 ^ k)). split; [|apply next_mult_spec; auto].
  unfold next_multiple_of. rewrite umod_enc. f_equal.
  change UTerm with (enc 0). rewrite equal_enc.
  unfold next_mult. destruct (N.eqb_spec (a mod 2 ^ k) 0); auto.
  rewrite abs_sub_enc, add_enc. f_equal.
  pose proof (N.mod_upper_bound a (2 ^ k) Hp). lia.
Qed.

Lemma mul_spec u : forall t, nosat u = true -> canon t = true ->
  mul u t = enc (val u * val t).
Proof.
  induction u as [|m IH b|]; cbn [nosat mul val]; intros t Hu Ht; try congruence.
  - reflexivity.
  - rewrite IH by auto.
    rewrite (simplified_enc _ (2 * (val m * val t))); cbn [nosat val b2n].
    2: apply nosat_enc.
    2: rewrite val_enc; lia.
    replace (if b then t else UTerm) with (enc (b2n b * val t)).
    2:{ destruct b; cbn [b2n]. rewrite N.mul_1_l, <- canon_enc_val; auto. reflexivity. }
    rewrite add_enc. f_equal. lia.
Qed.
Lemma mul_enc a b : mul (enc a) (enc b) = enc (a * b).
Proof. rewrite mul_spec by auto using nosat_enc, canon_enc. rewrite !val_enc; reflexivity. Qed.

Lemma sat_decrement_spec u : nosat u = true -> val u <> 0 ->
  sat_decrement u = enc (val u - 1).
Proof.
  induction u as [|m IH b|]; cbn [nosat sat_decrement val]; intros Hu Hv; try congruence.
  destruct b; cbn [b2n] in *.
  - apply simplified_enc; cbn [nosat val b2n]; auto; lia.
  - rewrite IH by (auto; lia). apply simplified_enc; cbn [nosat val b2n]; [apply nosat_enc|].
    rewrite val_enc. lia.
Qed.
Lemma decrement_enc a : a <> 0 -> decrement (enc a) = enc (a - 1).
Proof.
  intros Ha. rewrite <- (val_enc a) at 2. rewrite <- sat_decrement_spec.
  - destruct a as [|p]; [congruence|]. destruct p; reflexivity.
  - apply nosat_enc.
  - rewrite val_enc; auto.
Qed.

Lemma next_pow2_enc a : next_pow2 (enc a) = enc (N.size a).
Proof.
  destruct a as [|p]; [reflexivity|]. cbn [enc].
  induction p as [p IH|p IH|]; cbn [enc_pos next_pow2]; auto.
  - rewrite IH. rewrite is_uterm_val by apply (nosat_enc (Npos (xI p))).
    change (UInt (enc_pos p) true) with (enc (Npos (xI p))). rewrite val_enc.
    change (N.pos p~1 =? 0) with false. cbn match. change U1 with (enc 1).
    rewrite add_enc. f_equal. cbn [N.size]. cbn [Pos.size]. lia.
  - rewrite IH. rewrite is_uterm_val by apply (nosat_enc (Npos (xO p))).
    change (UInt (enc_pos p) false) with (enc (Npos (xO p))). rewrite val_enc.
    change (N.pos p~0 =? 0) with false. cbn match. change U1 with (enc 1).
    rewrite add_enc. f_equal. cbn [N.size]. cbn [Pos.size]. lia.
Qed.

Lemma tro_pos p : exists k, truncate_at_rightmost_one (enc_pos p) = enc (2 ^ k) /\
   exists q, Npos p = 2 ^ k * (2 * q + 1).
Proof.
  induction p as [p IH|p IH|]; cbn [enc_pos truncate_at_rightmost_one].
  - exists 0. split; auto. exists (Npos p). cbn. lia.
  - destruct IH as (k & E & q & Hq). exists (N.succ k). rewrite enc_pow2, E. split; auto.
    exists q. rewrite N.pow_succ_r'. lia.
  - exists 0. split; auto. exists 0. reflexivity.
Qed.
Lemma tro_enc a : a <> 0 -> exists k q,
  truncate_at_rightmost_one (enc a) = enc (2 ^ k) /\ a = 2 ^ k * (2 * q + 1).
Proof.
  intros Ha. destruct a as [|p]; [congruence|].
  destruct (tro_pos p) as (k & E & q & Hq). exists k, q; auto.
Qed.

Lemma u128_spec u : nosat u = true -> u128 u = Some (val u mod 2 ^ 128).
Proof.
  induction u as [|m IH b|]; cbn [nosat u128 val]; intros Hu; try congruence; auto.
  rewrite IH by auto. f_equal.
  rewrite N.shiftl_mul_pow2. change (2 ^ 1) with 2.
  assert (E: forall x, N.lor (2 * x) (b2n b) = 2 * x + b2n b).
  { intro x. rewrite <- (N.add_0_r (2 * x)) at 1. change (b2n b) with (2 * 0 + b2n b) at 1.
    change 0 with (b2n false) at 1. rewrite (lor_parts x 0 false b). rewrite N.lor_0_r.
    reflexivity. }
  change 128 with (N.succ 127) at 2.
  replace (val m mod 2 ^ 128 * 2) with (2 * (val m mod 2 ^ 128) + b2n false) by (cbn [b2n]; lia).
  change (2 ^ 128) with (2 ^ N.succ 127). rewrite mod_pow2_succ. cbn [b2n].
  rewrite N.add_0_r. change (if b then 1 else 0) with (b2n b). rewrite E, mod_pow2_succ.
  f_equal. f_equal.
  rewrite N.pow_succ_r'. rewrite (N.mul_comm 2), N.mod_mul_r by (try apply N.pow_nonzero; lia).
  rewrite N.mul_comm, N.mod_add by (apply N.pow_nonzero; lia).
  rewrite N.mod_mod by (apply N.pow_nonzero; lia). reflexivity.
Qed.
Lemma u128_enc a : a < 2 ^ 128 -> u128 (enc a) = Some a.
Proof. intros H. rewrite u128_spec, val_enc by apply nosat_enc. rewrite N.mod_small; auto. Qed.

Lemma build_u_enc a : build_u a = enc a.
Proof.
  unfold build_u. destruct a as [|p]; [reflexivity|].
  assert (H: forall p, build_bits (N.to_nat (N.size (Npos p))) (Npos p)
     = (fix bits p := match p with xH => [true] | xO q => false :: bits q | xI q => true :: bits q end) p).
  { clear. induction p as [p IH|p IH|].
    - cbn [N.size]. replace (N.to_nat (N.pos (Pos.size p~1))) with (S (N.to_nat (N.size (Npos p))))
        by (cbn [N.size Pos.size]; lia).
      cbn [build_bits]. change (0 <? N.pos p~1) with true. cbn match.
      change (N.shiftr (N.pos p~1) 1) with (Npos p). rewrite IH. reflexivity.
    - cbn [N.size]. replace (N.to_nat (N.pos (Pos.size p~0))) with (S (N.to_nat (N.size (Npos p))))
        by (cbn [N.size Pos.size]; lia).
      cbn [build_bits]. change (0 <? N.pos p~0) with true. cbn match.
      change (N.shiftr (N.pos p~0) 1) with (Npos p). rewrite IH. reflexivity.
    - reflexivity. }
  rewrite H. cbn [enc]. clear H.
  induction p as [p IH|p IH|]; cbn [rev enc_pos].
  - rewrite fold_left_app, IH; reflexivity.
  - rewrite fold_left_app, IH; reflexivity.
  - reflexivity.
Qed.

Lemma padding_bit_mask_enc n : forall fuel, (N.to_nat n <= fuel)%nat ->
  padding_bit_mask fuel (enc n) =
  Some (map (fun i => (enc (N.of_nat i), enc 255)) (seq 0 (N.to_nat n))).
Proof.
  induction n as [|n IH] using N.peano_ind; intros fuel Hf.
  - destruct fuel; reflexivity.
  - rewrite N2Nat.inj_succ in *. destruct fuel as [|fuel]; [lia|].
    assert (E: exists m b, enc (N.succ n) = UInt m b).
    { destruct n as [|p]; cbn; eauto. destruct (Pos.succ p); cbn; eauto. }
    destruct E as (m & b & E).
    cbn [padding_bit_mask]. rewrite E.
    assert (D: sat_decrement (UInt m b) = enc n).
    { rewrite <- E. rewrite sat_decrement_spec; rewrite ?val_enc; auto using nosat_enc; try lia.
      f_equal; lia. }
    rewrite D. rewrite IH by lia. f_equal.
    cbn [seq map]. f_equal.
    rewrite <- seq_shift, !map_map. apply map_ext. intros i. cbn [fst snd].
    change U1 with (enc 1). rewrite add_enc. f_equal. f_equal. lia.
Qed.
