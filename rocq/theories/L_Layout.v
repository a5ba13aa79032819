(** Lemmas about masks, forbidden values, memory and descriptors. *)
From Coq Require Import List Arith ZArith NArith Bool Lia ZifyBool ZifyN ZifyNat.
From Verif Require Import M_Layout M_Result S_Layout.
Import ListNotations.
Ltac Zify.zify_post_hook ::= Z.div_mod_to_equations.
Arguments N.add : simpl never.
Arguments N.mul : simpl never.
Arguments N.sub : simpl never.
Arguments N.eqb : simpl never.
Arguments N.ltb : simpl never.
Arguments N.leb : simpl never.
Arguments N.land : simpl never.
Arguments N.lor : simpl never.
Arguments N.testbit : simpl never.
Arguments Nat.modulo : simpl never.
Arguments Nat.div : simpl never.

(** ** Alignments and rounding *)

Definition al_ok (a : nat) : Prop := a = 1 \/ a = 2 \/ a = 4 \/ a = 8 \/ a = 16.

Lemma align_ok_al a : align_ok a = true -> al_ok a.
Proof.
  unfold align_ok, al_ok; cbn. rewrite !orb_true_iff, !Nat.eqb_eq. intuition (try discriminate).
Qed.
Lemma al_ok_align a : al_ok a -> align_ok a = true.
Proof. intros [->|[->|[->|[->| ->]]]]; reflexivity. Qed.
Lemma al_ok_pos a : al_ok a -> 0 < a.
Proof. unfold al_ok; lia. Qed.
Lemma al_ok_max a b : al_ok a -> al_ok b -> al_ok (Nat.max a b).
Proof. intros Ha Hb. destruct (Nat.max_dec a b) as [-> | ->]; assumption. Qed.
Lemma al_ok_div a b : al_ok a -> al_ok b -> a <= b -> exists k, b = k * a.
Proof.
  intros [->|[->|[->|[->| ->]]]] [->|[->|[->|[->| ->]]]] H; try lia;
  (exists 1; lia) || (exists 2; lia) || (exists 4; lia) || (exists 8; lia) || (exists 16; lia).
Qed.
Lemma mult_mod k a : 0 < a -> (k * a) mod a = 0.
Proof. intros; apply Nat.mod_mul; lia. Qed.
Lemma mod_0_mult x a : 0 < a -> x mod a = 0 -> exists k, x = k * a.
Proof. intros Ha H. exists (x / a). pose proof (Nat.div_mod x a). lia. Qed.
Lemma mod_0_trans x a b : al_ok a -> al_ok b -> a <= b -> x mod b = 0 -> x mod a = 0.
Proof.
  intros Ha Hb Hab Hx.
  destruct (mod_0_mult x b) as [k ->]; auto using al_ok_pos.
  destruct (al_ok_div a b Ha Hb Hab) as [j ->].
  rewrite Nat.mul_assoc. apply mult_mod, al_ok_pos; assumption.
Qed.
Lemma mod_0_add x y a : 0 < a -> x mod a = 0 -> y mod a = 0 -> (x + y) mod a = 0.
Proof.
  intros Ha Hx Hy.
  destruct (mod_0_mult x a Ha Hx) as [j ->]. destruct (mod_0_mult y a Ha Hy) as [k ->].
  rewrite <- Nat.mul_add_distr_r. apply mult_mod; assumption.
Qed.

Lemma nmo_mod a p : 0 < p -> nmo a p mod p = 0.
Proof.
  intros Hp. unfold nmo. destruct (Nat.eqb_spec (a mod p) 0) as [H|H]; auto.
  replace (a + (p - a mod p)) with ((a / p + 1) * p).
  - apply mult_mod; assumption.
  - pose proof (Nat.div_mod a p). pose proof (Nat.mod_upper_bound a p). nia.
Qed.
Lemma nmo_bounds a p : 0 < p -> a <= nmo a p < a + p.
Proof.
  intros Hp. unfold nmo. destruct (Nat.eqb_spec (a mod p) 0) as [H|H]; [lia|].
  pose proof (Nat.mod_upper_bound a p). lia.
Qed.
Lemma nmo_id a p : a mod p = 0 -> nmo a p = a.
Proof. intros H. unfold nmo. rewrite H. reflexivity. Qed.
Lemma nmo_1 a : nmo a 1 = a.
Proof. apply nmo_id. apply Nat.mod_1_r. Qed.
Lemma nmo_first a p : 0 < p -> first_multiple a p (nmo a p).
Proof.
  intros Hp. pose proof (nmo_bounds a p Hp) as [H1 H2]. split; [|split]; auto.
  - destruct (mod_0_mult (nmo a p) p Hp (nmo_mod a p Hp)) as [k Hk]. exists k; exact Hk.
  - intros k Hk. destruct (mod_0_mult (nmo a p) p Hp (nmo_mod a p Hp)) as [j Hj].
    rewrite Hj in *. apply Nat.mul_le_mono_r.
    assert (j < S k); [|lia]. apply (Nat.mul_lt_mono_pos_r p); [assumption|]. cbn [Nat.mul]. lia.
Qed.
Lemma first_multiple_unique n a x y : first_multiple n a x -> first_multiple n a y -> x = y.
Proof.
  intros [[k ->] [H1 H2]] [[j ->] [H3 H4]].
  specialize (H2 j H3). specialize (H4 k H1). lia.
Qed.

(** ** Bytes and masks *)

(** The only mask bytes that arise: the high bits are unused. *)
Definition uppers : list N := [255; 254; 252; 248; 240; 224; 192; 128]%N.
Definition upper (v : N) : Prop := In v uppers.

Definition upper_check (v : N) : bool :=
  existsb (N.eqb v) uppers.
Lemma upper_checkP v : upper_check v = true <-> upper v.
Proof.
  unfold upper_check, upper. rewrite existsb_exists. split.
  - intros [x [Hx Hv]]. apply N.eqb_eq in Hv. subst; exact Hx.
  - intros H. exists v. split; auto. apply N.eqb_refl.
Qed.
Lemma upper_forall (P : N -> bool) : forallb P uppers = true -> forall v, upper v -> P v = true.
Proof. intros H v Hv. rewrite forallb_forall in H. apply H, Hv. Qed.
Lemma upper_forall2 (P : N -> N -> bool) :
  forallb (fun a => forallb (P a) uppers) uppers = true ->
  forall a b, upper a -> upper b -> P a b = true.
Proof.
  intros H a b Ha Hb. apply (upper_forall (P a)); auto.
  apply (upper_forall (fun a => forallb (P a) uppers)); auto.
Qed.

Lemma upper_lt v : upper v -> (0 < v < 256)%N.
Proof.
  intros H. pose proof (upper_forall (fun v => N.ltb 0 v && N.ltb v 256) eq_refl v H) as H'.
  cbn beta in H'. lia.
Qed.
Lemma upper_land a b : upper a -> upper b -> upper (N.land a b).
Proof.
  intros Ha Hb. apply upper_checkP.
  exact (upper_forall2 (fun a b => upper_check (N.land a b)) eq_refl a b Ha Hb).
Qed.
Lemma upper_sub v : upper v -> (v - rightmost_one v = 0)%N \/ upper (v - rightmost_one v)%N.
Proof.
  intros H.
  pose proof (upper_forall (fun v => N.eqb (v - rightmost_one v) 0 || upper_check (v - rightmost_one v)) eq_refl v H) as H'.
  cbn beta in H'. apply orb_true_iff in H'. destruct H' as [H'|H'].
  - left. apply N.eqb_eq; exact H'.
  - right. apply upper_checkP; exact H'.
Qed.
Definition bits8 : list N := [0;1;2;3;4;5;6;7]%N.
Lemma bits8_in i : (i < 8)%N -> In i bits8.
Proof. intros H. unfold bits8; cbn. lia. Qed.

Definition upper_bit (v : N) : N := N.log2 (rightmost_one v).
Lemma upper_facts v : upper v ->
  (rightmost_one v = 2 ^ upper_bit v)%N /\ (upper_bit v < 8)%N /\
  N.testbit v (upper_bit v) = true /\
  N.testbit (v - rightmost_one v) (upper_bit v) = false /\
  (rightmost_one v = 1%N -> v = 255%N) /\
  (v = 255%N \/ rightmost_one v <> 1%N).
Proof.
  intros H. unfold upper, uppers in H; cbn in H.
  repeat destruct H as [<-|H]; try contradiction;
  (split; [reflexivity|split; [reflexivity|split; [reflexivity|split; [reflexivity|
   split; [intros E; reflexivity || discriminate E | (left; reflexivity) || (right; discriminate)]]]]]).
Qed.
Lemma upper_sub_bits v i : upper v ->
  N.testbit (v - rightmost_one v) i = true -> N.testbit v i = true.
Proof.
  intros H Hi.
  assert (i < 8)%N as Hlt.
  { destruct (N.ltb_spec i 8) as [Hl|Hl]; auto. exfalso.
    assert (N.testbit (v - rightmost_one v) i = false) as E.
    { destruct (upper_sub v H) as [-> | Hu]; [apply N.bits_0|].
      apply N.bits_above_log2. apply upper_lt in Hu.
      apply N.log2_lt_pow2; [lia|]. eapply N.lt_le_trans; [apply Hu|].
      change 256%N with (2 ^ 8)%N. apply N.pow_le_mono_r; lia. }
    congruence. }
  pose proof (upper_forall (fun v => forallb (fun i => implb (N.testbit (v - rightmost_one v) i) (N.testbit v i)) bits8) eq_refl v H) as H'.
  cbn beta in H'. rewrite forallb_forall in H'. specialize (H' i (bits8_in i Hlt)).
  rewrite Hi in H'. exact H'.
Qed.

Lemma byte_testbit_high b i : (b < 256)%N -> (8 <= i)%N -> N.testbit b i = false.
Proof.
  intros Hb Hi. destruct (N.eq_dec b 0) as [-> | Hz]; [apply N.bits_0|].
  apply N.bits_above_log2. apply N.log2_lt_pow2; [lia|].
  eapply N.lt_le_trans; [exact Hb|]. change 256%N with (2 ^ 8)%N. apply N.pow_le_mono_r; lia.
Qed.
Lemma testbit_255 i : N.testbit 255 i = N.ltb i 8.
Proof.
  destruct (N.ltb_spec i 8) as [H|H].
  - pose proof (bits8_in i H) as Hin. unfold bits8 in Hin; cbn in Hin.
    repeat destruct Hin as [<-|Hin]; try contradiction; reflexivity.
  - apply byte_testbit_high; lia.
Qed.

(** Masks with strictly increasing offsets in [lo, n) and upper bytes. *)
Fixpoint ub_ok (lo n : nat) (m : mask) : Prop :=
  match m with
  | [] => True
  | (o, v) :: r => lo <= o < n /\ upper v /\ ub_ok (S o) n r
  end.

Lemma ub_ok_weaken m : forall lo lo' n n', lo' <= lo -> n <= n' -> ub_ok lo n m -> ub_ok lo' n' m.
Proof.
  induction m as [|[o v] r IH]; intros lo lo' n n' H1 H2 H; cbn in *; auto.
  destruct H as [H3 [H4 H5]]. split; [lia|]. split; auto. eapply IH; [| |exact H5]; lia.
Qed.
Lemma ub_ok_app a : forall lo k n b, lo <= k -> ub_ok lo k a -> k <= n -> ub_ok k n b -> ub_ok lo n (a ++ b).
Proof.
  induction a as [|[o v] r IH]; intros lo k n b Hlo Ha Hn Hb; cbn in *.
  - eapply ub_ok_weaken; [| |exact Hb]; lia.
  - destruct Ha as [H1 [H2 H3]]. split; [lia|]. split; auto. eapply IH; [|exact H3| |exact Hb]; lia.
Qed.
Lemma ub_ok_shift k m : forall lo n, ub_ok lo n m -> ub_ok (lo + k) (n + k) (mshift k m).
Proof.
  induction m as [|[o v] r IH]; intros lo n H; cbn in *; auto.
  destruct H as [H1 [H2 H3]]. split; [lia|]. split; auto. apply (IH (S o)); assumption.
Qed.
Lemma ub_ok_in m : forall lo n o v, ub_ok lo n m -> In (o, v) m -> lo <= o < n /\ upper v.
Proof.
  induction m as [|[o' v'] r IH]; intros lo n o v H Hin; cbn in *; [contradiction|].
  destruct H as [H1 [H2 H3]]. destruct Hin as [E|Hin].
  - injection E as <- <-. auto.
  - destruct (IH _ _ _ _ H3 Hin) as [H4 H5]. split; auto; lia.
Qed.
Lemma ub_ok_unique m : forall lo n o v v', ub_ok lo n m -> In (o, v) m -> In (o, v') m -> v = v'.
Proof.
  induction m as [|[o' w] r IH]; intros lo n o v v' H H1 H2; cbn in *; [contradiction|].
  destruct H as [_ [_ H3]].
  destruct H1 as [E1|H1], H2 as [E2|H2].
  - congruence.
  - injection E1 as -> ->. apply (ub_ok_in _ _ _ _ _ H3) in H2. lia.
  - injection E2 as -> ->. apply (ub_ok_in _ _ _ _ _ H3) in H1. lia.
  - eapply IH; eauto.
Qed.

Lemma byte_at_in m o : byte_at m o <> 0%N -> In (o, byte_at m o) m.
Proof.
  induction m as [|[o' v] r IH]; cbn; intros H; [congruence|].
  destruct (Nat.eqb_spec o' o) as [-> |Hne]; [left; reflexivity|right; auto].
Qed.
Lemma byte_at_upper lo n m o : ub_ok lo n m -> byte_at m o = 0%N \/ upper (byte_at m o).
Proof.
  intros H. destruct (N.eq_dec (byte_at m o) 0) as [E|E]; auto.
  right. apply byte_at_in in E. eapply ub_ok_in in E; [|exact H]. apply E.
Qed.
Lemma bit_and_in a b o w : In (o, w) (bit_and a b) ->
  exists v, In (o, v) a /\ w = N.land v (byte_at b o) /\ w <> 0%N.
Proof.
  induction a as [|[o' v] r IH]; cbn; [contradiction|].
  destruct (N.eqb_spec (N.land v (byte_at b o')) 0) as [E|E].
  - intros H. destruct (IH H) as [v' Hv]. exists v'. tauto.
  - intros [H|H].
    + injection H as <- <-. exists v. auto.
    + destruct (IH H) as [v' Hv]. exists v'. tauto.
Qed.
Lemma ub_ok_bit_and a b lo' n' : ub_ok lo' n' b -> forall lo n, ub_ok lo n a -> ub_ok lo n (bit_and a b).
Proof.
  intros Hb. induction a as [|[o v] r IH]; intros lo n H; cbn in *; auto.
  destruct H as [H1 [H2 H3]].
  destruct (N.eqb_spec (N.land v (byte_at b o)) 0) as [E|E].
  - eapply ub_ok_weaken; [| |apply IH; exact H3]; lia.
  - cbn. split; auto. split; [|apply IH; assumption].
    apply upper_land; auto. destruct (byte_at_upper lo' n' b o Hb) as [E'|E']; auto.
    rewrite E', N.land_0_r in E. congruence.
Qed.
Lemma ub_ok_extract m lo n : ub_ok lo n m -> ub_ok lo n (extract_bit m).
Proof.
  destruct m as [|[o v] r]; cbn; auto. intros [H1 [H2 H3]].
  destruct (N.ltb_spec 0 (v - rightmost_one v)) as [E|E].
  - cbn. split; auto. split; auto. destruct (upper_sub v H2) as [E'|E']; auto. lia.
  - eapply ub_ok_weaken; [| |exact H3]; lia.
Qed.

Lemma bit_unused_app a b o i : bit_unused (a ++ b) o i <-> bit_unused a o i \/ bit_unused b o i.
Proof.
  unfold bit_unused. split.
  - intros [v [Hin Hv]]. apply in_app_iff in Hin. destruct Hin; [left|right]; eauto.
  - intros [[v [Hin Hv]]|[v [Hin Hv]]]; exists v; rewrite in_app_iff; auto.
Qed.
Lemma bit_unused_shift k m o i : bit_unused (mshift k m) o i <-> k <= o /\ bit_unused m (o - k) i.
Proof.
  unfold bit_unused, mshift. split.
  - intros [v [Hin Hv]]. apply in_map_iff in Hin. destruct Hin as [[o' v'] [E Hin]].
    cbn in E. injection E as <- <-. split; [lia|]. exists v'.
    replace (o' + k - k) with o' by lia. auto.
  - intros [Hk [v [Hin Hv]]]. exists v. split; auto. apply in_map_iff.
    exists (o - k, v). cbn. split; auto. f_equal; lia.
Qed.
Lemma bit_unused_nil o i : ~ bit_unused [] o i.
Proof. intros [v [[] _]]. Qed.
Lemma bit_unused_and a b o i :
  bit_unused (bit_and a b) o i -> bit_unused a o i /\ bit_unused b o i.
Proof.
  intros [w [Hin Hw]]. destruct (bit_and_in _ _ _ _ Hin) as [v [Hv [-> Hne]]].
  rewrite N.land_spec in Hw. apply andb_true_iff in Hw. destruct Hw as [Hw1 Hw2]. split.
  - exists v; auto.
  - exists (byte_at b o). split; auto. apply byte_at_in. intros E. rewrite E, N.bits_0 in Hw2. discriminate.
Qed.
Lemma bit_unused_extract lo n o0 v0 r o i : ub_ok lo n ((o0, v0) :: r) ->
  bit_unused (extract_bit ((o0, v0) :: r)) o i ->
  bit_unused ((o0, v0) :: r) o i /\ ~ (o = o0 /\ i = upper_bit v0).
Proof.
  intros Hub [w [Hin Hw]]. cbn [extract_bit] in Hin. destruct Hub as [H1 [H2 H3]].
  assert (forall w', In (o, w') r -> o <> o0) as Hr.
  { intros w' Hw' ->. apply (ub_ok_in _ _ _ _ _ H3) in Hw'. lia. }
  destruct (N.ltb_spec 0 (v0 - rightmost_one v0)) as [E|E].
  - destruct Hin as [Hin|Hin].
    + injection Hin as <- <-. split.
      * exists v0. split; [left; reflexivity|]. apply upper_sub_bits; assumption.
      * intros [_ ->]. pose proof (upper_facts v0 H2) as F. destruct F as [_ [_ [_ [F _]]]]. congruence.
    + split; [exists w; split; [right; exact Hin|exact Hw]|]. intros [-> _]. eapply Hr; eauto.
  - split; [exists w; split; [right; exact Hin|exact Hw]|]. intros [-> _]. eapply Hr; eauto.
Qed.
Lemma free_byte_unused m o i : has_free_byte_at m o = true -> (i < 8)%N -> bit_unused m o i.
Proof.
  induction m as [|[o' v] r IH]; cbn; intros H Hi; [discriminate|].
  apply orb_true_iff in H. destruct H as [H|H].
  - apply andb_true_iff in H. destruct H as [H1 H2]. apply Nat.eqb_eq in H1. apply N.eqb_eq in H2. subst.
    exists 255%N. split; [left; reflexivity|]. rewrite testbit_255. lia.
  - destruct (IH H Hi) as [w [Hw1 Hw2]]. exists w. split; auto. right; exact Hw1.
Qed.

(** Padding. *)
Lemma ub_ok_padding n : ub_ok 0 n (padding_bit_mask n).
Proof.
  induction n as [|n IH]; cbn [padding_bit_mask ub_ok]; auto.
  split; [lia|]. split; [left; reflexivity|].
  pose proof (ub_ok_shift 1 _ _ _ IH) as H. replace (n + 1) with (S n) in H by lia. exact H.
Qed.
Lemma bit_unused_padding n o i : bit_unused (padding_bit_mask n) o i <-> o < n /\ (i < 8)%N.
Proof.
  revert o. induction n as [|n IH]; intros o; cbn [padding_bit_mask].
  - split; [intros H; destruct (bit_unused_nil _ _ H)|lia].
  - change ((0, 255%N) :: mshift 1 (padding_bit_mask n)) with ([(0, 255%N)] ++ mshift 1 (padding_bit_mask n)).
    rewrite bit_unused_app, bit_unused_shift, IH. split.
    + intros [[v [[E|[]] Hv]]|H]; [|lia]. injection E as <- <-. rewrite testbit_255 in Hv. lia.
    + intros [H1 H2]. destruct o as [|o]; [left|right; lia].
      exists 255%N. split; [left; reflexivity|]. rewrite testbit_255. lia.
Qed.
Lemma mshift_app k a b : mshift k (a ++ b) = mshift k a ++ mshift k b.
Proof. apply map_app. Qed.
Lemma mshift_mshift j k m : mshift j (mshift k m) = mshift (k + j) m.
Proof.
  unfold mshift. rewrite map_map. apply map_ext. intros [o v]; cbn. f_equal; lia.
Qed.
Lemma mshift_0 m : mshift 0 m = m.
Proof.
  unfold mshift. rewrite <- (map_id m) at 2. apply map_ext. intros [o v]; cbn. f_equal; lia.
Qed.
Lemma padding_bit_mask_add a b :
  padding_bit_mask (a + b) = padding_bit_mask a ++ mshift a (padding_bit_mask b).
Proof.
  induction a as [|a IH]; cbn [padding_bit_mask Nat.add].
  - rewrite mshift_0. reflexivity.
  - rewrite IH, mshift_app, mshift_mshift. cbn [app]. do 3 f_equal. f_equal; lia.
Qed.
Lemma bit_or_nil_r a : bit_or a [] = a.
Proof. apply app_nil_r. Qed.

(** Descriptors of padding blocks. *)
Definition pad_like (d : desc) (n : nat) : Prop :=
  dsize d = n /\ dalign d = 1 /\ dub d = padding_bit_mask n.
Lemma pad_like_pair a b n m : pad_like a n -> pad_like b m -> pad_like (field_pair a b) (n + m).
Proof.
  intros [H1 [H2 H3]] [H4 [H5 H6]]. unfold pad_like, field_pair, aligned_after; cbn.
  rewrite H1, H2, H3, H4, H5, H6, !nmo_1. split; [lia|]. split; [reflexivity|].
  rewrite Nat.sub_diag. cbn. unfold bit_or. symmetry. apply padding_bit_mask_add.
Qed.
Lemma pad_like_struct a n : pad_like a n -> pad_like (struct_ a) n.
Proof.
  intros [H1 [H2 H3]]. unfold pad_like, struct_; cbn. rewrite H1, H2, H3, nmo_1.
  split; [lia|]. split; [reflexivity|]. rewrite Nat.sub_diag. cbn. apply bit_or_nil_r.
Qed.
Lemma pad_like_unit : pad_like unit_d 0.
Proof. repeat split. Qed.
Lemma pad_like_padbyte : pad_like padbyte_d 1.
Proof. repeat split. Qed.
Lemma padding_pos_pad p : pad_like (padding_pos_d p) (Pos.to_nat p).
Proof.
  induction p as [p IH|p IH|]; cbn [padding_pos_d].
  - replace (Pos.to_nat p~1) with (Pos.to_nat p + Pos.to_nat p + 1) by lia.
    apply pad_like_struct, pad_like_pair; [apply pad_like_pair|apply pad_like_padbyte]; assumption.
  - replace (Pos.to_nat p~0) with (Pos.to_nat p + Pos.to_nat p + 0) by lia.
    apply pad_like_struct, pad_like_pair; [apply pad_like_pair|apply pad_like_unit]; assumption.
  - change (Pos.to_nat 1) with (0 + 0 + 1).
    apply pad_like_struct, pad_like_pair; [apply pad_like_pair|apply pad_like_padbyte]; apply pad_like_unit.
Qed.
Lemma padding_ub_eq n : padding_ub n = padding_bit_mask n.
Proof.
  unfold padding_ub. destruct (N.of_nat n) as [|p] eqn:E.
  - destruct n; [reflexivity|lia].
  - destruct (padding_pos_pad p) as [_ [_ ->]]. f_equal; lia.
Qed.

(** ** Memory *)

Definition sub (o k : nat) (s : list N) : list N := firstn k (skipn o s).

Lemma list_ext (s s' : list N) :
  length s = length s' ->
  (forall x, x < length s -> nth_error s x = nth_error s' x) -> s = s'.
Proof.
  revert s'. induction s as [|b s IH]; intros [|b' s'] Hl H; cbn in *; try lia; auto.
  f_equal.
  - specialize (H 0 ltac:(lia)). cbn in H. congruence.
  - apply IH; [lia|]. intros x Hx. apply (H (S x)). lia.
Qed.
Lemma nth_error_lt {A} (s : list A) x : x < length s -> exists b, nth_error s x = Some b.
Proof.
  intros H. destruct (nth_error s x) as [b|] eqn:E; eauto.
  apply nth_error_None in E. lia.
Qed.
Lemma nth_error_some_lt {A} (s : list A) x b : nth_error s x = Some b -> x < length s.
Proof. intros H. apply nth_error_Some. congruence. Qed.

Lemma is_bytes_nth s : is_bytes s <-> forall x b, nth_error s x = Some b -> (b < 256)%N.
Proof.
  unfold is_bytes. rewrite Forall_forall. split.
  - intros H x b Hx. apply H. eapply nth_error_In; eauto.
  - intros H b Hb. apply In_nth_error in Hb. destruct Hb as [x Hx]. eauto.
Qed.
Lemma is_bytes_forallb s : forallb (fun b => N.ltb b 256) s = true <-> is_bytes s.
Proof.
  unfold is_bytes. rewrite forallb_forall, Forall_forall.
  split; intros H b Hb; specialize (H b Hb); lia.
Qed.
Lemma is_bytes_sub o k s : is_bytes s -> is_bytes (sub o k s).
Proof.
  unfold is_bytes, sub. rewrite !Forall_forall. intros H b Hb. apply H.
  assert (In b (skipn o s)) as Hin.
  { rewrite <- (firstn_skipn k (skipn o s)). apply in_app_iff. left; exact Hb. }
  rewrite <- (firstn_skipn o s). apply in_app_iff. right; exact Hin.
Qed.
Lemma is_bytes_zeros n : is_bytes (repeat 0%N n).
Proof.
  unfold is_bytes. rewrite Forall_forall. intros b Hb. apply repeat_spec in Hb. subst; lia.
Qed.

Lemma sub_length o k s : o + k <= length s -> length (sub o k s) = k.
Proof. intros H. unfold sub. rewrite firstn_length, skipn_length. lia. Qed.
Lemma nth_error_firstn {A} (s : list A) : forall k x,
  nth_error (firstn k s) x = if Nat.ltb x k then nth_error s x else None.
Proof.
  induction s as [|b s IH]; intros [|k] [|x]; try reflexivity.
  - cbn [firstn nth_error]. destruct (Nat.ltb (S x) (S k)); reflexivity.
  - cbn [firstn nth_error]. rewrite IH. reflexivity.
Qed.
Lemma nth_error_skipn {A} (s : list A) : forall o x, nth_error (skipn o s) x = nth_error s (o + x).
Proof.
  induction s as [|b s IH]; intros [|o] x; cbn; auto.
  destruct x; reflexivity.
Qed.
Lemma nth_error_sub o k s x :
  nth_error (sub o k s) x = if Nat.ltb x k then nth_error s (o + x) else None.
Proof. unfold sub. rewrite nth_error_firstn, nth_error_skipn. reflexivity. Qed.
Lemma slice_sub s o n : o + n <= length s -> slice s o n = Some (sub o n s).
Proof. intros H. unfold slice. destruct (Nat.leb_spec (o + n) (length s)); [reflexivity|lia]. Qed.
Lemma sub_all s : sub 0 (length s) s = s.
Proof. unfold sub. cbn. apply firstn_all. Qed.
Lemma firstn_sub k s : firstn k s = sub 0 k s.
Proof. reflexivity. Qed.
Lemma skipn_sub o s : skipn o s = sub o (length s - o) s.
Proof. unfold sub. rewrite <- skipn_length. symmetry. apply firstn_all. Qed.

Lemma store_spec s : forall o b, o < length s ->
  exists s', store s o b = Some s' /\ length s' = length s /\
    forall x, nth_error s' x = if Nat.eqb x o then Some b else nth_error s x.
Proof.
  induction s as [|c s IH]; intros [|o] b H; cbn in *; try lia.
  - exists (b :: s). split; auto. split; auto. intros [|x]; reflexivity.
  - destruct (IH o b ltac:(lia)) as [s' [H1 [H2 H3]]]. rewrite H1. cbn.
    exists (c :: s'). split; auto. split; [cbn; lia|]. intros [|x]; cbn; auto.
Qed.
Lemma store_none s : forall o b, length s <= o -> store s o b = None.
Proof.
  induction s as [|c s IH]; intros [|o] b H; cbn in *; auto; try lia.
  rewrite IH by lia. reflexivity.
Qed.
Lemma blit_spec p : forall s o, o + length p <= length s ->
  exists s', blit s o p = Some s' /\ length s' = length s /\
    forall x, nth_error s' x = if Nat.leb o x && Nat.ltb x (o + length p)
                               then nth_error p (x - o) else nth_error s x.
Proof.
  induction p as [|b p IH]; intros s o H; cbn [blit length] in *.
  - exists s. split; auto. split; auto. intros x.
    destruct (Nat.leb_spec o x), (Nat.ltb_spec x (o + 0)); cbn; auto; lia.
  - destruct (store_spec s o b ltac:(lia)) as [s1 [H1 [H2 H3]]]. rewrite H1.
    destruct (IH s1 (S o) ltac:(lia)) as [s2 [H4 [H5 H6]]].
    exists s2. split; auto. split; [lia|]. intros x. rewrite H6, H3.
    destruct (Nat.leb_spec (S o) x), (Nat.leb_spec o x), (Nat.ltb_spec x (S o + length p)),
      (Nat.ltb_spec x (o + S (length p))), (Nat.eqb_spec x o); cbn; try lia; auto.
    + replace (x - o) with (S (x - S o)) by lia. reflexivity.
    + subst. rewrite Nat.sub_diag. reflexivity.
Qed.
Lemma blit_nil s o : blit s o [] = Some s.
Proof. reflexivity. Qed.

(** ** Agreement *)

Lemma agree_refl m s : agree_outside m s s.
Proof. split; auto. intros o b b' i H1 H2. left. congruence. Qed.
Lemma agree_sym m s s' : agree_outside m s s' -> agree_outside m s' s.
Proof.
  intros [H1 H2]. split; auto. intros o b b' i Hb Hb'.
  destruct (H2 o b' b i Hb' Hb); auto.
Qed.
Lemma agree_mono m m' s s' :
  (forall o i, o < length s -> (i < 8)%N -> bit_unused m o i -> bit_unused m' o i) ->
  is_bytes s -> is_bytes s' ->
  agree_outside m s s' -> agree_outside m' s s'.
Proof.
  intros H Hs Hs' [H1 H2]. split; auto. intros o b b' i Hb Hb'.
  destruct (N.ltb_spec i 8) as [Hi|Hi].
  - destruct (H2 o b b' i Hb Hb') as [E|E]; auto. right. apply H; auto.
    eapply nth_error_some_lt; eauto.
  - left. rewrite is_bytes_nth in Hs, Hs'. rewrite !byte_testbit_high; eauto.
Qed.
Lemma agree_sub m m' o k s s' :
  o + k <= length s ->
  (forall x i, x < k -> (i < 8)%N -> bit_unused m (o + x) i -> bit_unused m' x i) ->
  is_bytes s -> is_bytes s' ->
  agree_outside m s s' -> agree_outside m' (sub o k s) (sub o k s').
Proof.
  intros Hk H Hs Hs' [H1 H2]. split.
  - rewrite !sub_length; lia.
  - intros x b b' i Hb Hb'. rewrite nth_error_sub in Hb, Hb'.
    destruct (Nat.ltb_spec x k) as [Hx|Hx]; [|discriminate].
    destruct (N.ltb_spec i 8) as [Hi|Hi].
    + destruct (H2 _ b b' i Hb Hb') as [E|E]; auto.
    + left. rewrite is_bytes_nth in Hs, Hs'. rewrite !byte_testbit_high; eauto.
Qed.
Lemma agree_nil s s' : agree_outside [] s s' -> s = s'.
Proof.
  intros [H1 H2]. apply list_ext; auto. intros x Hx.
  destruct (nth_error_lt s x Hx) as [b Hb]. destruct (nth_error_lt s' x ltac:(lia)) as [b' Hb'].
  rewrite Hb, Hb'. f_equal. apply N.bits_inj. intros i.
  destruct (H2 x b b' i Hb Hb') as [E|E]; auto. destruct (bit_unused_nil _ _ E).
Qed.

(** ** Forbidden values *)

Definition is_chain (f : fv) : Prop := match f with FEnd | FArr _ _ _ => True | _ => False end.
Fixpoint fv_ok (n : nat) (f : fv) : Prop :=
  match f with
  | FEnd => True
  | FArr o v r => o < n /\ (v < 256)%N /\ is_chain r /\ ~ fv_at r o /\ fv_ok n r
  | FOr a b => fv_ok n a /\ fv_ok n b
  | FRange lo hi o => o < n /\ (lo <= hi)%N /\ (hi < 256)%N
  end.
Lemma fv_ok_weaken f : forall n n', n <= n' -> fv_ok n f -> fv_ok n' f.
Proof.
  induction f as [|o v r IH|a IHa b IHb|lo hi o]; cbn; intros n n' Hn H; auto.
  - intuition (eauto; lia).
  - intuition eauto.
  - intuition lia.
Qed.
Lemma fv_at_shift k f o : fv_at (fshift k f) o <-> k <= o /\ fv_at f (o - k).
Proof.
  induction f as [|o' v r IH|a IHa b IHb|lo hi o']; cbn.
  - tauto.
  - rewrite IH. intuition lia.
  - rewrite IHa, IHb. tauto.
  - lia.
Qed.
Lemma fv_ok_shift k f n : fv_ok n f -> fv_ok (n + k) (fshift k f).
Proof.
  induction f as [|o v r IH|a IHa b IHb|lo hi o]; cbn; auto.
  - intros [H1 [H2 [H3 [H4 H5]]]]. split; [lia|]. split; auto. split.
    + destruct r; cbn in *; auto.
    + split; auto. rewrite fv_at_shift. intros [_ H]. apply H4. replace o with (o + k - k) by lia. exact H.
  - tauto.
  - lia.
Qed.
Lemma fv_at_lt n f o : fv_ok n f -> fv_at f o -> o < n.
Proof.
  induction f as [|o' v r IH|a IHa b IHb|lo hi o']; cbn; intuition (subst; auto; lia).
Qed.
Lemma fshift_end k f : fshift k f = FEnd <-> f = FEnd.
Proof. destruct f; cbn; split; congruence. Qed.
Lemma forbids_shift_sub f : forall o k s, fv_ok k f -> o + k <= length s ->
  forbids (fshift o f) s <-> forbids f (sub o k s).
Proof.
  induction f as [|o' v r IH|a IHa b IHb|lo hi o']; intros o k s Hf Hl; cbn in *.
  - tauto.
  - destruct Hf as [H1 [H2 [H3 [H4 H5]]]]. rewrite (IH o k s H5 Hl), fshift_end, nth_error_sub.
    destruct (Nat.ltb_spec o' k); [|lia]. replace (o' + o) with (o + o') by lia. tauto.
  - destruct Hf as [Hf1 Hf2]. rewrite (IHa o k s), (IHb o k s); tauto.
  - rewrite nth_error_sub. destruct (Nat.ltb_spec o' k); [|lia].
    replace (o' + o) with (o + o') by lia. tauto.
Qed.
Lemma fshift_0 f : fshift 0 f = f.
Proof.
  induction f as [|o v r IH|a IHa b IHb|lo hi o]; cbn; rewrite ?Nat.add_0_r; congruence.
Qed.

(** Chains selected from forbidden values. *)
Definition chain := list (nat * N).
Fixpoint dval (c : chain) : det :=
  match c with [] => DEnd | (o, v) :: r => DVal o v (dval r) end.
Fixpoint sfv_of (c : chain) : sfv :=
  match c with [] => SEnd | (o, v) :: r => SArr o v (sfv_of r) end.
Definition matches (c : chain) (s : list N) : Prop :=
  forall e, In e c -> nth_error s (fst e) = Some (snd e).
Lemma into_value_chain c : into_value_is_err (sfv_of c) = Some (dval c).
Proof. induction c as [|[o v] c IH]; cbn; auto. rewrite IH. reflexivity. Qed.

Definition good_chain (f : fv) (c : chain) : Prop :=
  NoDup (map fst c) /\
  (forall o v, In (o, v) c -> fv_at f o /\ (v < 256)%N) /\
  (forall s, matches c s -> forbids f s).

Lemma matches_cons o v c s : matches ((o, v) :: c) s <-> nth_error s o = Some v /\ matches c s.
Proof.
  unfold matches. cbn. split.
  - intros H. split; [apply (H (o, v)); auto|]. intros e He. apply H; auto.
  - intros [H1 H2] e [<-|He]; auto.
Qed.

Lemma chain_not_in f c o : (forall o v, In (o, v) c -> fv_at f o /\ (v < 256)%N) ->
  ~ fv_at f o -> ~ In o (map fst c).
Proof.
  intros H Hn Hin. apply in_map_iff in Hin. destruct Hin as [[o' v] [E Hin]]. cbn in E; subst.
  apply Hn. eapply H; eauto.
Qed.

Lemma select_from_spec n f m : fv_ok n f ->
  select_from f m = SSat \/ select_from f m = SEnd \/
  exists c, select_from f m = sfv_of c /\ c <> [] /\ good_chain f c /\
    forall o v, In (o, v) c -> has_free_byte_at m o = true.
Proof.
  induction f as [|o v r IH|a IHa b IHb|lo hi o]; intros Hf; cbn [select_from].
  - right; left; reflexivity.
  - destruct Hf as [H1 [H2 [H3 [H4 H5]]]].
    destruct (has_free_byte_at m o) eqn:Hfree; [|left; reflexivity]. cbn [sand].
    destruct (IH H5) as [-> | [E|[c [E [Hc [[Hg1 [Hg2 Hg3]] Hm]]]]]]; [left; reflexivity| |].
    + (* rest selects nothing: only when r = FEnd *)
      right; right. exists [(o, v)]. rewrite E. cbn. split; auto. split; [discriminate|].
      assert (r = FEnd) as Hr.
      { destruct r as [|o' v' r'|a b|lo hi o']; cbn in H3; try contradiction; auto. exfalso.
        clear -E. cbn in E. destruct (has_free_byte_at m o'); cbn in E; [|discriminate].
        unfold spush in E. destruct (select_from r' m); discriminate. }
      subst r. split.
      * split; [|split].
        -- cbn. repeat constructor. cbn. tauto.
        -- intros o' v' [Ee|[]]. injection Ee as <- <-. cbn. auto.
        -- intros s Hs. cbn. rewrite matches_cons in Hs. tauto.
      * intros o' v' [Ee|[]]. injection Ee as <- <-. exact Hfree.
    + right; right. exists ((o, v) :: c). split.
      { rewrite E. cbn [sfv_of]. destruct c as [|[o' v'] c]; [congruence|]. reflexivity. }
      split; [discriminate|]. split.
      * split; [|split].
        -- cbn. constructor; auto. eapply chain_not_in; eauto.
        -- intros o' v' [Ee|Hin].
           ++ injection Ee as <- <-. cbn. auto.
           ++ cbn. destruct (Hg2 _ _ Hin). auto.
        -- intros s Hs. rewrite matches_cons in Hs. cbn. destruct Hs as [Hs1 Hs2]. auto.
      * intros o' v' [Ee|Hin]; [injection Ee as <- <-; exact Hfree|eapply Hm; eauto].
  - destruct Hf as [Hfa Hfb].
    destruct (IHa Hfa) as [-> | [-> |[c [E [Hc [[Hg1 [Hg2 Hg3]] Hm]]]]]]; cbn [sor].
    1,2: destruct (IHb Hfb) as [-> | [-> |[c [-> [Hc [[Hg1 [Hg2 Hg3]] Hm]]]]]]; [tauto|tauto|];
         right; right; exists c; split; auto; split; auto; split; auto;
         split; [|split]; auto; [intros o v Hin; cbn; destruct (Hg2 _ _ Hin); auto|intros s Hs; cbn; auto].
    right; right. exists c. split.
    { rewrite E. destruct c as [|[o v] c]; [congruence|reflexivity]. }
    split; auto; split; auto. split; [|split]; auto.
    + intros o v Hin; cbn; destruct (Hg2 _ _ Hin); auto.
    + intros s Hs; cbn; auto.
  - destruct Hf as [H1 [H2 H3]].
    destruct (has_free_byte_at m o) eqn:Hfree; [|right; left; reflexivity].
    right; right. exists [(o, lo)]. split; auto. split; [discriminate|]. split.
    + split; [|split].
      * cbn. repeat constructor. cbn; tauto.
      * intros o' v' [E|[]]. injection E as <- <-. cbn. split; auto. lia.
      * intros s Hs. rewrite matches_cons in Hs. cbn. exists lo. split; [tauto|lia].
    + intros o' v' [E|[]]. injection E as <- <-. exact Hfree.
Qed.

Lemma select_one_spec n f : fv_ok n f ->
  select_one f = SEnd \/
  exists c, select_one f = sfv_of c /\ c <> [] /\ good_chain f c.
Proof.
  induction f as [|o v r IH|a IHa b IHb|lo hi o]; intros Hf; cbn [select_one].
  - left; reflexivity.
  - destruct Hf as [H1 [H2 [H3 [H4 H5]]]]. right.
    destruct (IH H5) as [E|[c [E [Hc [Hg1 [Hg2 Hg3]]]]]].
    + exists [(o, v)]. rewrite E. split; auto. split; [discriminate|].
      assert (r = FEnd) as ->.
      { destruct r; cbn in H3; try contradiction; auto. discriminate E. }
      split; [|split].
      * cbn. repeat constructor. cbn. tauto.
      * intros o' v' [Ee|[]]. injection Ee as <- <-. cbn. auto.
      * intros s Hs. cbn. rewrite matches_cons in Hs. tauto.
    + exists ((o, v) :: c). rewrite E. split; auto. split; [discriminate|]. split; [|split].
      * cbn. constructor; auto. eapply chain_not_in; eauto.
      * intros o' v' [Ee|Hin].
        -- injection Ee as <- <-. cbn. auto.
        -- cbn. destruct (Hg2 _ _ Hin). auto.
      * intros s Hs. rewrite matches_cons in Hs. cbn. destruct Hs as [Hs1 Hs2]. auto.
  - destruct Hf as [Hfa Hfb]. destruct (IHa Hfa) as [E|[c [E [Hc [Hg1 [Hg2 Hg3]]]]]]; auto.
    right. exists c. split; auto. split; auto. split; auto. split.
    + intros o v Hin; cbn; destruct (Hg2 _ _ Hin); auto.
    + intros s Hs; cbn; auto.
  - destruct Hf as [H1 [H2 H3]]. right. exists [(o, lo)]. split; auto. split; [discriminate|].
    split; [|split].
    + cbn. repeat constructor. cbn; tauto.
    + intros o' v' [E|[]]. injection E as <- <-. cbn. split; auto. lia.
    + intros s Hs. rewrite matches_cons in Hs. cbn. exists lo. split; [tauto|lia].
Qed.
