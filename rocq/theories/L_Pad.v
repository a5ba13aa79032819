(** Lemmas for C108. *)
From Coq Require Import String Ascii.
From Coq Require Import List Arith ZArith NArith Bool Lia ZifyBool ZifyN.
From Verif Require Import M_Typenum S_Typenum L_Typenum M_Layout S_Layout L_Layout M_Report M_Pad S_Pad.
Import ListNotations.
Ltac Zify.zify_post_hook ::= idtac.
Local Open Scope nat_scope.

Lemma digits_val u : N.of_nat (digits u) = val u.
Proof. induction u as [|m IH b|]; cbn [digits val]; auto. rewrite <- IH. destruct b; cbn [b2n]; lia. Qed.
Lemma digits_enc n : digits (enc (N.of_nat n)) = n.
Proof. pose proof (digits_val (enc (N.of_nat n))) as H. rewrite val_enc in H. lia. Qed.
Lemma tell_size p : tsize (tell p) = enc (N.of_nat (rust_size p)).
Proof.
  induction p as [| |d IH b|l IH|d]; try reflexivity.
  - cbn [tell tsize rust_size]. rewrite IH. change U2 with (enc 2). rewrite mul_enc.
    replace (if b then U1 else UTerm) with (enc (if b then 1 else 0)) by (destruct b; reflexivity).
    rewrite add_enc. f_equal. destruct b; idtac; lia.
  - cbn [tell tsize rust_size]. rewrite IH, increment_enc. f_equal. lia.
  - cbn [tell tsize rust_size]. apply build_u_enc.
Qed.
Lemma tell_digits p : digits (tsize (tell p)) = rust_size p.
Proof. rewrite tell_size. apply digits_enc. Qed.

(** The mask of the tuple. *)
Lemma pair1_ub a b o i : dalign b = 1 ->
  bit_unused (dub (field_pair a b)) o i <-> bit_unused (dub a) o i \/ (dsize a <= o /\ bit_unused (dub b) (o - dsize a) i).
Proof.
  intros A. unfold field_pair, aligned_after. cbn [dub]. rewrite A, nmo_1, Nat.sub_diag. unfold bit_or.
  rewrite bit_unused_app. cbn [padding_bit_mask]. rewrite bit_unused_app, !bit_unused_shift.
  pose proof (bit_unused_nil (o - dsize a) i). tauto.
Qed.
Lemma pair1_size a b : dalign b = 1 -> dsize (field_pair a b) = dsize a + dsize b.
Proof. intros A. unfold field_pair, aligned_after. cbn [dsize]. rewrite A, nmo_1. lia. Qed.
Lemma struct1_ub d o i : dalign d = 1 -> bit_unused (dub (struct_ d)) o i <-> bit_unused (dub d) o i.
Proof.
  intros A. unfold struct_. cbn [dub]. rewrite A, nmo_1, Nat.sub_diag. unfold bit_or. rewrite bit_unused_app. cbn [padding_bit_mask].
  rewrite bit_unused_shift. pose proof (bit_unused_nil (o - dsize d) i). tauto.
Qed.
Lemma one_ff k o i : bit_unused [(k, 255%N)] o i <-> o = k /\ (i < 8)%N.
Proof.
  split.
  - intros [v [[E|[]] Hv]]. injection E as <- <-. rewrite testbit_255 in Hv. lia.
  - intros [-> H]. exists 255%N. split; [left; reflexivity|]. rewrite testbit_255. lia.
Qed.

Lemma tell_inside p : inside p -> forall o i, idle p o i -> o < rust_size p.
Proof.
  induction p as [| |d IH b|l IH|d]; cbn [inside idle rust_size]; intros W o i H; try contradiction; try lia.
  - destruct b; idtac; destruct H as [[H _]|[[H _]|[E H]]]; try lia; discriminate.
  - eauto.
Qed.
Lemma tell_idle p : inside p -> forall o i, bit_unused (tub (tell p)) o i <-> idle p o i.
Proof.
  induction p as [| |d IH b|l IH|d]; cbn [inside]; intros W o i.
  - cbn. split; [intros H; destruct (bit_unused_nil _ _ H)|contradiction].
  - cbn [tell tub idle]. apply one_ff.
  - specialize (IH W). pose proof (tell_inside d W) as I. cbn [tell tub idle]. cbv zeta.
    rewrite struct1_ub by reflexivity. rewrite pair1_ub by (destruct b; reflexivity). rewrite pair1_ub by reflexivity. rewrite pair1_size by reflexivity.
    unfold as_desc. cbn [dub dsize]. rewrite tell_digits, !IH.
    assert (B : bit_unused (tub (if b then Told U1 FEnd [(0, 255%N)] A0 false else Told UTerm FEnd [] A0 false))
                 (o - (rust_size d + rust_size d)) i <-> b = true /\ o - (rust_size d + rust_size d) = 0 /\ (i < 8)%N).
    { destruct b; cbn [tub]; [rewrite one_ff; tauto|]. split; [intros H; destruct (bit_unused_nil _ _ H)|intros [E _]; discriminate]. }
    rewrite B. pose proof (I o i) as I1. pose proof (I (o - rust_size d) i) as I2.
    split.
    + intros [[H|[H H']]|[H [E [H' H'']]]].
      * left. auto.
      * right; left. specialize (I2 H'). split; [lia|exact H'].
      * right; right. repeat split; auto; lia.
    + intros [[H H']|[[H H']|[E [H H']]]].
      * auto.
      * left; right. split; [lia|exact H'].
      * right. repeat split; auto; lia.
  - specialize (IH W). pose proof (tell_inside l W o i) as I. cbn [tell tub idle]. unfold bit_or, as_desc. cbn [dsize].
    rewrite bit_unused_app, tell_digits, IH, one_ff. tauto.
  - cbn [tell tub idle]. reflexivity.
Qed.

Lemma padding_size u : number u -> N.of_nat (rust_size (padding_of u)) = value u.
Proof.
  induction u as [|m IH b|]; cbn [number padding_of rust_size value]; intros W; auto.
  rewrite <- (IH W). destruct b; idtac; lia.
Qed.
Lemma padding_inside u : inside (padding_of u).
Proof. induction u; cbn [padding_of inside]; auto. Qed.
Lemma padding_idle u o i : idle (padding_of u) o i <-> o < rust_size (padding_of u) /\ (i < 8)%N.
Proof.
  revert o. induction u as [|m IH b|]; intros o; cbn [padding_of idle rust_size]; try lia.
  cbv zeta. rewrite !IH. destruct b; idtac.
  - split; [intros [?|[?|?]]; lia|]. intros [H H'].
    destruct (Nat.lt_ge_cases o (rust_size (padding_of m))); [left; lia|].
    destruct (Nat.lt_ge_cases o (rust_size (padding_of m) + rust_size (padding_of m))); [right; left; lia|right; right; lia].
  - split; [intros [?|[?|[? ?]]]; try lia; discriminate|]. intros [H H'].
    destruct (Nat.lt_ge_cases o (rust_size (padding_of m))); [left; lia|right; left; lia].
Qed.
Lemma padding_rest u : tfv (tell (padding_of u)) = FEnd /\ tniche (tell (padding_of u)) = A0 /\ tind (tell (padding_of u)) = false.
Proof. destruct u; repeat split. Qed.
