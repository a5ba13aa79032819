(** Correctness of determinants and of the niche search. *)
From Coq Require Import List Arith ZArith NArith Bool Lia ZifyBool ZifyN ZifyNat.
From Verif Require Import M_Layout M_Result S_Layout L_Layout.
Import ListNotations.
Ltac Zify.zify_post_hook ::= Z.div_mod_to_equations.
Arguments N.add : simpl never.
Arguments N.mul : simpl never.
Arguments N.sub : simpl never.
Arguments N.eqb : simpl never.
Arguments N.ltb : simpl never.
Arguments N.leb : simpl never.
Arguments N.land : simpl never.
Arguments N.lor : simpl never.
Arguments N.lxor : simpl never.
Arguments N.testbit : simpl never.
Arguments Nat.modulo : simpl never.
Arguments Nat.div : simpl never.

Section Det.
Variable n : nat.

Definition reader := list N -> option val.
Definition insens (P : reader) (m : mask) : Prop :=
  forall s s', length s = n -> is_bytes s -> is_bytes s' -> agree_outside m s s' -> P s = P s'.

(** Setting the determinant [f] on a state holding a valid payload for [P]. *)
Definition sets (P : reader) (d : det) (f : list N -> option (list N * list N)) (b : bool) : Prop :=
  forall s v, length s = n -> is_bytes s -> P s = Some v ->
    exists s1 obj s2, f s = Some (s1, obj) /\ blit s1 0 obj = Some s2 /\
      length s1 = n /\ length s2 = n /\ is_bytes s2 /\ P s2 = Some v /\ is_det_ok d s2 = Some b /\
      (is_niche_trick d = true -> obj = []).

Record det_good (P Q : reader) (d : det) (ub : mask) : Prop := {
  dg_ok : sets P d (det_ok d) true;
  dg_err : sets Q d (det_err d) false;
  dg_ub : forall s s', length s = n -> is_bytes s -> is_bytes s' -> agree_outside ub s s' ->
            is_det_ok d s = is_det_ok d s' /\ P s = P s' /\ Q s = Q s';
  dg_tot : forall s, length s = n -> exists b, is_det_ok d s = Some b;
  dg_bit : is_niche_trick d = false ->
            forall s s', nth_error s 0 = nth_error s' 0 -> is_det_ok d s = is_det_ok d s'
}.

Lemma det_good_not P Q d ub : det_good P Q d ub -> det_good Q P (DNot d) ub.
Proof.
  intros [H1 H2 H3 H4 H5]. split.
  - intros s v Hl Hb Hv. destruct (H2 s v Hl Hb Hv) as [s1 [obj [s2 H]]].
    exists s1, obj, s2. cbn. destruct H as [? [? [? [? [? [? [-> ?]]]]]]]. cbn. auto 10.
  - intros s v Hl Hb Hv. destruct (H1 s v Hl Hb Hv) as [s1 [obj [s2 H]]].
    exists s1, obj, s2. cbn. destruct H as [? [? [? [? [? [? [-> ?]]]]]]]. cbn. auto 10.
  - intros s s' Hl Hs Hs' Ha. destruct (H3 s s' Hl Hs Hs' Ha) as [E [E1 E2]]. cbn. rewrite E. auto.
  - intros s Hl. destruct (H4 s Hl) as [b E]. exists (negb b). cbn. rewrite E. reflexivity.
  - cbn. intros Ht s s' Hss. rewrite (H5 Ht s s' Hss). reflexivity.
Qed.

Lemma insens_mono P m m' : insens P m' ->
  (forall o i, o < n -> (i < 8)%N -> bit_unused m o i -> bit_unused m' o i) -> insens P m.
Proof.
  intros H Hm s s' Hl Hs Hs' Ha. apply H; auto. apply (agree_mono m); auto. rewrite Hl. exact Hm.
Qed.

(** *** ValueIsErr *)

Lemma dval_ok c s : det_ok (dval c) s = Some (s, []).
Proof. induction c as [|[o v] c IH]; cbn; auto. Qed.
Lemma dval_is_ok c : forall s, (forall o v, In (o, v) c -> o < length s) ->
  (exists b, is_det_ok (dval c) s = Some b) /\
  (is_det_ok (dval c) s = Some false <-> matches c s).
Proof.
  induction c as [|[o v] c IH]; intros s Hl; cbn.
  - split; eauto. split; auto. intros _ e [].
  - rewrite matches_cons. destruct (IH s) as [[b Hb] Hm].
    { intros o' v' Hin. apply (Hl o' v'). right; exact Hin. }
    destruct (nth_error_lt s o) as [x Hx]. { apply (Hl o v). left; reflexivity. }
    rewrite Hx. destruct (N.eqb_spec x v) as [-> |Hne].
    + split; eauto. rewrite Hm. tauto.
    + split; eauto. split; [discriminate|]. intros [E _]. congruence.
Qed.
Lemma dval_err c : forall s, NoDup (map fst c) -> (forall o v, In (o, v) c -> o < length s) ->
  exists s', det_err (dval c) s = Some (s', []) /\ length s' = length s /\ matches c s' /\
    (forall x, ~ In x (map fst c) -> nth_error s' x = nth_error s x) /\
    (forall x b, nth_error s' x = Some b -> (exists v, In (x, v) c /\ b = v) \/ nth_error s x = Some b).
Proof.
  induction c as [|[o v] c IH]; intros s Hnd Hl; cbn.
  - exists s. split; auto. split; auto. split; [intros e []|]. split; auto.
  - inversion Hnd as [|? ? Hni Hnd']; subst.
    destruct (store_spec s o v) as [s1 [E1 [E2 E3]]]. { apply (Hl o v). left; reflexivity. }
    rewrite E1. destruct (IH s1 Hnd') as [s2 [F1 [F2 [F3 [F4 F5]]]]].
    { intros o' v' Hin. rewrite E2. apply (Hl o' v'). right; exact Hin. }
    exists s2. split; auto. split; [lia|]. split; [|split].
    + apply matches_cons. split; auto. cbn in Hni. rewrite F4 by assumption. rewrite E3, Nat.eqb_refl. reflexivity.
    + intros x Hx. cbn in Hx. rewrite F4 by tauto. rewrite E3.
      destruct (Nat.eqb_spec x o) as [-> |]; [tauto|reflexivity].
    + intros x b Hb. destruct (F5 x b Hb) as [[w [Hw ->]]|Hb']; eauto.
      rewrite E3 in Hb'. destruct (Nat.eqb_spec x o) as [-> |Hne].
      * left. exists v. split; auto. congruence.
      * right; exact Hb'.
Qed.
Lemma dval_trick c : c <> [] -> is_niche_trick (dval c) = true.
Proof. destruct c as [|[o v] c]; cbn; congruence. Qed.

Lemma value_det_good P Q mQ e c :
  c <> [] -> NoDup (map fst c) ->
  (forall o v, In (o, v) c -> o < n /\ (v < 256)%N /\ forall i, (i < 8)%N -> bit_unused mQ o i) ->
  (forall s v, length s = n -> is_bytes s -> P s = Some v -> ~ matches c s) ->
  insens Q mQ -> insens P e -> insens Q e ->
  (forall o v i, In (o, v) c -> ~ bit_unused e o i) ->
  det_good P Q (dval c) e.
Proof.
  intros Hc Hnd Hin HP HQ HPe HQe He. split.
  - intros s v Hl Hb Hv. exists s, [], s. rewrite dval_ok.
    split; auto. split; auto. split; auto. split; auto. split; auto. split; auto. split; auto.
    destruct (dval_is_ok c s) as [[b Hb'] Hm].
    { intros o w Ho. rewrite Hl. apply (Hin o w Ho). }
    destruct b; auto. apply Hm in Hb'. destruct (HP s v Hl Hb Hv Hb').
  - intros s v Hl Hb Hv.
    destruct (dval_err c s Hnd) as [s' [E1 [E2 [E3 [E4 E5]]]]].
    { intros o w Ho. rewrite Hl. apply (Hin o w Ho). }
    assert (is_bytes s') as Hb'.
    { apply is_bytes_nth. intros x b Hx. destruct (E5 x b Hx) as [[w [Hw ->]]|Hx'].
      - apply (Hin x w Hw).
      - rewrite is_bytes_nth in Hb. eauto. }
    exists s', [], s'. split; auto. split; auto. split; [lia|]. split; [lia|]. split; auto. split; [|split; auto].
    + rewrite <- Hv. symmetry. apply HQ; auto. split; auto. intros o b b' i Hb1 Hb2.
      destruct (N.ltb_spec i 8) as [Hi|Hi].
      * destruct (in_dec Nat.eq_dec o (map fst c)) as [Ho|Ho].
        -- right. apply in_map_iff in Ho. destruct Ho as [[o' w] [Eo Ho]]. cbn in Eo; subst.
           apply (Hin o w Ho); assumption.
        -- left. rewrite (E4 o Ho) in Hb2. congruence.
      * left. rewrite is_bytes_nth in Hb, Hb'. rewrite !byte_testbit_high; eauto.
    + apply dval_is_ok; auto. intros o w Ho. rewrite E2, Hl. apply (Hin o w Ho).
  - intros s s' Hl Hs Hs' Ha. split; [|split; auto].
    assert (forall o w, In (o, w) c -> nth_error s o = nth_error s' o) as Hsame.
    { intros o w Ho. destruct (nth_error_lt s o) as [b Hb]. { rewrite Hl; apply (Hin o w Ho). }
      destruct Ha as [Hl' Ha].
      destruct (nth_error_lt s' o) as [b' Hb']. { rewrite <- Hl', Hl; apply (Hin o w Ho). }
      rewrite Hb, Hb'. f_equal. apply N.bits_inj. intros i.
      destruct (Ha o b b' i Hb Hb') as [E|E]; auto. destruct (He o w i Ho E). }
    clear -Hsame. induction c as [|[o w] c IH]; cbn; auto.
    rewrite (Hsame o w) by (left; reflexivity).
    rewrite IH; auto. intros o' w' Hin. apply (Hsame o' w'). right; exact Hin.
  - intros s Hl. apply dval_is_ok. intros o w Ho. rewrite Hl. apply (Hin o w Ho).
  - intros Ht. rewrite dval_trick in Ht; [discriminate|assumption].
Qed.

(** *** BitIsErr *)

Lemma lxor_255_testbit k i : (k < 8)%N -> (i < 8)%N ->
  N.testbit (N.lxor 255 (2 ^ k)) i = negb (N.eqb i k).
Proof.
  intros Hk Hi. rewrite N.lxor_spec, testbit_255, N.pow2_bits_eqb.
  rewrite (N.eqb_sym k i). destruct (N.ltb_spec i 8); [|lia]. destruct (N.eqb i k); reflexivity.
Qed.
Lemma land_pow2_zero b k : N.eqb (N.land b (2 ^ k)) 0 = negb (N.testbit b k).
Proof.
  destruct (N.testbit b k) eqn:E; cbn.
  - apply N.eqb_neq. intros H. assert (N.testbit (N.land b (2 ^ k)) k = true) as H'.
    { rewrite N.land_spec, E, N.pow2_bits_true. reflexivity. }
    rewrite H, N.bits_0 in H'. discriminate.
  - apply N.eqb_eq. apply N.bits_inj. intros i. rewrite N.bits_0, N.land_spec, N.pow2_bits_eqb.
    destruct (N.eqb_spec k i) as [<-|]; [rewrite E; reflexivity|apply andb_false_r].
Qed.

Lemma bit_det_good P Q mP mQ e o v :
  upper v -> o < n ->
  (forall i, N.testbit v i = true -> bit_unused mP o i /\ bit_unused mQ o i) ->
  insens P mP -> insens Q mQ -> insens P e -> insens Q e ->
  ~ bit_unused e o (upper_bit v) ->
  det_good P Q (DBitErr o (rightmost_one v)) e.
Proof.
  intros Hu Ho Hm HP HQ HPe HQe He.
  destruct (upper_facts v Hu) as [Hk1 [Hk2 [Hk3 [Hk4 [Hk5 Hk6]]]]].
  set (k := upper_bit v) in *. set (m := rightmost_one v) in *.
  (* the intermediate state of both operations *)
  assert (forall s, length s = n -> is_bytes s ->
    exists s1 b1, (if N.eqb m 1 then store s o 0 else Some s) = Some s1 /\ length s1 = n /\
      nth_error s1 o = Some b1 /\ (b1 < 256)%N /\
      (forall x, x <> o -> nth_error s1 x = nth_error s x) /\
      (forall b i, nth_error s o = Some b -> (i < 8)%N -> N.testbit b1 i = N.testbit b i \/ N.testbit v i = true)) as Hstep.
  { intros s Hl Hb. destruct (N.eqb_spec m 1) as [E|E].
    - destruct (store_spec s o 0 ltac:(lia)) as [s1 [E1 [E2 E3]]]. exists s1, 0%N.
      split; auto. split; [lia|]. split; [rewrite E3, Nat.eqb_refl; reflexivity|]. split; [lia|].
      split.
      + intros x Hx. rewrite E3. destruct (Nat.eqb_spec x o); congruence.
      + intros b i _ Hi. right. rewrite (Hk5 E), testbit_255. lia.
    - destruct (nth_error_lt s o ltac:(lia)) as [b Hb']. exists s, b.
      split; auto. split; auto. split; auto. split; [rewrite is_bytes_nth in Hb; eauto|].
      split; auto. intros b' i Hb'' _. left. congruence. }
  assert (forall s s1 s2 b1 b2 (R : reader) mR, length s = n -> is_bytes s -> length s1 = n ->
    (forall i, N.testbit v i = true -> bit_unused mR o i) -> insens R mR ->
    (forall x, x <> o -> nth_error s1 x = nth_error s x) ->
    (forall b i, nth_error s o = Some b -> (i < 8)%N -> N.testbit b1 i = N.testbit b i \/ N.testbit v i = true) ->
    length s2 = length s1 ->
    (forall x, nth_error s2 x = if Nat.eqb x o then Some b2 else nth_error s1 x) ->
    (b2 < 256)%N ->
    (forall i, (i < 8)%N -> i <> k -> N.testbit b2 i = N.testbit b1 i) ->
    is_bytes s2 /\ R s2 = R s) as Hfin.
  { intros s s1 s2 b1 b2 R mR Hl Hb Hl1 HmR HR Hx Hbits Hl2 Hs2 Hlt Hbits2.
    assert (is_bytes s2) as Hb2.
    { apply is_bytes_nth. intros x b. rewrite Hs2. destruct (Nat.eqb_spec x o) as [-> |Hne].
      - congruence.
      - rewrite Hx by assumption. rewrite is_bytes_nth in Hb. eauto. }
    split; auto. symmetry. apply HR; auto. split; [lia|].
    intros x b b' i Hb1' Hb2'. rewrite Hs2 in Hb2'.
    destruct (Nat.eqb_spec x o) as [-> |Hne].
    - injection Hb2' as <-. destruct (N.ltb_spec i 8) as [Hi|Hi].
      + destruct (N.eq_dec i k) as [-> |Hik]; [right; apply HmR; exact Hk3|].
        rewrite Hbits2 by assumption. destruct (Hbits b i Hb1' Hi) as [E|E]; auto.
      + left. rewrite is_bytes_nth in Hb. rewrite !byte_testbit_high; eauto.
    - left. rewrite Hx in Hb2' by assumption. congruence. }
  split.
  - intros s w Hl Hb Hw. destruct (Hstep s Hl Hb) as [s1 [b1 [E1 [E2 [E3 [E4 [E5 E6]]]]]]].
    destruct (store_spec s1 o (N.land b1 (N.lxor 255 m)) ltac:(lia)) as [s2 [F1 [F2 F3]]].
    exists s2, [], s2. cbn [det_ok]. rewrite E1, E3, F1. cbn [option_map].
    assert (forall i, (i < 8)%N -> N.testbit (N.land b1 (N.lxor 255 m)) i = N.testbit b1 i && negb (N.eqb i k)) as Hbit.
    { intros i Hi. rewrite N.land_spec, Hk1, lxor_255_testbit by assumption. reflexivity. }
    assert (N.land b1 (N.lxor 255 m) < 256)%N as Hlt.
    { change 256%N with (2 ^ 8)%N. destruct (N.eq_dec (N.land b1 (N.lxor 255 m)) 0) as [-> |Hz]; [lia|].
      apply N.log2_lt_pow2; [lia|]. eapply N.le_lt_trans; [apply N.log2_land|].
      apply N.min_lt_iff. left. destruct (N.eq_dec b1 0) as [-> |Hz']; [cbn; lia|].
      apply N.log2_lt_pow2; [lia|exact E4]. }
    destruct (Hfin s s1 s2 b1 _ P mP Hl Hb E2 (fun i Hi => proj1 (Hm i Hi)) HP E5 E6 F2 F3 Hlt) as [G1 G2].
    { intros i Hi Hne. rewrite Hbit by assumption. destruct (N.eqb_spec i k); [congruence|]. apply andb_true_r. }
    split; auto. split; auto. split; [lia|]. split; [lia|]. split; auto. split; [congruence|]. split; auto.
    cbn [is_det_ok]. rewrite F3, Nat.eqb_refl. cbn [option_map]. f_equal.
    rewrite Hk1, land_pow2_zero, <- Hk1, Hbit, N.eqb_refl by assumption. rewrite andb_false_r. reflexivity.
  - intros s w Hl Hb Hw. destruct (Hstep s Hl Hb) as [s1 [b1 [E1 [E2 [E3 [E4 [E5 E6]]]]]]].
    destruct (store_spec s1 o (N.lor b1 m) ltac:(lia)) as [s2 [F1 [F2 F3]]].
    exists s2, [], s2. cbn [det_err]. rewrite E1, E3, F1. cbn [option_map].
    assert (forall i, N.testbit (N.lor b1 m) i = N.testbit b1 i || N.eqb k i) as Hbit.
    { intros i. rewrite N.lor_spec, Hk1, N.pow2_bits_eqb. reflexivity. }
    assert (N.lor b1 m < 256)%N as Hlt.
    { change 256%N with (2 ^ 8)%N. destruct (N.eq_dec (N.lor b1 m) 0) as [-> |Hz]; [lia|].
      apply N.log2_lt_pow2; [lia|]. rewrite N.log2_lor. apply N.max_lub_lt.
      - destruct (N.eq_dec b1 0) as [-> |Hz']; [cbn; lia|]. apply N.log2_lt_pow2; [lia|exact E4].
      - rewrite Hk1, N.log2_pow2; lia. }
    destruct (Hfin s s1 s2 b1 _ Q mQ Hl Hb E2 (fun i Hi => proj2 (Hm i Hi)) HQ E5 E6 F2 F3 Hlt) as [G1 G2].
    { intros i Hi Hne. rewrite Hbit. destruct (N.eqb_spec k i); [congruence|]. apply orb_false_r. }
    split; auto. split; auto. split; [lia|]. split; [lia|]. split; auto. split; [congruence|]. split; auto.
    cbn [is_det_ok]. rewrite F3, Nat.eqb_refl. cbn [option_map]. f_equal.
    rewrite Hk1, land_pow2_zero, <- Hk1, Hbit, N.eqb_refl. rewrite orb_true_r. reflexivity.
  - intros s s' Hl Hs Hs' Ha. split; [|split; auto]. cbn. destruct Ha as [Hl' Ha].
    destruct (nth_error_lt s o ltac:(lia)) as [b Hb]. destruct (nth_error_lt s' o ltac:(lia)) as [b' Hb'].
    rewrite Hb, Hb'. cbn. rewrite Hk1, !land_pow2_zero.
    destruct (Ha o b b' k Hb Hb') as [E|E]; [rewrite E; reflexivity|contradiction].
  - intros s Hl. cbn. destruct (nth_error_lt s o ltac:(lia)) as [b Hb]. rewrite Hb. cbn. eauto.
  - cbn. discriminate.
Qed.

(** *** BitDeterminant *)

Lemma ext_det_good P Q mP e :
  0 < n ->
  (forall i, (i < 8)%N -> bit_unused mP 0 i) -> insens P mP -> insens Q mP ->
  insens P e -> insens Q e -> ~ bit_unused e 0 0 ->
  det_good P Q DBit e.
Proof.
  intros Hn Hm HP HQ HPe HQe He.
  assert (forall (R : reader) s w v, insens R mP -> length s = n -> is_bytes s -> R s = Some v -> (w < 2)%N ->
    exists s2, blit s 0 [w] = Some s2 /\ length s2 = n /\ is_bytes s2 /\ R s2 = Some v /\ nth_error s2 0 = Some w) as H.
  { intros R s w v HR Hl Hb Hv Hw.
    destruct (store_spec s 0 w ltac:(lia)) as [s2 [E1 [E2 E3]]].
    exists s2. cbn [blit]. rewrite E1. split; auto. split; [lia|].
    assert (is_bytes s2) as Hb2.
    { apply is_bytes_nth. intros x b. rewrite E3. destruct (Nat.eqb_spec x 0).
      - intros Hx. injection Hx as <-. lia.
      - rewrite is_bytes_nth in Hb; eauto. }
    split; auto. split; [|rewrite E3; reflexivity].
    rewrite <- Hv. symmetry. apply HR; auto. split; auto. intros x b b' i H1 H2. rewrite E3 in H2.
    destruct (Nat.eqb_spec x 0) as [-> |Hne]; [|left; congruence].
    destruct (N.ltb_spec i 8) as [Hi|Hi]; [right; auto|].
    left. rewrite is_bytes_nth in Hb, Hb2. rewrite (byte_testbit_high b) by eauto. injection H2 as <-.
    rewrite byte_testbit_high; [reflexivity|lia|assumption]. }
  split.
  - intros s v Hl Hb Hv. destruct (H P s 0%N v HP Hl Hb Hv ltac:(lia)) as [s2 [E1 [E2 [E3 [E4 E5]]]]].
    exists s, [0%N], s2. cbn [det_ok is_det_ok]. rewrite E5. cbn. split; auto. split; auto. split; auto.
    split; auto. split; auto. split; auto. split; auto. discriminate.
  - intros s v Hl Hb Hv. destruct (H Q s 1%N v HQ Hl Hb Hv ltac:(lia)) as [s2 [E1 [E2 [E3 [E4 E5]]]]].
    exists s, [1%N], s2. cbn [det_err is_det_ok]. rewrite E5. cbn. split; auto. split; auto. split; auto.
    split; auto. split; auto. split; auto. split; auto. discriminate.
  - intros s s' Hl Hs Hs' Ha. split; [|split; auto]. cbn [is_det_ok]. destruct Ha as [Hl' Ha].
    destruct (nth_error_lt s 0 ltac:(lia)) as [b Hb]. destruct (nth_error_lt s' 0 ltac:(lia)) as [b' Hb'].
    rewrite Hb, Hb'. cbn [option_map]. f_equal. change 1%N with (2 ^ 0)%N. rewrite !land_pow2_zero.
    destruct (Ha 0 b b' 0%N Hb Hb') as [E|E]; [rewrite E; reflexivity|contradiction].
  - intros s Hl. cbn [is_det_ok]. destruct (nth_error_lt s 0 ltac:(lia)) as [b Hb]. rewrite Hb. cbn. eauto.
  - intros _ s s' E. cbn [is_det_ok]. rewrite E. reflexivity.
Qed.

End Det.
