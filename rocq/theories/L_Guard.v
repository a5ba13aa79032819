(** Lemmas behind P_Guard. *)
From Coq Require Import List Arith NArith Bool Permutation Lia.
From Verif Require Import M_Guard S_Guard.
Import ListNotations.

Lemma balanced_iff h v v' others : balanced h (v' :: others) -> (balanced h (v :: others) <-> Permutation (owns v) (owns v')).
Proof.
  unfold balanced. cbn [flat_map]. intros H. split; intros K.
  - apply (Permutation_app_inv_r (flat_map owns others)). rewrite <- K. exact H.
  - rewrite H. apply Permutation_app_tail. symmetry. exact K.
Qed.
Lemma moving_balance f others : keeps_balance (moving f) others.
Proof. intros h v h' v' B E. unfold moving in E. injection E as <- <-. exact B. Qed.

Definition is_live (h : heap) (b : nat) : bool := match nth_error h b with Some (Some _) => true | _ => false end.
Lemma live_in h b : In b (live h) <-> exists x, nth_error h b = Some (Some x).
Proof.
  unfold live. rewrite filter_In, in_seq. split.
  - intros [_ H]. destruct (nth_error h b) as [[x|]|]; try discriminate. eauto.
  - intros [x H]. rewrite H. split; [|reflexivity]. assert (b < length h) by (apply nth_error_Some; congruence). lia.
Qed.
Lemma live_nodup h : NoDup (live h).
Proof. apply NoDup_filter, seq_NoDup. Qed.
Lemma live_alloc h x : Permutation (live (fst (alloc h x))) (length h :: live h).
Proof.
  apply NoDup_Permutation; [apply live_nodup| |].
  - constructor; [|apply live_nodup]. intros H. apply live_in in H. destruct H as [y H]. assert (length h < length h) by (apply nth_error_Some; congruence). lia.
  - intros b. cbn [In]. rewrite !live_in. cbn [alloc fst]. split.
    + intros [y H]. destruct (Nat.lt_ge_cases b (length h)) as [Hl|Hl].
      * rewrite nth_error_app1 in H by assumption. right. eauto.
      * rewrite nth_error_app2 in H by assumption. assert (b - length h < 1) by (change 1 with (length [Some x]); apply nth_error_Some; congruence). left. lia.
    + intros [<-|[y H]].
      * exists x. rewrite nth_error_app2, Nat.sub_diag by lia. reflexivity.
      * exists y. rewrite nth_error_app1; [exact H|]. apply nth_error_Some. congruence.
Qed.
Lemma free_nth h : forall b h', free h b = Some h' -> (exists x, nth_error h b = Some (Some x)) /\ length h' = length h /\
  forall c, nth_error h' c = if c =? b then Some None else nth_error h c.
Proof.
  induction h as [|y h IH]; intros [|b] h' E; cbn in E; try discriminate.
  - destruct y as [x|]; [|discriminate]. injection E as <-. split; [exists x; reflexivity|]. split; [reflexivity|]. intros [|c]; reflexivity.
  - assert (exists h2, free h b = Some h2 /\ h' = y :: h2) as [h2 [E2 ->]].
    { destruct y; destruct (free h b) as [h2|]; try discriminate; cbn in E; injection E as <-; eauto. }
    destruct (IH b h2 E2) as [H1 [H2 H3]]. split; [exact H1|]. split; [cbn; congruence|]. intros [|c]; cbn; [reflexivity|apply H3].
Qed.
Lemma live_free h b h' : free h b = Some h' -> Permutation (live h) (b :: live h').
Proof.
  intros E. destruct (free_nth h b h' E) as [[x Hx] [Hl Hn]]. apply NoDup_Permutation; [apply live_nodup| |].
  - constructor; [|apply live_nodup]. intros H. apply live_in in H. destruct H as [y H]. rewrite Hn, Nat.eqb_refl in H. discriminate.
  - intros c. cbn [In]. rewrite !live_in. split.
    + intros [y H]. destruct (Nat.eq_dec b c) as [|Hc]; [auto|]. right. exists y. rewrite Hn. destruct (Nat.eqb_spec c b); [congruence|exact H].
    + intros [<-|[y H]]; [eauto|]. rewrite Hn in H. destruct (Nat.eqb_spec c b); [discriminate|]. eauto.
Qed.
Lemma free_live h b x : nth_error h b = Some (Some x) -> exists h', free h b = Some h'.
Proof.
  revert b. induction h as [|y h IH]; intros [|b] H; cbn in *; try discriminate.
  - injection H as ->. eauto.
  - destruct (IH b H) as [h' E]. rewrite E. destruct y; cbn; eauto.
Qed.
Lemma string_balance others : keeps_balance string_copy others.
Proof.
  intros h v h' v' B E. unfold string_copy, balanced in *. cbn [flat_map] in *. destruct (owns v) as [|b [|c l]] eqn:Eo; [| |discriminate].
  - injection E as <- <-. exact B.
  - destruct (nth_error h b) as [[[|a x]|]|] eqn:Eb; try discriminate.
    + destruct (free h b) as [h2|] eqn:Ef; [|discriminate]. injection E as <- <-. cbn [owns app]. pose proof (live_free _ _ _ Ef) as F.
      apply (Permutation_cons_inv (a := b)). rewrite <- F. exact B.
    + pose proof (live_alloc h (a :: x)) as A. cbn [alloc] in E, A. cbn [fst] in A.
      destruct (free (h ++ [Some (a :: x)]) b) as [h2|] eqn:Ef; [|discriminate]. injection E as <- <-. cbn [owns app].
      pose proof (live_free _ _ _ Ef) as F. apply (Permutation_cons_inv (a := b)). rewrite <- F, A, B. cbn [app]. apply perm_swap.
Qed.
Lemma single_balance others : keeps_balance single_to_vec others.
Proof.
  intros h v h' v' B E. unfold single_to_vec, balanced in *. cbn [flat_map] in *. destruct (data v) as [|x l].
  - injection E as <- <-. exact B.
  - pose proof (live_alloc h (x :: l)) as A. cbn [alloc fst] in E, A. injection E as <- <-. cbn [owns app]. rewrite A, B. reflexivity.
Qed.
Lemma reads_live h l : (forall b, In b l -> In b (live h)) -> exists r, reads h l = Some r.
Proof.
  induction l as [|b l IH]; intros H; cbn; [eauto|]. destruct (proj1 (live_in h b) (H b (or_introl eq_refl))) as [x E]. rewrite E.
  destruct IH as [r Er]; [intros c Hc; apply H; right; exact Hc|]. rewrite Er. eauto.
Qed.
Lemma balanced_reads h vs v : balanced h vs -> In v vs -> exists r, reads h (owns v) = Some r.
Proof.
  intros B H. apply reads_live. intros b Hb. eapply Permutation_in; [symmetry; exact B|]. apply in_flat_map. eauto.
Qed.
Lemma balanced_drop h v others : balanced h (v :: others) -> exists h', free_all h (owns v) = Some h' /\ balanced h' others.
Proof.
  unfold balanced. cbn [flat_map]. generalize (owns v) as l. intros l. revert h. induction l as [|b l IH]; intros h B; cbn; [eauto|].
  assert (In b (live h)) as Hb by (eapply Permutation_in; [symmetry; exact B|left; reflexivity]). apply live_in in Hb. destruct Hb as [x Hb].
  destruct (free_live h b x Hb) as [h1 E]. rewrite E. apply IH. pose proof (live_free _ _ _ E) as F. apply (Permutation_cons_inv (a := b)).
  rewrite <- F, B. reflexivity.
Qed.
Lemma reads_ext h h' l : (forall b, In b l -> nth_error h' b = nth_error h b) -> reads h' l = reads h l.
Proof.
  induction l as [|b l IH]; intros H; cbn; [reflexivity|]. rewrite (H b (or_introl eq_refl)), IH; [reflexivity|]. intros c Hc. apply H. right. exact Hc.
Qed.
Lemma nodup_app_l {A} (l m : list A) x : NoDup (l ++ m) -> In x l -> In x m -> False.
Proof.
  induction l as [|y l IH]; intros N Hl Hm; [destruct Hl|]. cbn in N. apply NoDup_cons_iff in N. destruct N as [Ny N]. destruct Hl as [->|Hl]; [|eauto].
  apply Ny, in_or_app. right. exact Hm.
Qed.
(** Blocks of others are live, and are not those of [v]. *)
Lemma others_apart h v others w b : balanced h (v :: others) -> In w others -> In b (owns w) -> b < length h /\ ~ In b (owns v).
Proof.
  intros B Hw Hb. assert (In b (flat_map owns others)) as Hf by (apply in_flat_map; eauto). split.
  - assert (In b (live h)) as Hl by (eapply Permutation_in; [symmetry; exact B|]; cbn [flat_map]; apply in_or_app; right; exact Hf).
    apply live_in in Hl. destruct Hl as [x Hl]. apply nth_error_Some. congruence.
  - intros Hv. assert (NoDup (owns v ++ flat_map owns others)) as N by (eapply Permutation_NoDup; [exact B|apply live_nodup]).
    exact (nodup_app_l _ _ b N Hv Hf).
Qed.
(** Conversion of a string: it succeeds, with the same text, and other values are left alone. *)
Lemma string_copy_ok h v others : length (owns v) <= 1 -> balanced h (v :: others) ->
  exists h' v', string_copy h v = Some (h', v') /\ text h' v' = text h v /\ text h v <> None /\ length (owns v') <= 1 /\
    balanced h' (v' :: others) /\ forall w, In w others -> reads h' (owns w) = reads h (owns w).
Proof.
  intros Hl B. pose proof (string_balance others h v) as K. pose proof (fun w b => others_apart h v others w b B) as Ap.
  unfold string_copy, text in *. destruct (owns v) as [|b [|c l]] eqn:Eo; [| |cbn in Hl; lia].
  - exists h, (Value [] []). split; [reflexivity|]. split; [reflexivity|]. split; [discriminate|]. split; [cbn; lia|]. split; [apply (K _ _ B eq_refl)|]. reflexivity.
  - assert (In b (live h)) as Hb by (eapply Permutation_in; [symmetry; exact B|]; cbn [flat_map]; rewrite Eo; left; reflexivity).
    apply live_in in Hb. destruct Hb as [x Hb]. rewrite Hb in *. destruct x as [|a x].
    + destruct (free_live h b _ Hb) as [h2 Ef]. rewrite Ef in *. destruct (free_nth _ _ _ Ef) as [_ [_ Hn]]. exists h2, (Value [] []). split; [reflexivity|].
      cbn [reads owns option_map]. rewrite Hb. split; [reflexivity|]. split; [discriminate|]. split; [cbn; lia|]. split; [apply (K _ _ B eq_refl)|].
      intros w Hw. apply reads_ext. intros d Hd. rewrite Hn. destruct (Nat.eqb_spec d b) as [H|]; [|reflexivity]. subst d. destruct (Ap w b Hw Hd) as [_ Q]. destruct Q. left. reflexivity.
    + cbn [alloc] in *. assert (b < length h) as Hbl by (apply nth_error_Some; congruence).
      assert (nth_error (h ++ [Some (a :: x)]) b = Some (Some (a :: x))) as Hb2 by (rewrite nth_error_app1; assumption).
      destruct (free_live _ b _ Hb2) as [h2 Ef]. rewrite Ef in *. destruct (free_nth _ _ _ Ef) as [_ [_ Hn]]. exists h2, (Value [] [length h]). split; [reflexivity|].
      cbn [reads owns option_map]. rewrite Hb, Hn. destruct (Nat.eqb_spec (length h) b); [lia|]. rewrite nth_error_app2, Nat.sub_diag by lia. cbn [nth_error].
      split; [reflexivity|]. split; [discriminate|]. split; [cbn; lia|]. split; [apply (K _ _ B eq_refl)|].
      intros w Hw. apply reads_ext. intros d Hd. rewrite Hn. destruct (Ap w d Hw Hd) as [Hd1 Hd2]. destruct (Nat.eqb_spec d b) as [H|]; [subst d; destruct Hd2; left; reflexivity|].
      apply nth_error_app1. exact Hd1.
Qed.
