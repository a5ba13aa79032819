(** Soundness of forbidden values for all types of the grammar, without any condition
    on the payloads of [Result]s. *)
From Coq Require Import List Arith ZArith NArith Bool Lia ZifyBool ZifyN ZifyNat.
From Verif Require Import M_Layout M_Result S_Layout L_Layout L_Result L_Good L_Types.
Import ListNotations.
Ltac Zify.zify_post_hook ::= Z.div_mod_to_equations.
Arguments N.add : simpl never.
Arguments N.mul : simpl never.
Arguments N.sub : simpl never.
Arguments N.eqb : simpl never.
Arguments N.ltb : simpl never.
Arguments N.leb : simpl never.
Arguments N.land : simpl never.
Arguments N.lor : simpl never.
Arguments N.lxor : simpl never.
Arguments N.testbit : simpl never.
Arguments Nat.modulo : simpl never.
Arguments Nat.div : simpl never.
Arguments nmo : simpl never.
Arguments Nat.max : simpl never.
Arguments Nat.sub : simpl never.

Record wgood (d : desc) (D : list N -> option val) : Prop := {
  w_al : al_ok (dalign d);
  w_fv : fv_ok (dsize d) (dfv d);
  w_len : forall s v, D s = Some v -> length s = dsize d /\ is_bytes s;
  w_fvs : forall s v, D s = Some v -> ~ forbids (dfv d) s
}.
Lemma good_wgood full d D : good full d D -> wgood d D.
Proof. intros [H1 H2 H3 H4 H5 H6 H7 H8]. split; auto. Qed.
Lemma wgood_ext d D D' : (forall s, D s = D' s) -> wgood d D -> wgood d D'.
Proof.
  intros H [H1 H2 H3 H4]. split; auto.
  - intros s v. rewrite <- H. apply H3.
  - intros s v. rewrite <- H. apply H4.
Qed.
Lemma wgood_guarded d body :
  al_ok (dalign d) -> fv_ok (dsize d) (dfv d) ->
  (forall s v, length s = dsize d -> is_bytes s -> body s = Some v -> ~ forbids (dfv d) s) ->
  wgood d (guarded d body).
Proof.
  intros H1 H3 H6. unfold guarded. split; auto.
  - intros s v. destruct (guard d s) eqn:E; cbn; [|discriminate]. intros _. apply guard_true, E.
  - intros s v. destruct (guard d s) eqn:E; cbn; [|discriminate]. apply guard_true in E. destruct E. apply H6; assumption.
Qed.
Lemma wgood_pair a b DA DB : wgood a DA -> wgood b DB ->
  wgood (field_pair a b) (guarded (field_pair a b) (pair_body a b DA DB)).
Proof.
  intros Ga Gb. pose proof (nmo_bounds (dsize a) _ (al_ok_pos _ (w_al _ _ Gb))) as Hat.
  apply wgood_guarded.
  - apply al_ok_max; [apply (w_al _ _ Ga)|apply (w_al _ _ Gb)].
  - cbn. split.
    + eapply fv_ok_weaken; [|apply (w_fv _ _ Ga)]. lia.
    + apply fv_ok_shift, (w_fv _ _ Gb).
  - intros s v Hl Hb Hv. unfold pair_body in Hv. cbn in Hl.
    destruct (DA (firstn (dsize a) s)) as [va|] eqn:EA; [|discriminate].
    destruct (DB (skipn (nmo (dsize a) (dalign b)) s)) as [vb|] eqn:EB; [|discriminate].
    cbn. intros [H|H].
    + apply (w_fvs _ _ Ga _ _ EA). rewrite firstn_sub. apply forbids_shift_sub.
      * apply (w_fv _ _ Ga).
      * lia.
      * rewrite fshift_0. exact H.
    + apply (w_fvs _ _ Gb _ _ EB). rewrite (pair_skipn a b) by assumption. apply forbids_shift_sub.
      * apply (w_fv _ _ Gb).
      * lia.
      * exact H.
Qed.
Lemma wgood_padded d d' D :
  wgood d D -> al_ok (dalign d') -> dsize d <= dsize d' -> dfv d' = dfv d ->
  wgood d' (guarded d' (fun s => D (firstn (dsize d) s))).
Proof.
  intros Hg H1 H3 H4. apply wgood_guarded; auto; rewrite ?H4.
  - eapply fv_ok_weaken; [|apply (w_fv _ _ Hg)]. lia.
  - intros s v Hl Hb Hv Hf. rewrite firstn_sub in Hv. apply (w_fvs _ _ Hg _ _ Hv).
    apply forbids_shift_sub; [apply (w_fv _ _ Hg)|lia|]. rewrite fshift_0. exact Hf.
Qed.
Lemma wgood_array d n D : wgood d D ->
  wgood (array_ d n) (guarded (array_ d n) (fun s => option_map VArr (read_elems D (dsize d) n s))).
Proof.
  intros Hg. destruct (Nat.eqb_spec n 1) as [-> |Hn].
  - apply wgood_guarded; cbn; rewrite ?Nat.mul_1_r; [apply (w_al _ _ Hg)|apply (w_fv _ _ Hg)|].
    intros s v Hl Hb Hv. rewrite <- Hl, firstn_all in Hv. destruct (D s) eqn:E; [|discriminate].
    apply (w_fvs _ _ Hg _ _ E).
  - apply wgood_guarded; cbn; destruct (Nat.eqb_spec n 1); try congruence; cbn; auto. apply (w_al _ _ Hg).
Qed.
Lemma grammar_wgood r t : forall full d, types_ok r full t = true -> layout t = Some d -> wgood d (decode t).
Proof.
  induction t as [|s a|w|w nza|w| | | |a IHa b IHb|t IH|t IH al|a IHa b IHb|t IH n|a IHa b IHb|t IH];
    intros full d Hok L; cbn [types_ok] in Hok;
  try (match goal with |- wgood _ (decode ?t) =>
         destruct (decode_good t full Hok) as [d' [L' G]]; rewrite L' in L; injection L as ->;
         eapply good_wgood; exact G end).
  - apply andb_true_iff in Hok. destruct Hok as [Hok Hb]. apply andb_true_iff in Hok. destruct Hok as [_ Ha].
    cbn [layout] in L. destruct (layout a) as [da|] eqn:La; [|discriminate]. destruct (layout b) as [db|] eqn:Lb; [|discriminate].
    injection L as <-. eapply wgood_ext; [|apply (wgood_pair da db _ _ (IHa _ _ Ha eq_refl) (IHb _ _ Hb eq_refl))].
    intros s. cbn [decode layout]. rewrite La, Lb. reflexivity.
  - cbn [layout] in L. destruct (layout t) as [d'|] eqn:Lt; [|discriminate]. injection L as <-.
    pose proof (IH _ _ Hok eq_refl) as G. pose proof (nmo_bounds (dsize d') _ (al_ok_pos _ (w_al _ _ G))) as Hb.
    eapply wgood_ext; [|apply (wgood_padded d' (struct_ d') _ G); cbn; [apply (w_al _ _ G)|lia|reflexivity]].
    intros s. cbn [decode layout option_map]. rewrite Lt. reflexivity.
  - apply andb_true_iff in Hok. destruct Hok as [Hal Hok]. apply align_ok_al in Hal.
    cbn [layout] in L. destruct (layout t) as [d'|] eqn:Lt; [|discriminate]. injection L as <-.
    pose proof (IH _ _ Hok eq_refl) as G. pose proof (al_ok_max _ _ Hal (w_al _ _ G)) as Hm.
    pose proof (nmo_bounds (dsize d') _ (al_ok_pos _ Hm)) as Hb.
    eapply wgood_ext; [|apply (wgood_padded d' (aligned_struct d' al) _ G); cbn; [exact Hm|lia|reflexivity]].
    intros s. cbn [decode layout option_map]. rewrite Lt. reflexivity.
  - apply andb_true_iff in Hok. destruct Hok as [Ha Hb].
    cbn [layout] in L. destruct (layout a) as [da|] eqn:La; [|discriminate]. destruct (layout b) as [db|] eqn:Lb; [|discriminate].
    injection L as <-.
    eapply wgood_ext; [|apply (wgood_guarded (union_ da db) (fun s => Some (VRaw s)))].
    + intros s. cbn [decode layout]. rewrite La, Lb. reflexivity.
    + apply al_ok_max; [apply (w_al _ _ (IHa _ _ Ha eq_refl))|apply (w_al _ _ (IHb _ _ Hb eq_refl))].
    + exact I.
    + intros s v _ _ _ [].
  - cbn [layout] in L. destruct (layout t) as [d'|] eqn:Lt; [|discriminate]. injection L as <-.
    eapply wgood_ext; [|apply (wgood_array d' n _ (IH _ _ Hok eq_refl))].
    intros s. cbn [decode layout option_map]. rewrite Lt. reflexivity.
  - apply andb_true_iff in Hok. destruct Hok as [Hok _]. apply andb_true_iff in Hok. destruct Hok as [Ha Hb].
    cbn [layout] in L. destruct (layout a) as [da|] eqn:La; [|discriminate]. destruct (layout b) as [db|] eqn:Lb; [|discriminate].
    destruct (provider_of da db) as [p|] eqn:E; [|discriminate]. injection L as <-.
    eapply wgood_ext; [|apply (wgood_guarded (result_d da db p) (result_body da db (decode a) (decode b) p))].
    + intros s. cbn [decode layout]. rewrite La, Lb, E. reflexivity.
    + apply al_ok_max; [apply (w_al _ _ (IHa _ _ Ha eq_refl))|apply (w_al _ _ (IHb _ _ Hb eq_refl))].
    + exact I.
    + intros s v _ _ _ [].
Qed.
