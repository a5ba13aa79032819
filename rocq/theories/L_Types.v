(** Every type of the grammar has a sound layout. *)
From Coq Require Import List Arith ZArith NArith Bool Lia ZifyBool ZifyN ZifyNat.
From Verif Require Import M_Layout M_Result S_Layout L_Layout L_Result L_Good.
Import ListNotations.
Ltac Zify.zify_post_hook ::= Z.div_mod_to_equations.
Arguments N.add : simpl never.
Arguments N.mul : simpl never.
Arguments N.sub : simpl never.
Arguments N.eqb : simpl never.
Arguments N.ltb : simpl never.
Arguments N.leb : simpl never.
Arguments N.land : simpl never.
Arguments N.lor : simpl never.
Arguments N.lxor : simpl never.
Arguments N.testbit : simpl never.
Arguments Nat.modulo : simpl never.
Arguments Nat.div : simpl never.
Arguments nmo : simpl never.
Arguments Nat.max : simpl never.
Arguments Nat.sub : simpl never.

Definition guard (d : desc) (s : list N) : bool :=
  Nat.eqb (length s) (dsize d) && forallb (fun b => N.ltb b 256) s.
Lemma guard_true d s : guard d s = true <-> length s = dsize d /\ is_bytes s.
Proof. unfold guard. rewrite andb_true_iff, Nat.eqb_eq, is_bytes_forallb. reflexivity. Qed.
Lemma guard_agree d m s s' : is_bytes s -> is_bytes s' -> agree_outside m s s' -> guard d s = guard d s'.
Proof.
  intros Hs Hs' [Hl _]. unfold guard. rewrite Hl. apply is_bytes_forallb in Hs, Hs'. rewrite Hs, Hs'. reflexivity.
Qed.

Definition guarded (d : desc) (body : list N -> option val) : list N -> option val :=
  fun s => if negb (guard d s) then None else body s.

Lemma good_ext full d D D' : (forall s, D s = D' s) -> good full d D -> good full d D'.
Proof.
  intros H [H1 H2 H3 H4 H5 H6 H7 H8]. split; auto.
  - intros s v. rewrite <- H. apply H6.
  - intros s v. rewrite <- H. apply H7.
  - intros s s' Hs Hs' Ha. rewrite <- !H. apply H8; assumption.
Qed.

Lemma good_guarded full d body :
  al_ok (dalign d) -> (full = true -> dsize d mod dalign d = 0) ->
  fv_ok (dsize d) (dfv d) -> ub_ok 0 (dsize d) (dub d) ->
  (forall o i, fv_at (dfv d) o -> ~ bit_unused (dub d) o i) ->
  (forall s v, length s = dsize d -> is_bytes s -> body s = Some v -> ~ forbids (dfv d) s) ->
  (forall s s', length s = dsize d -> is_bytes s -> is_bytes s' -> agree_outside (dub d) s s' -> body s = body s') ->
  good full d (guarded d body).
Proof.
  intros H1 H2 H3 H4 H5 H6 H7. unfold guarded. split; auto.
  - intros s v. destruct (guard d s) eqn:E; cbn; [|discriminate]. intros _. apply guard_true, E.
  - intros s v. destruct (guard d s) eqn:E; cbn; [|discriminate]. apply guard_true in E. destruct E. apply H6; assumption.
  - intros s s' Hs Hs' Ha. rewrite <- (guard_agree d (dub d) s s' Hs Hs' Ha).
    destruct (guard d s) eqn:E; cbn; auto. apply guard_true in E. destruct E. apply H7; assumption.
Qed.

(** *** Primitives *)
Lemma good_plain full d body :
  al_ok (dalign d) -> dsize d mod dalign d = 0 -> dfv d = FEnd -> dub d = [] ->
  good full d (guarded d body).
Proof.
  intros H1 H2 H3 H4. apply good_guarded; auto; rewrite ?H3, ?H4; cbn; auto.
  intros s s' _ _ _ Ha. apply agree_nil in Ha. congruence.
Qed.
Lemma good_fv full d body :
  al_ok (dalign d) -> dsize d mod dalign d = 0 -> fv_ok (dsize d) (dfv d) -> dub d = [] ->
  (forall s v, length s = dsize d -> is_bytes s -> body s = Some v -> ~ forbids (dfv d) s) ->
  good full d (guarded d body).
Proof.
  intros H1 H2 H3 H4 H5. apply good_guarded; auto; rewrite ?H4; cbn; auto.
  - intros o i _. apply bit_unused_nil.
  - intros s s' _ _ _ Ha. apply agree_nil in Ha. congruence.
Qed.

Lemma nz_holes_at i n o : fv_at (nz_holes i n) o <-> i <= o < i + n.
Proof.
  revert i. induction n as [|n IH]; intros i; cbn; [lia|]. rewrite IH. lia.
Qed.
Lemma nz_holes_ok n : forall i k, i + n <= k -> fv_ok k (nz_holes i n).
Proof.
  induction n as [|n IH]; intros i k H; cbn; auto.
  split; [lia|]. split; [lia|]. split; [destruct n; exact I|]. split; [rewrite nz_holes_at; lia|]. apply IH. lia.
Qed.
Lemma nz_holes_forbids n : forall i s, 0 < n ->
  forbids (nz_holes i n) s <-> forall x, i <= x < i + n -> nth_error s x = Some 0%N.
Proof.
  induction n as [|n IH]; intros i s Hn; [lia|]. cbn [nz_holes forbids].
  destruct n as [|n].
  - cbn. split.
    + intros [H _] x Hx. assert (x = i) by lia. subst; auto.
    + intros H. split; [apply H; lia|left; reflexivity].
  - rewrite IH by lia. split.
    + intros [H1 [H2|H2]] x Hx; [discriminate|]. destruct (Nat.eq_dec x i) as [-> |]; auto. apply H2. lia.
    + intros H. split; [apply H; lia|]. right. intros x Hx. apply H. lia.
Qed.
Lemma all_zero_forallb s : forallb (N.eqb 0) s = true <-> forall x, x < length s -> nth_error s x = Some 0%N.
Proof.
  rewrite forallb_forall. split.
  - intros H x Hx. destruct (nth_error_lt s x Hx) as [b Hb]. rewrite Hb. f_equal.
    apply nth_error_In in Hb. specialize (H b Hb). lia.
  - intros H b Hb. apply In_nth_error in Hb. destruct Hb as [x Hx].
    pose proof (nth_error_some_lt _ _ _ Hx) as Hlt. rewrite (H x Hlt) in Hx. injection Hx as <-. reflexivity.
Qed.
Lemma nz_forbidden w s : 0 < w -> length s = w -> forbids (nz_holes 0 w) s <-> forallb (N.eqb 0) s = true.
Proof.
  intros Hw Hl. rewrite nz_holes_forbids, all_zero_forallb by assumption. rewrite Hl.
  split; intros H x Hx; apply H; lia.
Qed.

(** *** Aggregates *)
Section Pair.
Variables (a b : desc) (DA DB : list N -> option val) (fa : bool).
Hypothesis Ga : good fa a DA.
Hypothesis Gb : good true b DB.
Let at_ := nmo (dsize a) (dalign b).
Definition pair_body : list N -> option val := fun s =>
  match DA (firstn (dsize a) s), DB (skipn at_ s) with
  | Some va, Some vb => Some (VPair va vb)
  | _, _ => None
  end.
Lemma pair_at : dsize a <= at_.
Proof. apply nmo_bounds, al_ok_pos, (g_al _ _ _ Gb). Qed.
Lemma pair_ub o i : bit_unused (dub (field_pair a b)) o i <->
  bit_unused (dub a) o i \/ (dsize a <= o < at_ /\ (i < 8)%N) \/ (at_ <= o /\ bit_unused (dub b) (o - at_) i).
Proof.
  unfold field_pair, aligned_after, bit_or; cbn. fold at_.
  rewrite !bit_unused_app, !bit_unused_shift, bit_unused_padding. pose proof pair_at. intuition lia.
Qed.
Lemma pair_skipn s : length s = dsize b + at_ -> skipn at_ s = sub at_ (dsize b) s.
Proof. intros H. rewrite skipn_sub. f_equal. lia. Qed.
Lemma good_pair : good false (field_pair a b) (guarded (field_pair a b) pair_body).
Proof.
  pose proof pair_at as Hat.
  apply good_guarded.
  - apply al_ok_max; [apply (g_al _ _ _ Ga)|apply (g_al _ _ _ Gb)].
  - discriminate.
  - cbn. fold at_. split.
    + eapply fv_ok_weaken; [|apply (g_fv _ _ _ Ga)]. lia.
    + apply fv_ok_shift, (g_fv _ _ _ Gb).
  - unfold field_pair, aligned_after, bit_or; cbn. fold at_.
    apply ub_ok_app with (k := dsize a); [lia|apply (g_ub _ _ _ Ga)|lia|].
    apply ub_ok_app with (k := at_); [lia| |lia|].
    + pose proof (ub_ok_shift (dsize a) _ _ _ (ub_ok_padding (at_ - dsize a))) as H.
      replace (at_ - dsize a + dsize a) with at_ in H by lia. exact H.
    + apply (ub_ok_shift at_ _ 0 _ (g_ub _ _ _ Gb)).
  - intros o i Hf Hu. rewrite pair_ub in Hu. cbn in Hf. fold at_ in Hf. rewrite fv_at_shift in Hf.
    destruct Hf as [Hf|[Hf1 Hf2]].
    + pose proof (fv_at_lt _ _ _ (g_fv _ _ _ Ga) Hf).
      destruct Hu as [Hu|[Hu|Hu]]; try lia. exact (g_disj _ _ _ Ga o i Hf Hu).
    + destruct Hu as [[v [Hu _]]|[Hu|Hu]]; try lia.
      * apply (ub_ok_in _ _ _ _ _ (g_ub _ _ _ Ga)) in Hu. lia.
      * destruct Hu as [_ Hu]. exact (g_disj _ _ _ Gb _ i Hf2 Hu).
  - intros s v Hl Hb Hv. unfold pair_body in Hv. cbn in Hl. fold at_ in Hl.
    destruct (DA (firstn (dsize a) s)) as [va|] eqn:EA; [|discriminate].
    destruct (DB (skipn at_ s)) as [vb|] eqn:EB; [|discriminate].
    cbn. fold at_. intros [H|H].
    + apply (g_fvs _ _ _ Ga _ _ EA). rewrite firstn_sub. apply forbids_shift_sub.
      * apply (g_fv _ _ _ Ga).
      * lia.
      * rewrite fshift_0. exact H.
    + apply (g_fvs _ _ _ Gb _ _ EB). rewrite pair_skipn by assumption. apply forbids_shift_sub.
      * apply (g_fv _ _ _ Gb).
      * lia.
      * exact H.
  - intros s s' Hl Hs Hs' Ha. unfold pair_body. cbn in Hl. fold at_ in Hl.
    pose proof (proj1 Ha) as Hl'.
    rewrite !firstn_sub, !pair_skipn by lia.
    rewrite (g_ubs _ _ _ Ga (sub 0 (dsize a) s) (sub 0 (dsize a) s')); auto using is_bytes_sub.
    + rewrite (g_ubs _ _ _ Gb (sub at_ (dsize b) s) (sub at_ (dsize b) s')); auto using is_bytes_sub.
      apply (agree_sub (dub (field_pair a b))); [lia| |assumption|assumption|assumption]. intros x i Hx Hi Hu. rewrite pair_ub in Hu.
      destruct Hu as [[v [Hu _]]|[Hu|[_ Hu]]]; try lia.
      * apply (ub_ok_in _ _ _ _ _ (g_ub _ _ _ Ga)) in Hu. lia.
      * replace (at_ + x - at_) with x in Hu by lia. exact Hu.
    + apply (agree_sub (dub (field_pair a b))); [lia| |assumption|assumption|assumption]. intros x i Hx Hi Hu. rewrite pair_ub in Hu. cbn in Hu.
      destruct Hu as [Hu|[Hu|Hu]]; try lia. exact Hu.
Qed.
End Pair.

(** A descriptor that only adds padding at the end. *)
Lemma good_padded fa full d d' D :
  good fa d D -> al_ok (dalign d') -> dsize d' mod dalign d' = 0 -> dsize d <= dsize d' ->
  dfv d' = dfv d ->
  (forall o i, bit_unused (dub d') o i -> bit_unused (dub d) o i \/ dsize d <= o) ->
  ub_ok 0 (dsize d') (dub d') ->
  good full d' (guarded d' (fun s => D (firstn (dsize d) s))).
Proof.
  intros Hg H1 H2 H3 H4 H5 H6. apply good_guarded; auto; rewrite ?H4.
  - eapply fv_ok_weaken; [|apply (g_fv _ _ _ Hg)]. lia.
  - intros o i Hf Hu. pose proof (fv_at_lt _ _ _ (g_fv _ _ _ Hg) Hf).
    destruct (H5 _ _ Hu) as [Hu'|Hu']; [|lia]. exact (g_disj _ _ _ Hg _ _ Hf Hu').
  - intros s v Hl Hb Hv Hf. rewrite firstn_sub in Hv. apply (g_fvs _ _ _ Hg _ _ Hv).
    apply forbids_shift_sub; [apply (g_fv _ _ _ Hg)|lia|]. rewrite fshift_0. exact Hf.
  - intros s s' Hl Hs Hs' Ha. rewrite !firstn_sub. apply (g_ubs _ _ _ Hg); auto using is_bytes_sub.
    apply (agree_sub (dub d')); [lia| |assumption|assumption|assumption]. intros x i Hx Hi Hu. cbn in Hu.
    destruct (H5 _ _ Hu); [assumption|lia].
Qed.

Lemma good_struct fa full d D : good fa d D ->
  good full (struct_ d) (guarded (struct_ d) (fun s => D (firstn (dsize d) s))).
Proof.
  intros Hg. pose proof (al_ok_pos _ (g_al _ _ _ Hg)) as Hp.
  pose proof (nmo_bounds (dsize d) _ Hp) as Hb.
  eapply good_padded; eauto; cbn.
  - apply (g_al _ _ _ Hg).
  - apply nmo_mod; assumption.
  - lia.
  - unfold bit_or. intros o i. rewrite bit_unused_app, bit_unused_shift. tauto.
  - unfold bit_or. apply ub_ok_app with (k := dsize d); [lia|apply (g_ub _ _ _ Hg)|lia|].
    pose proof (ub_ok_shift (dsize d) _ _ _ (ub_ok_padding (nmo (dsize d) (dalign d) - dsize d))) as H.
    replace (nmo (dsize d) (dalign d) - dsize d + dsize d) with (nmo (dsize d) (dalign d)) in H by lia. exact H.
Qed.
Lemma nmo_le_al x p q : al_ok p -> al_ok q -> p <= q -> nmo x p <= nmo x q.
Proof.
  intros Hp Hq Hpq.
  destruct (nmo_first x p (al_ok_pos _ Hp)) as [_ [_ H]].
  pose proof (nmo_bounds x q (al_ok_pos _ Hq)) as Hb.
  assert (nmo x q mod p = 0) as Hm.
  { eapply mod_0_trans; [exact Hp|exact Hq|exact Hpq|]. apply nmo_mod, al_ok_pos, Hq. }
  destruct (mod_0_mult _ _ (al_ok_pos _ Hp) Hm) as [k Hk]. rewrite Hk. apply H. lia.
Qed.
Lemma good_aligned fa full d al D : al_ok al -> good fa d D ->
  good full (aligned_struct d al) (guarded (aligned_struct d al) (fun s => D (firstn (dsize d) s))).
Proof.
  intros Hal Hg. pose proof (g_al _ _ _ Hg) as Hd.
  pose proof (al_ok_max _ _ Hal Hd) as Hm. pose proof (al_ok_pos _ Hm) as Hp.
  pose proof (nmo_bounds (dsize d) _ Hp) as Hb.
  pose proof (nmo_bounds (dsize d) _ (al_ok_pos _ Hd)) as Hb'.
  pose proof (nmo_le_al (dsize d) _ _ Hd Hm ltac:(lia)) as Hle.
  eapply good_padded; eauto; cbn.
  - apply nmo_mod; assumption.
  - lia.
  - unfold bit_or. intros o i. rewrite bit_unused_app, bit_unused_shift. tauto.
  - unfold bit_or. apply ub_ok_app with (k := dsize d); [lia|apply (g_ub _ _ _ Hg)|lia|].
    pose proof (ub_ok_shift (dsize d) _ _ _ (ub_ok_padding (nmo (dsize d) (dalign d) - dsize d))) as H.
    eapply ub_ok_weaken; [| |exact H]; lia.
Qed.
Lemma good_union full a b DA DB body : good true a DA -> good true b DB ->
  good full (union_ a b) (guarded (union_ a b) body).
Proof.
  intros Ga Gb. pose proof (al_ok_max _ _ (g_al _ _ _ Ga) (g_al _ _ _ Gb)) as Hm.
  apply good_plain; cbn; auto. apply nmo_mod, al_ok_pos, Hm.
Qed.
Lemma good_array full d n D : good true d D ->
  good full (array_ d n) (guarded (array_ d n)
    (fun s => option_map VArr (read_elems D (dsize d) n s))).
Proof.
  intros Hg. pose proof (g_al _ _ _ Hg) as Hd. pose proof (al_ok_pos _ Hd) as Hp.
  assert ((dsize d * n) mod dalign d = 0) as Hsz.
  { destruct (mod_0_mult _ _ Hp (g_sz _ _ _ Hg eq_refl)) as [k ->].
    replace (k * dalign d * n) with (k * n * dalign d) by lia. apply mult_mod; assumption. }
  destruct (Nat.eqb_spec n 1) as [-> |Hn].
  - eapply good_ext with (D := guarded (array_ d 1) (fun s => option_map (fun v => VArr [v]) (D (firstn (dsize d) s)))).
    { intros s. unfold guarded. destruct (negb _); auto. cbn. destruct (D (firstn (dsize d) s)); reflexivity. }
    apply good_guarded; cbn; rewrite ?Nat.mul_1_r in *; auto.
    + apply (g_fv _ _ _ Hg).
    + apply (g_ub _ _ _ Hg).
    + apply (g_disj _ _ _ Hg).
    + intros s v Hl Hb Hv. rewrite <- Hl, firstn_all in Hv. destruct (D s) eqn:E; [|discriminate].
      apply (g_fvs _ _ _ Hg _ _ E).
    + intros s s' Hl Hs Hs' Ha. pose proof (proj1 Ha) as Hl'. rewrite <- Hl at 1. rewrite firstn_all.
      rewrite <- Hl, Hl', firstn_all. f_equal. apply (g_ubs _ _ _ Hg); assumption.
  - apply good_plain; cbn; auto; destruct (Nat.eqb_spec n 1); congruence.
Qed.

(** *** Result *)
Definition result_body (a b : desc) (DA DB : list N -> option val) (p : fprovider) (s : list N) : option val :=
  match match_result a b p s with
  | Some (inl x) => option_map VOk (DA x)
  | Some (inr x) => option_map VErr (DB x)
  | None => None
  end.
Lemma result_body_read a b DA DB p s : prov_good a b DA DB p -> length s = dsize (result_d a b p) ->
  exists x, is_ok p s = Some x /\
  result_body a b DA DB p s =
    if x then option_map VOk (read (ok_offset a b p) (dsize a) DA s)
    else option_map VErr (read (err_offset a b p) (dsize b) DB s).
Proof.
  intros [H1 [H2 [H3 [H4 [H5 [H6 [H7 [H8 H9]]]]]]]] Hl.
  destruct (dg_tot _ _ _ _ _ H8 s Hl) as [x Hx]. exists x. split; auto.
  unfold result_body, match_result, is_ok. rewrite Hx.
  destruct x; rewrite slice_sub by lia; reflexivity.
Qed.
Lemma good_result full a b DA DB p :
  good true a DA -> good true b DB -> prov_good a b DA DB p ->
  good full (result_d a b p) (guarded (result_d a b p) (result_body a b DA DB p)).
Proof.
  intros Ga Gb Hp. pose proof Hp as [H1 [H2 [H3 [H4 [H5 [H6 [H7 [H8 H9]]]]]]]].
  apply good_guarded.
  - cbn. apply al_ok_max; [apply (g_al _ _ _ Ga)|apply (g_al _ _ _ Gb)].
  - intros _. exact H7.
  - exact I.
  - exact H9.
  - intros o i [].
  - intros s v _ _ _ [].
  - intros s s' Hl Hs Hs' Ha.
    destruct (dg_ub _ _ _ _ _ H8 s s' Hl Hs Hs' Ha) as [E1 [E2 E3]].
    destruct (result_body_read _ _ _ _ _ s Hp Hl) as [x [Hx ->]].
    destruct (result_body_read _ _ _ _ _ s' Hp) as [x' [Hx' ->]]. { rewrite <- Hl. symmetry. apply Ha. }
    unfold is_ok in *. assert (x = x') by congruence. subst x'. destruct x; congruence.
Qed.

(** ** All types *)

Ltac inv_layout :=
  repeat match goal with
  | H : exists d, layout _ = Some d /\ _ |- _ => destruct H as [? [? ?]]
  end.

Lemma decode_good t : forall full, types_ok sizes_match full t = true ->
  exists d, layout t = Some d /\ good full d (decode t).
Proof.
  induction t as [|s a|w|w nza|w| | | |a IHa b IHb|t IH|t IH al|a IHa b IHb|t IH n|a IHa b IHb|t IH];
    intros full Hok; cbn [types_ok] in Hok.
  - eexists; split; [reflexivity|].
    eapply good_ext; [|apply good_plain with (d := unit_d) (body := fun _ => Some VUnit); cbn; auto; left; reflexivity].
    intros s. reflexivity.
  - apply andb_true_iff in Hok. destruct Hok as [H1 H2]. apply align_ok_al in H1. apply Nat.eqb_eq in H2.
    eexists; split; [reflexivity|].
    eapply good_ext; [|apply good_plain with (d := plain_d s a) (body := fun s => Some (VRaw s)); cbn; auto].
    intros x. reflexivity.
  - apply align_ok_al in Hok. eexists; split; [reflexivity|].
    eapply good_ext; [|apply good_plain with (d := rawptr_d w) (body := fun s => Some (VRaw s)); cbn; auto].
    + intros x. reflexivity.
    + apply Nat.mod_same. apply al_ok_pos in Hok. lia.
  - apply andb_true_iff in Hok. destruct Hok as [Hok H0]. apply andb_true_iff in Hok. destruct Hok as [Hok Hm].
    apply align_ok_al in Hok. apply Nat.eqb_eq in Hm. apply Nat.ltb_lt in H0. pose proof (al_ok_pos _ Hok) as Hp.
    eexists; split; [reflexivity|].
    eapply good_ext; [|apply good_fv with (d := nonzero_d w nza)
       (body := fun s => if forallb (N.eqb 0) s then None else Some (VRaw s)); cbn; auto].
    + intros x. reflexivity.
    + apply nz_holes_ok. lia.
    + intros s v Hl _. rewrite nz_forbidden by assumption. destruct (forallb (N.eqb 0) s); [discriminate|]. intros _ E; discriminate.
  - apply align_ok_al in Hok. pose proof (al_ok_pos _ Hok) as Hp. eexists; split; [reflexivity|].
    eapply good_ext; [|apply good_fv with (d := ref_d w)
       (body := fun s => if forallb (N.eqb 0) s then None else Some (VRaw s)); cbn; auto].
    + intros x. reflexivity.
    + apply Nat.mod_same. lia.
    + apply nz_holes_ok. lia.
    + intros s v Hl _. rewrite nz_forbidden by assumption. destruct (forallb (N.eqb 0) s); [discriminate|]. intros _ E; discriminate.
  - eexists; split; [reflexivity|].
    eapply good_ext; [|apply good_fv with (d := bool_d)
       (body := fun s => match s with [0%N] => Some (VBool false) | [1%N] => Some (VBool true) | _ => None end); cbn; auto].
    + intros s. reflexivity.
    + left; reflexivity.
    + lia.
    + intros s v Hl _ Hv [b [Hb Hr]]. destruct s as [|c [|? ?]]; try discriminate.
      cbn in Hb. injection Hb as ->. destruct b as [|[ | | ]]; try discriminate; lia.
  - eexists; split; [reflexivity|].
    eapply good_ext; [|apply good_fv with (d := ordering_d)
       (body := fun s => match s with [0%N] => Some (VOrd Eq) | [1%N] => Some (VOrd Gt)
                         | [255%N] => Some (VOrd Lt) | _ => None end); cbn; auto].
    + intros s. reflexivity.
    + left; reflexivity.
    + lia.
    + intros s v Hl _ Hv [b [Hb Hr]]. destruct s as [|c [|? ?]]; try discriminate.
      cbn in Hb. injection Hb as ->.
      assert (b = 0 \/ b = 1 \/ b = 255 \/ (b <> 0 /\ b <> 1 /\ b <> 255))%N as Hc by lia.
      destruct Hc as [Hc|[Hc|[Hc|[Hc1 [Hc2 Hc3]]]]]; try lia.
      revert Hv Hc1 Hc2 Hc3. clear.
      destruct b as [|p]; [congruence|].
      repeat (destruct p as [p|p|]; try discriminate; try congruence).
  - eexists; split; [reflexivity|].
    eapply good_ext; [|apply good_guarded with (d := padbyte_d) (body := fun _ => Some VPad); cbn; auto].
    + intros s. reflexivity.
    + left; reflexivity.
  - apply andb_true_iff in Hok. destruct Hok as [Hok Hb]. apply andb_true_iff in Hok. destruct Hok as [Hf Ha].
    destruct full; [discriminate|].
    destruct (IHa _ Ha) as [da [La Ga]]. destruct (IHb _ Hb) as [db [Lb Gb]].
    exists (field_pair da db). cbn [layout]. rewrite La, Lb. split; [reflexivity|].
    eapply good_ext; [|apply (good_pair da db _ _ _ Ga Gb)].
    intros s. cbn [decode layout]. rewrite La, Lb. reflexivity.
  - destruct (IH _ Hok) as [d [L G]]. exists (struct_ d). cbn [layout]. rewrite L. split; [reflexivity|].
    eapply good_ext; [|apply (good_struct _ full _ _ G)].
    intros s. cbn [decode layout option_map]. rewrite L. reflexivity.
  - apply andb_true_iff in Hok. destruct Hok as [Hal Hok]. apply align_ok_al in Hal.
    destruct (IH _ Hok) as [d [L G]]. exists (aligned_struct d al). cbn [layout]. rewrite L. split; [reflexivity|].
    eapply good_ext; [|apply (good_aligned _ full _ al _ Hal G)].
    intros s. cbn [decode layout option_map]. rewrite L. reflexivity.
  - apply andb_true_iff in Hok. destruct Hok as [Ha Hb].
    destruct (IHa _ Ha) as [da [La Ga]]. destruct (IHb _ Hb) as [db [Lb Gb]].
    exists (union_ da db). cbn [layout]. rewrite La, Lb. split; [reflexivity|].
    eapply good_ext; [|apply (good_union full _ _ _ _ (fun s => Some (VRaw s)) Ga Gb)].
    intros s. cbn [decode layout]. rewrite La, Lb. reflexivity.
  - destruct (IH _ Hok) as [d [L G]]. exists (array_ d n). cbn [layout]. rewrite L. split; [reflexivity|].
    eapply good_ext; [|apply (good_array full _ n _ G)].
    intros s. cbn [decode layout option_map]. rewrite L. reflexivity.
  - apply andb_true_iff in Hok. destruct Hok as [Hok Hs]. apply andb_true_iff in Hok. destruct Hok as [Ha Hb].
    destruct (IHa _ Ha) as [da [La Ga]]. destruct (IHb _ Hb) as [db [Lb Gb]]. rewrite La, Lb in Hs.
    destruct (provider_good da db _ _ Ga Gb Hs) as [p [E Hp]].
    exists (result_d da db p). cbn [layout]. rewrite La, Lb, E. split; [reflexivity|].
    eapply good_ext; [|apply (good_result full _ _ _ _ _ Ga Gb Hp)].
    intros s. cbn [decode layout]. rewrite La, Lb, E. reflexivity.
  - discriminate.
Qed.
