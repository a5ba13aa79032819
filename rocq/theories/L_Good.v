(** Soundness of the layouts of all types of the grammar. *)
From Coq Require Import List Arith ZArith NArith Bool Lia ZifyBool ZifyN ZifyNat.
From Verif Require Import M_Layout M_Result S_Layout L_Layout L_Result.
Import ListNotations.
Ltac Zify.zify_post_hook ::= Z.div_mod_to_equations.
Arguments N.add : simpl never.
Arguments N.mul : simpl never.
Arguments N.sub : simpl never.
Arguments N.eqb : simpl never.
Arguments N.ltb : simpl never.
Arguments N.leb : simpl never.
Arguments N.land : simpl never.
Arguments N.lor : simpl never.
Arguments N.lxor : simpl never.
Arguments N.testbit : simpl never.
Arguments Nat.modulo : simpl never.
Arguments Nat.div : simpl never.
Arguments nmo : simpl never.
Arguments Nat.max : simpl never.
Arguments Nat.sub : simpl never.

Record good (full : bool) (d : desc) (D : list N -> option val) : Prop := {
  g_al : al_ok (dalign d);
  g_sz : full = true -> dsize d mod dalign d = 0;
  g_fv : fv_ok (dsize d) (dfv d);
  g_ub : ub_ok 0 (dsize d) (dub d);
  g_disj : forall o i, fv_at (dfv d) o -> ~ bit_unused (dub d) o i;
  g_len : forall s v, D s = Some v -> length s = dsize d /\ is_bytes s;
  g_fvs : forall s v, D s = Some v -> ~ forbids (dfv d) s;
  g_ubs : forall s s', is_bytes s -> is_bytes s' -> agree_outside (dub d) s s' -> D s = D s'
}.

Definition read (o k : nat) (D : list N -> option val) : list N -> option val :=
  fun s => D (sub o k s).

Lemma insens_read n f d D o m : good f d D -> o + dsize d <= n ->
  (forall x i, x < dsize d -> (i < 8)%N -> bit_unused m (o + x) i -> bit_unused (dub d) x i) ->
  insens n (read o (dsize d) D) m.
Proof.
  intros Hg Ho Hm s s' Hl Hs Hs' Ha. unfold read. apply (g_ubs _ _ _ Hg); auto using is_bytes_sub.
  eapply agree_sub; eauto. lia.
Qed.

(** Total mask exported by a Result with determinant [d] and remaining bits [ub]. *)
Definition tub (d : det) (al : nat) (ub : mask) : mask :=
  bit_or (dub (tuple2_d (det_d d) (as_uint_d al))) (mshift (nmo (dsize (det_d d)) al) ub).

Lemma nmo_0 p : nmo 0 p = 0.
Proof. apply nmo_id. destruct p; [reflexivity|]. apply Nat.mod_0_l. lia. Qed.
Lemma nmo_self p : 0 < p -> nmo p p = p.
Proof. intros H. apply nmo_id, Nat.mod_same. lia. Qed.
Lemma nmo_one p : al_ok p -> nmo 1 p = p.
Proof. intros [->|[->|[->|[->| ->]]]]; reflexivity. Qed.
Lemma nmo_twice p : al_ok p -> nmo (p + p) p = p + p.
Proof.
  intros H. apply nmo_id. apply mod_0_add; auto using al_ok_pos; apply Nat.mod_same; apply al_ok_pos in H; lia.
Qed.
Lemma max_1_al p : al_ok p -> Nat.max 1 p = p.
Proof. unfold al_ok; lia. Qed.

Lemma tub_niche d al ub : al_ok al -> det_d d = unit_d -> tub d al ub = ub.
Proof.
  intros Hal E. unfold tub, tuple2_d. rewrite E. unfold as_uint_d, struct_, field_pair, aligned_after; cbn.
  rewrite !nmo_0, Nat.sub_diag, max_1_al by assumption. cbn.
  rewrite Nat.add_0_r, nmo_self, Nat.sub_diag by (apply al_ok_pos; assumption). cbn. apply mshift_0.
Qed.
Lemma tub_bit al : al_ok al -> tub DBit al [] = [(0, 254%N)] ++ mshift 1 (padding_bit_mask (al - 1)).
Proof.
  intros Hal. unfold tub, tuple2_d. unfold as_uint_d, struct_, field_pair, aligned_after; cbn.
  rewrite nmo_one, max_1_al by assumption.
  rewrite nmo_twice by assumption.
  rewrite Nat.sub_diag. cbn. unfold bit_or. rewrite !app_nil_r. reflexivity.
Qed.
Lemma det_d_dval c : det_d (dval c) = unit_d.
Proof. induction c as [|[o v] c IH]; cbn; auto. Qed.

Definition inner_good (a b : desc) (DA DB : list N -> option val) (p : provider) : Prop :=
  let al := Nat.max (dalign a) (dalign b) in
  let ds := nmo (dsize (det_d (p_det p))) al in
  let n := ds + dsize a in
  p_err_shift p mod dalign b = 0 /\
  p_err_shift p + dsize b <= dsize a /\
  det_good n (read ds (dsize a) DA) (read (p_err_shift p + ds) (dsize b) DB) (p_det p)
    (tub (p_det p) al (p_ub p)) /\
  ub_ok 0 n (tub (p_det p) al (p_ub p)).

Section Inner.
Variables (a b : desc) (DA DB : list N -> option val).
Hypothesis Ga : good true a DA.
Hypothesis Gb : good true b DB.
Hypothesis Hle : dsize b <= dsize a.

Let al := Nat.max (dalign a) (dalign b).
Lemma inner_al : al_ok al.
Proof. apply al_ok_max; [apply (g_al _ _ _ Ga)|apply (g_al _ _ _ Gb)]. Qed.

(** The external determinant. *)
Lemma inner_ext : inner_good a b DA DB (Prov 0 DBit []).
Proof.
  pose proof inner_al as Hal. unfold inner_good. cbn [p_det p_err_shift p_ub det_d dsize].
  fold al. rewrite tub_bit, nmo_one by assumption. pose proof (al_ok_pos _ Hal) as Hpos.
  assert (ub_ok 0 al ([(0, 254%N)] ++ mshift 1 (padding_bit_mask (al - 1)))) as Hub.
  { apply ub_ok_app with (k := 1); [lia| |lia|].
    - cbn. split; [lia|]. split; [right; left; reflexivity|exact I].
    - pose proof (ub_ok_shift 1 _ _ _ (ub_ok_padding (al - 1))) as H.
      replace (al - 1 + 1) with al in H by lia. exact H. }
  assert (forall d D, good true d D -> dsize d <= dsize a ->
            insens (al + dsize a) (read al (dsize d) D) (padding_bit_mask al)) as Hins.
  { intros d D Hg Hd. eapply insens_read; eauto; [lia|]. intros x i Hx Hi Hu.
    apply bit_unused_padding in Hu. lia. }
  assert (forall d D, good true d D -> dsize d <= dsize a ->
            insens (al + dsize a) (read al (dsize d) D) ([(0, 254%N)] ++ mshift 1 (padding_bit_mask (al - 1)))) as Hins'.
  { intros d D Hg Hd. eapply insens_read; eauto; [lia|]. intros x i Hx Hi [v [Hin Hv]].
    apply (ub_ok_in _ _ _ _ _ Hub) in Hin. lia. }
  split; [apply Nat.mod_0_l; pose proof (al_ok_pos _ (g_al _ _ _ Gb)); lia|]. split; [lia|]. split.
  - apply ext_det_good with (mP := padding_bit_mask al); try (cbn [Nat.add]; auto; fail).
    + lia.
    + intros i Hi. apply bit_unused_padding. lia.
    + rewrite bit_unused_app, bit_unused_shift. intros [[v [[E|[]] Hv]]|[H _]]; [|lia].
      injection E as <-. vm_compute in Hv. discriminate.
  - eapply ub_ok_weaken; [| |exact Hub]; lia.
Qed.

(** Result of a niche search at shift [eoff]. *)
Lemma inner_niche_pack eoff d ub :
  det_d d = unit_d -> eoff mod dalign b = 0 -> eoff + dsize b <= dsize a ->
  det_good (dsize a) (read 0 (dsize a) DA) (read eoff (dsize b) DB) d ub ->
  ub_ok 0 (dsize a) ub ->
  inner_good a b DA DB (Prov eoff d ub).
Proof.
  intros Hd Hm Hb Hg Hu. unfold inner_good. cbn [p_det p_err_shift p_ub].
  fold al. rewrite (tub_niche _ _ _ inner_al Hd), Hd. cbn [dsize unit_d]. rewrite nmo_0, Nat.add_0_r.
  cbn [Nat.add]. auto.
Qed.

Lemma insens_a m : (forall x i, x < dsize a -> (i < 8)%N -> bit_unused m x i -> bit_unused (dub a) x i) ->
  insens (dsize a) (read 0 (dsize a) DA) m.
Proof. intros H. eapply insens_read; eauto. Qed.

Lemma read_a_chain c : good_chain (dfv a) c ->
  forall s v, length s = dsize a -> is_bytes s -> read 0 (dsize a) DA s = Some v -> ~ matches c s.
Proof.
  intros [_ [_ Hc]] s v Hl Hb Hv Hm. unfold read in Hv. rewrite <- Hl, sub_all in Hv.
  apply (g_fvs _ _ _ Ga _ _ Hv). apply Hc, Hm.
Qed.
Lemma read_b_chain c eoff : eoff + dsize b <= dsize a -> good_chain (fshift eoff (dfv b)) c ->
  forall s v, length s = dsize a -> is_bytes s -> read eoff (dsize b) DB s = Some v -> ~ matches c s.
Proof.
  intros He [_ [_ Hc]] s v Hl Hb Hv Hm. unfold read in Hv.
  apply (g_fvs _ _ _ Gb _ _ Hv). apply forbids_shift_sub; [apply (g_fv _ _ _ Gb)|lia|]. apply Hc, Hm.
Qed.

Lemma sresolve_chain x c : sresolve x = sfv_of c -> c <> [] -> x = sfv_of c.
Proof. destruct x; cbn; auto. intros E Hc. destruct c as [|[? ?] ?]; [congruence|discriminate]. Qed.

(** *** Empty small payload *)
Lemma inner_unit : dsize b = 0 -> exists p, provider_inner a b = Some p /\ inner_good a b DA DB p.
Proof.
  intros Hb0. unfold provider_inner. rewrite Hb0. cbn [Nat.eqb].
  assert (forall m, insens (dsize a) (read 0 (dsize b) DB) m) as HQ.
  { intros m. eapply insens_read; eauto. intros; lia. }
  assert (0 mod dalign b = 0) as Hm0.
  { apply Nat.mod_0_l. pose proof (al_ok_pos _ (g_al _ _ _ Gb)); lia. }
  destruct (select_one_spec _ _ (g_fv _ _ _ Ga)) as [-> |[c [-> [Hc Hgc]]]].
  - destruct (dub a) as [|[o v] r] eqn:Eub; cbn [provider_with_unit].
    + eexists; split; [reflexivity|]. apply inner_ext.
    + eexists; split; [reflexivity|]. pose proof (g_ub _ _ _ Ga) as Hub. rewrite Eub in Hub.
      apply inner_niche_pack; [reflexivity|exact Hm0|lia| |].
      * destruct Hub as [H1 [H2 H3]].
        assert (insens (dsize a) (read 0 (dsize a) DA) ((o, v) :: r)) as HP.
        { apply insens_a. rewrite Eub. auto. }
        apply bit_det_good with (mP := (o, v) :: r) (mQ := (o, v) :: r); auto; [lia| | |].
        -- intros i Hi. split; exists v; split; auto; left; reflexivity.
        -- eapply insens_mono; [exact HP|]. intros o' i _ _ Hu.
           eapply bit_unused_extract in Hu; [apply Hu|]. split; eauto.
        -- intros Hu. eapply bit_unused_extract in Hu; [|split; eauto]. tauto.
      * apply ub_ok_extract. exact Hub.
  - destruct c as [|[o v] c]; [congruence|].
    change (provider_with_unit (sfv_of ((o, v) :: c)) (dub a)) with
      (match into_value_is_err (sfv_of ((o, v) :: c)) with Some d => Some (Prov 0 d (dub a)) | None => None end).
    rewrite into_value_chain. eexists; split; [reflexivity|].
    apply inner_niche_pack; [apply det_d_dval|exact Hm0|lia| |apply (g_ub _ _ _ Ga)].
    destruct Hgc as [Hg1 [Hg2 Hg3]].
    apply value_det_good with (mQ := padding_bit_mask (dsize a)); auto.
    + intros o' v' Hin. destruct (Hg2 _ _ Hin) as [H1 H2].
      pose proof (fv_at_lt _ _ _ (g_fv _ _ _ Ga) H1). split; auto. split; auto.
      intros i Hi. apply bit_unused_padding. auto.
    + apply read_a_chain. split; auto.
    + apply insens_a. auto.
    + intros o' v' i Hin. apply (g_disj _ _ _ Ga). eapply Hg2; eauto.
Qed.

(** *** Search loop *)
Definition eub (eoff : nat) : mask := shifted_unused_bits (dsize a) (dub b) (dsize b) eoff.

Lemma eub_eq eoff : eub eoff = padding_bit_mask eoff ++ mshift eoff (dub b) ++
  mshift (dsize b + eoff) (padding_bit_mask (dsize a - (dsize b + eoff))).
Proof. unfold eub, shifted_unused_bits, bit_or. rewrite !padding_ub_eq. reflexivity. Qed.
Lemma ub_ok_eub eoff : eoff + dsize b <= dsize a -> ub_ok 0 (dsize a) (eub eoff).
Proof.
  intros H. rewrite eub_eq. apply ub_ok_app with (k := eoff); [lia|apply ub_ok_padding|lia|].
  apply ub_ok_app with (k := dsize b + eoff); [lia| |lia|].
  - apply (ub_ok_shift eoff _ 0 _ (g_ub _ _ _ Gb)).
  - pose proof (ub_ok_shift (dsize b + eoff) _ _ _ (ub_ok_padding (dsize a - (dsize b + eoff)))) as Hp.
    replace (dsize a - (dsize b + eoff) + (dsize b + eoff)) with (dsize a) in Hp by lia. exact Hp.
Qed.
Lemma eub_inside eoff x i : x < dsize b -> bit_unused (eub eoff) (eoff + x) i -> bit_unused (dub b) x i.
Proof.
  rewrite eub_eq, !bit_unused_app, !bit_unused_shift, !bit_unused_padding.
  replace (eoff + x - eoff) with x by lia. intros Hx [H|[H|H]]; [lia|tauto|lia].
Qed.
Lemma insens_b eoff m : eoff + dsize b <= dsize a ->
  (forall o i, bit_unused m o i -> bit_unused (eub eoff) o i) ->
  insens (dsize a) (read eoff (dsize b) DB) m.
Proof.
  intros H Hm. eapply insens_read; eauto. intros x i Hx Hi Hu. eapply eub_inside; eauto.
Qed.

Lemma inner_loop budget : forall eoff, eoff mod dalign b = 0 -> eoff + dsize b <= dsize a ->
  exists p, provider_loop budget (dsize a) (dfv a) (dub a) (dfv b) (dub b) (dsize b) (dalign b) eoff = Some p
    /\ inner_good a b DA DB p.
Proof.
  induction budget as [|budget IH]; intros eoff Hmod Hoff; cbn [provider_loop].
  { eexists; split; [reflexivity|]. apply inner_ext. }
  fold (eub eoff).
  assert (ub_ok 0 (dsize a) (bit_and (dub a) (eub eoff))) as Hinter.
  { eapply ub_ok_bit_and; [apply ub_ok_eub; exact Hoff|apply (g_ub _ _ _ Ga)]. }
  assert (insens (dsize a) (read 0 (dsize a) DA) (bit_and (dub a) (eub eoff))) as HPi.
  { apply insens_a. intros x i _ _ Hu. apply bit_unused_and in Hu. apply Hu. }
  assert (insens (dsize a) (read eoff (dsize b) DB) (bit_and (dub a) (eub eoff))) as HQi.
  { apply insens_b; auto. intros x i Hu. apply bit_unused_and in Hu. apply Hu. }
  assert (insens (dsize a) (read 0 (dsize a) DA) (dub a)) as HPa by (apply insens_a; auto).
  assert (insens (dsize a) (read eoff (dsize b) DB) (eub eoff)) as HQb by (apply insens_b; auto).
  (* Err's forbidden values in Ok's unused bits *)
  assert (fv_ok (dsize a) (fshift eoff (dfv b))) as Hfvb.
  { eapply fv_ok_weaken; [|apply fv_ok_shift, (g_fv _ _ _ Gb)]. lia. }
  assert (forall c, good_chain (fshift eoff (dfv b)) c -> c <> [] ->
     (forall o v, In (o, v) c -> has_free_byte_at (dub a) o = true) ->
     inner_good a b DA DB (Prov eoff (DNot (dval c)) (bit_and (dub a) (eub eoff)))) as Hcase1.
  { intros c Hgc Hc Hfree. apply inner_niche_pack; auto.
    { cbn. apply det_d_dval. }
    apply det_good_not. pose proof Hgc as [Hg1 [Hg2 Hg3]].
    apply value_det_good with (mQ := dub a); auto.
    - intros o v Hin. destruct (Hg2 _ _ Hin) as [H1 H2]. split; [eapply fv_at_lt; eauto|]. split; auto.
      intros i Hi. apply free_byte_unused; eauto.
    - apply read_b_chain; auto.
    - intros o v i Hin Hu. apply bit_unused_and in Hu. destruct Hu as [_ Hu].
      destruct (Hg2 _ _ Hin) as [H1 _]. apply fv_at_shift in H1. destruct H1 as [H1 H3].
      pose proof (fv_at_lt _ _ _ (g_fv _ _ _ Gb) H3) as Hlt.
      replace o with (eoff + (o - eoff)) in Hu by lia. apply eub_inside in Hu; auto.
      revert Hu. apply (g_disj _ _ _ Gb). exact H3. }
  assert (forall c, good_chain (dfv a) c -> c <> [] ->
     (forall o v, In (o, v) c -> has_free_byte_at (eub eoff) o = true) ->
     inner_good a b DA DB (Prov eoff (dval c) (bit_and (dub a) (eub eoff)))) as Hcase2.
  { intros c Hgc Hc Hfree. apply inner_niche_pack; auto using det_d_dval.
    pose proof Hgc as [Hg1 [Hg2 Hg3]].
    apply value_det_good with (mQ := eub eoff); auto.
    - intros o v Hin. destruct (Hg2 _ _ Hin) as [H1 H2]. split; [exact (fv_at_lt _ _ _ (g_fv _ _ _ Ga) H1)|]. split; auto.
      intros i Hi. apply free_byte_unused; eauto.
    - apply read_a_chain; auto.
    - intros o v i Hin Hu. apply bit_unused_and in Hu. destruct Hu as [Hu _]. revert Hu.
      apply (g_disj _ _ _ Ga). eapply Hg2; eauto. }
  (* no forbidden value fits *)
  assert (exists p,
    match bit_and (dub a) (eub eoff) with
    | (o, v) :: _ => Some (Prov eoff (DBitErr o (rightmost_one v)) (extract_bit (bit_and (dub a) (eub eoff))))
    | [] => if Nat.leb ((dsize b + dalign b) + eoff) (dsize a)
            then provider_loop budget (dsize a) (dfv a) (dub a) (dfv b) (dub b) (dsize b) (dalign b) (dalign b + eoff)
            else provider_with_unit SEnd []
    end = Some p /\ inner_good a b DA DB p) as Hcase3.
  { destruct (bit_and (dub a) (eub eoff)) as [|[o v] r] eqn:Ei.
    - destruct (Nat.leb_spec ((dsize b + dalign b) + eoff) (dsize a)) as [Hs|Hs].
      + apply IH; [|lia]. pose proof (al_ok_pos _ (g_al _ _ _ Gb)).
        apply mod_0_add; auto. apply Nat.mod_same. lia.
      + eexists; split; [reflexivity|]. apply inner_ext.
    - eexists; split; [reflexivity|]. apply inner_niche_pack; [reflexivity|exact Hmod|exact Hoff| |].
      2: { apply ub_ok_extract. exact Hinter. }
      pose proof Hinter as [H1 [H2 H3]].
      apply bit_det_good with (mP := dub a) (mQ := eub eoff); auto; [lia| | | |].
      + intros i Hi. apply bit_unused_and. rewrite Ei. exists v; split; auto. left; reflexivity.
      + eapply insens_mono; [exact HPi|]. intros o' i _ _ Hu.
        eapply bit_unused_extract in Hu; [apply Hu|exact Hinter].
      + eapply insens_mono; [exact HQi|]. intros o' i _ _ Hu.
        eapply bit_unused_extract in Hu; [apply Hu|exact Hinter].
      + intros Hu. eapply bit_unused_extract in Hu; [|exact Hinter]. tauto. }
  (* dispatch *)
  assert (exists p,
     match sresolve (select_from (dfv a) (eub eoff)) with
     | SArr o v t =>
         match into_value_is_err (SArr o v t) with
         | Some d => Some (Prov eoff d (bit_and (dub a) (eub eoff)))
         | None => None
         end
     | _ => match bit_and (dub a) (eub eoff) with
        | (o, v) :: _ => Some (Prov eoff (DBitErr o (rightmost_one v)) (extract_bit (bit_and (dub a) (eub eoff))))
        | [] => if Nat.leb ((dsize b + dalign b) + eoff) (dsize a)
                then provider_loop budget (dsize a) (dfv a) (dub a) (dfv b) (dub b) (dsize b) (dalign b) (dalign b + eoff)
                else provider_with_unit SEnd []
        end
     end = Some p /\ inner_good a b DA DB p) as Hcase23.
  { destruct (select_from_spec _ _ (eub eoff) (g_fv _ _ _ Ga)) as [-> |[-> |[c [-> [Hc [Hgc Hfree]]]]]];
      cbn [sresolve]; auto.
    destruct c as [|[o v] c]; [congruence|].
    change (sresolve (sfv_of ((o, v) :: c))) with (SArr o v (sfv_of c)). cbn iota.
    change (SArr o v (sfv_of c)) with (sfv_of ((o, v) :: c)). rewrite into_value_chain.
    eexists; split; [reflexivity|]. apply Hcase2; auto. }
  destruct (select_from_spec _ _ (dub a) Hfvb) as [-> |[-> |[c [-> [Hc [Hgc Hfree]]]]]];
    cbn [sresolve]; auto.
  destruct c as [|[o v] c]; [congruence|].
  change (sresolve (sfv_of ((o, v) :: c))) with (SArr o v (sfv_of c)). cbn iota.
  change (SArr o v (sfv_of c)) with (sfv_of ((o, v) :: c)). rewrite into_value_chain.
  eexists; split; [reflexivity|]. apply Hcase1; auto.
Qed.

Hypothesis Hsz : dsize a mod al = 0.
Lemma inner_provider : exists p, provider_inner a b = Some p /\ inner_good a b DA DB p.
Proof.
  destruct (Nat.eq_dec (dsize b) 0) as [E|E]; [apply inner_unit; exact E|].
  unfold provider_inner. destruct (Nat.eqb_spec (dsize b) 0); [congruence|].
  assert (union_size a b = dsize a) as Hu.
  { unfold union_size, union_align. rewrite Nat.max_l by assumption. apply nmo_id. exact Hsz. }
  assert (union_member_ub a b = dub a) as Hum.
  { unfold union_member_ub. rewrite Hu, Nat.sub_diag. cbn. rewrite mshift_0. apply bit_or_nil_r. }
  rewrite Hu, Hum. apply inner_loop; [|lia].
  apply Nat.mod_0_l. pose proof (al_ok_pos _ (g_al _ _ _ Gb)); lia.
Qed.
End Inner.

(** ** The provider in both orders *)

Definition prov_good (a b : desc) (DA DB : list N -> option val) (p : fprovider) : Prop :=
  let n := dsize (result_d a b p) in
  ok_offset a b p mod dalign a = 0 /\
  err_offset a b p mod dalign b = 0 /\
  ok_offset a b p + dsize a <= n /\
  err_offset a b p + dsize b <= n /\
  (is_niche_trick (fp_det p) = false -> 0 < det_size a b p) /\
  dsize (det_d (fp_det p)) <= det_size a b p /\
  n mod Nat.max (dalign a) (dalign b) = 0 /\
  det_good n (read (ok_offset a b p) (dsize a) DA) (read (err_offset a b p) (dsize b) DB) (fp_det p)
    (dub (result_d a b p)) /\
  ub_ok 0 n (dub (result_d a b p)).

Fixpoint det_kind (d : det) : Prop :=
  match d with
  | DBit => True
  | DEnd => False
  | DVal _ _ _ => True
  | DBitErr _ _ => True
  | DNot d => det_kind d
  end.
Lemma det_kind_size d : det_kind d -> is_niche_trick d = false -> dsize (det_d d) = 1.
Proof. induction d; cbn; intros; try contradiction; try discriminate; auto. Qed.
Lemma into_kind s d : into_value_is_err s = Some d -> match s with SArr _ _ _ => det_kind d | _ => True end.
Proof. destruct s; cbn; auto. destruct (into_value_is_err s); [|discriminate]. intros E; injection E as <-. exact I. Qed.
Lemma with_unit_kind f ub p : provider_with_unit f ub = Some p -> det_kind (p_det p).
Proof.
  unfold provider_with_unit. destruct f as [| |o v f].
  - discriminate.
  - destruct ub as [|[o v] r]; intros E; injection E as <-; exact I.
  - destruct (into_value_is_err (SArr o v f)) eqn:E1; [|discriminate].
    intros E; injection E as <-. cbn. apply (into_kind _ _ E1).
Qed.
Lemma loop_kind budget : forall us f u ef eu es ea eo p,
  provider_loop budget us f u ef eu es ea eo = Some p -> det_kind (p_det p).
Proof.
  induction budget as [|budget IH]; intros us f u ef eu es ea eo p; cbn [provider_loop].
  - intros E; injection E as <-; exact I.
  - destruct (sresolve (select_from (fshift eo ef) u)) as [| |o v t].
    3: { destruct (into_value_is_err (SArr o v t)) eqn:E1; [|discriminate].
         intros E; injection E as <-. cbn. apply (into_kind _ _ E1). }
    1,2: destruct (sresolve (select_from f (shifted_unused_bits us eu es eo))) as [| |o v t].
    3,6: destruct (into_value_is_err (SArr o v t)) eqn:E1; [|discriminate];
         intros E; injection E as <-; cbn; apply (into_kind _ _ E1).
    all: destruct (bit_and u (shifted_unused_bits us eu es eo)) as [|[o v] r];
      [destruct (Nat.leb (es + ea + eo) us); [apply IH|]|];
      intros E; injection E as <-; exact I.
Qed.
Lemma inner_kind a b p : provider_inner a b = Some p -> det_kind (p_det p).
Proof.
  unfold provider_inner. destruct (Nat.eqb (dsize b) 0); [apply with_unit_kind|apply loop_kind].
Qed.

Lemma provider_good a b DA DB :
  good true a DA -> good true b DB -> sizes_match a b = true ->
  exists p, provider_of a b = Some p /\ prov_good a b DA DB p.
Proof.
  intros Ga Gb Hsm. unfold sizes_match in Hsm. apply Nat.eqb_eq in Hsm.
  pose proof (al_ok_max _ _ (g_al _ _ _ Ga) (g_al _ _ _ Gb)) as Hal.
  pose proof (al_ok_pos _ Hal) as Hpos.
  pose proof (al_ok_pos _ (g_al _ _ _ Ga)) as Hpa. pose proof (al_ok_pos _ (g_al _ _ _ Gb)) as Hpb.
  assert (forall x c, c = dalign a \/ c = dalign b -> nmo x (Nat.max (dalign a) (dalign b)) mod c = 0) as Hds.
  { intros x c Hc. apply mod_0_trans with (b := Nat.max (dalign a) (dalign b)); auto.
    - destruct Hc as [-> | ->]; [apply (g_al _ _ _ Ga)|apply (g_al _ _ _ Gb)].
    - destruct Hc as [-> | ->]; lia.
    - apply nmo_mod; assumption. }
  assert (forall d, det_kind d -> is_niche_trick d = false -> 0 < nmo (dsize (det_d d)) (Nat.max (dalign a) (dalign b))) as Hbit.
  { intros d Hk Ht. rewrite (det_kind_size d Hk Ht). pose proof (nmo_bounds 1 _ Hpos). lia. }
  unfold provider_of. destruct (Nat.leb_spec (dsize b) (dsize a)) as [Hle|Hlt].
  - destruct (inner_provider a b DA DB Ga Gb Hle) as [p [E [H1 [H2 [H3 H4]]]]].
    { rewrite Nat.max_l in Hsm by assumption. exact Hsm. }
    rewrite E. eexists; split; [reflexivity|].
    pose proof (inner_kind _ _ _ E) as Hk.
    unfold prov_good, ok_offset, err_offset, det_size, result_d; cbn [dsize dalign dub fp_det fp_ub fp_ok_shift fp_err_shift].
    set (M := Nat.max (dalign a) (dalign b)) in *.
    set (ds := nmo (dsize (det_d (p_det p))) M) in *.
    pose proof (nmo_bounds (dsize (det_d (p_det p))) M Hpos) as Hb. fold ds in Hb.
    rewrite Nat.max_l in * by assumption. cbn [Nat.add].
    split; [apply Hds; auto|]. split; [apply mod_0_add; auto; apply Hds; auto|].
    split; [lia|]. split; [lia|]. split; [apply Hbit; assumption|]. split; [lia|].
    split; [apply mod_0_add; auto; apply nmo_mod; assumption|].
    split; [exact H3|exact H4].
  - destruct (inner_provider b a DB DA Gb Ga ltac:(lia)) as [p [E [H1 [H2 [H3 H4]]]]].
    { rewrite Nat.max_r in Hsm by lia. rewrite (Nat.max_comm (dalign b)). exact Hsm. }
    rewrite E. eexists; split; [reflexivity|].
    pose proof (inner_kind _ _ _ E) as Hk.
    unfold prov_good, ok_offset, err_offset, det_size, result_d; cbn [dsize dalign dub fp_det fp_ub fp_ok_shift fp_err_shift].
    cbn [det_d is_niche_trick].
    rewrite (Nat.max_comm (dalign b) (dalign a)) in *.
    set (M := Nat.max (dalign a) (dalign b)) in *.
    set (ds := nmo (dsize (det_d (p_det p))) M) in *.
    pose proof (nmo_bounds (dsize (det_d (p_det p))) M Hpos) as Hb. fold ds in Hb.
    rewrite (Nat.max_r (dsize a)) in * by lia. cbn [Nat.add].
    split; [apply mod_0_add; auto; apply Hds; auto|]. split; [apply Hds; auto|].
    split; [lia|]. split; [lia|]. split; [apply Hbit; assumption|]. split; [lia|].
    split; [apply mod_0_add; auto; apply nmo_mod; assumption|].
    split; [apply det_good_not; exact H3|exact H4].
Qed.
