(** Lemmas behind P_Maybe. *)
From Coq Require Import List Arith ZArith NArith Bool Lia.
From Verif Require Import M_Layout M_Result M_Enum M_Maybe S_Layout S_Maybe L_Layout L_Result L_Good L_Types L_LayoutApi L_Enum.
Import ListNotations.
Arguments Nat.modulo : simpl never.
Arguments Nat.div : simpl never.
Arguments N.land : simpl never.
Arguments N.lor : simpl never.
Arguments N.lxor : simpl never.

Lemma maybe_match T F s : enum_match (maybe_variants T F) s = run_matcher (MNode (MLeaf 0) (MNode (MLeaf 1) (MLeaf 2))) (maybe_ty T F) s.
Proof. reflexivity. Qed.
Lemma decode_unit v x : decode TUnit v = Some x -> v = [] /\ x = VUnit.
Proof.
  intros H. destruct v as [|b v]; [|vm_compute in H; discriminate]. vm_compute in H. injection H as <-. auto.
Qed.

Lemma not_set_quiet d : forall s, (not_set true d = true -> exists o, det_ok d s = Some (s, o)) /\
  (not_set false d = true -> exists o, det_err d s = Some (s, o)).
Proof.
  induction d; intros s; cbn; split; intros H; try discriminate; eauto.
  - apply (IHd s), H.
  - apply (IHd s), H.
  - apply (IHd s), H.
Qed.
Lemma ok_drop_quiet p s : not_set true (fp_det p) = true -> ok_drop p s = Some s.
Proof. intros H. unfold ok_drop. destruct (is_niche_trick _); auto. destruct (proj1 (not_set_quiet _ s) H) as [o ->]. reflexivity. Qed.
Lemma err_drop_quiet p s : not_set false (fp_det p) = true -> err_drop p s = Some s.
Proof. intros H. unfold err_drop. destruct (is_niche_trick _); auto. destruct (proj2 (not_set_quiet _ s) H) as [o ->]. reflexivity. Qed.

Lemma ok_guard_eq a b p s v : ok_guard_write a b p s v = obind (blit s (ok_offset a b p) v) (ok_drop p).
Proof. unfold ok_guard_write, ok_drop, obind. destruct (blit _ _ _); auto. Qed.
Lemma err_guard_eq a b p s v : err_guard_write a b p s v = obind (blit s (err_offset a b p) v) (err_drop p).
Proof. unfold err_guard_write, err_drop, obind. destruct (blit _ _ _); auto. Qed.
Lemma obind_eq {A B} (x : option A) (f : A -> option B) y : x = Some y -> obind x f = f y.
Proof. intros ->. reflexivity. Qed.
Lemma blit_eq s o v : o + length v <= length s -> blit s o v = Some (firstn o s ++ v ++ skipn (o + length v) s).
Proof.
  intros H. destruct (blit_spec v s o H) as [s' [E [Hl Hn]]]. rewrite E. f_equal. apply list_ext.
  - rewrite !app_length, firstn_length, skipn_length. lia.
  - intros x Hx. rewrite Hn. destruct (Nat.leb_spec o x); cbn [andb].
    + rewrite nth_error_app2 by (rewrite firstn_length; lia). rewrite firstn_length, Nat.min_l by lia.
      destruct (Nat.ltb_spec x (o + length v)).
      * rewrite nth_error_app1 by lia. reflexivity.
      * rewrite nth_error_app2 by lia. rewrite nth_error_skipn. f_equal. lia.
    + rewrite nth_error_app1 by (rewrite firstn_length; lia). rewrite nth_error_firstn. destruct (Nat.ltb_spec x o); [reflexivity|lia].
Qed.

Record setting (T F : ty) (dT dF dR : desc) (p q : fprovider) : Prop := {
  st_wf : wf (maybe_ty T F);
  st_wfR : wf (TResult TUnit F);
  st_T : layout T = Some dT;
  st_F : layout F = Some dF;
  st_R : layout (TResult TUnit F) = Some dR;
  st_p : provider_of dT dR = Some p;
  st_q : provider_of unit_d dF = Some q;
  st_dR : dR = result_d unit_d dF q;
  st_gT : good true dT (decode T);
  st_gF : good true dF (decode F);
  st_gU : good true unit_d (decode TUnit);
  st_gR : good true dR (decode (TResult TUnit F));
  st_gp : prov_good dT dR (decode T) (decode (TResult TUnit F)) p;
  st_gq : prov_good unit_d dF (decode TUnit) (decode F) q;
}.
Lemma setting_of T F : wf (maybe_ty T F) -> exists dT dF dR p q, setting T F dT dF dR p q.
Proof.
  intros W. destruct (result_provider _ _ W) as [dT [dR [p [LT [LR [Ep _]]]]]].
  pose proof W as W'. apply wf_result in W'. destruct W' as [WT [WR _]].
  destruct (result_provider _ _ WR) as [dU [dF [q [LU [LF [Eq L]]]]]]. cbn in LU. injection LU as <-.
  destruct (result_parts _ _ _ _ _ W LT LR Ep) as [G1 [G2 G3]].
  destruct (result_parts _ _ _ _ _ WR eq_refl LF Eq) as [G4 [G5 G6]].
  exists dT, dF, dR, p, q. split; auto. congruence.
Qed.

Section Step.
Variables (T F : ty) (dT dF dR : desc) (p q : fprovider).
Hypothesis ST : setting T F dT dF dR p q.

Lemma new_empty : exists e, maybe_new T F 1 [] = Some e /\ holds T F e Empty.
Proof.
  destruct ST. destruct (make_ok _ _ _ _ _ st_gU0 st_gF0 st_gq0 _ eq_refl [] VUnit eq_refl) as [r [M1 [M2 [M3 [M4 M5]]]]].
  assert (decode (TResult TUnit F) r = Some (VOk VUnit)) as Dr by (apply (decode_result_intro_ok TUnit F unit_d dF q); auto).
  destruct (make_err _ _ _ _ _ st_gT0 st_gR0 st_gp0 _ eq_refl r _ Dr) as [e [N1 [N2 [N3 [N4 N5]]]]].
  exists e. split; [|eapply decode_result_intro_err; eauto].
  change (maybe_new T F 1 []) with (eval_path (maybe_ty T F) [false; true] []).
  unfold maybe_ty. cbn [eval_path]. rewrite st_T0, st_R0, st_p0. 
  change (layout TUnit) with (Some unit_d). cbn iota beta. rewrite st_F0, st_q0.
  cbn [eval_path]. rewrite M1. exact N1.
Qed.

(** What a valid object looks like. *)
Lemma holds_inv s st : holds T F s st -> length s = dsize (result_d dT dR p) /\ is_bytes s /\
  match st with
  | Resolved v => is_ok p s = Some true /\ exists w, match_result dT dR p s = Some (inl w) /\ decode T w = Some v
  | Empty => is_ok p s = Some false /\ exists r, match_result dT dR p s = Some (inr r) /\ r = sub (err_offset dT dR p) (dsize dR) s /\
      decode (TResult TUnit F) r = Some (VOk VUnit) /\ length r = dsize dR /\ is_bytes r /\
      is_ok q r = Some true /\ match_result unit_d dF q r = Some (inl [])
  | Pending x => is_ok p s = Some false /\ exists r, match_result dT dR p s = Some (inr r) /\ r = sub (err_offset dT dR p) (dsize dR) s /\
      decode (TResult TUnit F) r = Some (VErr x) /\ length r = dsize dR /\ is_bytes r /\
      is_ok q r = Some false /\ exists f, match_result unit_d dF q r = Some (inr f) /\ f = sub (err_offset unit_d dF q) (dsize dF) r /\ decode F f = Some x
  end.
Proof.
  destruct ST. intros H. destruct (decode_result_inv _ _ _ _ st_wf0 H) as [da [db [p' [La [Lb [E [Ga [Gb [Gp [Hl [Hbs Hc]]]]]]]]]]].
  assert (da = dT) by congruence. assert (db = dR) by congruence. subst da db. assert (p' = p) by congruence. subst p'.
  split; [exact Hl|]. split; [exact Hbs|].
  destruct Hc as [[x [Ex [Ho [Hm Hx]]]]|[x [Ex [Ho [Hm Hx]]]]]; destruct st as [v| |y]; try discriminate Ex.
  - injection Ex as <-. eauto.
  - injection Ex as <-. split; [exact Ho|]. eexists; split; [exact Hm|]. split; [reflexivity|]. split; [exact Hx|].
    destruct (decode_result_inv _ _ _ _ st_wfR0 Hx) as [da [db [q' [La' [Lb' [E' [Ga' [Gb' [Gp' [Hl' [Hbs' Hc']]]]]]]]]]].
    assert (da = unit_d) by (cbn in La'; congruence). assert (db = dF) by congruence. subst da db. assert (q' = q) by congruence. subst q'.
    split; [congruence|]. split; [exact Hbs'|].
    destruct Hc' as [[x [Ex [Ho' [Hm' Hx']]]]|[x [Ex [Ho' [Hm' Hx']]]]]; try discriminate Ex.
    split; [exact Ho'|]. destruct (decode_unit _ _ Hx') as [E1 _]. rewrite E1 in Hm'. exact Hm'.
  - injection Ex as <-. split; [exact Ho|]. eexists; split; [exact Hm|]. split; [reflexivity|]. split; [exact Hx|].
    destruct (decode_result_inv _ _ _ _ st_wfR0 Hx) as [da [db [q' [La' [Lb' [E' [Ga' [Gb' [Gp' [Hl' [Hbs' Hc']]]]]]]]]]].
    assert (da = unit_d) by (cbn in La'; congruence). assert (db = dF) by congruence. subst da db. assert (q' = q) by congruence. subst q'.
    split; [congruence|]. split; [exact Hbs'|].
    destruct Hc' as [[x [Ex [Ho' [Hm' Hx']]]]|[x [Ex [Ho' [Hm' Hx']]]]]; try discriminate Ex. injection Ex as <-.
    split; [exact Ho'|]. eexists; split; [exact Hm'|]. split; [reflexivity|exact Hx'].
Qed.

Lemma poll_resolved fut s v : holds T F s (Resolved v) -> exists w e, maybe_new T F 1 [] = Some e /\ decode T w = Some v /\
  maybe_poll T F fut s = obind (ok_drop p e) (fun s' => Some (Polled (Some w) s' None)).
Proof.
  intros H. destruct (holds_inv _ _ H) as [Hl [Hb [Ho [w [Hm Hw]]]]]. destruct new_empty as [e [He _]].
  exists w, e. split; [exact He|]. split; [exact Hw|]. destruct ST. unfold maybe_poll.
  rewrite (obind_eq _ _ _ st_T0), (obind_eq _ _ _ st_F0), (obind_eq _ _ _ st_R0), (obind_eq _ _ _ st_p0), (obind_eq _ _ _ st_q0), (obind_eq _ _ _ Hm), (obind_eq _ _ _ He).
  reflexivity.
Qed.
Lemma poll_empty fut s : holds T F s Empty -> exists s', maybe_poll T F fut s = Some (Polled None s' None) /\ holds T F s' Empty.
Proof.
  intros H. destruct (holds_inv _ _ H) as [Hl [Hb [Ho [r [Hm [Er [Dr [Hlr [Hbr [Hq Hm']]]]]]]]]]. destruct ST.
  unfold maybe_poll.
  rewrite (obind_eq _ _ _ st_T0), (obind_eq _ _ _ st_F0), (obind_eq _ _ _ st_R0), (obind_eq _ _ _ st_p0), (obind_eq _ _ _ st_q0), (obind_eq _ _ _ Hm), (obind_eq _ _ _ Hm').
  destruct (guard_ok _ _ _ _ _ st_gU0 st_gq0 _ eq_refl r [] VUnit ltac:(congruence) Hbr Hq eq_refl) as [r' [G1 [G2 [G3 [G4 G5]]]]].
  rewrite ok_guard_eq in G1. cbn [blit obind] in G1. rewrite (obind_eq _ _ _ G1).
  assert (decode (TResult TUnit F) r' = Some (VOk VUnit)) as Dr' by (apply (decode_result_intro_ok TUnit F unit_d dF q); auto).
  destruct (guard_err _ _ _ _ _ st_gR0 st_gp0 _ eq_refl s r' _ Hl Hb Ho Dr') as [s' [K1 [K2 [K3 [K4 K5]]]]].
  rewrite err_guard_eq in K1. destruct (blit s _ r') as [s1|]; [|discriminate]. cbn [obind] in K1 |- *. rewrite (obind_eq _ _ _ K1).
  eexists; split; [reflexivity|]. eapply decode_result_intro_err; eauto.
Qed.
Lemma new_at f' r s : length s = dsize (result_d dT dR p) -> length r = dsize dR -> length f' = dsize dF -> r = sub (err_offset dT dR p) (dsize dR) s ->
  exists r1 s1, blit r (err_offset unit_d dF q) f' = Some r1 /\ blit s (err_offset dT dR p) r1 = Some s1 /\ length r1 = length r /\ length s1 = length s /\
    s1 = firstn (err_offset dT dR p + err_offset unit_d dF q) s ++ f' ++ skipn (err_offset dT dR p + err_offset unit_d dF q + length f') s.
Proof.
  intros Hl Hlr Hlf Er. destruct ST. pose proof st_gp0 as [_ [_ [_ [Fp _]]]]. pose proof st_gq0 as [_ [_ [_ [Fq _]]]]. rewrite st_dR0 in Hlr at 1.
  assert (Fq' : err_offset unit_d dF q + length f' <= length r) by (rewrite Hlf, Hlr; exact Fq).
  pose proof (blit_eq r _ f' Fq') as B1.
  match type of B1 with _ = Some ?x => set (r1 := x) in * end.
  exists r1. eexists. split; [exact B1|].
  assert (length r1 = length r) as L1. { unfold r1. rewrite !app_length, firstn_length, skipn_length. lia. }
  assert (length r = dsize dR) as Hlr' by congruence.
  assert (err_offset dT dR p + length r1 <= length s) as Fs by lia.
  pose proof (blit_eq s _ r1 Fs) as B2. split; [exact B2|]. split; [exact L1|]. split.
  - rewrite !app_length, firstn_length, skipn_length. lia.
  - apply list_ext.
    + rewrite !app_length, !firstn_length, !skipn_length. lia.
    + intros x Hx. rewrite !app_length, firstn_length, skipn_length in Hx.
      set (k := err_offset dT dR p) in *. set (j := err_offset unit_d dF q) in *.
      destruct (Nat.lt_ge_cases x k) as [H1|H1].
      { rewrite nth_error_app1 by (rewrite firstn_length; lia). rewrite nth_error_app1 by (rewrite firstn_length; lia).
        rewrite !nth_error_firstn. destruct (Nat.ltb_spec x k), (Nat.ltb_spec x (k + j)); try lia. reflexivity. }
      rewrite nth_error_app2 by (rewrite firstn_length; lia). rewrite firstn_length, Nat.min_l by lia.
      destruct (Nat.lt_ge_cases x (k + length r1)) as [H2|H2].
      2: { rewrite nth_error_app2 by lia. rewrite nth_error_skipn.
           rewrite nth_error_app2 by (rewrite firstn_length; lia). rewrite firstn_length, Nat.min_l by lia.
           rewrite nth_error_app2 by lia. rewrite nth_error_skipn. f_equal. lia. }
      rewrite nth_error_app1 by lia. unfold r1.
      destruct (Nat.lt_ge_cases x (k + j)) as [H3|H3].
      { rewrite nth_error_app1 by (rewrite firstn_length; lia). rewrite nth_error_app1 by (rewrite firstn_length; lia).
        rewrite !nth_error_firstn. destruct (Nat.ltb_spec (x - k) j), (Nat.ltb_spec x (k + j)); try lia.
        rewrite Er, nth_error_sub. destruct (Nat.ltb_spec (x - k) (dsize dR)); [|lia]. f_equal. lia. }
      rewrite nth_error_app2 by (rewrite firstn_length; lia). rewrite firstn_length, Nat.min_l by lia.
      rewrite (nth_error_app2 (firstn (k + j) s)) by (rewrite firstn_length; lia). rewrite firstn_length, Nat.min_l by lia.
      replace (x - k - j) with (x - (k + j)) by lia.
      destruct (Nat.lt_ge_cases (x - (k + j)) (length f')) as [H4|H4].
      { rewrite !nth_error_app1 by lia. reflexivity. }
      rewrite !nth_error_app2 by lia. rewrite !nth_error_skipn. rewrite Er, nth_error_sub.
      destruct (Nat.ltb_spec (j + length f' + (x - (k + j) - length f')) (dsize dR)); [|lia]. f_equal. lia.
Qed.
Lemma blit_twice s o v w s1 : o + length v <= length s -> length w = length v -> blit s o v = Some s1 -> blit s1 o w = blit s o w.
Proof.
  intros H Hw E. rewrite blit_eq in E by assumption. injection E as <-.
  rewrite !blit_eq; [|lia|rewrite !app_length, firstn_length, skipn_length; lia].
  f_equal. rewrite firstn_app, firstn_firstn, firstn_length, Nat.min_id, Nat.min_l by lia.
  replace (o - o) with 0 by lia. cbn [firstn]. rewrite app_nil_r. f_equal. f_equal.
  rewrite skipn_app, firstn_length, Nat.min_l by lia. rewrite (skipn_all2 (firstn o s)) by (rewrite firstn_length; lia). cbn [app].
  replace (o + length w - o) with (length v) by lia. rewrite skipn_app, skipn_all, Nat.sub_diag. cbn [app skipn]. rewrite Hw. reflexivity.
Qed.

Lemma poll_pending fut g s x : behaves T F fut g -> keeps_tag T F fut -> (fst (g x) <> None -> not_set false (fp_det q) = true) ->
  holds T F s (Pending x) -> exists w s' d, maybe_poll T F fut s = Some (Polled w s' d) /\
  same_output T w (fst (g x)) /\ match fst (g x) with
    | Some _ => same_drop F d (Some (snd (g x))) /\ holds T F s' Empty
    | None => d = None /\ holds T F s' (Pending (snd (g x)))
    end.
Proof.
  intros Bh Kt Hq H. destruct (holds_inv _ _ H) as [Hl [Hb [Ho [r [Hm [Er [Dr [Hlr [Hbr [Hiq [f [Hm' [Ef Df]]]]]]]]]]]]].
  destruct new_empty as [e [He Hh]]. destruct (Bh f x Df) as [Ho1 Ho2]. pose proof ST as ST'. destruct ST'.
  unfold maybe_poll.
  rewrite (obind_eq _ _ _ st_T0), (obind_eq _ _ _ st_F0), (obind_eq _ _ _ st_R0), (obind_eq _ _ _ st_p0), (obind_eq _ _ _ st_q0), (obind_eq _ _ _ Hm), (obind_eq _ _ _ Hm').
  destruct (fut f) as [res f'] eqn:Efut. cbn [fst snd] in *.
  destruct (g_len _ _ _ st_gF0 _ _ Ho2) as [Hlf' Hbf'].
  destruct (g_len _ _ _ st_gF0 _ _ Df) as [Hlf Hbf].
  destruct (new_at f' r s Hl Hlr Hlf' Er) as [r1 [s1 [B1 [B2 [L1 [L2 E1]]]]]].
  rewrite (obind_eq _ _ _ B1), (obind_eq _ _ _ B2).
  destruct (fst (g x)) as [y|] eqn:Eg; destruct res as [v|]; try contradiction.
  - specialize (Hq ltac:(discriminate)).
    rewrite (obind_eq _ _ _ He).
    assert (enum_match (maybe_variants T F) s1 = Some (2, f')) as Em.
    { assert (maybe_drop T F s = Some (2, f)) as Hd.
      { unfold maybe_drop. rewrite maybe_match. unfold maybe_ty. cbn [run_matcher]. rewrite st_T0, st_R0, st_p0, Hm. change (layout TUnit) with (Some unit_d). cbn iota beta.
        rewrite st_F0, st_q0, Hm'. destruct F; reflexivity. }
      assert (future_at T F (err_offset dT dR p + err_offset unit_d dF q)) as Fa.
      { exists dT, dF, dR, p, q. auto 8. }
      pose proof (Kt s f _ v f' Hd Fa Efut ltac:(congruence)) as Hk. unfold maybe_drop in Hk.
      rewrite E1. rewrite Hlf', <- Hlf. exact Hk. }
    rewrite (obind_eq _ _ _ Em).
    destruct (holds_inv _ _ Hh) as [Hle [Hbe [Hoe [re [Hme [Ere [Dre [Hlre [Hbre [Hqe _]]]]]]]]]].
    pose proof st_gp0 as [_ [_ [_ [Fp _]]]].
    rewrite slice_sub by lia. cbn [obind]. rewrite <- Ere. rewrite err_drop_quiet by assumption. cbn [obind].
    destruct (guard_err _ _ _ _ _ st_gR0 st_gp0 _ eq_refl e re _ Hle Hbe Hoe Dre) as [s' [K1 [K2 [K3 [K4 K5]]]]].
    rewrite err_guard_eq in K1. destruct (blit e _ re) as [s2|]; [|discriminate]. cbn [obind] in K1 |- *. rewrite (obind_eq _ _ _ K1).
    exists (Some v), s', (Some (2, f')). split; [reflexivity|]. split; [exact Ho1|].
    split; [split; [reflexivity|exact Ho2]|]. eapply decode_result_intro_err; eauto.
  - destruct (guard_err _ _ _ _ _ st_gF0 st_gq0 _ eq_refl r f' _ ltac:(congruence) Hbr Hiq Ho2) as [r2 [G1 [G2 [G3 [G4 G5]]]]].
    rewrite err_guard_eq in G1. rewrite B1 in G1. cbn [obind] in G1. rewrite (obind_eq _ _ _ G1).
    assert (decode (TResult TUnit F) r2 = Some (VErr (snd (g x)))) as Dr2 by (apply (decode_result_intro_err TUnit F unit_d dF q); auto).
    pose proof st_gp0 as [_ [_ [_ [Fp _]]]].
    rewrite (blit_twice s _ r1 r2 s1); [|lia|congruence|exact B2].
    destruct (guard_err _ _ _ _ _ st_gR0 st_gp0 _ eq_refl s r2 _ Hl Hb Ho Dr2) as [s' [K1 [K2 [K3 [K4 K5]]]]].
    rewrite err_guard_eq in K1. destruct (blit s _ r2) as [s2|]; [|discriminate]. cbn [obind] in K1 |- *. rewrite (obind_eq _ _ _ K1).
    exists None, s', None. split; [reflexivity|]. split; [exact I|]. split; [reflexivity|]. eapply decode_result_intro_err; eauto.
Qed.
End Step.

(** Refinement of histories. *)
Definition safe_for (T F : ty) (st : state) : Prop :=
  match st with
  | Resolved _ => forall d, outer_det T F d -> not_set true d = true
  | Empty => True
  | Pending _ => forall d, inner_det F d -> not_set false d = true
  end.
Definition same_events (T F : ty) (tr : list (option (list N) * option (nat * list N))) (tr' : list (option val * option val)) : Prop :=
  Forall2 (fun e e' => same_output T (fst e) (fst e') /\ same_drop F (snd e) (snd e')) tr tr'.

Lemma poll_step T F fut g s st : wf (maybe_ty T F) -> behaves T F fut g -> keeps_tag T F fut -> safe_for T F st -> holds T F s st ->
  exists w s' d, maybe_poll T F fut s = Some (Polled w s' d) /\
    let '(r, st', x) := step g st in same_output T w r /\ same_drop F d x /\ holds T F s' st' /\ safe_for T F st'.
Proof.
  intros W Bh Kt Hs H. destruct (setting_of T F W) as [dT [dF [dR [p [q ST]]]]]. destruct st as [v| |x].
  - destruct (poll_resolved _ _ _ _ _ _ _ ST fut s v H) as [w [e [He [Hw E]]]]. destruct (new_empty _ _ _ _ _ _ _ ST) as [e' [He' Hh]].
    assert (e' = e) by congruence. subst e'. destruct ST. rewrite ok_drop_quiet in E.
    2: { apply Hs. exists dT, dR, p. auto. }
    exists (Some w), e, None. split; [exact E|]. cbn. auto.
  - destruct (poll_empty _ _ _ _ _ _ _ ST fut s H) as [s' [E H']]. exists None, s', None. cbn. auto.
  - assert (fst (g x) <> None -> not_set false (fp_det q) = true) as Hq.
    { intros _. apply Hs. destruct ST. exists dF, q. auto. }
    destruct (poll_pending _ _ _ _ _ _ _ ST fut g s x Bh Kt Hq H) as [w [s' [d [E [Ho Hc]]]]].
    exists w, s', d. split; [exact E|]. cbn [step]. destruct (g x) as [[y|] x']; cbn [fst snd] in *.
    + destruct Hc as [H1 H2]. cbn. auto.
    + destruct Hc as [-> H2]. cbn. auto.
Qed.
Lemma polls_steps T F fut g n : wf (maybe_ty T F) -> behaves T F fut g -> keeps_tag T F fut -> forall s st, safe_for T F st -> holds T F s st ->
  exists tr s', maybe_polls T F fut n s = Some (tr, s') /\ same_events T F tr (fst (steps g n st)) /\ holds T F s' (snd (steps g n st)).
Proof.
  intros W Bh Kt. induction n as [|n IH]; intros s st Hs H.
  - exists [], s. split; [reflexivity|]. split; [constructor|exact H].
  - destruct (poll_step T F fut g s st W Bh Kt Hs H) as [w [s' [d [E Hc]]]]. cbn [maybe_polls steps].
    rewrite (obind_eq _ _ _ E). cbn [after ready dropped]. destruct (step g st) as [[r st'] x]. destruct Hc as [H1 [H2 [H3 H4]]].
    destruct (IH s' st' H4 H3) as [tr [s'' [E' [Ht Hf]]]]. rewrite (obind_eq _ _ _ E'). cbn [fst snd].
    destruct (steps g n st') as [l st'']. cbn [fst snd] in *. eexists. eexists. split; [reflexivity|]. split; [|exact Hf].
    constructor; auto.
Qed.

Lemma holds_drop T F s st : wf (maybe_ty T F) -> holds T F s st ->
  match st with
  | Resolved v => exists w, maybe_drop T F s = Some (0, w) /\ decode T w = Some v
  | Empty => exists w, maybe_drop T F s = Some (1, w)
  | Pending x => exists f, maybe_drop T F s = Some (2, f) /\ decode F f = Some x
  end.
Proof.
  intros W H. destruct (setting_of T F W) as [dT [dF [dR [p [q ST]]]]].
  pose proof (holds_inv _ _ _ _ _ _ _ ST s st H) as [_ [_ Hi]]. destruct ST.
  unfold maybe_drop. rewrite maybe_match. unfold maybe_ty. cbn [run_matcher]. rewrite st_T0, st_R0, st_p0.
  change (layout TUnit) with (Some unit_d). cbn iota beta. rewrite st_F0, st_q0.
  destruct st as [v| |x].
  - destruct Hi as [_ [w [-> Hw]]]. exists w. split; [destruct T; reflexivity|exact Hw].
  - destruct Hi as [_ [r [-> [_ [_ [_ [_ [_ ->]]]]]]]]. eauto.
  - destruct Hi as [_ [r [-> [_ [_ [_ [_ [_ [f [-> [_ Hf]]]]]]]]]]]. exists f. split; [destruct F; reflexivity|exact Hf].
Qed.

(** Counting. *)
Lemma steps_empty g n : steps g n Empty = (repeat (None, None) n, Empty).
Proof. induction n as [|n IH]; cbn; auto. rewrite IH. reflexivity. Qed.
Lemma same_outputs T F tr tr' : same_events T F tr tr' -> outputs tr = outputs tr'.
Proof.
  induction 1 as [|[r d] [r' d'] l l' [H1 _] _ IH]; cbn; auto. cbn in H1. destruct r, r'; cbn in H1; try contradiction; congruence.
Qed.
Lemma outputs_steps g n : forall st, outputs (fst (steps g n st)) <= 1.
Proof.
  induction n as [|n IH]; intros st; cbn [steps]; [cbn; lia|]. destruct st as [v| |x]; cbn [step].
  - rewrite steps_empty. cbn [fst outputs]. clear. induction n; cbn; lia.
  - specialize (IH Empty). destruct (steps g n Empty). cbn [fst outputs] in *. exact IH.
  - destruct (g x) as [[y|] x'].
    + rewrite steps_empty. cbn [fst outputs]. clear. induction n; cbn; lia.
    + specialize (IH (Pending x')). destruct (steps g n (Pending x')). cbn [fst outputs] in *. exact IH.
Qed.
Lemma same_destroyed T F tr tr' fin : same_events T F tr tr' ->
  destroyed 2 tr fin = length (filter (fun e => match snd e with Some _ => true | None => false end) tr') + destroyed 2 (@nil (option (list N) * option (nat * list N))) fin.
Proof.
  induction 1 as [|[r d] [r' d'] l l' [_ H1] _ IH]; [reflexivity|]. cbn in H1. cbn [destroyed filter snd].
  destruct d as [[i f]|], d' as [x|]; cbn in H1; try contradiction.
  - destruct H1 as [-> _]. rewrite IH. reflexivity.
  - exact IH.
Qed.
Lemma destroyed_steps g n : forall st, length (filter (fun e => match snd e with Some _ => true | None => false end) (fst (steps g n st))) +
  match snd (steps g n st) with Pending _ => 1 | _ => 0 end = match st with Pending _ => 1 | _ => 0 end.
Proof.
  assert (forall k, length (filter (fun e : option val * option val => match snd e with Some _ => true | None => false end) (repeat (None, None) k)) = 0) as Hr
    by (induction k; auto).
  induction n as [|n IH]; intros st; cbn [steps]; [reflexivity|]. destruct st as [v| |x]; cbn [step].
  - rewrite steps_empty. cbn [fst snd filter]. rewrite Hr. reflexivity.
  - rewrite steps_empty. cbn [fst snd filter]. rewrite Hr. reflexivity.
  - destruct (g x) as [[y|] x'].
    + rewrite steps_empty. cbn [fst snd filter length]. rewrite Hr. reflexivity.
    + specialize (IH (Pending x')). destruct (steps g n (Pending x')). exact IH.
Qed.
Lemma resolved_steps g n v : steps g n (Resolved v) = match n with O => ([], Resolved v) | S n => ((Some v, None) :: repeat (None, None) n, Empty) end.
Proof. destruct n as [|n]; cbn [steps step]; auto. rewrite steps_empty. reflexivity. Qed.

(** The determinant once set says so, whatever was there. *)
Fixpoint is_dval (d : det) : Prop := match d with DEnd => True | DVal _ _ t => is_dval t | _ => False end.
Fixpoint det_form (d : det) : Prop := match d with DBit | DBitErr _ _ => True | DEnd => False | DVal _ _ t => is_dval t | DNot d => det_form d end.
Lemma into_dval s d : into_value_is_err s = Some d -> is_dval d.
Proof.
  revert d. induction s; cbn; intros d E; try discriminate.
  - injection E as <-. exact I.
  - destruct (into_value_is_err s); [|discriminate]. injection E as <-. cbn. auto.
Qed.
Lemma into_form o v s d : into_value_is_err (SArr o v s) = Some d -> det_form d.
Proof. cbn. destruct (into_value_is_err s) eqn:E; [|discriminate]. intros H. injection H as <-. cbn. eapply into_dval; eauto. Qed.
Lemma with_unit_form f ub p : provider_with_unit f ub = Some p -> det_form (p_det p).
Proof.
  unfold provider_with_unit. destruct f as [| |o v f].
  - discriminate.
  - destruct ub as [|[o v] r]; intros E; injection E as <-; exact I.
  - destruct (into_value_is_err (SArr o v f)) eqn:E1; [|discriminate].
    intros E; injection E as <-. apply (into_form _ _ _ _ E1).
Qed.
Lemma loop_form budget : forall us f u ef eu es ea eo p,
  provider_loop budget us f u ef eu es ea eo = Some p -> det_form (p_det p).
Proof.
  induction budget as [|budget IH]; intros us f u ef eu es ea eo p; cbn [provider_loop].
  - intros E; injection E as <-; exact I.
  - destruct (sresolve (select_from (fshift eo ef) u)) as [| |o v t].
    3: { destruct (into_value_is_err (SArr o v t)) eqn:E1; [|discriminate].
         intros E; injection E as <-. apply (into_form _ _ _ _ E1). }
    1,2: destruct (sresolve (select_from f (shifted_unused_bits us eu es eo))) as [| |o v t].
    3,6: destruct (into_value_is_err (SArr o v t)) eqn:E1; [|discriminate];
         intros E; injection E as <-; apply (into_form _ _ _ _ E1).
    all: destruct (bit_and u (shifted_unused_bits us eu es eo)) as [|[o v] r];
      [destruct (Nat.leb (es + ea + eo) us); [apply IH|]|];
      intros E; injection E as <-; exact I.
Qed.
Lemma provider_form a b p : provider_of a b = Some p -> det_form (fp_det p).
Proof.
  unfold provider_of, provider_inner. destruct (Nat.leb (dsize b) (dsize a)).
  - destruct (Nat.eqb (dsize b) 0).
    + destruct (provider_with_unit _ _) eqn:E; [|discriminate]. intros H; injection H as <-. eapply with_unit_form; eauto.
    + destruct (provider_loop _ _ _ _ _ _ _ _ _) eqn:E; [|discriminate]. intros H; injection H as <-. eapply loop_form; eauto.
  - destruct (Nat.eqb (dsize a) 0).
    + destruct (provider_with_unit _ _) eqn:E; [|discriminate]. intros H; injection H as <-. cbn. eapply with_unit_form; eauto.
    + destruct (provider_loop _ _ _ _ _ _ _ _ _) eqn:E; [|discriminate]. intros H; injection H as <-. cbn. eapply loop_form; eauto.
Qed.

Lemma det_good_unnot n P Q d ub : det_good n P Q (DNot d) ub -> det_good n Q P d ub.
Proof.
  intros [H1 H2 H3 H4 H5]. split.
  - intros s v Hl Hb Hv. destruct (H2 s v Hl Hb Hv) as [s1 [o [s2 [E1 [E2 [E3 [E4 [E5 [E6 [E7 E8]]]]]]]]]].
    exists s1, o, s2. cbn in E1, E7. destruct (is_det_ok d s2) as [[|]|]; cbn in E7; try discriminate. auto 12.
  - intros s v Hl Hb Hv. destruct (H1 s v Hl Hb Hv) as [s1 [o [s2 [E1 [E2 [E3 [E4 [E5 [E6 [E7 E8]]]]]]]]]].
    exists s1, o, s2. cbn in E1, E7. destruct (is_det_ok d s2) as [[|]|]; cbn in E7; try discriminate. auto 12.
  - intros s s' Hl Hb Hb' Ha. destruct (H3 s s' Hl Hb Hb' Ha) as [E1 [E2 E3]]. cbn in E1. split; auto.
    destruct (is_det_ok d s) as [[|]|], (is_det_ok d s') as [[|]|]; cbn in E1; congruence.
  - intros s Hl. destruct (H4 s Hl) as [b E]. cbn in E. destruct (is_det_ok d s); eauto.
  - intros Ht s s' Hn. specialize (H5 Ht s s' Hn). cbn in H5.
    destruct (is_det_ok d s) as [[|]|], (is_det_ok d s') as [[|]|]; cbn in H5; congruence.
Qed.

Lemma store_rel s s' o b s1 : length s' = length s -> store s o b = Some s1 ->
  exists s1', store s' o b = Some s1' /\ length s1' = length s1 /\ length s1 = length s /\
    nth_error s1 o = Some b /\ nth_error s1' o = Some b /\
    forall x, nth_error s x = nth_error s' x \/ x = o -> nth_error s1 x = nth_error s1' x.
Proof.
  intros Hl E. assert (o < length s) as Ho.
  { clear Hl. revert s s1 E. induction o as [|o IH]; intros [|x s] s1 E; cbn in *; try discriminate; try lia.
    destruct (store s o b) eqn:E'; [|discriminate]. specialize (IH _ _ E'). lia. }
  destruct (store_spec s o b Ho) as [s2 [F1 [F2 F3]]]. destruct (store_spec s' o b ltac:(lia)) as [s2' [G1 [G2 G3]]].
  assert (s2 = s1) by congruence. subst s2. exists s2'. split; [exact G1|]. split; [lia|]. split; [lia|].
  split; [rewrite F3, Nat.eqb_refl; reflexivity|]. split; [rewrite G3, Nat.eqb_refl; reflexivity|].
  intros x Hx. rewrite F3, G3. destruct (Nat.eqb_spec x o); [reflexivity|]. destruct Hx; [assumption|contradiction].
Qed.
Fixpoint dval_at (d : det) (x : nat) : Prop := match d with DVal o _ t => x = o \/ dval_at t x | _ => False end.
Lemma dval_is_same d : is_dval d -> forall s s', (forall x, dval_at d x -> nth_error s x = nth_error s' x) -> is_det_ok d s = is_det_ok d s'.
Proof.
  induction d; cbn; intros Hd s s' H; try contradiction; auto.
  rewrite (H o) by auto. destruct (nth_error s' o) as [b|]; auto. destruct (N.eqb b v); auto.
Qed.
Lemma dval_set d : is_dval d -> forall s s' s1 o, length s' = length s -> det_err d s = Some (s1, o) ->
  exists s1', det_err d s' = Some (s1', o) /\ forall x, nth_error s x = nth_error s' x \/ dval_at d x -> nth_error s1 x = nth_error s1' x.
Proof.
  induction d as [| |o v t IH| |]; cbn; intros Hd s s' s1 ob Hl E; try contradiction.
  - injection E as <- <-. exists s'. split; auto. intros x [H|[]]; exact H.
  - destruct (store s o v) as [s2|] eqn:Es; [|discriminate].
    destruct (store_rel s s' o v s2 Hl Es) as [s2' [E2 [L1 [L2 [_ [_ Hr]]]]]]. rewrite E2.
    destruct (IH Hd s2 s2' s1 ob L1 E) as [s1' [E' Hr']]. exists s1'. split; [exact E'|].
    intros x Hx. apply Hr'. destruct Hx as [Hx|[Hx|Hx]]; auto.
Qed.
Lemma land_clear b m : (m < 256)%N -> N.land (N.land b (N.lxor 255 m)) m = 0%N.
Proof.
  intros Hm. rewrite <- N.land_assoc. replace (N.land (N.lxor 255 m) m) with 0%N; [apply N.land_0_r|].
  apply N.bits_inj. intros i. rewrite N.bits_0, N.land_spec, N.lxor_spec.
  destruct (N.lt_ge_cases i 8) as [H|H].
  - change 255%N with (N.ones 8). rewrite N.ones_spec_low by assumption. destruct (N.testbit m i); reflexivity.
  - assert (N.testbit m i = false) as ->; [|rewrite andb_false_r; reflexivity].
    destruct (N.eq_dec m 0) as [->|Hz]; [apply N.bits_0|]. apply N.bits_above_log2.
    change 256%N with (2 ^ 8)%N in Hm. apply N.log2_lt_pow2 in Hm; lia.
Qed.
Lemma lor_set b m : N.land (N.lor b m) m = m.
Proof.
  apply N.bits_inj. intros i. rewrite N.land_spec, N.lor_spec. destruct (N.testbit b i), (N.testbit m i); reflexivity.
Qed.
Lemma lor_ge b m : (m <= N.lor b m)%N.
Proof.
  apply N.ldiff_le. apply N.bits_inj. intros i. rewrite N.ldiff_spec, N.lor_spec, N.bits_0. destruct (N.testbit b i), (N.testbit m i); reflexivity.
Qed.

(** [DBitErr]: what setting it does to the byte. *)
Definition bit_byte (m : N) (b : N) : N := if N.eqb m 1 then 0%N else b.
Lemma bit_ok o m s b : nth_error s o = Some b -> exists s2, det_ok (DBitErr o m) s = Some (s2, []) /\ nth_error s2 o = Some (N.land (bit_byte m b) (N.lxor 255 m)).
Proof.
  intros H. pose proof (nth_error_some_lt _ _ _ H) as Hl. cbn [det_ok]. unfold bit_byte. destruct (N.eqb m 1).
  - destruct (store_spec s o 0 Hl) as [s1 [E1 [L1 N1]]]. rewrite E1, N1, Nat.eqb_refl.
    destruct (store_spec s1 o (N.land 0 (N.lxor 255 m)) ltac:(lia)) as [s2 [E2 [L2 N2]]]. rewrite E2. cbn. eexists; split; [reflexivity|]. rewrite N2, Nat.eqb_refl. reflexivity.
  - rewrite H. destruct (store_spec s o (N.land b (N.lxor 255 m)) Hl) as [s2 [E2 [L2 N2]]]. rewrite E2. cbn. eexists; split; [reflexivity|]. rewrite N2, Nat.eqb_refl. reflexivity.
Qed.
Lemma bit_err o m s b : nth_error s o = Some b -> exists s2, det_err (DBitErr o m) s = Some (s2, []) /\ nth_error s2 o = Some (N.lor (bit_byte m b) m).
Proof.
  intros H. pose proof (nth_error_some_lt _ _ _ H) as Hl. cbn [det_err]. unfold bit_byte. destruct (N.eqb m 1).
  - destruct (store_spec s o 0 Hl) as [s1 [E1 [L1 N1]]]. rewrite E1, N1, Nat.eqb_refl.
    destruct (store_spec s1 o (N.lor 0 m) ltac:(lia)) as [s2 [E2 [L2 N2]]]. rewrite E2. cbn. eexists; split; [reflexivity|]. rewrite N2, Nat.eqb_refl. reflexivity.
  - rewrite H. destruct (store_spec s o (N.lor b m) Hl) as [s2 [E2 [L2 N2]]]. rewrite E2. cbn. eexists; split; [reflexivity|]. rewrite N2, Nat.eqb_refl. reflexivity.
Qed.

Lemma dval_not_set d : is_dval d -> not_set true d = true.
Proof. induction d; cbn; intros; try contradiction; auto. Qed.
Lemma set_wins n d : forall P Q ub s e x y, det_form d -> det_good n P Q d ub ->
  length s = n -> is_bytes s -> P s = Some x -> length e = n -> is_bytes e -> Q e = Some y ->
  (not_set true d = false -> exists e1 o, det_ok d e = Some (e1, o) /\ is_det_ok d e1 = Some true) /\
  (not_set false d = false -> exists s1 o, det_err d s = Some (s1, o) /\ is_det_ok d s1 = Some false).
Proof.
  induction d as [| |o v t _|o m|d IH]; intros P Q ub s e x y Hf Hg Ls Bs Ps Le Be Qe; try (cbn in Hf; contradiction).
  - split; intros H; cbn in H; discriminate.
  - assert (is_dval (DVal o v t)) as Hd by exact Hf. split; intros H; [rewrite (dval_not_set _ Hd) in H; discriminate|].
    destruct (dg_err _ _ _ _ _ Hg e y Le Be Qe) as [e1 [ob [e2 [E1 [E2 [_ [_ [_ [_ [E3 En]]]]]]]]]].
    rewrite (En eq_refl) in E2. cbn in E2. injection E2 as <-.
    destruct (dval_set _ Hd e s e1 ob ltac:(lia) E1) as [s1 [E4 Hr]]. exists s1, ob. split; [exact E4|].
    rewrite <- E3. symmetry. apply (dval_is_same _ Hd). intros z Hz. apply Hr. auto.
  - destruct (dg_err _ _ _ _ _ Hg e y Le Be Qe) as [e1 [ob [e2 [E1 [E2 [_ [_ [Hb2 [_ [E3 En]]]]]]]]]].
    rewrite (En eq_refl) in E2. cbn [blit] in E2. injection E2 as <-.
    destruct (nth_error e o) as [b|] eqn:Eb.
    2: { exfalso. destruct (dg_tot _ _ _ _ _ Hg e Le) as [b E]. cbn in E. rewrite Eb in E. discriminate. }
    destruct (bit_err o m e b Eb) as [e2 [F1 F2]]. assert (e2 = e1) by congruence. subst e2.
    pose proof (proj1 (is_bytes_nth e1) Hb2 _ _ F2) as Hm. pose proof (lor_ge (bit_byte m b) m) as Hge.
    cbn [is_det_ok] in E3. rewrite F2 in E3. cbn [option_map] in E3. rewrite lor_set in E3.
    split; intros _.
    + destruct (bit_ok o m e b Eb) as [e3 [G1 G2]]. exists e3, []. split; [exact G1|]. cbn [is_det_ok]. rewrite G2. cbn [option_map].
      rewrite land_clear by lia. reflexivity.
    + destruct (nth_error_lt s o) as [b' Eb']. { pose proof (nth_error_some_lt _ _ _ Eb). lia. }
      destruct (bit_err o m s b' Eb') as [e3 [G1 G2]]. exists e3, []. split; [exact G1|]. cbn [is_det_ok]. rewrite G2. cbn [option_map].
      rewrite lor_set. exact E3.
  - destruct (IH Q P ub e s y x Hf (det_good_unnot _ _ _ _ _ Hg) Le Be Qe Ls Bs Ps) as [H1 H2]. cbn [not_set negb det_ok det_err is_det_ok].
    split; intros H.
    + destruct (H2 H) as [s1 [ob [E1 E2]]]. exists s1, ob. rewrite E2. auto.
    + destruct (H1 H) as [s1 [ob [E1 E2]]]. exists s1, ob. rewrite E2. auto.
Qed.

Lemma not_set_trick b d : det_form d -> not_set b d = false -> is_niche_trick d = true.
Proof. revert b. induction d; intros b Hf H; cbn in *; try discriminate; auto; eauto. Qed.
Lemma store_len s o b s1 : store s o b = Some s1 -> length s1 = length s.
Proof. intros E. destruct (store_rel s s o b s1 eq_refl E) as [_ [_ [_ [H _]]]]. exact H. Qed.
Lemma det_len d : forall s s1 o, (det_ok d s = Some (s1, o) -> length s1 = length s) /\ (det_err d s = Some (s1, o) -> length s1 = length s).
Proof.
  induction d as [| |o v t IH|o m|d IH]; intros s s1 ob; cbn [det_ok det_err]; split; intros E; try (injection E as <- <-; reflexivity).
  - apply (IH _ _ _) in E; exact E.
  - destruct (store s o v) as [s2|] eqn:Es; [|discriminate]. apply (IH _ _ _) in E; rewrite E. apply (store_len _ _ _ _ Es).
  - destruct (if N.eqb m 1 then store s o 0 else Some s) as [s2|] eqn:Es; [|discriminate].
    assert (length s2 = length s) by (destruct (N.eqb m 1); [apply (store_len _ _ _ _ Es)|congruence]).
    destruct (nth_error s2 o); [|discriminate]. destruct (store s2 o _) as [s3|] eqn:Es3; [|discriminate]. cbn in E. injection E as <- <-.
    rewrite (store_len _ _ _ _ Es3). assumption.
  - destruct (if N.eqb m 1 then store s o 0 else Some s) as [s2|] eqn:Es; [|discriminate].
    assert (length s2 = length s) by (destruct (N.eqb m 1); [apply (store_len _ _ _ _ Es)|congruence]).
    destruct (nth_error s2 o); [|discriminate]. destruct (store s2 o _) as [s3|] eqn:Es3; [|discriminate]. cbn in E. injection E as <- <-.
    rewrite (store_len _ _ _ _ Es3). assumption.
  - apply (IH _ _ _) in E; exact E.
  - apply (IH _ _ _) in E; exact E.
Qed.

Lemma resolved_twice T F fut s v d : wf (maybe_ty T F) -> outer_det T F d -> not_set true d = false -> holds T F s (Resolved v) ->
  exists w s1 w2 s2, maybe_poll T F fut s = Some (Polled (Some w) s1 None) /\ decode T w = Some v /\
    maybe_poll T F fut s1 = Some (Polled (Some w2) s2 None).
Proof.
  intros W Hd Hn H. destruct (setting_of T F W) as [dT [dF [dR [p [q ST]]]]].
  destruct (poll_resolved _ _ _ _ _ _ _ ST fut s v H) as [w [e [He [Hw E]]]]. destruct (new_empty _ _ _ _ _ _ _ ST) as [e' [He' Hh]].
  assert (e' = e) by congruence. subst e'.
  destruct (holds_inv _ _ _ _ _ _ _ ST s _ H) as [Ls [Bs [Os _]]].
  destruct (holds_inv _ _ _ _ _ _ _ ST e _ Hh) as [Le [Be [_ [r [_ [Er [Dr _]]]]]]].
  destruct ST. assert (d = fp_det p) as ->.
  { destruct Hd as [a [b [p' [E1 [E2 [E3 ->]]]]]]. congruence. }
  pose proof (provider_form _ _ _ st_p0) as Hf.
  pose proof st_gp0 as [_ [_ [Fo [_ [_ [_ [_ [Gd _]]]]]]]].
  assert (exists x, read (ok_offset dT dR p) (dsize dT) (decode T) s = Some x) as [x Hx].
  { unfold read. destruct (decode_result_inv _ _ _ _ st_wf0 H) as [da [db [p' [La [Lb [E' [_ [_ [_ [_ [_ Hc]]]]]]]]]]].
    assert (da = dT) by congruence. assert (db = dR) by congruence. subst da db. assert (p' = p) by congruence. subst p'.
    destruct Hc as [[x [_ [_ [_ Hx]]]]|[x [Ex _]]]; [eauto|discriminate Ex]. }
  rewrite Er in Dr.
  destruct (set_wins _ _ _ _ _ s e _ _ Hf Gd Ls Bs Hx Le Be Dr) as [Hs _]. destruct (Hs Hn) as [e1 [o [E1 E2]]].
  assert (ok_drop p e = Some e1) as Ed by (unfold ok_drop; rewrite (not_set_trick _ _ Hf Hn), E1; reflexivity).
  rewrite (obind_eq _ _ _ Ed) in E.
  assert (length e1 = length e) as L1 by exact (proj1 (det_len _ _ _ _) E1).
  exists w, e1, (sub (ok_offset dT dR p) (dsize dT) e1), e1. split; [exact E|]. split; [exact Hw|].
  unfold maybe_poll. rewrite (obind_eq _ _ _ st_T0), (obind_eq _ _ _ st_F0), (obind_eq _ _ _ st_R0), (obind_eq _ _ _ st_p0), (obind_eq _ _ _ st_q0).
  assert (match_result dT dR p e1 = Some (inl (sub (ok_offset dT dR p) (dsize dT) e1))) as Hm.
  { unfold match_result, is_ok. rewrite E2. rewrite slice_sub by lia. reflexivity. }
  rewrite (obind_eq _ _ _ Hm), (obind_eq _ _ _ He), (obind_eq _ _ _ Ed). reflexivity.
Qed.

Lemma same_destroyed0 T F tr tr' fin : same_events T F tr tr' ->
  destroyed 0 tr fin = destroyed 0 (@nil (option (list N) * option (nat * list N))) fin.
Proof.
  induction 1 as [|[r d] [r' d'] l l' [_ H1] _ IH]; [reflexivity|]. cbn in H1. cbn [destroyed].
  destruct d as [[i f]|], d' as [x|]; cbn in H1; try contradiction.
  - destruct H1 as [-> _]. exact IH.
  - exact IH.
Qed.
Lemma final_not_resolved g n : forall st, match st with Resolved _ => True | _ => match snd (steps g n st) with Resolved _ => False | _ => True end end.
Proof.
  induction n as [|n IH]; intros st; [destruct st; exact I|]. destruct st as [v| |x]; [exact I| |].
  - rewrite steps_empty. exact I.
  - cbn [steps step]. destruct (g x) as [[y|] x']; [rewrite steps_empty; exact I|]. specialize (IH (Pending x')). destruct (steps g n (Pending x')). exact IH.
Qed.
Lemma once_counts T F g n st tr s' : wf (maybe_ty T F) -> same_events T F tr (fst (steps g n st)) -> holds T F s' (snd (steps g n st)) ->
  outputs tr <= 1 /\
  destroyed 2 tr (maybe_drop T F s') = match st with Pending _ => 1 | _ => 0 end /\
  match st with Resolved _ => outputs tr + destroyed 0 tr (maybe_drop T F s') = 1 | _ => destroyed 0 tr (maybe_drop T F s') = 0 end.
Proof.
  intros W Ht Hf. pose proof (same_outputs _ _ _ _ Ht) as Ho. pose proof (outputs_steps g n st) as Ho1.
  rewrite (same_destroyed _ _ _ _ _ Ht), (same_destroyed0 _ _ _ _ _ Ht), Ho.
  pose proof (holds_drop _ _ _ _ W Hf) as Hd. pose proof (destroyed_steps g n st) as Hs. pose proof (final_not_resolved g n st) as Hn.
  split; [exact Ho1|]. split.
  - destruct (snd (steps g n st)) as [v| |x]; destruct Hd as [w Hd]; [destruct Hd as [Hd _]| |destruct Hd as [Hd _]]; rewrite Hd; cbn [destroyed Nat.eqb]; exact Hs.
  - destruct st as [v| |x].
    + rewrite resolved_steps in *. destruct n as [|n]; cbn [fst snd outputs] in *.
      * destruct Hd as [w [Hd _]]. rewrite Hd. reflexivity.
      * destruct Hd as [w Hd]. rewrite Hd. cbn [destroyed Nat.eqb]. assert (outputs (repeat (@None val, @None val) n) = 0) as ->; [|reflexivity].
        clear. induction n; cbn; auto.
    + destruct (snd (steps g n Empty)) as [v| |x]; [contradiction| |]; destruct Hd as [w Hd]; [|destruct Hd as [Hd _]]; rewrite Hd; reflexivity.
    + destruct (snd (steps g n (Pending x))) as [v| |y]; [contradiction| |]; destruct Hd as [w Hd]; [|destruct Hd as [Hd _]]; rewrite Hd; reflexivity.
Qed.

(** A future that has not changed when it is ready keeps the tag. *)
Lemma slice_inv (s : list N) o n x : slice s o n = Some x -> x = sub o n s /\ o + n <= length s.
Proof. unfold slice. destruct (Nat.leb_spec (o + n) (length s)); [|discriminate]. intros E; injection E as <-. auto. Qed.
Lemma keeps_tag_same T F fut : (forall f v f', fut f = (Some v, f') -> f' = f) -> keeps_tag T F fut.
Proof.
  intros Hs s f k v f' Hd Hk E _. rewrite (Hs _ _ _ E). destruct Hk as [a [b [c [p [q [La [Lb [Lc [Ep [Eq ->]]]]]]]]]].
  match goal with |- maybe_drop T F ?x = _ => replace x with s; [exact Hd|] end.
  unfold maybe_drop in Hd. rewrite maybe_match in Hd. unfold maybe_ty in Hd. cbn [run_matcher] in Hd. rewrite La, Lc, Ep in Hd.
  change (layout TUnit) with (Some unit_d) in Hd. cbn iota beta in Hd. rewrite Lb, Eq in Hd.
  unfold match_result at 1 in Hd. destruct (is_ok p s) as [[|]|]; try discriminate.
  { destruct (slice s (ok_offset a c p) (dsize a)) as [r|]; cbn in Hd; [|discriminate]. destruct T; discriminate. }
  destruct (slice s (err_offset a c p) (dsize c)) as [r|] eqn:Es; cbn [option_map] in Hd; [|discriminate].
  unfold match_result in Hd. destruct (is_ok q r) as [[|]|]; try discriminate.
  { destruct (slice r (ok_offset unit_d b q) (dsize unit_d)) as [r'|]; cbn in Hd; discriminate. }
  destruct (slice r (err_offset unit_d b q) (dsize b)) as [r'|] eqn:Er; cbn [option_map] in Hd; [|discriminate].
  assert (r' = f) by (destruct F; cbn in Hd; congruence). subst r'.
  destruct (slice_inv _ _ _ _ Es) as [-> L1]. destruct (slice_inv _ _ _ _ Er) as [-> L2].
  set (i := err_offset a c p) in *. set (j := err_offset unit_d b q) in *.
  assert (length (sub i (dsize c) s) = dsize c) as Ls by (unfold sub; rewrite firstn_length, skipn_length; lia).
  rewrite Ls in L2. apply list_ext.
  - rewrite !app_length, firstn_length, skipn_length. unfold sub. rewrite !firstn_length, !skipn_length, !firstn_length, !skipn_length. lia.
  - intros x Hx. destruct (Nat.lt_ge_cases x (i + j)).
    + rewrite nth_error_app1 by (rewrite firstn_length; lia). rewrite nth_error_firstn. destruct (Nat.ltb_spec x (i + j)); [reflexivity|lia].
    + assert (length (sub j (dsize b) (sub i (dsize c) s)) = dsize b) as Lb' by (unfold sub; rewrite !firstn_length, !skipn_length, !firstn_length, !skipn_length; lia).
      rewrite nth_error_app2 by (rewrite firstn_length; lia). rewrite firstn_length, Nat.min_l by lia.
      destruct (Nat.lt_ge_cases (x - (i + j)) (dsize b)).
      * rewrite nth_error_app1 by lia. rewrite nth_error_sub. destruct (Nat.ltb_spec (x - (i + j)) (dsize b)); [|lia].
        rewrite nth_error_sub. destruct (Nat.ltb_spec (j + (x - (i + j))) (dsize c)); [|lia]. f_equal. lia.
      * rewrite nth_error_app2 by lia. rewrite nth_error_skipn. f_equal. lia.
Qed.

Lemma resolved_exact T F fut s v d : wf (maybe_ty T F) -> outer_det T F d -> holds T F s (Resolved v) ->
  exists r1 r2, maybe_poll T F fut s = Some r1 /\ same_output T (ready r1) (Some v) /\ maybe_poll T F fut (after r1) = Some r2 /\
    (ready r2 = None <-> not_set true d = true).
Proof.
  intros W Hd H. destruct (not_set true d) eqn:Hn.
  - destruct (setting_of T F W) as [dT [dF [dR [p [q ST]]]]].
    destruct (poll_resolved _ _ _ _ _ _ _ ST fut s v H) as [w [e [He [Hw E]]]]. destruct (new_empty _ _ _ _ _ _ _ ST) as [e' [He' Hh]].
    assert (e' = e) by congruence. subst e'. destruct (poll_empty _ _ _ _ _ _ _ ST fut e Hh) as [s2 [E2 _]]. destruct ST.
    assert (d = fp_det p) as ->. { destruct Hd as [a [b [p' [E1 [E2' [E3 ->]]]]]]. congruence. }
    rewrite (ok_drop_quiet _ _ Hn) in E. cbn [obind] in E. eexists. eexists. split; [exact E|]. split; [exact Hw|]. split; [exact E2|]. cbn. tauto.
  - destruct (resolved_twice T F fut s v d W Hd Hn H) as [w [s1 [w2 [s2 [E1 [Hw E2]]]]]]. eexists. eexists. split; [exact E1|]. split; [exact Hw|].
    split; [exact E2|]. cbn. split; discriminate.
Qed.
