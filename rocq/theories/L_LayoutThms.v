(** Results and layouts: the facts stated in P_Layout.v and P_Result.v. *)
From Coq Require Import List Arith ZArith NArith Bool Lia ZifyBool ZifyN ZifyNat.
From Verif Require Import M_Layout M_Result M_Enum M_Core S_Layout S_Values S_Core L_Layout L_Result L_Good L_Types L_LayoutApi L_LayoutFull L_Struct L_Enum.
Import ListNotations.
Ltac Zify.zify_post_hook ::= Z.div_mod_to_equations.
Arguments N.add : simpl never.
Arguments N.mul : simpl never.
Arguments N.sub : simpl never.
Arguments N.eqb : simpl never.
Arguments N.ltb : simpl never.
Arguments N.leb : simpl never.
Arguments N.land : simpl never.
Arguments N.lor : simpl never.
Arguments N.lxor : simpl never.
Arguments N.testbit : simpl never.
Arguments Nat.modulo : simpl never.
Arguments Nat.div : simpl never.
Arguments nmo : simpl never.
Arguments Nat.max : simpl never.
Arguments Nat.sub : simpl never.

Lemma wf_fv t d s v : grammar t -> layout t = Some d -> decode t s = Some v -> ~ forbids (dfv d) s.
Proof. intros H E Hd. apply (w_fvs _ _ (grammar_wgood _ t _ d H E) _ _ Hd). Qed.
Lemma wf_ub t d s s' : wf t -> layout t = Some d -> is_bytes s -> is_bytes s' -> agree_outside (dub d) s s' ->
  decode t s = decode t s'.
Proof. intros H E. apply (g_ubs _ _ _ (wf_good t d H E)). Qed.
Lemma fv_at_bound n f o : fv_ok n f -> fv_at f o -> o < n.
Proof.
  induction f as [|o' v r IH|a IHa b IHb|lo hi o']; cbn; intros H Hf; try contradiction.
  - destruct Hf as [<-|Hf]; [tauto|]. apply IH; tauto.
  - destruct H. destruct Hf; auto.
  - subst. tauto.
Qed.
Lemma wf_bounds t d : wf t -> layout t = Some d ->
  (forall o, fv_at (dfv d) o -> o < dsize d) /\
  (forall o i, bit_unused (dub d) o i -> o < dsize d /\ (i < 8)%N) /\
  (forall o i, fv_at (dfv d) o -> ~ bit_unused (dub d) o i).
Proof.
  intros H E. pose proof (wf_good t d H E) as G. split; [|split].
  - intros o. apply fv_at_bound, (g_fv _ _ _ G).
  - intros o i [v [Hin Hb]]. pose proof (ub_ok_in _ _ _ _ _ (g_ub _ _ _ G) Hin) as [Ho Hu]. split; [lia|].
    destruct (N.lt_ge_cases i 8) as [Hi|Hi]; auto. exfalso.
    assert (v < 2 ^ 8)%N as Hv by (apply upper_lt in Hu; change (2 ^ 8)%N with 256%N; lia).
    rewrite N.bits_above_log2 in Hb; [discriminate|]. apply N.log2_lt_pow2 in Hv; [lia|]. apply upper_lt in Hu; lia.
  - apply (g_disj _ _ _ G).
Qed.
Lemma grammar_fv_bounds t d : grammar t -> layout t = Some d -> forall o, fv_at (dfv d) o -> o < dsize d.
Proof. intros H E o. apply fv_at_bound, (w_fv _ _ (grammar_wgood _ t _ d H E)). Qed.

(** *** Result *)
Lemma ok_round_trip a b v x : wf (TResult a b) -> decode a v = Some x ->
  exists da db p s w, layout a = Some da /\ layout b = Some db /\ provider_of da db = Some p /\
    mk_ok da db p v = Some s /\ is_ok p s = Some true /\ match_result da db p s = Some (inl w) /\
    decode a w = Some x /\ decode (TResult a b) s = Some (VOk x).
Proof.
  intros H Hv. destruct (result_provider a b H) as [da [db [p [Ea [Eb [Ep _]]]]]].
  destruct (result_parts a b da db p H Ea Eb Ep) as [Ga [Gb Gp]].
  destruct (make_ok _ _ _ _ _ Ga Gb Gp _ eq_refl _ _ Hv) as [s [Hs [Hl [Hb [Ho Hd]]]]].
  exists da, db, p, s, (sub (ok_offset da db p) (dsize da) s). repeat (split; auto).
  - eapply match_ok; eauto.
  - eapply decode_result_intro_ok; eauto.
Qed.
Lemma err_round_trip a b v x : wf (TResult a b) -> decode b v = Some x ->
  exists da db p s w, layout a = Some da /\ layout b = Some db /\ provider_of da db = Some p /\
    mk_err da db p v = Some s /\ is_ok p s = Some false /\ match_result da db p s = Some (inr w) /\
    decode b w = Some x /\ decode (TResult a b) s = Some (VErr x).
Proof.
  intros H Hv. destruct (result_provider a b H) as [da [db [p [Ea [Eb [Ep _]]]]]].
  destruct (result_parts a b da db p H Ea Eb Ep) as [Ga [Gb Gp]].
  destruct (make_err _ _ _ _ _ Ga Gb Gp _ eq_refl _ _ Hv) as [s [Hs [Hl [Hb [Ho Hd]]]]].
  exists da, db, p, s, (sub (err_offset da db p) (dsize db) s). repeat (split; auto).
  - eapply match_err; eauto.
  - eapply decode_result_intro_err; eauto.
Qed.
Lemma result_fits a b da db p : wf (TResult a b) -> layout a = Some da -> layout b = Some db -> provider_of da db = Some p ->
  storage_size da db p = dsize (result_d da db p) /\
  dsize (det_d (fp_det p)) <= storage_size da db p /\
  ok_offset da db p + dsize da <= storage_size da db p /\ err_offset da db p + dsize db <= storage_size da db p.
Proof.
  intros H Ea Eb Ep. destruct (result_parts a b da db p H Ea Eb Ep) as [Ga [Gb Gp]].
  assert (storage_size da db p = dsize (result_d da db p)) as Es.
  { eapply storage_fits; [|exact Gp]. apply al_ok_max; [apply (g_al _ _ _ Ga)|apply (g_al _ _ _ Gb)]. }
  rewrite Es. destruct Gp as [_ [_ [H1 [H2 [_ [H3 _]]]]]]. split; [reflexivity|].
  unfold ok_offset in *. split; [lia|]. split; assumption.
Qed.
Lemma storage_exact a b da db p : grammar a -> grammar b -> layout a = Some da -> layout b = Some db ->
  storage_size da db p = dsize (result_d da db p) <-> sizes_match da db = true.
Proof.
  intros Ha Hb Ea Eb. apply storage_iff.
  - apply (w_al _ _ (grammar_wgood _ a _ da Ha Ea)).
  - apply (w_al _ _ (grammar_wgood _ b _ db Hb Eb)).
Qed.
Lemma store_none s : forall o b, store s o b = None <-> length s <= o.
Proof.
  induction s as [|x s IH]; intros o b; cbn; [split; [lia|reflexivity]|]. destruct o as [|o].
  - split; [discriminate|lia].
  - specialize (IH o b). destruct (store s o b); cbn.
    + split; [discriminate|]. intros H. assert (length s <= o) as H' by lia. apply IH in H'. discriminate.
    + split; [|reflexivity]. intros _. assert (length s <= o) by (apply IH; reflexivity). lia.
Qed.
Lemma blit_length v : forall s o s', blit s o v = Some s' -> length s' = length s.
Proof.
  induction v as [|b v IH]; cbn; intros s o s' H; [congruence|].
  destruct (store s o b) as [s1|] eqn:E; [|discriminate]. rewrite (IH _ _ _ H).
  clear -E. revert o s1 E. induction s as [|x s IH]; intros [|o] s1; cbn; intros E; try discriminate.
  - injection E as <-. reflexivity.
  - destruct (store s o b) eqn:E1; [|discriminate]. injection E as <-. cbn. f_equal. eauto.
Qed.
Lemma blit_none v : forall s o, v <> [] -> length s < o + length v -> blit s o v = None.
Proof.
  induction v as [|b v IH]; intros s o Hne Hl; [congruence|]. cbn. destruct (store s o b) as [s1|] eqn:E; [|reflexivity].
  assert (length s1 = length s) as Hs. { apply (blit_length [b] s o). cbn. rewrite E. reflexivity. }
  cbn in Hl. destruct v as [|c v].
  - assert (length s <= o) as H by (cbn in Hl; lia). apply (store_none s o b) in H. congruence.
  - apply IH; [discriminate|]. rewrite Hs. lia.
Qed.
Lemma larger_never_fits a b da db p : grammar a -> grammar b -> layout a = Some da -> layout b = Some db ->
  provider_of da db = Some p -> sizes_match da db = false ->
  (dsize db <= dsize da -> forall v, length v = dsize da -> mk_ok da db p v = None) /\
  (dsize da < dsize db -> forall v, length v = dsize db -> mk_err da db p v = None).
Proof.
  intros Ha Hb Ea Eb Ep Hm.
  pose proof (w_al _ _ (grammar_wgood _ a _ da Ha Ea)) as Aa. pose proof (w_al _ _ (grammar_wgood _ b _ db Hb Eb)) as Ab.
  assert (storage_size da db p < det_size da db p + Nat.max (dsize da) (dsize db)) as Hlt.
  { pose proof (storage_iff da db p Aa Ab) as I. unfold storage_size in *. cbn [dsize dalign result_d] in *.
    pose proof (al_ok_pos _ (al_ok_max _ _ Aa Ab)) as Hp.
    set (X := nmo (dsize (det_d (fp_det p))) (Nat.max (dalign da) (dalign db)) + Nat.max (dsize da) (dsize db)) in *.
    pose proof (Nat.div_mod X (Nat.max (dalign da) (dalign db)) ltac:(lia)) as E.
    change (det_size da db p + Nat.max (dsize da) (dsize db)) with X.
    assert (X / Nat.max (dalign da) (dalign db) * Nat.max (dalign da) (dalign db) <> X); [|nia].
    intros C. apply I in C. congruence. }
  assert (sizes_match da db = false -> Nat.max (dsize da) (dsize db) <> 0) as Hnz.
  { unfold sizes_match. intros H C. rewrite C in H. destruct (Nat.max (dalign da) (dalign db)); cbn in H; [discriminate|].
    rewrite Nat.mod_0_l in H by lia. discriminate. }
  specialize (Hnz Hm). unfold provider_of in Ep. split; intros Hle v Hv.
  - destruct (Nat.leb_spec (dsize db) (dsize da)); [|lia]. destruct (provider_inner da db); [|discriminate].
    assert (fp_ok_shift p = 0) as H0 by (injection Ep as <-; reflexivity).
    unfold mk_ok. rewrite blit_none; auto.
    + destruct v; [cbn in Hv; lia|discriminate].
    + rewrite repeat_length, Hv. unfold ok_offset. lia.
  - destruct (Nat.leb_spec (dsize db) (dsize da)); [lia|]. destruct (provider_inner db da); [|discriminate].
    assert (fp_err_shift p = 0) as H0 by (injection Ep as <-; reflexivity).
    unfold mk_err. rewrite blit_none; auto.
    + destruct v; [cbn in Hv; lia|discriminate].
    + rewrite repeat_length, Hv. unfold err_offset. lia.
Qed.
Lemma loop_shift n : forall us okfv okub efv eub es ea eoff p, provider_loop n us okfv okub efv eub es ea eoff = Some p ->
  (exists k, eoff = k * ea) -> exists k, p_err_shift p = k * ea.
Proof.
  induction n as [|n IH]; intros us okfv okub efv eub es ea eoff p H He; cbn [provider_loop] in H.
  - cbn in H. injection H as <-. exists 0. reflexivity.
  - assert (forall d ub, Some (Prov eoff d ub) = Some p -> exists k, p_err_shift p = k * ea) as Hp.
    { intros d ub E. injection E as <-. exact He. }
    assert (forall f m, match f with
        | SArr o v t => match into_value_is_err (SArr o v t) with Some d => Some (Prov eoff d m) | None => None end
        | _ => None end = Some p -> exists k, p_err_shift p = k * ea) as _ by (intros [| |o v t] m E; try discriminate; destruct (into_value_is_err _); [eauto|discriminate]).
    assert (match bit_and okub (shifted_unused_bits us eub es eoff) with
      | [] => if Nat.leb ((es + ea) + eoff) us then provider_loop n us okfv okub efv eub es ea (ea + eoff) else provider_with_unit SEnd []
      | (o, v) :: _ => Some (Prov eoff (DBitErr o (rightmost_one v)) (extract_bit (bit_and okub (shifted_unused_bits us eub es eoff))))
      end = Some p -> exists k, p_err_shift p = k * ea) as Hlast.
    { destruct (bit_and _ _) as [|[o v] r]; [|apply Hp]. destruct (Nat.leb _ _).
      - intros E. eapply IH; [exact E|]. destruct He as [k ->]. exists (S k). lia.
      - cbn. intros E. injection E as <-. exists 0. reflexivity. }
    destruct (sresolve (select_from (fshift eoff efv) okub)) as [| |o v t].
    3: { destruct (into_value_is_err (SArr o v t)); [eapply Hp; exact H|discriminate]. }
    all: destruct (sresolve (select_from okfv _)) as [| |o v t];
      try (destruct (into_value_is_err (SArr o v t)); [eapply Hp; exact H|discriminate]); apply Hlast; exact H.
Qed.
Lemma with_unit_shift f ub p : provider_with_unit f ub = Some p -> p_err_shift p = 0.
Proof.
  unfold provider_with_unit. destruct f as [| |o v r]; try discriminate.
  - destruct ub as [|[o v] r]; intros [= <-]; reflexivity.
  - destruct (into_value_is_err _); intros H; [injection H as <-; reflexivity|discriminate].
Qed.
Lemma inner_shift a b p : provider_inner a b = Some p -> exists k, p_err_shift p = k * dalign b.
Proof.
  unfold provider_inner. destruct (Nat.eqb _ _).
  - intros H. exists 0. rewrite (with_unit_shift _ _ _ H). reflexivity.
  - intros H. eapply loop_shift; [exact H|]. exists 0. reflexivity.
Qed.
Lemma payload_alignment a b da db p : grammar a -> grammar b -> layout a = Some da -> layout b = Some db ->
  provider_of da db = Some p ->
  dalign (result_d da db p) mod dalign da = 0 /\ dalign (result_d da db p) mod dalign db = 0 /\
  ok_offset da db p mod dalign da = 0 /\ err_offset da db p mod dalign db = 0 /\
  dsize (det_d (fp_det p)) <= ok_offset da db p /\ dsize (det_d (fp_det p)) <= err_offset da db p.
Proof.
  intros Ha Hb Ea Eb Ep.
  pose proof (w_al _ _ (grammar_wgood _ a _ da Ha Ea)) as Aa. pose proof (w_al _ _ (grammar_wgood _ b _ db Hb Eb)) as Ab.
  pose proof (al_ok_pos _ Aa) as Pa. pose proof (al_ok_pos _ Ab) as Pb.
  pose proof (al_ok_max _ _ Aa Ab) as AM. pose proof (al_ok_pos _ AM) as PM.
  assert ((exists k, fp_ok_shift p = k * dalign da) /\ exists k, fp_err_shift p = k * dalign db) as [[k Hk] [j Hj]].
  { unfold provider_of in Ep. destruct (Nat.leb _ _).
    - destruct (provider_inner da db) eqn:E; [|discriminate]. injection Ep as <-. cbn. split; [exists 0; reflexivity|].
      eapply inner_shift; eauto.
    - destruct (provider_inner db da) eqn:E; [|discriminate]. injection Ep as <-. cbn. split; [|exists 0; reflexivity].
      eapply inner_shift; eauto. }
  unfold ok_offset, err_offset, det_size. rewrite Hk, Hj.
  set (M := Nat.max (dalign da) (dalign db)) in *. pose proof (nmo_bounds (dsize (det_d (fp_det p))) M PM) as B.
  pose proof (nmo_mod (dsize (det_d (fp_det p))) M PM) as HM.
  assert (forall c, c = dalign da \/ c = dalign db -> al_ok c /\ c <= M) as Hc by (intros c [-> | ->]; subst M; split; auto; lia).
  cbn [result_d dalign]. split; [|split; [|split; [|split; [|split]]]].
  - apply (mod_0_trans M (dalign da) M); auto; [lia|apply Nat.mod_same; lia].
  - apply (mod_0_trans M (dalign db) M); auto; [lia|apply Nat.mod_same; lia].
  - apply mod_0_add; auto; [apply Nat.mod_mul; lia|]. apply (mod_0_trans _ (dalign da) M); auto; lia.
  - apply mod_0_add; auto; [apply Nat.mod_mul; lia|]. apply (mod_0_trans _ (dalign db) M); auto; lia.
  - lia.
  - lia.
Qed.
Lemma exported_free a b da db p d s s' : wf (TResult a b) -> layout a = Some da -> layout b = Some db ->
  provider_of da db = Some p -> layout (TResult a b) = Some d -> length s = dsize d -> is_bytes s -> is_bytes s' -> agree_outside (dub d) s s' ->
  is_ok p s = is_ok p s' /\ decode (TResult a b) s = decode (TResult a b) s'.
Proof.
  intros H Ea Eb Ep Ed Hl Hs Hs' Hag. destruct (result_parts a b da db p H Ea Eb Ep) as [Ga [Gb Gp]].
  split; [|eapply wf_ub; eauto]. assert (d = result_d da db p) as ->.
  { cbn [layout] in Ed. rewrite Ea, Eb, Ep in Ed. congruence. }
  destruct Gp as [_ [_ [_ [_ [_ [_ [_ [Gd _]]]]]]]].
  destruct (dg_ub _ _ _ _ _ Gd s s' Hl Hs Hs' Hag) as [E _]. exact E.
Qed.
Lemma guard_ok_value a b s x0 v x : wf (TResult a b) -> decode (TResult a b) s = Some (VOk x0) -> decode a v = Some x ->
  exists da db p s', layout a = Some da /\ layout b = Some db /\ provider_of da db = Some p /\
    ok_guard_write da db p s v = Some s' /\ decode (TResult a b) s' = Some (VOk x).
Proof.
  intros H Hs Hv. destruct (decode_result_inv a b s _ H Hs) as [da [db [p [Ea [Eb [Ep [Ga [Gb [Gp [Hl [Hb Hc]]]]]]]]]]].
  destruct Hc as [[x' [E [Ho _]]]|[x' [E _]]]; [|discriminate].
  destruct (guard_ok _ _ _ _ _ Ga Gp _ eq_refl s v x Hl Hb Ho Hv) as [s' [E1 [E2 [E3 [E4 E5]]]]].
  exists da, db, p, s'. repeat (split; auto). eapply decode_result_intro_ok; eauto.
Qed.
Lemma guard_err_value a b s x0 v x : wf (TResult a b) -> decode (TResult a b) s = Some (VErr x0) -> decode b v = Some x ->
  exists da db p s', layout a = Some da /\ layout b = Some db /\ provider_of da db = Some p /\
    err_guard_write da db p s v = Some s' /\ decode (TResult a b) s' = Some (VErr x).
Proof.
  intros H Hs Hv. destruct (decode_result_inv a b s _ H Hs) as [da [db [p [Ea [Eb [Ep [Ga [Gb [Gp [Hl [Hb Hc]]]]]]]]]]].
  destruct Hc as [[x' [E _]]|[x' [E [Ho _]]]]; [discriminate|].
  destruct (guard_err _ _ _ _ _ Gb Gp _ eq_refl s v x Hl Hb Ho Hv) as [s' [E1 [E2 [E3 [E4 E5]]]]].
  exists da, db, p, s'. repeat (split; auto). eapply decode_result_intro_err; eauto.
Qed.

(** *** Conversions *)
Lemma wf_option t : wf t -> wf (TResult t TUnit).
Proof.
  intros H. apply wf_result. split; [exact H|]. split; [reflexivity|].
  destruct (wf_layout t H) as [d E]. exists d, unit_d. split; [exact E|]. split; [reflexivity|].
  pose proof (wf_good t d H E) as G. unfold sizes_match. cbn [dsize dalign unit_d].
  pose proof (al_ok_pos _ (g_al _ _ _ G)). rewrite Nat.max_0_r, Nat.max_l by lia. apply Nat.eqb_eq, (g_sz _ _ _ G eq_refl).
Qed.
Lemma option_round_trip t : wf t -> exists d p, layout t = Some d /\ provider_of d unit_d = Some p /\
  (forall v x, decode t v = Some x -> exists s w, option_from_core d p (Some v) = Some s /\
     option_is_some p s = Some true /\ option_into_core d p s = Some (Some w) /\ decode t w = Some x) /\
  (exists s, option_from_core d p None = Some s /\ option_is_some p s = Some false /\ option_into_core d p s = Some None).
Proof.
  intros H. pose proof (wf_option t H) as W.
  destruct (result_provider _ _ W) as [da [db [p [Ea [Eb [Ep _]]]]]]. cbn in Eb. injection Eb as <-.
  exists da, p. split; [exact Ea|]. split; [exact Ep|]. split.
  - intros v x Hv. destruct (ok_round_trip _ _ _ _ W Hv) as [da' [db' [p' [s [w [E1 [E2 [E3 [E4 [E5 [E6 [E7 _]]]]]]]]]]]].
    cbn in E2. injection E2 as <-. assert (da' = da) by congruence. subst. assert (p' = p) by congruence. subst.
    exists s, w. split; [exact E4|]. split; [exact E5|]. unfold option_into_core. rewrite E6. auto.
  - destruct (err_round_trip t TUnit [] VUnit W eq_refl) as [da' [db' [p' [s [w [E1 [E2 [E3 [E4 [E5 [E6 _]]]]]]]]]]].
    cbn in E2. injection E2 as <-. assert (da' = da) by congruence. subst. assert (p' = p) by congruence. subst.
    exists s. split; [exact E4|]. split; [exact E5|]. unfold option_into_core. rewrite E6. reflexivity.
Qed.
Lemma result_conv_round_trip a b : wf (TResult a b) -> exists da db p, layout a = Some da /\ layout b = Some db /\ provider_of da db = Some p /\
  (forall v x, decode a v = Some x -> exists s w, result_from_core da db p (inl v) = Some s /\
     result_into_core da db p s = Some (inl w) /\ decode a w = Some x) /\
  (forall v x, decode b v = Some x -> exists s w, result_from_core da db p (inr v) = Some s /\
     result_into_core da db p s = Some (inr w) /\ decode b w = Some x).
Proof.
  intros W. destruct (result_provider _ _ W) as [da [db [p [Ea [Eb [Ep _]]]]]].
  exists da, db, p. repeat (split; auto); intros v x Hv.
  - destruct (ok_round_trip _ _ _ _ W Hv) as [da' [db' [p' [s [w [E1 [E2 [E3 [E4 [E5 [E6 [E7 _]]]]]]]]]]]].
    assert (da' = da) by congruence. assert (db' = db) by congruence. subst. assert (p' = p) by congruence. subst. eauto.
  - destruct (err_round_trip _ _ _ _ W Hv) as [da' [db' [p' [s [w [E1 [E2 [E3 [E4 [E5 [E6 [E7 _]]]]]]]]]]]].
    assert (da' = da) by congruence. assert (db' = db) by congruence. subst. assert (p' = p) by congruence. subst. eauto.
Qed.
Lemma dval_size d c : into_value_is_err d = Some c -> dsize (det_d c) = 0.
Proof.
  revert c. induction d as [| |o v r IH]; cbn; intros c H; try discriminate.
  - injection H as <-. reflexivity.
  - destruct (into_value_is_err r); [|discriminate]. injection H as <-. cbn. auto.
Qed.
Lemma option_size t d : wf t -> layout t = Some d ->
  exists p o, provider_of d unit_d = Some p /\ layout (option_ty t) = Some o /\
    (dsize o = dsize d <-> select_one (dfv d) <> SEnd \/ dub d <> []).
Proof.
  intros H E. pose proof (wf_option t H) as W. pose proof (wf_good t d H E) as G.
  destruct (result_provider _ _ W) as [da [db [p [Ea [Eb [Ep El]]]]]]. cbn in Eb. injection Eb as <-.
  assert (da = d) by congruence. subst da. exists p, (struct_ (result_d d unit_d p)). split; [exact Ep|]. split.
  { unfold option_ty. change (layout (TStruct (TResult t TUnit))) with (option_map struct_ (layout (TResult t TUnit))). rewrite El. reflexivity. }
  pose proof (g_al _ _ _ G) as Hal. pose proof (al_ok_pos _ Hal) as Hp. pose proof (g_sz _ _ _ G eq_refl) as Hsz.
  assert (dsize (struct_ (result_d d unit_d p)) = nmo (dsize (det_d (fp_det p))) (dalign d) + dsize d) as Hsize.
  { cbn [struct_ result_d dsize dalign unit_d]. rewrite Nat.max_0_r, (Nat.max_l (dalign d) 1) by lia.
    apply nmo_id. apply mod_0_add; auto. apply nmo_mod; auto. }
  rewrite Hsize.
  assert (nmo (dsize (det_d (fp_det p))) (dalign d) + dsize d = dsize d <-> dsize (det_d (fp_det p)) = 0) as ->.
  { pose proof (nmo_bounds (dsize (det_d (fp_det p))) _ Hp). split; intros C; [lia|]. rewrite C, nmo_0. lia. }
  unfold provider_of in Ep. cbn [dsize unit_d] in Ep. destruct (Nat.leb_spec 0 (dsize d)); [|lia].
  unfold provider_inner in Ep. cbn [dsize unit_d] in Ep. rewrite Nat.eqb_refl in Ep.
  destruct (select_one (dfv d)) as [| |o v r]; cbn [provider_with_unit] in Ep; try discriminate.
  - destruct (dub d) as [|[o v] r]; injection Ep as <-; cbn; split; intros C.
    + discriminate.
    + destruct C as [C|C]; congruence.
    + right; discriminate.
    + reflexivity.
  - destruct (into_value_is_err _) eqn:Ei; [|discriminate]. injection Ep as <-. cbn [fp_det p_det].
    rewrite (dval_size _ _ Ei). split; intros _; [left; discriminate|reflexivity].
Qed.
Lemma map_round_trip a b c s y f : wf (TResult a b) -> wf (TResult c b) -> decode (TResult a b) s = Some y ->
  (forall v x, decode a v = Some x -> exists z, decode c (f v) = Some z) ->
  exists da db dc p q s', layout a = Some da /\ layout b = Some db /\ layout c = Some dc /\
    provider_of da db = Some p /\ provider_of dc db = Some q /\ result_map da db dc p q f s = Some s' /\
    ((exists w x z, y = VOk x /\ decode a w = Some x /\ decode c (f w) = Some z /\ decode (TResult c b) s' = Some (VOk z)) \/
     (exists x, y = VErr x /\ decode (TResult c b) s' = Some (VErr x))).
Proof.
  intros W W' Hs Hf. destruct (decode_result_inv a b s _ W Hs) as [da [db [p [Ea [Eb [Ep [Ga [Gb [Gp [Hl [Hb Hc]]]]]]]]]]].
  destruct (result_provider _ _ W') as [dc [db' [q [Ec [Eb' [Eq _]]]]]]. assert (db' = db) by congruence. subst db'.
  exists da, db, dc, p, q. destruct Hc as [[x [-> [Ho [Hm Hd]]]]|[x [-> [Ho [Hm Hd]]]]].
  - destruct (Hf _ _ Hd) as [z Hz]. destruct (ok_round_trip c b _ _ W' Hz) as [dc' [db' [q' [s' [w [E1 [E2 [E3 [E4 [_ [_ [_ E8]]]]]]]]]]]].
    assert (dc' = dc) by congruence. assert (db' = db) by congruence. subst. assert (q' = q) by congruence. subst.
    exists s'. unfold result_map. rewrite Hm. repeat (split; auto). left. eauto 10.
  - destruct (err_round_trip c b _ _ W' Hd) as [dc' [db' [q' [s' [w [E1 [E2 [E3 [E4 [_ [_ [_ E8]]]]]]]]]]]].
    assert (dc' = dc) by congruence. assert (db' = db) by congruence. subst. assert (q' = q) by congruence. subst.
    exists s'. unfold result_map. rewrite Hm. repeat (split; auto). right. eauto.
Qed.
