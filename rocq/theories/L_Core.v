(** Unions, tagged enums, standard enums, indirections. *)
From Coq Require Import List Arith ZArith NArith Bool Lia ZifyBool ZifyN ZifyNat.
From Verif Require Import M_Layout M_Result M_Core S_Layout S_Values S_Repr S_Core L_Layout L_Result L_Good L_Types L_LayoutApi L_LayoutFull L_Struct L_Repr L_LayoutThms.
Import ListNotations.
Ltac Zify.zify_post_hook ::= Z.div_mod_to_equations.
Arguments N.add : simpl never.
Arguments N.mul : simpl never.
Arguments N.sub : simpl never.
Arguments N.eqb : simpl never.
Arguments N.ltb : simpl never.
Arguments N.leb : simpl never.
Arguments N.land : simpl never.
Arguments N.lor : simpl never.
Arguments N.lxor : simpl never.
Arguments N.testbit : simpl never.
Arguments Nat.modulo : simpl never.
Arguments Nat.div : simpl never.
Arguments nmo : simpl never.
Arguments Nat.max : simpl never.
Arguments Nat.sub : simpl never.

Lemma first_multiple_fun n a x y : first_multiple n a x -> first_multiple n a y -> x = y.
Proof.
  intros [[k ->] [H1 H2]] [[j ->] [H3 H4]]. specialize (H2 j H3). specialize (H4 k H1). lia.
Qed.
Lemma nmo_nmo x a b : al_ok a -> al_ok b -> a <= b -> nmo (nmo x a) b = nmo x b.
Proof.
  intros Ha Hb Hab. pose proof (al_ok_pos _ Ha) as Pa. pose proof (al_ok_pos _ Hb) as Pb.
  apply (first_multiple_fun x b); [|apply nmo_first; exact Pb].
  destruct (nmo_first (nmo x a) b Pb) as [E [H1 H2]]. pose proof (nmo_bounds x a Pa). split; [exact E|]. split; [lia|].
  intros k Hk. apply H2. destruct (al_ok_div _ _ Ha Hb Hab) as [j ->].
  destruct (nmo_first x a Pa) as [_ [_ H3]]. rewrite Nat.mul_assoc in *. apply H3. exact Hk.
Qed.
Lemma nmo_mono x y a : 0 < a -> x <= y -> nmo x a <= nmo y a.
Proof.
  intros Ha Hl. destruct (nmo_first x a Ha) as [_ [_ H]]. destruct (nmo_first y a Ha) as [[k ->] [Hy _]]. apply H. lia.
Qed.
Lemma nmo_max x y a : 0 < a -> nmo (Nat.max x y) a = Nat.max (nmo x a) (nmo y a).
Proof.
  intros Ha. destruct (Nat.le_ge_cases x y) as [H|H]; pose proof (nmo_mono _ _ a Ha H).
  - rewrite Nat.max_r by exact H. lia.
  - rewrite Nat.max_l by exact H. lia.
Qed.
(** Folding binary unions. *)
Lemma fold_union ds : forall d0, al_ok (dalign d0) -> Forall (fun d => al_ok (dalign d)) ds ->
  (exists x, dsize d0 = nmo x (dalign d0)) ->
  let d := fold_left union_ ds d0 in
  dalign d = fold_left Nat.max (map snd (map sa ds)) (dalign d0) /\
  dsize d = nmo (fold_left Nat.max (map fst (map sa ds)) (dsize d0)) (dalign d) /\ al_ok (dalign d).
Proof.
  induction ds as [|e ds IH]; intros d0 H0 Hds [x Hx]; cbn [fold_left map].
  - split; [reflexivity|]. split; [|exact H0]. rewrite Hx. symmetry. apply nmo_id, nmo_mod, al_ok_pos, H0.
  - inversion Hds as [|? ? He Hr]; subst.
    assert (al_ok (dalign (union_ d0 e))) as Hu by (cbn; apply al_ok_max; assumption).
    destruct (IH (union_ d0 e) Hu Hr) as [E1 [E2 E3]].
    { exists (Nat.max (dsize d0) (dsize e)). reflexivity. }
    set (d := fold_left union_ ds (union_ d0 e)) in *. split; [exact E1|]. split; [|exact E3]. rewrite E2.
    cbn [fst sa]. set (l := map fst (map sa ds)).
    assert (dalign (union_ d0 e) <= dalign d) as Hle by (rewrite E1; apply fold_max_pos).
    assert (forall k, fold_left Nat.max l k = Nat.max (fold_left Nat.max l 0) k) as Hf.
    { clear. intros k. rewrite <- (Nat.max_0_r k) at 1. rewrite fold_max_comm. lia. }
    rewrite (Hf (dsize (union_ d0 e))), (Hf (Nat.max (dsize d0) (dsize e))).
    pose proof (al_ok_pos _ E3) as P3. rewrite !(nmo_max _ _ _ P3). f_equal.
    cbn [union_ dsize] in *. change (Nat.max (dalign d0) (dalign e)) with (dalign (union_ d0 e)) in *.
    rewrite nmo_nmo by assumption. apply nmo_max. exact P3.
Qed.
Lemma layout_unions ts : forall t0 d0 ds, layout t0 = Some d0 -> Forall2 (fun t d => layout t = Some d) ts ds ->
  layout (fold_left TUnion ts t0) = Some (fold_left union_ ds d0).
Proof.
  induction ts as [|t ts IH]; intros t0 d0 ds H0 H; inversion H as [|? ? ? ? Hl Hr]; subst; cbn [fold_left]; auto.
  apply IH; auto. cbn [layout]. rewrite H0, Hl. reflexivity.
Qed.
Lemma union_c ts ds : Forall2 (fun t d => layout t = Some d) ts ds -> Forall (fun d => al_ok (dalign d)) ds ->
  exists d, layout (union_ty ts) = Some d /\ c_union (map sa ds) (dsize d) (dalign d) /\ dub d = [] /\ dfv d = FEnd.
Proof.
  intros H Hal. exists (fold_left union_ ds unit_d). split; [apply layout_unions; auto; reflexivity|].
  destruct (fold_union ds unit_d) as [E1 [E2 E3]]; auto; [left; reflexivity|exists 0; reflexivity|].
  cbn [dalign dsize unit_d] in *. split; [|clear; assert (forall d0, dub d0 = [] -> dfv d0 = FEnd -> dub (fold_left union_ ds d0) = [] /\ dfv (fold_left union_ ds d0) = FEnd) as H; [induction ds; cbn; auto|apply H; reflexivity]].
  split; [exact E1|]. rewrite E2. apply nmo_first, al_ok_pos, E3.
Qed.

(** Tagged enums. *)
Definition data_of (vs : list variant) : list ty :=
  fold_right (fun v acc => match v with VNone => acc | _ => variant_ty v :: acc end) [] vs.
Lemma variants_union vs : forall t0, fold_left (fun acc v => match v with VNone => acc | _ => TUnion acc (variant_ty v) end) vs t0 =
  fold_left TUnion (data_of vs) t0.
Proof. induction vs as [|v vs IH]; intros t0; cbn [fold_left data_of fold_right]; auto. destruct v; cbn; apply IH. Qed.
Lemma c_union_data vs ds dd sz al : Forall2 (fun v d => layout (variant_ty v) = Some d) vs ds ->
  Forall2 (fun t d => layout t = Some d) (data_of vs) dd -> Forall (fun d => 1 <= dalign d) ds ->
  c_union (map sa dd) sz al -> c_union (map sa ds) sz al.
Proof.
  intros H H' Hal [E1 E2].
  assert (fold_left Nat.max (map snd (map sa dd)) 1 = fold_left Nat.max (map snd (map sa ds)) 1 /\
          fold_left Nat.max (map fst (map sa dd)) 0 = fold_left Nat.max (map fst (map sa ds)) 0) as [F1 F2].
  { clear E1 E2. revert dd H'. assert (forall k j, 1 <= k -> forall dd, Forall2 (fun t d => layout t = Some d) (data_of vs) dd ->
      fold_left Nat.max (map snd (map sa dd)) k = fold_left Nat.max (map snd (map sa ds)) k /\
      fold_left Nat.max (map fst (map sa dd)) j = fold_left Nat.max (map fst (map sa ds)) j) as Hg.
    { induction H as [|v d vs ds Hv Hr IH]; intros k j Hk dd H'.
      - cbn in H'. inversion H'; subst. auto.
      - inversion Hal as [|? ? Hd Hal']; subst. specialize (IH Hal'). cbn [data_of fold_right] in H'.
        assert (layout (variant_ty v) = Some d -> Forall2 (fun t d => layout t = Some d) (variant_ty v :: data_of vs) dd ->
          fold_left Nat.max (map snd (map sa dd)) k = fold_left Nat.max (map snd (map sa (d :: ds))) k /\
          fold_left Nat.max (map fst (map sa dd)) j = fold_left Nat.max (map fst (map sa (d :: ds))) j) as Hdata.
        { intros _ Hc. inversion Hc as [|? e ? dd' He Hdd]; subst. assert (e = d) by congruence. subst.
          cbn [map fold_left fst snd sa]. apply IH; auto. lia. }
        destruct v as [|t|fs]; [|exact (Hdata Hv H')|exact (Hdata Hv H')].
        cbn in Hv. injection Hv as <-. cbn [map fold_left fst snd sa dalign dsize unit_d].
        rewrite (Nat.max_l k 1), (Nat.max_0_r j) by lia. apply IH; auto. }
    intros dd H'. apply Hg; auto. }
  split; [rewrite <- F1; exact E1|]. rewrite <- F2. exact E2.
Qed.
Lemma tagged_enum_c w vs ds : al_ok w -> Forall2 (fun v d => layout (variant_ty v) = Some d) vs ds ->
  Forall (fun d => al_ok (dalign d)) ds ->
  exists d payload, layout (tagged_enum_ty w vs) = Some d /\ repr_c_enum w (map sa ds) payload (dsize d) (dalign d).
Proof.
  intros Hw H Hal.
  assert (exists dd, Forall2 (fun t d => layout t = Some d) (data_of vs) dd /\ Forall (fun d => al_ok (dalign d)) dd) as [dd [Hdd Hdal]].
  { clear -H Hal. induction H as [|v d vs ds Hv Hr IH]; [exists []; split; constructor|].
    inversion Hal as [|? ? Ha Hl]; subst. destruct (IH Hl) as [dd [E1 E2]]. destruct v; [exists dd; auto| |]; (exists (d :: dd); split; constructor; auto). }
  destruct (union_c _ _ Hdd Hdal) as [u [Eu [Hu _]]].
  assert (al_ok (dalign u)) as Hual.
  { destruct (fold_union dd unit_d) as [_ [_ E3]]; auto; [left; reflexivity|exists 0; reflexivity|].
    unfold union_ty in Eu. rewrite (layout_unions _ TUnit unit_d dd eq_refl Hdd) in Eu. injection Eu as <-. exact E3. }
  assert (Forall (fun d => 0 < dalign d) [u]) as Hpos by (constructor; [apply al_ok_pos; assumption|constructor]).
  destruct (struct_c (TPlain w w) [variants_ty vs] (plain_d w w) [u]) as [d [os [E Hc]]].
  - reflexivity.
  - constructor; [|constructor]. unfold variants_ty. rewrite variants_union. exact Eu.
  - constructor; [cbn; apply al_ok_pos; assumption|exact Hpos].
  - cbn [struct_ty fields_ty fold_left] in E.
    pose proof Hc as Hc'. destruct Hc' as [_ [fin [Ho _]]]. cbn [map sa] in Ho. inversion Ho as [|? ? ? o ? os1 ? Hf Ho2]; subst.
    inversion Ho2 as [|? ? ? o2 ? os2 ? Hf2 Ho3]; subst. inversion Ho3; subst.
    assert (o = 0) as -> by (destruct Hf as [_ [_ Hf]]; specialize (Hf 0 (le_n 0)); lia).
    exists d, o2. split; [exact E|]. exists (dsize u), (dalign u). split; [|exact Hc].
    eapply c_union_data; eauto. eapply Forall_impl; [|exact Hal]. intros x Hx. apply al_ok_pos in Hx. cbn in *. lia.
Qed.

(** Arrays. *)
Lemma skipn_skipn_add {A} a b (l : list A) : skipn a (skipn b l) = skipn (b + a) l.
Proof. revert l. induction b as [|b IH]; intros l; cbn; auto. destruct l; [apply skipn_nil|]. apply IH. Qed.
Lemma array_elems rd w n : forall s l, read_elems rd w n s = Some l ->
  length l = n /\ forall i, i < n -> rd (firstn w (skipn (i * w) s)) = nth_error l i.
Proof.
  induction n as [|n IH]; intros s l; cbn [read_elems].
  - intros [= <-]. split; [reflexivity|]. intros i Hi. lia.
  - destruct (rd (firstn w s)) as [v|] eqn:E; [|discriminate]. destruct (read_elems rd w n (skipn w s)) as [l'|] eqn:E'; [|discriminate].
    intros [= <-]. destruct (IH _ _ E') as [Hl Hn]. split; [cbn; lia|]. intros [|i] Hi; [exact E|].
    cbn [nth_error]. rewrite <- Hn by lia. f_equal. f_equal. rewrite skipn_skipn_add. reflexivity.
Qed.
Lemma array_layout t d n : layout t = Some d -> exists e, layout (TArr t n) = Some e /\
  dsize e = n * dsize d /\ dalign e = dalign d /\
  forall s v, decode (TArr t n) s = Some v -> exists l, v = VArr l /\ length l = n /\
    forall i, i < n -> decode t (firstn (dsize d) (skipn (i * dsize d) s)) = nth_error l i.
Proof.
  intros E. exists (array_ d n). cbn [layout]. rewrite E. split; [reflexivity|]. split; [cbn; lia|]. split; [reflexivity|].
  intros s v. cbn [decode layout]. rewrite E. cbn [option_map]. destruct (negb _); [discriminate|].
  destruct (read_elems _ _ _ _) as [l|] eqn:El; [|discriminate]. intros [= <-]. exists l. split; [reflexivity|].
  exact (array_elems _ _ _ _ _ El).
Qed.

(** Indirections. *)
Lemma dind_pointer t : forall d, layout t = Some d -> dind d = has_pointer t.
Proof.
  induction t as [|s a|w|w nza|w| | | |a IHa b IHb|t IH|t IH al|a IHa b IHb|t IH n|a IHa b IHb|t IH]; intros d; cbn [layout has_pointer];
    try (intros [= <-]; reflexivity); try (destruct (layout t) as [e|]; [|discriminate]; intros [= <-]; exact (IH e eq_refl)); try exact (IH d);
    destruct (layout a) as [da|]; try discriminate; destruct (layout b) as [db|]; try discriminate.
  1,2: intros [= <-]; cbn; rewrite (IHa da eq_refl), (IHb db eq_refl); reflexivity.
  destruct (provider_of da db); [|discriminate]. intros [= <-]; cbn; rewrite (IHa da eq_refl), (IHb db eq_refl); reflexivity.
Qed.

(** [is_invalid]. *)
Lemma is_invalid_sound f n s : fv_ok n f -> length s = n -> exists b, fv_is_invalid f s = Some b /\ (b = true -> forbids f s).
Proof.
  intros Hf Hs. induction f as [|o v r IH|a IHa b IHb|lo hi o]; cbn [fv_is_invalid fv_ok] in *.
  - exists false. split; [reflexivity|discriminate].
  - destruct Hf as [H1 [H2 [H3 [H4 H5]]]]. destruct (nth_error s o) as [x|] eqn:E; [|apply nth_error_None in E; lia].
    destruct (N.eqb_spec x v) as [-> |Hne]; [|exists false; split; [reflexivity|discriminate]].
    destruct (IH H5) as [c [-> Hc]]. exists c. split; [reflexivity|]. intros Ht. cbn. split; [exact E|right; auto].
  - destruct Hf as [Ha Hb]. destruct (IHa Ha) as [c [-> Hc]]. destruct c.
    + exists true. split; [reflexivity|]. intros _. left. auto.
    + destruct (IHb Hb) as [c [-> Hc']]. exists c. split; [reflexivity|]. intros Ht. right. auto.
  - destruct (nth_error s o) as [x|] eqn:E; [|apply nth_error_None in E; lia].
    eexists; split; [reflexivity|]. intros Ht. apply andb_true_iff in Ht. destruct Ht as [H1 H2]. cbn. exists x.
    split; [exact E|]. split; [apply N.leb_le; exact H1|apply N.leb_le; exact H2].
Qed.
Lemma is_invalid_valid t d s : grammar t -> layout t = Some d -> length s = dsize d ->
  exists b, is_invalid d s = Some b /\ (b = true -> decode t s = None).
Proof.
  intros H E Hl. pose proof (grammar_wgood _ t _ d H E) as G. destruct (is_invalid_sound _ _ s (w_fv _ _ G) Hl) as [b [Hb Hf]].
  exists b. split; [exact Hb|]. intros Ht. destruct (decode t s) as [v|] eqn:Ed; [|reflexivity].
  exfalso. apply (w_fvs _ _ G _ _ Ed). auto.
Qed.

(** Standard enums. *)
Lemma fvs_shift_len k f : length (fvs_of (fshift k f)) = length (fvs_of f).
Proof. induction f; cbn; auto. - rewrite !app_length. congruence. - rewrite !map_length. reflexivity. Qed.
Lemma nz_holes_fvs w i : 1 <= w -> length (fvs_of (nz_holes i w)) = 1.
Proof. destruct w; [lia|]. reflexivity. Qed.
Definition niche_count (d : desc) : Prop :=
  match dniche d with A0 => length (fvs_of (dfv d)) = 0 | A1 => length (fvs_of (dfv d)) = 1 | AMany => True end.
Lemma niche_count_holds r t : forall full d, types_ok r full t = true -> everywhere not_ordering t = true -> layout t = Some d ->
  niche_count d.
Proof.
  induction t as [|s a|w|w nza|w| | | |a IHa b IHb|t IH|t IH al|a IHa b IHb|t IH n|a IHa b IHb|t IH]; intros full d Hok Ho; cbn [layout types_ok everywhere not_ordering andb] in *.
  - intros [= <-]; reflexivity.
  - intros [= <-]; reflexivity.
  - intros [= <-]; reflexivity.
  - intros [= <-]. apply nz_holes_fvs. apply andb_true_iff in Hok. destruct Hok as [_ Hok]. apply Nat.ltb_lt in Hok. lia.
  - intros [= <-]. apply nz_holes_fvs. apply align_ok_al, al_ok_pos in Hok. lia.
  - intros [= <-]. exact I.
  - discriminate.
  - intros [= <-]; reflexivity.
  - apply andb_true_iff in Hok. destruct Hok as [Hok Hb]. apply andb_true_iff in Hok. destruct Hok as [_ Ha]. apply andb_true_iff in Ho. destruct Ho as [Oa Ob].
    destruct (layout a) as [da|]; [|discriminate]. destruct (layout b) as [db|]; [|discriminate]. intros [= <-].
    specialize (IHa _ _ Ha Oa eq_refl). specialize (IHb _ _ Hb Ob eq_refl). unfold niche_count in *. cbn [dniche dfv field_pair aligned_after fvs_of dsize].
    destruct (Nat.eqb _ _); [|exact I]. rewrite app_length, fvs_shift_len.
    destruct (dniche da), (dniche db); cbn [sat_add]; auto; lia.
  - destruct (layout t) as [e|]; [|discriminate]. intros [= <-]. specialize (IH _ _ Hok Ho eq_refl). unfold niche_count in *. cbn. destruct (Nat.eqb _ _); auto.
  - apply andb_true_iff in Hok. destruct Hok as [_ Hok]. destruct (layout t) as [e|]; [|discriminate]. intros [= <-]. specialize (IH _ _ Hok Ho eq_refl). unfold niche_count in *. cbn. destruct (Nat.eqb _ _); auto.
  - destruct (layout a) as [da|]; [|discriminate]. destruct (layout b) as [db|]; [|discriminate]. intros [= <-]. reflexivity.
  - destruct (layout t) as [e|]; [|discriminate]. intros [= <-]. specialize (IH _ _ Hok Ho eq_refl). unfold niche_count in *. cbn.
    destruct (Nat.eqb_spec n 0) as [-> |Hn]; [reflexivity|]. destruct (Nat.eqb n 1); auto.
  - destruct (layout a) as [da|]; [|discriminate]. destruct (layout b) as [db|]; [|discriminate]. destruct (provider_of da db); [|discriminate]. intros [= <-]. reflexivity.
  - discriminate.
Qed.
Lemma no_unused r t : forall full d, types_ok r full t = true -> everywhere not_result t = true -> layout t = Some d ->
  dniche d <> AMany -> dub d = [].
Proof.
  induction t as [|s a|w|w nza|w| | | |a IHa b IHb|t IH|t IH al|a IHa b IHb|t IH n|a IHa b IHb|t IH]; intros full d Hok Ho; cbn [layout types_ok everywhere not_result andb] in *;
   try (intros [= <-]; reflexivity); try discriminate.
  - apply andb_true_iff in Hok. destruct Hok as [Hok Hb]. apply andb_true_iff in Hok. destruct Hok as [_ Ha]. apply andb_true_iff in Ho. destruct Ho as [Oa Ob].
    destruct (layout a) as [da|] eqn:Ea; [|discriminate]. destruct (layout b) as [db|] eqn:Eb; [|discriminate]. intros [= <-].
    specialize (IHa _ _ Ha Oa eq_refl). specialize (IHb _ _ Hb Ob eq_refl). cbn [dniche dub field_pair aligned_after dsize].
    destruct (Nat.eqb_spec (dsize db + nmo (dsize da) (dalign db)) (dsize da + dsize db)) as [E|]; [|congruence]. intros Hn.
    assert (dniche da <> AMany) as Ha' by (intros C; rewrite C in Hn; apply Hn; reflexivity).
    assert (dniche db <> AMany) as Hb' by (intros C; rewrite C in Hn; apply Hn; destruct (dniche da); reflexivity).
    rewrite (IHa Ha'), (IHb Hb'). replace (nmo (dsize da) (dalign db) - dsize da) with 0 by lia. reflexivity.
  - destruct (layout t) as [e|]; [|discriminate]. intros [= <-]. specialize (IH _ _ Hok Ho eq_refl). cbn. destruct (Nat.eqb_spec (dsize e) (nmo (dsize e) (dalign e))) as [E|]; [|congruence].
    intros Hn. rewrite (IH Hn). rewrite <- E, Nat.sub_diag. reflexivity.
  - apply andb_true_iff in Hok. destruct Hok as [Hal Hok]. destruct (layout t) as [e|] eqn:Et; [|discriminate]. intros [= <-].
    pose proof (w_al _ _ (grammar_wgood _ t _ e Hok Et)) as He. specialize (IH _ _ Hok Ho eq_refl). cbn.
    destruct (Nat.eqb_spec (dsize e) (nmo (dsize e) (Nat.max al (dalign e)))) as [E|]; [|congruence].
    intros Hn. rewrite (IH Hn). apply align_ok_al in Hal.
    assert (nmo (dsize e) (dalign e) = dsize e) as ->.
    { apply nmo_id. apply mod_0_trans with (b := Nat.max al (dalign e)); auto using al_ok_max; [lia|]. rewrite E. apply nmo_mod. apply al_ok_pos, al_ok_max; auto. }
    rewrite Nat.sub_diag. reflexivity.
  - destruct (layout a) as [da|]; [|discriminate]. destruct (layout b) as [db|]; [|discriminate]. intros [= <-]. reflexivity.
  - destruct (layout t) as [e|]; [|discriminate]. intros [= <-]. specialize (IH _ _ Hok Ho eq_refl). cbn.
    destruct (Nat.eqb_spec n 0) as [-> |]; [reflexivity|]. destruct (Nat.eqb n 1); [exact IH|congruence].
Qed.
Lemma one_niche t d : grammar t -> layout t = Some d -> everywhere not_ordering t = true ->
  dniche d = A1 -> (exists f, fvs_of (dfv d) = [f]) /\ (everywhere not_result t = true -> dub d = []).
Proof.
  intros H E Ho En. pose proof (niche_count_holds _ t _ d H Ho E) as N. unfold niche_count in N. rewrite En in N. split.
  - destruct (fvs_of (dfv d)) as [|f [|g l]]; try discriminate. eauto.
  - intros Hr. apply (no_unused _ t _ d H Hr E). congruence.
Qed.
Lemma core_option_one_niche t d o : grammar t -> layout t = Some d -> everywhere not_ordering t = true ->
  core_option_d d = Some o -> dsize o = dsize d /\ dalign o = dalign d /\
    dind o = has_pointer t /\ fvs_of (dfv o) = [] /\ dub o = [] /\
    (exists f, fvs_of (dfv d) = [f]) /\ (everywhere not_result t = true -> dub d = []).
Proof.
  intros H E Ho Hd. unfold core_option_d in Hd. destruct (dniche d) eqn:En; try discriminate. injection Hd as <-.
  do 5 (split; [first [reflexivity|exact (dind_pointer t d E)]|]). apply one_niche; assumption.
Qed.
Lemma core_result_one_niche a b da db o : grammar a -> grammar b -> layout a = Some da -> layout b = Some db ->
  everywhere not_ordering a = true -> everywhere not_ordering b = true -> core_result_d da db = Some o ->
  dind o = (has_pointer a || has_pointer b)%bool /\ fvs_of (dfv o) = [] /\ dub o = [] /\
  ((dsize db = 0 /\ dsize o = dsize da /\ dalign o = dalign da /\ (exists f, fvs_of (dfv da) = [f]) /\
    (everywhere not_result a = true -> dub da = [])) \/
   (dsize da = 0 /\ dsize o = dsize db /\ dalign o = dalign db /\ (exists f, fvs_of (dfv db) = [f]) /\
    (everywhere not_result b = true -> dub db = []))).
Proof.
  intros Ha Hb Ea Eb Oa Ob Hd. rewrite <- (dind_pointer a da Ea), <- (dind_pointer b db Eb). unfold core_result_d in Hd.
  destruct (dsize db) eqn:Sb.
  - destruct (dniche da) eqn:En; try discriminate. injection Hd as <-. do 3 (split; [reflexivity|]). left.
    do 3 (split; [reflexivity|]). apply one_niche; assumption.
  - destruct (dsize da) eqn:Sa; [|discriminate]. destruct (dniche db) eqn:En; try discriminate. injection Hd as <-.
    do 3 (split; [reflexivity|]). right. split; [reflexivity|]. split; [cbn; congruence|]. split; [reflexivity|]. apply one_niche; assumption.
Qed.
Lemma istable_size_full t d : wf t -> layout t = Some d -> istable_size d = dsize d.
Proof.
  intros H E. pose proof (wf_good t d H E) as G. unfold istable_size. rewrite (g_sz _ _ _ G eq_refl), Nat.sub_0_r.
  pose proof (al_ok_pos _ (g_al _ _ _ G)). rewrite Nat.mod_same by lia. lia.
Qed.
