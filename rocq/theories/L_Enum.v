(** Enums: the generated constructors and matchers. *)
From Coq Require Import List Arith ZArith NArith Bool Lia ZifyBool ZifyN ZifyNat.
From Verif Require Import M_Layout M_Result M_Enum S_Layout L_Layout L_Result L_Good L_Types L_LayoutApi.
Import ListNotations.
Ltac Zify.zify_post_hook ::= Z.div_mod_to_equations.
Arguments N.add : simpl never.
Arguments N.mul : simpl never.
Arguments N.sub : simpl never.
Arguments N.eqb : simpl never.
Arguments N.ltb : simpl never.
Arguments N.leb : simpl never.
Arguments N.land : simpl never.
Arguments N.lor : simpl never.
Arguments N.lxor : simpl never.
Arguments N.testbit : simpl never.
Arguments Nat.modulo : simpl never.
Arguments Nat.div : simpl never.
Arguments nmo : simpl never.
Arguments Nat.max : simpl never.
Arguments Nat.sub : simpl never.

Inductive shape : nat -> list ty -> ty -> matcher -> list (list bool) -> Prop :=
| shape_leaf k t : shape k [t] t (MLeaf k) [[]]
| shape_node k va vb ta tb ma mb pa pb :
    shape k va ta ma pa -> shape (k + length va) vb tb mb pb ->
    shape k (va ++ vb) (TResult ta tb) (MNode ma mb) (map (cons true) pa ++ map (cons false) pb).

Lemma half_lt (n : nat) : 2 <= n -> 0 < n / 2 < n.
Proof. intros H. split; [apply Nat.div_str_pos; lia|apply Nat.div_lt; lia]. Qed.
Lemma recursion_unfold {A U} (leaf : A -> U) join fuel vs : 2 <= length vs ->
  recursion leaf join (S fuel) vs =
  match recursion leaf join fuel (firstn (length vs / 2) vs),
        recursion leaf join fuel (skipn (length vs / 2) vs) with
  | Some l, Some r => Some (join l r)
  | _, _ => None
  end.
Proof. destruct vs as [|a [|b vs]]; cbn [length]; try lia. reflexivity. Qed.
Lemma firstn_seq k n : forall s, k <= n -> firstn k (seq s n) = seq s k.
Proof. revert n. induction k as [|k IH]; intros [|n] s H; cbn; auto; try lia. f_equal. apply IH. lia. Qed.
Lemma skipn_seq k n : forall s, k <= n -> skipn k (seq s n) = seq (s + k) (n - k).
Proof.
  revert n. induction k as [|k IH]; intros [|n] s H; cbn [skipn seq]; try lia.
  - rewrite Nat.add_0_r. reflexivity.
  - rewrite Nat.add_0_r. reflexivity.
  - rewrite IH by lia. f_equal; lia.
Qed.

Lemma recursion_shape fuel : forall vs k, vs <> [] -> length vs <= fuel ->
  exists T M ps, recursion (fun t => t) TResult fuel vs = Some T /\
    recursion MLeaf MNode fuel (seq k (length vs)) = Some M /\
    recursion (fun _ => [[]]) (fun a b => map (cons true) a ++ map (cons false) b) fuel vs = Some ps /\
    shape k vs T M ps.
Proof.
  induction fuel as [|fuel IH]; intros vs k Hne Hl; [destruct vs; cbn in Hl; [congruence|lia]|].
  destruct (Nat.lt_ge_cases (length vs) 2) as [H2|H2].
  - destruct vs as [|t [|? ?]]; cbn in H2; try congruence; try lia.
    exists t, (MLeaf k), [[]]. repeat split. constructor.
  - rewrite !recursion_unfold by (rewrite ?seq_length; lia). rewrite seq_length.
    pose proof (half_lt _ H2) as Hh. set (h := length vs / 2) in *.
    rewrite firstn_seq, skipn_seq by lia.
    assert (length (firstn h vs) = h) as Hf by (rewrite firstn_length; lia).
    assert (length (skipn h vs) = length vs - h) as Hs by apply skipn_length.
    destruct (IH (firstn h vs) k) as [T1 [M1 [p1 [E1 [E2 [E3 S1]]]]]].
    { intros E. rewrite E in Hf. cbn in Hf. lia. } { lia. }
    destruct (IH (skipn h vs) (k + h)) as [T2 [M2 [p2 [F1 [F2 [F3 S2]]]]]].
    { intros E. rewrite E in Hs. cbn in Hs. lia. } { lia. }
    rewrite Hf in E2. rewrite Hs in F2. rewrite E1, E2, E3, F1, F2, F3.
    eexists _, _, _. split; [reflexivity|]. split; [reflexivity|]. split; [reflexivity|].
    rewrite <- (firstn_skipn h vs) at 1. constructor; [exact S1|]. rewrite Hf. exact S2.
Qed.

Fixpoint dispatch (m : matcher) (y : val) : option (nat * val) :=
  match m with
  | MLeaf i => Some (i, y)
  | MNode a b => match y with VOk z => dispatch a z | VErr z => dispatch b z | _ => None end
  end.
Fixpoint inject (path : list bool) (x : val) : val :=
  match path with
  | [] => x
  | true :: r => VOk (inject r x)
  | false :: r => VErr (inject r x)
  end.

Lemma shape_paths k vs T M ps : shape k vs T M ps -> length ps = length vs.
Proof. induction 1; cbn; auto. rewrite !app_length, !map_length. lia. Qed.

Lemma decode_result_inv a b s y : wf (TResult a b) -> decode (TResult a b) s = Some y ->
  exists da db p, layout a = Some da /\ layout b = Some db /\ provider_of da db = Some p /\
   good true da (decode a) /\ good true db (decode b) /\ prov_good da db (decode a) (decode b) p /\
   length s = dsize (result_d da db p) /\ is_bytes s /\
   ((exists x, y = VOk x /\ is_ok p s = Some true /\
       match_result da db p s = Some (inl (sub (ok_offset da db p) (dsize da) s)) /\
       decode a (sub (ok_offset da db p) (dsize da) s) = Some x) \/
    (exists x, y = VErr x /\ is_ok p s = Some false /\
       match_result da db p s = Some (inr (sub (err_offset da db p) (dsize db) s)) /\
       decode b (sub (err_offset da db p) (dsize db) s) = Some x)).
Proof.
  intros Hw Hd. destruct (result_provider a b Hw) as [da [db [p [La [Lb [E L]]]]]].
  destruct (result_parts _ _ _ _ _ Hw La Lb E) as [Ga [Gb Gp]].
  rewrite (decode_result _ _ _ _ _ _ La Lb E) in Hd. unfold guarded in Hd.
  destruct (guard (result_d da db p) s) eqn:Hg; cbn in Hd; [|discriminate].
  apply guard_true in Hg. destruct Hg as [Hl Hb].
  exists da, db, p. repeat (split; [assumption|]).
  destruct (body_inv _ _ _ _ _ Gp _ eq_refl s y Hl Hd) as [[x [-> [H1 H2]]]|[x [-> [H1 H2]]]].
  - left. exists x. split; auto. split; auto. split; auto. eapply match_ok; eauto.
  - right. exists x. split; auto. split; auto. split; auto. eapply match_err; eauto.
Qed.
Lemma decode_result_intro_ok a b da db p s x : wf (TResult a b) -> layout a = Some da -> layout b = Some db ->
  provider_of da db = Some p -> length s = dsize (result_d da db p) -> is_bytes s ->
  is_ok p s = Some true -> decode a (sub (ok_offset da db p) (dsize da) s) = Some x ->
  decode (TResult a b) s = Some (VOk x).
Proof.
  intros Hw La Lb E Hl Hb Ho Hx. destruct (result_parts _ _ _ _ _ Hw La Lb E) as [Ga [Gb Gp]].
  rewrite (decode_result _ _ _ _ _ _ La Lb E). unfold guarded.
  rewrite (proj2 (guard_true _ _) (conj Hl Hb)). cbn. eapply body_ok; eauto.
Qed.
Lemma decode_result_intro_err a b da db p s x : wf (TResult a b) -> layout a = Some da -> layout b = Some db ->
  provider_of da db = Some p -> length s = dsize (result_d da db p) -> is_bytes s ->
  is_ok p s = Some false -> decode b (sub (err_offset da db p) (dsize db) s) = Some x ->
  decode (TResult a b) s = Some (VErr x).
Proof.
  intros Hw La Lb E Hl Hb Ho Hx. destruct (result_parts _ _ _ _ _ Hw La Lb E) as [Ga [Gb Gp]].
  rewrite (decode_result _ _ _ _ _ _ La Lb E). unfold guarded.
  rewrite (proj2 (guard_true _ _) (conj Hl Hb)). cbn. eapply body_err; eauto.
Qed.

Lemma run_dispatch k vs T M ps : shape k vs T M ps -> wf T -> forall s y, decode T s = Some y ->
  exists i t w x, nth_error vs i = Some t /\ run_matcher M T s = Some (k + i, w) /\
    decode t w = Some x /\ dispatch M y = Some (k + i, x).
Proof.
  induction 1 as [k t|k va vb ta tb ma mb pa pb Ha IHa Hb IHb]; intros Hw s y Hd.
  - exists 0, t, s, y. rewrite Nat.add_0_r. auto.
  - destruct (decode_result_inv _ _ _ _ Hw Hd) as [da [db [p [La [Lb [E [Ga [Gb [Gp [Hl [Hbs Hc]]]]]]]]]]].
    apply wf_result in Hw. destruct Hw as [Wa [Wb _]].
    cbn [run_matcher]. rewrite La, Lb, E.
    destruct Hc as [[x [-> [_ [-> Hx]]]]|[x [-> [_ [-> Hx]]]]].
    + destruct (IHa Wa _ _ Hx) as [i [t [w [z [H1 [H2 [H3 H4]]]]]]].
      exists i, t, w, z. split; [|auto]. rewrite nth_error_app1; auto. apply nth_error_Some. congruence.
    + destruct (IHb Wb _ _ Hx) as [i [t [w [z [H1 [H2 [H3 H4]]]]]]].
      exists (length va + i), t, w, z. rewrite Nat.add_assoc. split; [|auto].
      rewrite nth_error_app2 by lia. rewrite <- H1. f_equal. lia.
Qed.
Lemma eval_dispatch k vs T M ps : shape k vs T M ps -> wf T -> forall i t v x, nth_error vs i = Some t ->
  decode t v = Some x ->
  exists path s, nth_error ps i = Some path /\ eval_path T path v = Some s /\
    decode T s = Some (inject path x) /\ dispatch M (inject path x) = Some (k + i, x).
Proof.
  induction 1 as [k t|k va vb ta tb ma mb pa pb Ha IHa Hb IHb]; intros Hw i t' v x Hi Hv.
  - destruct i as [|i]; [|destruct i; discriminate]. cbn in Hi. injection Hi as <-.
    exists [], v. rewrite Nat.add_0_r. split; [reflexivity|]. split; [destruct t; reflexivity|].
    split; [exact Hv|reflexivity].
  - destruct (result_provider _ _ Hw) as [da [db [p [La [Lb [E L]]]]]].
    destruct (result_parts _ _ _ _ _ Hw La Lb E) as [Ga [Gb Gp]].
    pose proof Hw as Hw'. apply wf_result in Hw'. destruct Hw' as [Wa [Wb _]].
    pose proof (shape_paths _ _ _ _ _ Ha) as Hlp.
    destruct (Nat.lt_ge_cases i (length va)) as [Hlt|Hge].
    + rewrite nth_error_app1 in Hi by assumption.
      destruct (IHa Wa i t' v x Hi Hv) as [path [s [H1 [H2 [H3 H4]]]]].
      destruct (make_ok _ _ _ _ _ Ga Gb Gp _ eq_refl _ _ H3) as [s' [M1 [M2 [M3 [M4 M5]]]]].
      exists (true :: path), s'. split.
      { rewrite nth_error_app1 by (rewrite map_length; lia). apply map_nth_error, H1. }
      split; [cbn [eval_path]; rewrite La, Lb, E, H2; exact M1|].
      split; [|exact H4]. cbn [inject]. eapply decode_result_intro_ok; eauto.
    + rewrite nth_error_app2 in Hi by assumption.
      destruct (IHb Wb _ t' v x Hi Hv) as [path [s [H1 [H2 [H3 H4]]]]].
      destruct (make_err _ _ _ _ _ Ga Gb Gp _ eq_refl _ _ H3) as [s' [M1 [M2 [M3 [M4 M5]]]]].
      exists (false :: path), s'. split.
      { rewrite nth_error_app2 by (rewrite map_length; lia). rewrite map_length, Hlp. apply map_nth_error, H1. }
      split; [cbn [eval_path]; rewrite La, Lb, E, H2; exact M1|].
      split; [|cbn [inject dispatch]; rewrite H4; f_equal; f_equal; lia].
      cbn [inject]. eapply decode_result_intro_err; eauto.
Qed.
Lemma mut_dispatch k vs T M ps : shape k vs T M ps -> wf T -> forall f s y i t x0 x, decode T s = Some y ->
  dispatch M y = Some (k + i, x0) -> nth_error vs i = Some t -> decode t (f (k + i)) = Some x ->
  exists s' y', run_mut M T f s = Some s' /\ decode T s' = Some y' /\ dispatch M y' = Some (k + i, x).
Proof.
  induction 1 as [k t|k va vb ta tb ma mb pa pb Ha IHa Hb IHb]; intros Hw f s y i t' x0 x Hd Hs Hi Hf.
  - destruct i as [|i]; [|destruct i; discriminate]. cbn in Hi. injection Hi as <-.
    rewrite Nat.add_0_r in *. exists (f k), x. auto.
  - destruct (decode_result_inv _ _ _ _ Hw Hd) as [da [db [p [La [Lb [E [Ga [Gb [Gp [Hl [Hbs Hc]]]]]]]]]]].
    pose proof Hw as Hw'. apply wf_result in Hw'. destruct Hw' as [Wa [Wb _]].
    cbn [run_mut]. rewrite La, Lb, E.
    destruct Hc as [[z [-> [Ho [-> Hx]]]]|[z [-> [Ho [-> Hx]]]]]; cbn [dispatch] in Hs.
    + destruct (run_dispatch _ _ _ _ _ Ha Wa _ _ Hx) as [j [tj [w [xj [J1 [J2 [J3 J4]]]]]]].
      assert (j = i) by (rewrite J4 in Hs; injection Hs; intros; lia). subst j.
      assert (i < length va) as Hlt by (apply nth_error_Some; congruence).
      rewrite nth_error_app1 in Hi by assumption. assert (tj = t') by congruence. subst tj.
      destruct (IHa Wa f _ z i t' x0 x Hx Hs Hi Hf) as [s1 [y1 [-> [D1 D2]]]].
      destruct (guard_ok _ _ _ _ _ Ga Gp _ eq_refl s s1 y1 Hl Hbs Ho D1) as [s2 [G1 [G2 [G3 [G4 G5]]]]].
      exists s2, (VOk y1). split; [exact G1|]. split; [|exact D2]. eapply decode_result_intro_ok; eauto.
    + destruct (run_dispatch _ _ _ _ _ Hb Wb _ _ Hx) as [j [tj [w [xj [J1 [J2 [J3 J4]]]]]]].
      assert (i = length va + j) by (rewrite J4 in Hs; injection Hs; intros; lia). subst i.
      rewrite nth_error_app2 in Hi by lia. replace (length va + j - length va) with j in Hi by lia.
      assert (tj = t') by congruence. subst tj. rewrite Nat.add_assoc in Hs, Hf |- *.
      destruct (IHb Wb f _ z j t' x0 x Hx Hs Hi Hf) as [s1 [y1 [-> [D1 D2]]]].
      destruct (guard_err _ _ _ _ _ Gb Gp _ eq_refl s s1 y1 Hl Hbs Ho D1) as [s2 [G1 [G2 [G3 [G4 G5]]]]].
      exists s2, (VErr y1). split; [exact G1|]. split; [|exact D2]. eapply decode_result_intro_err; eauto.
Qed.

Lemma enum_shape vs : 2 <= length vs ->
  exists T M ps, enum_ty vs = Some T /\ enum_matcher vs = Some M /\ enum_paths vs = Some ps /\ shape 0 vs T M ps.
Proof.
  intros H. destruct (length vs) as [|n] eqn:El; [lia|].
  assert (vs <> []) as Hne by (destruct vs; [discriminate|congruence]).
  unfold enum_ty, enum_matcher, enum_paths, vmap, vmap_final. rewrite seq_length, El.
  destruct (Nat.ltb_spec (S n) 2); [lia|].
  destruct (recursion_shape (S n) vs 0 Hne ltac:(lia)) as [T [M [ps [E1 [E2 [E3 HS]]]]]].
  exists T, M, ps. split; [exact E1|]. split; [|split; [exact E3|exact HS]].
  rewrite El in E2. rewrite recursion_unfold in E2 by (rewrite seq_length; lia). rewrite seq_length in E2.
  pose proof (half_lt (S n) ltac:(lia)) as Hh.
  assert (forall fuel vs, vs <> [] -> length vs <= fuel ->
    recursion MLeaf MNode (S fuel) vs = recursion MLeaf MNode fuel vs) as Hfuel.
  { clear. induction fuel as [|fuel IH]; intros vs Hne Hl; [destruct vs; cbn in Hl; [congruence|lia]|].
    destruct (Nat.lt_ge_cases (length vs) 2) as [H2|H2].
    - destruct vs as [|a [|b vs]]; cbn in H2; try lia; reflexivity.
    - rewrite (recursion_unfold _ _ (S fuel) vs) by assumption. rewrite (recursion_unfold _ _ fuel vs) by assumption.
      pose proof (half_lt _ H2) as Hh.
      assert (length (firstn (length vs / 2) vs) = length vs / 2) by (rewrite firstn_length; lia).
      assert (length (skipn (length vs / 2) vs) = length vs - length vs / 2) by apply skipn_length.
      rewrite !IH; [reflexivity| | | |]; try lia;
      intros E; apply (f_equal (@length _)) in E; cbn in E; lia. }
  rewrite !Hfuel; [exact E2| | | |].
  - intros E. apply (f_equal (@length _)) in E. rewrite skipn_length, seq_length in E. cbn in E. lia.
  - rewrite skipn_length, seq_length. lia.
  - intros E. apply (f_equal (@length _)) in E. rewrite firstn_length, seq_length in E. cbn in E. lia.
  - rewrite firstn_length, seq_length. lia.
Qed.

Lemma enum_round_trip vs T i t v x : enum_ty vs = Some T -> wf T -> nth_error vs i = Some t -> decode t v = Some x ->
  exists s w y, enum_new vs i v = Some s /\ decode T s = Some y /\ enum_match vs s = Some (i, w) /\ decode t w = Some x.
Proof.
  intros HT Hw Hi Hv. assert (2 <= length vs) as H2.
  { unfold enum_ty in HT. destruct (Nat.ltb_spec (length vs) 2); [discriminate|lia]. }
  destruct (enum_shape vs H2) as [T' [M [ps [E1 [E2 [E3 HS]]]]]]. assert (T' = T) by congruence. subst T'.
  destruct (eval_dispatch _ _ _ _ _ HS Hw i t v x Hi Hv) as [path [s [H1 [H3 [H4 H5]]]]].
  destruct (run_dispatch _ _ _ _ _ HS Hw _ _ H4) as [j [tj [w [xj [J1 [J2 [J3 J4]]]]]]].
  rewrite H5 in J4. cbn in J4, J2. injection J4 as -> ->. assert (tj = t) by congruence. subst tj.
  exists s, w, (inject path xj). unfold enum_new, enum_match. rewrite E1, E2, E3, H1. auto.
Qed.
Lemma enum_mut_round_trip vs T i t s y w0 f x : enum_ty vs = Some T -> wf T -> decode T s = Some y ->
  enum_match vs s = Some (i, w0) -> nth_error vs i = Some t -> decode t (f i) = Some x ->
  exists s' y' w, enum_mut vs f s = Some s' /\ decode T s' = Some y' /\ enum_match vs s' = Some (i, w) /\ decode t w = Some x.
Proof.
  intros HT Hw Hd Hm Hi Hf. assert (2 <= length vs) as H2.
  { unfold enum_ty in HT. destruct (Nat.ltb_spec (length vs) 2); [discriminate|lia]. }
  destruct (enum_shape vs H2) as [T' [M [ps [E1 [E2 [E3 HS]]]]]]. assert (T' = T) by congruence. subst T'.
  unfold enum_match, enum_mut in *. rewrite E1, E2 in *.
  destruct (run_dispatch _ _ _ _ _ HS Hw _ _ Hd) as [j [tj [wj [xj [J1 [J2 [J3 J4]]]]]]].
  rewrite Hm in J2. cbn in J2. injection J2 as <- <-.
  destruct (mut_dispatch _ _ _ _ _ HS Hw f s y i t xj x Hd J4 Hi Hf) as [s' [y' [M1 [M2 M3]]]].
  destruct (run_dispatch _ _ _ _ _ HS Hw _ _ M2) as [k [tk [wk [xk [K1 [K2 [K3 K4]]]]]]].
  rewrite M3 in K4. cbn in K4, K2. injection K4 as <- <-. assert (tk = t) by congruence. subst tk.
  exists s', y', wk. auto.
Qed.
