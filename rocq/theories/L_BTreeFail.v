(** Lemmas on interrupted insertions in B-trees. *)
From Coq Require Import List Arith Bool Lia Permutation Sorted.
From Verif Require Import M_Import L_Import M_BTree S_BTree L_BTree L_BTreeIns L_BTreeSet L_BTreeTop M_BTreeFail S_BTreeFail.
Import ListNotations.

Definition kof (p : plan) : option kind := option_map fst p.
Lemma kind_eqb_eq k k' : kind_eqb k k' = true -> k = k'.
Proof. destruct k, k'; cbn; congruence. Qed.
Lemma tick_none k p : tick k p = None -> kof p = Some k.
Proof.
  destruct p as [[k' n]|]; cbn; [|discriminate]. destruct (kind_eqb k k') eqn:E; [|discriminate].
  apply kind_eqb_eq in E. subst. auto.
Qed.
Lemma tick_some k p p' : tick k p = Some p' -> kof p' = kof p.
Proof.
  destruct p as [[k' n]|]; cbn; [|injection 1 as <-; reflexivity].
  destruct (kind_eqb k k'); [destruct n; [discriminate|]|]; injection 1 as <-; reflexivity.
Qed.

Section Fail.
Context {T : Type} (cmp : T -> T -> comparison) (lim : nat) (repl : bool).
Hypothesis ORD : total_order cmp.
Hypothesis ODD : lim = 2 * (lim / 2) + 1.
Hypothesis LIM : 3 <= lim.
Notation heap := (heap T). Notation node := (node T). Notation entry := (option nat * T)%type.
Notation wf := (@wf T cmp lim). Notation sorted := (@sorted T cmp). Notation node_ok := (@node_ok T cmp lim).
Notation slot_ok := (@slot_ok T lim). Notation Ins := (@Ins T cmp). Notation pre_ok := (@pre_ok T cmp lim).

Lemma wf_drop_all f l : forall h R G, wf h (l ++ R) G -> (forall c, In c l -> ht (G c) < f) ->
  exists h', drop_all (drop_node f) h l = Ret h' /\ wf h' R G /\ keeps h h' /\ next h' = next h.
Proof.
  induction l as [|c l IH]; intros h R G W H; cbn [drop_all].
  - exists h. split; [reflexivity|]. split; [exact W|]. split; [apply keeps_refl|reflexivity].
  - destruct (wf_drop cmp lim f h (l ++ R) G c W) as (h1 & -> & W1 & K1 & N1); [apply H; cbn; auto|]. cbn [bind].
    destruct (IH h1 R G W1) as (h2 & -> & W2 & K2 & N2); [intros; apply H; cbn; auto|].
    exists h2. split; [reflexivity|]. split; [exact W2|]. split; [eapply keeps_trans; eauto|congruence].
Qed.
Lemma incr_all_app l m : forall h : heap, incr_all h (l ++ m) = bind (incr_all h l) (fun h1 => incr_all h1 m).
Proof. induction l as [|a l IH]; intros h; cbn; [reflexivity|]. destruct (incr h a); cbn; auto. Qed.
Lemma clone_entries_ok es : forall h R G p, wf h R G ->
  (forall a, In a (flat_map (fun e : entry => opt_list (fst e)) es) -> exists nd, mem h a = Some nd) ->
  exists h1 q, clone_entriesF h es p = Ret (h1, q) /\ keeps h h1 /\ next h1 = next h /\
    (forall b nd, mem h b = Some nd -> exists nd', mem h1 b = Some nd' /\ ents nd' = ents nd /\ gtr nd' = gtr nd) /\
    match q with
    | Some p1 => kof p1 = kof p /\ incr_all h (flat_map (fun e => opt_list (fst e)) es) = Ret h1 /\
                 wf h1 (flat_map (fun e => opt_list (fst e)) es ++ R) G
    | None => kof p = Some KClone /\ exists L, wf h1 (L ++ R) G
    end.
Proof.
  induction es as [|[s x] es IH]; intros h R G p W H; cbn [clone_entriesF].
  - exists h, (Some p). split; [reflexivity|]. split; [apply keeps_refl|]. split; [reflexivity|]. split; [eauto|]. cbn. auto.
  - destruct (tick KClone p) as [p1|] eqn:E.
    + cbn [flat_map fst] in *.
      destruct (wf_incr_all cmp lim (opt_list s) h R G W) as (h1 & E1 & W1 & K1 & N1 & M1).
      { intros a I. apply H. apply in_or_app. auto. }
      rewrite E1. cbn [bind].
      destruct (IH h1 (opt_list s ++ R) G p1 W1) as (h2 & q & E2 & K2 & N2 & M2 & X).
      { intros a I. destruct (H a) as (nd & M); [apply in_or_app; auto|]. destruct (M1 _ _ M) as (nd' & M' & _). eauto. }
      exists h2, q. split; [exact E2|]. split; [eapply keeps_trans; eauto|]. split; [congruence|]. split.
      { intros b nd M. destruct (M1 _ _ M) as (n1 & Q1 & Q2 & Q3). destruct (M2 _ _ Q1) as (n2 & Q4 & Q5 & Q6). exists n2. split; [auto|]. split; congruence. }
      apply tick_some in E. destruct q as [p2|].
      * destruct X as (X1 & X2 & X3). split; [congruence|]. rewrite incr_all_app, E1. cbn [bind]. split; [exact X2|].
        eapply wf_occ; [|exact X3]. intros a. rewrite !occ_app. lia.
      * destruct X as (X1 & L & X2). split; [congruence|]. exists (L ++ opt_list s). rewrite <- app_assoc. exact X2.
    + exists h, None. split; [reflexivity|]. split; [apply keeps_refl|]. split; [reflexivity|]. split; [eauto|].
      split; [apply tick_none; exact E|]. exists []. exact W.
Qed.
Lemma ht_child G nd i c : node_ok G nd i -> In c (children nd) -> S (ht (G c)) = ht i /\ lim / 2 <= sz (G c).
Proof.
  intros [O1 O2 O3 O4 O5 O6] I. apply in_children in I.
  assert (S : slot_ok G (ht i) (Some c)). { destruct I as [(e & I & <-)|<-]; auto. }
  destruct (ht i) as [|m]; [discriminate S|]. destruct S as (c' & E & A & B). injection E as <-. lia.
Qed.
Lemma make_mutF_ok f h R G a p : wf h (a :: R) G -> ht (G a) <= f ->
  exists h1 b q, make_mutF f h a p = Ret (h1, b, q) /\
    match q with
    | Some (p1, n) => make_mut h a = Ret (h1, b, n) /\ kof p1 = kof p
    | None => keeps h h1 /\ b = a /\ exists k L, kof p = Some k /\ (k = KClone \/ k = KCopy) /\ (k <> KClone -> L = []) /\ wf h1 (a :: L ++ R) G
    end.
Proof.
  intros W HF. destruct (wf_live _ _ _ _ _ a W) as (nd & H); [cbn; auto|]. pose proof (w_loc _ _ _ _ _ W a nd H) as OK.
  assert (GN : get_node h a = Ret nd) by (unfold get_node; rewrite H; reflexivity).
  unfold make_mutF, make_mut. rewrite GN. cbn [bind]. destruct (Nat.eqb_spec (rc nd) 1) as [E|E].
  { exists (take_node h a), a, (Some (p, nd)). auto. }
  assert (LV : forall c, In c (children nd) -> exists n, mem h c = Some n) by (intros; eapply wf_child; eauto).
  destruct (clone_entries_ok (ents nd) h (a :: R) G p W) as (h1 & q & E1 & K1 & N1 & M1 & X).
  { intros c I. apply LV. unfold children. apply in_or_app. auto. }
  rewrite E1. cbn [bind]. destruct q as [p1|].
  - destruct X as (X1 & X2 & X3).
    destruct (wf_incr_all cmp lim (opt_list (gtr nd)) h1 _ G X3) as (h2 & E2 & W2 & K2 & N2 & M2).
    { intros c I. destruct (LV c) as (n & M); [unfold children; apply in_or_app; auto|]. destruct (M1 _ _ M) as (n' & M' & _). eauto. }
    rewrite E2. cbn [bind]. unfold children at 2. rewrite incr_all_app, X2. cbn [bind]. rewrite E2. cbn [bind].
    destruct (tick KCopy p1) as [p2|] eqn:TK.
    + destruct (M1 _ _ H) as (n1 & Q1 & _). destruct (M2 _ _ Q1) as (n2 & Q2 & _).
      assert (LT : a < next h2). { rewrite N2, N1. eapply wf_lt; eauto. }
      unfold fresh, get_node. cbn [mem]. rewrite upd_ne by lia. rewrite Q2. cbn [bind].
      do 3 eexists. split; [reflexivity|]. split; [reflexivity|]. apply tick_some in TK. congruence.
    + destruct (wf_drop_all f (children nd) h2 (a :: R) G) as (h3 & E3 & W3 & K3 & N3).
      { eapply wf_occ; [|exact W2]. intros c. unfold children. rewrite !occ_app. lia. }
      { intros c I. destruct (ht_child _ _ _ _ OK I). lia. }
      rewrite E3. cbn [bind]. do 3 eexists. split; [reflexivity|]. split; [eapply keeps_trans; [|eapply keeps_trans]; eauto|]. split; [reflexivity|].
      apply tick_none in TK. exists KCopy, []. split; [congruence|]. split; [auto|]. split; [auto|]. exact W3.
  - destruct X as (X1 & L & X2). do 3 eexists. split; [reflexivity|]. split; [exact K1|]. split; [reflexivity|].
    exists KClone, L. split; [exact X1|]. split; [auto|]. split; [congruence|]. eapply wf_occ; [|exact X2]. intros c. rewrite occ_cons, !occ_app, occ_cons. lia.
Qed.
Lemma find_placeF_ok v es : forall i p, match find_placeF cmp v i es p with
  | Some (p1, q) => kof p1 = kof p /\ find_place cmp v i es = q
  | None => kof p = Some KCmp end.
Proof.
  induction es as [|[s x] es IH]; intros i p; cbn [find_placeF find_place]; [auto|].
  destruct (tick KCmp p) as [p1|] eqn:E; [|apply tick_none; exact E]. apply tick_some in E.
  destruct (cmp x v); auto. specialize (IH (S i) p1). destruct (find_placeF cmp v (S i) es p1) as [[p2 q]|]; [|congruence].
  destruct IH. split; [congruence|auto].
Qed.

(** What is left of a content. *)
Definition left (k : kind) (v : T) (l l' : list T) : Prop :=
  match k with
  | KCmp | KClone | KCopy => l' = l
  | KSplit => exists lo lost hi, Ins v l (lo ++ lost ++ hi) None /\ l' = lo ++ hi /\ lim / 2 < length lost
  | KFirst => False
  end.
Lemma left_ctx k v l l' pre post : left k v l l' ->
  (forall x, In x pre -> cmp x v = Lt) -> (forall x, In x post -> cmp x v = Gt) -> left k v (pre ++ l ++ post) (pre ++ l' ++ post).
Proof.
  intros H P Q. destruct k; cbn in *; try (subst; reflexivity); [|exact H].
  destruct H as (lo & lost & hi & I & -> & Z). exists (pre ++ lo), lost, (hi ++ post).
  split; [|split; [rewrite <- !app_assoc; reflexivity|exact Z]].
  pose proof (ins_ctx cmp _ _ _ _ pre post I P Q) as J. rewrite <- !app_assoc in *. exact J.
Qed.
Lemma left_sorted k v l l' : left k v l l' -> sorted l -> sorted l'.
Proof.
  intros H S. destruct k; cbn in H; try (subst; exact S); [|contradiction].
  destruct H as (lo & lost & hi & I & -> & _). pose proof (ins_sorted cmp ORD _ _ _ _ I S) as S1.
  apply (sorted_app cmp) in S1. destruct S1 as (S1 & S2 & S3). apply (sorted_app cmp) in S2. destruct S2 as (S2 & S4 & S5).
  apply (sorted_app cmp). split; [exact S1|]. split; [exact S4|]. intros x y A B. apply S3; auto. apply in_or_app. auto.
Qed.
Definition unwound (v : T) (p : plan) (h h' : heap) (R : list nat) (G : nat -> info) (a b : nat) : Prop :=
  keeps h h' /\ exists k L G', kof p = Some k /\ (k <> KClone -> L = []) /\ (forall c, In c R -> G' c = G c) /\
    wf h' (b :: L ++ R) G' /\ left k v (cont (G a)) (cont (G' b)) /\ ht (G' b) = ht (G a) /\ Nat.min (lim / 2) (sz (G a)) <= sz (G' b).

(** A full node whose right half cannot be put in a node of its own. *)
Lemma splitF_ok f h R G b nd n l p : wf h (children nd ++ R) G -> mem h b = None -> b < next h -> rc nd = 1 -> pre_ok G nd n l -> n <= f ->
  exists h' q, splitF lim f h b nd p = Ret (h', q) /\
    match q with
    | Some (p1, s) => split lim h b nd = Ret (h', s) /\ kof p1 = kof p
    | None => kof p = Some KSplit /\ keeps_but b h h' /\ exists G', (forall c, In c R -> G' c = G c) /\ wf h' (b :: R) G' /\
              ht (G' b) = n /\ sz (G' b) = lim / 2 /\ exists lost, l = cont (G' b) ++ lost /\ lim / 2 < length lost
    end.
Proof.
  intros W Hb Lb E Q HF. pose proof (split_ok cmp lim ODD LIM h R G b nd n l W Hb Lb E Q) as SO.
  destruct Q as [Q1 Q2 Q3 Q4 Q5]. destruct (wf_dead _ _ _ _ _ _ W Hb) as (D1 & _). rewrite occ_app in D1.
  unfold splitF. destruct (Nat.eqb_spec (length (ents nd)) lim) as [F|F].
  2:{ exists (put_node h b nd), (Some (p, None)). split; [reflexivity|]. split; [|reflexivity]. unfold split.
      apply Nat.eqb_neq in F. rewrite F. reflexivity. }
  destruct (tick KSplit p) as [p1|] eqn:TK.
  - destruct SO as (h' & s & G' & -> & _). cbn [bind]. exists h', (Some (p1, s)). split; [reflexivity|]. split; [reflexivity|]. eapply tick_some; eauto.
  - clear SO. destruct nd as [k es g]. cbn [ents gtr rc] in *. subst k.
    destruct (nth_error es (lim / 2)) as [[sm piv]|] eqn:P.
    2:{ apply nth_error_None in P. lia. }
    destruct (nth_error_split _ _ P) as (es1 & es2 & -> & L1). rewrite app_length in F. cbn in F.
    assert (L2 : length es2 = lim / 2) by lia.
    destruct (Nat.ltb_spec lim (lim / 2 + 1 + lim / 2)) as [X|_]; [lia|].
    assert (F1 : firstn (lim / 2) (skipn (lim / 2 + 1) (es1 ++ (sm, piv) :: es2)) = es2).
    { rewrite <- L1 at 2. rewrite Nat.add_1_r, skipn_at. apply firstn_all2. lia. }
    assert (F2 : firstn (lim / 2) (es1 ++ (sm, piv) :: es2) = es1) by (rewrite <- L1; apply firstn_at).
    rewrite F1, F2.
    assert (SL : forall c, In c (children (Node 1 es2 g)) -> ht (G c) < f).
    { intros c I. apply in_children in I. cbn [ents gtr] in I.
      assert (S : slot_ok G n (Some c)).
      { destruct I as [(e & I & <-)| <-]; [|exact Q3]. apply Q2. apply in_or_app. cbn. auto. }
      destruct n as [|m]; [discriminate S|]. destruct S as (c' & Ec & A & B). injection Ec as <-. lia. }
    destruct (wf_drop_all f (children (Node 1 es2 g)) h (children (Node 1 es1 sm) ++ R) G) as (h1 & E1 & W1 & K1 & N1); [|exact SL|].
    { eapply wf_occ; [|exact W]. intros a. rewrite children_split. unfold children. cbn [ents gtr]. rewrite !occ_app. lia. }
    rewrite E1. cbn [bind].
    assert (S5 : sorted (inorder_es G es1 ++ below G sm ++ piv :: inorder G es2 g)).
    { rewrite Q1 in Q5. unfold inorder in Q5. rewrite inorder_es_app, inorder_es_cons in Q5. rewrite <- !app_assoc in Q5. exact Q5. }
    rewrite app_assoc in S5. apply (sorted_app cmp) in S5. destruct S5 as (S5 & _ & _).
    assert (OKl : node_ok G (Node 1 es1 sm) (Info n (inorder G es1 sm) (lim / 2))).
    { constructor; cbn [ht cont sz ents gtr]; auto; try lia.
      - intros e I. apply Q2. apply in_or_app. auto.
      - apply (Q2 (sm, piv)). apply in_or_app. cbn. auto. }
    assert (M1 : mem h1 b = None) by (apply K1; auto).
    assert (W2 := wf_close _ _ _ _ _ b _ _ W1 M1 ltac:(lia) eq_refl OKl).
    eexists _, None. split; [reflexivity|]. split; [apply tick_none; exact TK|]. split.
    { eapply (keeps_keeps_but lim ODD LIM); [exact K1|apply (keeps_but_put lim ODD LIM)]. }
    exists (upd G b (Info n (inorder G es1 sm) (lim / 2))). split.
    { intros c I. apply upd_ne. intros ->. apply occ_in in I. lia. }
    split; [exact W2|]. rewrite upd_eq. cbn [ht sz cont]. split; [reflexivity|]. split; [reflexivity|].
    exists (piv :: inorder G es2 g). split.
    + rewrite Q1. unfold inorder. rewrite inorder_es_app, inorder_es_cons, <- !app_assoc. reflexivity.
    + cbn [length]. unfold inorder. rewrite app_length. assert (Z : length es2 <= length (inorder_es G es2)); [|lia].
      clear. induction es2 as [|[s x] es IH]; [cbn; lia|]. rewrite inorder_es_cons, app_length. cbn [length]. lia.
Qed.

Lemma finishF_ok f h R G0 G b nd n l v a p : wf h (children nd ++ R) G -> mem h b = None -> b < next h -> rc nd = 1 ->
  pre_ok G nd n l -> (forall c, In c R -> G c = G0 c) -> n = ht (G0 a) -> n <= f -> Ins v (cont (G0 a)) l None ->
  exists h' (q : option (plan * outcome T)), (do (h2, s) <- splitF lim f h b nd p ;
            Ret (h2, b, match s with
                        | None => None
                        | Some (p2, None) => Some (p2, inr None)
                        | Some (p2, Some splits) => Some (p2, inl splits)
                        end : option (plan * outcome T))) = Ret (h', b, q) /\
    match q with
    | Some (p1, o) => (do (h2, s) <- split lim h b nd ;
                   Ret (h2, b, match s with None => inr None | Some splits => inl splits end : outcome T)) = Ret (h', b, o) /\ kof p1 = kof p
    | None => kof p = Some KSplit /\ keeps_but b h h' /\ exists G', (forall c, In c R -> G' c = G0 c) /\ wf h' (b :: R) G' /\
              left KSplit v (cont (G0 a)) (cont (G' b)) /\ ht (G' b) = ht (G0 a) /\ sz (G' b) = lim / 2
    end.
Proof.
  intros W Hb Lb E Q A N HF I. destruct (splitF_ok f h R G b nd n l p W Hb Lb E Q HF) as (h' & q & -> & X). cbn [bind].
  destruct q as [[p1 s]|].
  - destruct X as (-> & X). cbn [bind]. destruct s as [s|]; do 2 eexists; (split; [reflexivity|]); split; auto.
  - destruct X as (X1 & X2 & G' & X3 & X4 & X5 & X6 & lost & X7 & X8). do 2 eexists. split; [reflexivity|]. split; [exact X1|]. split; [exact X2|].
    exists G'. split; [intros c Ic; rewrite X3, A by auto; reflexivity|]. split; [exact X4|]. split; [|subst n; auto].
    exists (cont (G' b)), lost, []. rewrite !app_nil_r, <- X7. auto.
Qed.
Theorem insert_innerF_ok v f : forall h R G a p, wf h (a :: R) G -> ht (G a) < f ->
  exists h' b q, insert_innerF cmp lim f h a v p = Ret (h', b, q) /\
    match q with
    | Some (p1, o) => insert_inner cmp lim f h a v = Ret (h', b, o) /\ kof p1 = kof p
    | None => unwound v p h h' R G a b
    end.
Proof.
  induction f as [|f IH]; intros h R G a p W F; [lia|].
  destruct (make_mutF_ok f h R G a p W ltac:(lia)) as (h1 & b & q & E0 & X0).
  cbn [insert_innerF]. rewrite E0. cbn [bind]. destruct q as [[p1 n]|].
  2:{ destruct X0 as (K & -> & k & L & X1 & X2 & X3 & X4). exists h1, a, None. split; [reflexivity|]. split; [exact K|].
      exists k, L, G. split; [exact X1|]. split; [exact X3|]. split; [auto|]. split; [exact X4|]. split; [destruct X2; subst; reflexivity|]. split; [reflexivity|lia]. }
  destruct X0 as (E1' & KP1).
  destruct (wf_make_mut _ _ _ _ _ _ W) as (h1' & b' & n' & E1 & W1 & Hb & Lb & RC & OK & K1 & NB).
  rewrite E1' in E1. injection E1 as <- <- <-. unfold unwound. rewrite <- KP1. clear E0 KP1.
  assert (KB : forall h', keeps_but b h1 h' -> keeps h h') by (intros; eapply (keeps_but_compose lim ODD LIM); eauto).
  cbn [insert_inner]. rewrite E1'. cbn [bind].
  pose proof (find_placeF_ok v (ents n) 0 p1) as FF. destruct (find_placeF cmp v 0 (ents n) p1) as [[p2 q]|].
  2:{ do 3 eexists. split; [reflexivity|]. split; [apply KB, (keeps_but_put lim ODD LIM)|]. exists KCmp, [], (upd G b (G a)).
      split; [exact FF|]. split; [auto|]. destruct (wf_dead _ _ _ _ _ _ W1 Hb) as (D1 & _). rewrite occ_app in D1. split.
      { intros c I. apply upd_ne. intros ->. apply occ_in in I. lia. }
      split; [apply wf_close; auto|]. rewrite upd_eq. split; [reflexivity|]. split; [reflexivity|lia]. }
  destruct FF as (KP2 & FP0). rewrite FP0. rewrite <- KP2. clear KP2.
  destruct n as [k es g]. cbn [ents gtr rc] in *. subst k.
  destruct OK as [O1 O2 O3 O4 O5 O6]. cbn [ents gtr] in *.
  pose proof (find_place_ok cmp lim ODD LIM v es 0) as FP. rewrite FP0 in FP. clear FP0. destruct q as [i x|i s|].
  - (* replacing *) do 3 eexists. split; [reflexivity|]. split; reflexivity.
  - (* before an entry *)
    destruct FP as (es1 & x & es2 & -> & -> & FL & FE). cbn [Nat.add].
    assert (C : cont (G a) = inorder_es G es1 ++ below G s ++ x :: inorder G es2 g).
    { rewrite O1. unfold inorder. rewrite inorder_es_app, inorder_es_cons, <- !app_assoc. reflexivity. }
    assert (SO : sorted (inorder_es G es1 ++ below G s ++ x :: inorder G es2 g)) by (rewrite <- C; exact O6).
    pose proof (below_lt cmp ORD v G es1 _ SO FL) as LO.
    assert (HI : forall y, In y (x :: inorder G es2 g) -> cmp y v = Gt).
    { rewrite app_assoc in SO. eapply (above_gt cmp ORD); eauto. }
    assert (S1 : forall e, In e es1 -> slot_ok G (ht (G a)) (fst e)) by (intros; apply O2; apply in_or_app; auto).
    assert (S2 : forall e, In e es2 -> slot_ok G (ht (G a)) (fst e)) by (intros; apply O2; apply in_or_app; cbn; auto).
    assert (S0 : slot_ok G (ht (G a)) s) by (apply (O2 (s, x)); apply in_or_app; cbn; auto).
    rewrite children_split in W1. rewrite app_length in O4, O5. cbn in O4, O5.
    destruct s as [c|].
    + (* through a child *)
      set (oth := flat_map (fun e => opt_list (fst e)) es1 ++ flat_map (fun e => opt_list (fst e)) es2 ++ opt_list g ++ R).
      assert (Wc : wf h1 (c :: oth) G).
      { eapply wf_occ; [|exact W1]. intros y. unfold oth. cbn [opt_list]. rewrite occ_cons, !occ_app, occ_cons. cbn. lia. }
      destruct (ht (G a)) as [|m] eqn:HT; [discriminate S0|]. destruct S0 as (c' & Ec & Hc & Zc). injection Ec as <-.
      destruct (IH h1 oth G c p2 Wc ltac:(lia)) as (h2 & d & o & E2 & X). rewrite E2. cbn [bind].
      assert (IN1 : forall e y, In e es1 -> fst e = Some y -> In y oth).
      { intros e y Ie Ey. unfold oth. apply in_or_app. left. apply in_flat_map. exists e. rewrite Ey. cbn. auto. }
      assert (IN2 : forall e y, In e es2 -> fst e = Some y -> In y oth).
      { intros e y Ie Ey. unfold oth. apply in_or_app. right. apply in_or_app. left. apply in_flat_map. exists e. rewrite Ey. cbn. auto. }
      assert (IN3 : forall y, g = Some y -> In y oth).
      { intros y ->. unfold oth. rewrite !in_app_iff. cbn. auto. }
      assert (INR : forall y, In y R -> In y oth) by (intros; unfold oth; rewrite !in_app_iff; auto).
      assert (EXT : forall G2, (forall y, In y oth -> G2 y = G y) -> inorder_es G2 es1 = inorder_es G es1 /\ inorder G2 es2 g = inorder G es2 g /\
        (forall e, In e es1 -> slot_ok G2 (S m) (fst e)) /\ (forall e, In e es2 -> slot_ok G2 (S m) (fst e)) /\ slot_ok G2 (S m) g).
      { intros G2 A2. split; [|split; [|split; [|split]]].
        - pose proof (inorder_ext G G2 es1 None) as Q. unfold inorder in Q. cbn in Q. rewrite !app_nil_r in Q. apply Q; [|discriminate].
          intros. apply A2. eauto.
        - apply inorder_ext; intros; apply A2; eauto.
        - intros e Ie. eapply slot_ok_ext; [|apply S1; exact Ie]. intros; apply A2; eauto.
        - intros e Ie. eapply slot_ok_ext; [|apply S2; exact Ie]. intros; apply A2; eauto.
        - eapply slot_ok_ext; [|exact O3]; intros; apply A2; eauto. }
      destruct o as [[p3 o]|].
      * destruct X as (X & KP3). rewrite X. cbn [bind]. rewrite <- KP3.
        destruct (insert_inner_ok cmp lim ORD ODD LIM v f h1 oth G c Wc ltac:(lia)) as (h2' & d' & o' & G2 & E2' & K2 & A2 & SP).
        rewrite X in E2'. injection E2' as <- <- <-.
        destruct o as [[r piv]|r]; cbn [ins_spec] in SP; [|do 3 eexists; split; [reflexivity|split; reflexivity]].
        assert (Hb2 : mem h2 b = None) by (apply K2; auto). assert (Lb2 : b < next h2) by (destruct K2; lia).
        destruct (EXT G2 A2) as (X1 & X2 & T1 & T2 & T3).
        destruct SP as (W2 & I2 & H2 & H3 & Z2 & Z3). rewrite set_at.
        rewrite (inner_insert_at lim) by (rewrite app_length; cbn; lia). cbn [bind].
        assert (I : Ins v (cont (G a)) (inorder_es G es1 ++ (cont (G2 d) ++ piv :: cont (G2 r)) ++ x :: inorder G es2 g) None).
        { rewrite C. apply ins_ctx; auto. }
        lazymatch type of I with Ins _ _ ?L _ => destruct (finishF_ok f h2 R G G2 b (Node 1 (es1 ++ (Some d, piv) :: (Some r, x) :: es2) g) (S m) L v a p3)
          with (9 := I) as (h3 & o3 & E3 & Y) end; [| | | | | | | |].
        -- eapply wf_occ; [|exact W2]. intros y. rewrite children_split. cbn [flat_map opt_list fst].
           unfold oth. rewrite !occ_cons, !occ_app, !occ_cons. cbn. lia.
        -- exact Hb2.
        -- exact Lb2.
        -- reflexivity.
        -- constructor; cbn [ents gtr].
           ++ rewrite <- X2. unfold inorder. rewrite inorder_es_app, !inorder_es_cons, X1. cbn [below].
              repeat (rewrite <- !app_assoc; cbn [app]). reflexivity.
           ++ intros e Ie. apply in_app_or in Ie. destruct Ie as [Ie|[<-|[<-|Ie]]]; auto; cbn [fst L_BTree.slot_ok]; eexists; split; try reflexivity; lia.
           ++ exact T3.
           ++ rewrite app_length. cbn. lia.
           ++ eapply (ins_sorted cmp ORD); eauto.
        -- auto.
        -- auto.
        -- lia.
        -- exists h3, b, o3. split; [exact E3|]. destruct o3 as [[p4 o3]|]; [exact Y|].
           destruct Y as (Y1 & Y2 & G3 & Y3 & Y4 & Y5 & Y6 & Y7). split; [apply KB; eapply (keeps_keeps_but lim ODD LIM); eauto|].
           exists KSplit, [], G3. split; [exact Y1|]. split; [auto|]. split; [exact Y3|]. split; [exact Y4|]. split; [exact Y5|]. split; [congruence|lia].
      * destruct X as (K2 & k & L & G2 & X1 & X2 & A2 & W2 & LE & H2 & Z2).
        assert (Hb2 : mem h2 b = None) by (apply K2; auto). assert (Lb2 : b < next h2) by (destruct K2; lia).
        rewrite set_at. exists (put_node h2 b (Node 1 (es1 ++ (Some d, x) :: es2) g)), b, None. split; [reflexivity|].
        assert (KK : keeps_but b h1 (put_node h2 b (Node 1 (es1 ++ (Some d, x) :: es2) g))).
        { eapply (keeps_keeps_but lim ODD LIM); [exact K2|apply (keeps_but_put lim ODD LIM)]. }
        split; [apply KB; exact KK|].
        destruct (EXT G2 A2) as (XX1 & XX2 & T1 & T2 & T3).
        set (l' := inorder_es G es1 ++ cont (G2 d) ++ x :: inorder G es2 g).
        assert (LE' : left k v (cont (G a)) l').
        { rewrite C. apply left_ctx; auto. }
        assert (Wc2 : wf h2 (children (Node 1 (es1 ++ (Some d, x) :: es2) g) ++ (L ++ R)) G2).
        { eapply wf_occ; [|exact W2]. intros y. rewrite children_split. unfold oth. rewrite !occ_cons, !occ_app. cbn [opt_list]. rewrite occ_cons. cbn. lia. }
        destruct (wf_dead _ _ _ _ _ _ Wc2 Hb2) as (D1 & _). rewrite !occ_app in D1.
        exists k, L, (upd G2 b (Info (S m) l' (length (es1 ++ (Some d, x) :: es2)))). split; [exact X1|]. split; [exact X2|]. split.
        { intros y Iy. rewrite upd_ne; [apply A2; auto|]. intros ->. apply occ_in in Iy. lia. }
        split; [|rewrite upd_eq; cbn [cont ht sz]; split; [exact LE'|split; [congruence|rewrite app_length; cbn; lia]]].
        apply wf_close; auto. constructor; cbn [ents gtr cont ht sz].
        -- unfold l'. rewrite <- XX2. unfold inorder. rewrite inorder_es_app, !inorder_es_cons, XX1. cbn [below].
           repeat (rewrite <- !app_assoc; cbn [app]). reflexivity.
        -- intros e Ie. apply in_app_or in Ie. destruct Ie as [Ie|[<-|Ie]]; auto; cbn [fst L_BTree.slot_ok]; eexists; split; try reflexivity; lia.
        -- exact T3.
        -- reflexivity.
        -- rewrite app_length. cbn. lia.
        -- eapply left_sorted; eauto.
    + (* in a leaf *)
      rewrite (inner_insert_at lim) by (rewrite app_length; cbn; lia). cbn [bind]. cbn [below app] in C.
      assert (HT : ht (G a) = 0). { destruct (ht (G a)); [reflexivity|]. destruct S0 as (? & ? & _). discriminate. }
      assert (I : Ins v (cont (G a)) (inorder_es G es1 ++ [v] ++ x :: inorder G es2 g) None).
      { rewrite C. apply (ins_ctx cmp v [] [v]); auto. apply ins_empty. }
      lazymatch type of I with Ins _ _ ?L _ => destruct (finishF_ok f h1 R G G b (Node 1 (es1 ++ (None, v) :: (None, x) :: es2) g) (ht (G a)) L v a p2)
        with (9 := I) as (h3 & o3 & E3 & Y) end; [| | | | | | | |].
      * rewrite children_split. exact W1.
      * exact Hb.
      * exact Lb.
      * reflexivity.
      * constructor; cbn [ents gtr].
        -- unfold inorder. rewrite inorder_es_app, !inorder_es_cons. cbn [below app].
           repeat (rewrite <- !app_assoc; cbn [app]). reflexivity.
        -- intros e Ie. apply in_app_or in Ie. destruct Ie as [Ie|[<-|[<-|Ie]]]; auto; rewrite HT; reflexivity.
        -- exact O3.
        -- rewrite app_length. cbn. lia.
        -- eapply (ins_sorted cmp ORD); eauto.
      * auto.
      * auto.
      * lia.
      * exists h3, b, o3. split; [exact E3|]. destruct o3 as [[p4 o3]|]; [exact Y|].
        destruct Y as (Y1 & Y2 & G3 & Y3 & Y4 & Y5 & Y6 & Y7). split; [apply KB; exact Y2|].
        exists KSplit, [], G3. split; [exact Y1|]. split; [auto|]. split; [exact Y3|]. split; [exact Y4|]. split; [exact Y5|]. split; [congruence|lia].
  - (* after all entries *)
    pose proof (below_lt cmp ORD v G es (below G g)) as LO. unfold inorder in O1. rewrite <- O1 in LO. specialize (LO O6 FP).
    unfold children in W1. cbn [ents gtr] in W1.
    destruct g as [c|].
    + set (oth := flat_map (fun e => opt_list (fst e)) es ++ R).
      assert (Wc : wf h1 (c :: oth) G).
      { eapply wf_occ; [|exact W1]. intros y. unfold oth. cbn [opt_list]. rewrite occ_cons, !occ_app, occ_cons. cbn. lia. }
      destruct (ht (G a)) as [|m] eqn:HT; [discriminate O3|]. destruct O3 as (c' & Ec & Hc & Zc). injection Ec as <-.
      destruct (IH h1 oth G c p2 Wc ltac:(lia)) as (h2 & d & o & E2 & X). rewrite E2. cbn [bind].
      assert (IN1 : forall e y, In e es -> fst e = Some y -> In y oth).
      { intros e y Ie Ey. unfold oth. apply in_or_app. left. apply in_flat_map. exists e. rewrite Ey. cbn. auto. }
      assert (INR : forall y, In y R -> In y oth) by (intros; unfold oth; rewrite !in_app_iff; auto).
      assert (EXT : forall G2, (forall y, In y oth -> G2 y = G y) -> inorder_es G2 es = inorder_es G es /\ (forall e, In e es -> slot_ok G2 (S m) (fst e))).
      { intros G2 A2. split.
        - pose proof (inorder_ext G G2 es None) as Q. unfold inorder in Q. cbn in Q. rewrite !app_nil_r in Q. apply Q; [|discriminate].
          intros. apply A2. eauto.
        - intros e Ie. eapply slot_ok_ext; [|apply O2; exact Ie]. intros; apply A2; eauto. }
      cbn [below] in O1.
      destruct o as [[p3 o]|].
      * destruct X as (X & KP3). rewrite X. cbn [bind]. rewrite <- KP3.
        destruct (insert_inner_ok cmp lim ORD ODD LIM v f h1 oth G c Wc ltac:(lia)) as (h2' & d' & o' & G2 & E2' & K2 & A2 & SP).
        rewrite X in E2'. injection E2' as <- <- <-.
        destruct o as [[r piv]|r]; cbn [ins_spec] in SP; [|do 3 eexists; split; [reflexivity|split; reflexivity]].
        assert (Hb2 : mem h2 b = None) by (apply K2; auto). assert (Lb2 : b < next h2) by (destruct K2; lia).
        destruct (EXT G2 A2) as (X1 & T1).
        destruct SP as (W2 & I2 & H2 & H3 & Z2 & Z3). rewrite (inner_push_at lim) by lia. cbn [bind].
        assert (I : Ins v (cont (G a)) (inorder_es G es ++ (cont (G2 d) ++ piv :: cont (G2 r)) ++ []) None).
        { rewrite O1, <- (app_nil_r (cont (G c))). apply ins_ctx; auto. intros ? []. }
        lazymatch type of I with Ins _ _ ?L _ => destruct (finishF_ok f h2 R G G2 b (Node 1 (es ++ [(Some d, piv)]) (Some r)) (S m) L v a p3)
          with (9 := I) as (h3 & o3 & E3 & Y) end; [| | | | | | | |].
        -- eapply wf_occ; [|exact W2]. intros y. rewrite children_split. cbn [flat_map opt_list fst].
           unfold oth. rewrite !occ_cons, !occ_app, !occ_cons. cbn. lia.
        -- exact Hb2.
        -- exact Lb2.
        -- reflexivity.
        -- constructor; cbn [ents gtr].
           ++ unfold inorder. rewrite inorder_es_app, !inorder_es_cons, X1. cbn [below inorder_es flat_map].
              repeat (rewrite <- ?app_assoc, ?app_nil_r; cbn [app]). reflexivity.
           ++ intros e Ie. apply in_app_or in Ie. destruct Ie as [Ie|[<-|[]]]; auto; cbn [fst L_BTree.slot_ok]; eexists; split; try reflexivity; lia.
           ++ cbn [L_BTree.slot_ok]. eexists; split; try reflexivity; lia.
           ++ rewrite app_length. cbn. lia.
           ++ eapply (ins_sorted cmp ORD); eauto.
        -- auto.
        -- auto.
        -- lia.
        -- exists h3, b, o3. split; [exact E3|]. destruct o3 as [[p4 o3]|]; [exact Y|].
           destruct Y as (Y1 & Y2 & G3 & Y3 & Y4 & Y5 & Y6 & Y7). split; [apply KB; eapply (keeps_keeps_but lim ODD LIM); eauto|].
           exists KSplit, [], G3. split; [exact Y1|]. split; [auto|]. split; [exact Y3|]. split; [exact Y4|]. split; [exact Y5|]. split; [congruence|lia].
      * destruct X as (K2 & k & L & G2 & X1 & X2 & A2 & W2 & LE & H2 & Z2).
        assert (Hb2 : mem h2 b = None) by (apply K2; auto). assert (Lb2 : b < next h2) by (destruct K2; lia).
        exists (put_node h2 b (Node 1 es (Some d))), b, None. split; [reflexivity|].
        assert (KK : keeps_but b h1 (put_node h2 b (Node 1 es (Some d)))).
        { eapply (keeps_keeps_but lim ODD LIM); [exact K2|apply (keeps_but_put lim ODD LIM)]. }
        split; [apply KB; exact KK|].
        destruct (EXT G2 A2) as (XX1 & T1).
        set (l' := inorder_es G es ++ cont (G2 d) ++ []).
        assert (LE' : left k v (cont (G a)) l').
        { rewrite O1, <- (app_nil_r (cont (G c))). apply left_ctx; auto. intros ? []. }
        assert (Wc2 : wf h2 (children (Node 1 es (Some d)) ++ (L ++ R)) G2).
        { eapply wf_occ; [|exact W2]. intros y. unfold children. cbn [ents gtr opt_list]. unfold oth. rewrite !occ_cons, !occ_app, occ_cons. cbn. lia. }
        destruct (wf_dead _ _ _ _ _ _ Wc2 Hb2) as (D1 & _). rewrite !occ_app in D1.
        exists k, L, (upd G2 b (Info (S m) l' (length es))). split; [exact X1|]. split; [exact X2|]. split.
        { intros y Iy. rewrite upd_ne; [apply A2; auto|]. intros ->. apply occ_in in Iy. lia. }
        split; [|rewrite upd_eq; cbn [cont ht sz]; split; [exact LE'|split; [congruence|lia]]].
        apply wf_close; auto. constructor; cbn [ents gtr cont ht sz].
        -- unfold l', inorder. rewrite XX1. cbn [below]. rewrite app_nil_r. reflexivity.
        -- exact T1.
        -- cbn [L_BTree.slot_ok]. eexists; split; try reflexivity; lia.
        -- reflexivity.
        -- lia.
        -- eapply left_sorted; eauto.
    + rewrite (inner_push_at lim) by lia. cbn [bind]. cbn [below] in O1.
      assert (HT : ht (G a) = 0). { destruct (ht (G a)); [reflexivity|]. destruct O3 as (? & ? & _). discriminate. }
      assert (I : Ins v (cont (G a)) (inorder_es G es ++ [v] ++ []) None).
      { rewrite O1. apply (ins_ctx cmp v [] [v] None _ []); auto; [apply ins_empty|intros ? []]. }
      lazymatch type of I with Ins _ _ ?L _ => destruct (finishF_ok f h1 R G G b (Node 1 (es ++ [(None, v)]) None) (ht (G a)) L v a p2)
        with (9 := I) as (h3 & o3 & E3 & Y) end; [| | | | | | | |].
      * rewrite children_split. cbn [flat_map opt_list app] in *. rewrite !app_nil_r in *. exact W1.
      * exact Hb.
      * exact Lb.
      * reflexivity.
      * constructor; cbn [ents gtr].
        -- unfold inorder. rewrite inorder_es_app, !inorder_es_cons. cbn. rewrite !app_nil_r. reflexivity.
        -- intros e Ie. apply in_app_or in Ie. destruct Ie as [Ie|[<-|[]]]; auto; rewrite HT; reflexivity.
        -- exact O3.
        -- rewrite app_length. cbn. lia.
        -- eapply (ins_sorted cmp ORD); eauto.
      * auto.
      * auto.
      * lia.
      * exists h3, b, o3. split; [exact E3|]. destruct o3 as [[p4 o3]|]; [exact Y|].
        destruct Y as (Y1 & Y2 & G3 & Y3 & Y4 & Y5 & Y6 & Y7). split; [apply KB; exact Y2|].
        exists KSplit, [], G3. split; [exact Y1|]. split; [auto|]. split; [exact Y3|]. split; [exact Y4|]. split; [exact Y5|]. split; [congruence|lia].
Qed.
End Fail.
