(** Lemmas on the B-tree model: what insertion does to the content of nodes. *)
From Coq Require Import List Arith Bool Lia Permutation Sorted.
From Verif Require Import M_Import L_Import M_BTree S_BTree L_BTree.
Import ListNotations.

Lemma nth_at {A} (l1 : list A) x l2 : nth_error (l1 ++ x :: l2) (length l1) = Some x.
Proof. rewrite nth_error_app2 by lia. rewrite Nat.sub_diag. reflexivity. Qed.
Lemma firstn_at {A} (l1 : list A) l2 : firstn (length l1) (l1 ++ l2) = l1.
Proof. rewrite firstn_app, Nat.sub_diag, firstn_all. cbn. apply app_nil_r. Qed.
Lemma skipn_at {A} (l1 : list A) x l2 : skipn (S (length l1)) (l1 ++ x :: l2) = l2.
Proof. rewrite skipn_app. rewrite skipn_all2 by lia. replace (S (length l1) - length l1) with 1 by lia. reflexivity. Qed.

Section Ins.
Context {T : Type} (cmp : T -> T -> comparison) (lim : nat).
Hypothesis ORD : total_order cmp.
Hypothesis ODD : lim = 2 * (lim / 2) + 1.
Hypothesis LIM : 3 <= lim.
Notation heap := (heap T). Notation node := (node T). Notation entry := (option nat * T)%type.
Notation wf := (@wf T cmp lim). Notation sorted := (@sorted T cmp). Notation node_ok := (@node_ok T cmp lim).
Notation slot_ok := (@slot_ok T lim).

(** Sorted lists. *)
Lemma sorted_app l m : sorted (l ++ m) <-> sorted l /\ sorted m /\ (forall x y, In x l -> In y m -> cmp x y = Lt).
Proof.
  induction l as [|a l IH]; cbn.
  - split; [intros H; split; [constructor|split; [exact H|intros ? ? []]]|tauto].
  - split.
    + intros H. inversion H as [|? ? H1 H2]; subst. apply IH in H1. destruct H1 as (A & B & C).
      rewrite Forall_app in H2. destruct H2 as (F1 & F2). split; [constructor; auto|]. split; [exact B|].
      intros x y [<-|I] J; [|auto]. rewrite Forall_forall in F2. auto.
    + intros (A & B & C). inversion A as [|? ? H1 H2]; subst. constructor.
      * apply IH. split; [auto|split; auto].
      * rewrite Forall_app. split; [auto|]. apply Forall_forall. auto.
Qed.
Lemma sorted_cons x l : sorted (x :: l) <-> sorted l /\ (forall y, In y l -> cmp x y = Lt).
Proof.
  split.
  - intros H. inversion H as [|? ? H1 H2]; subst. rewrite Forall_forall in H2. auto.
  - intros (A & B). constructor; [auto|]. apply Forall_forall. auto.
Qed.
Lemma cmp_gt x y : cmp x y = Gt <-> cmp y x = Lt.
Proof. rewrite (ord_anti _ ORD x y). destruct (cmp x y); cbn; intuition congruence. Qed.
Lemma cmp_eq_r x y z : cmp x y = Eq -> cmp z x = cmp z y.
Proof. intros H. rewrite (ord_anti _ ORD x z), (ord_anti _ ORD y z). f_equal. apply (ord_eq_l _ ORD). exact H. Qed.

(** What inserting does to a sorted content. *)
Definition Ins (v : T) (l l' : list T) (old : option T) : Prop :=
  exists lo hi, l = lo ++ opt_list old ++ hi /\ l' = lo ++ v :: hi /\ (forall x, old = Some x -> cmp x v = Eq) /\
    (forall x, In x lo -> cmp x v = Lt) /\ (forall x, In x hi -> cmp x v = Gt).
Lemma ins_ctx v l l' old pre post : Ins v l l' old ->
  (forall x, In x pre -> cmp x v = Lt) -> (forall x, In x post -> cmp x v = Gt) ->
  Ins v (pre ++ l ++ post) (pre ++ l' ++ post) old.
Proof.
  intros (lo & hi & -> & -> & A & B & C) P Q. exists (pre ++ lo), (hi ++ post).
  split; [rewrite <- !app_assoc; reflexivity|]. split; [rewrite <- !app_assoc; reflexivity|]. split; [exact A|].
  split; intros x I; apply in_app_or in I; destruct I; auto.
Qed.
Lemma ins_here v x : cmp x v = Eq -> Ins v [x] [v] (Some x).
Proof.
  intros E. exists [], []. split; [reflexivity|]. split; [reflexivity|]. split; [congruence|]. split; intros ? [].
Qed.
Lemma ins_empty v : Ins v [] [v] None.
Proof. exists [], []. split; [reflexivity|]. split; [reflexivity|]. split; [discriminate|]. split; intros ? []. Qed.
Lemma ins_sorted v l l' old : Ins v l l' old -> sorted l -> sorted l'.
Proof.
  intros (lo & hi & -> & -> & A & B & C) S. apply sorted_app in S. destruct S as (S1 & S2 & S3).
  apply sorted_app in S2. destruct S2 as (_ & S2 & _). apply sorted_app. split; [exact S1|]. split.
  - apply sorted_cons. split; [exact S2|]. intros y I. apply cmp_gt. auto.
  - intros x y I [<-|J]; [auto|]. apply S3; [exact I|]. apply in_or_app. auto.
Qed.

(** The loop over the entries. *)
Lemma find_place_ok v es : forall k, match find_place cmp v k es with
  | AtEq i x => exists es1 s es2, es = es1 ++ (s, x) :: es2 /\ i = k + length es1 /\
                  (forall e, In e es1 -> cmp (snd e) v = Lt) /\ cmp x v = Eq
  | Before i s => exists es1 x es2, es = es1 ++ (s, x) :: es2 /\ i = k + length es1 /\
                  (forall e, In e es1 -> cmp (snd e) v = Lt) /\ cmp x v = Gt
  | AtEnd => forall e, In e es -> cmp (snd e) v = Lt
  end.
Proof.
  induction es as [|[s x] es IH]; intros k; cbn [find_place]; [intros e []|].
  destruct (cmp x v) eqn:E.
  - exists [], s, es. cbn. split; [auto|]. split; [lia|]. split; [intros e []|exact E].
  - specialize (IH (S k)). destruct (find_place cmp v (S k) es).
    + destruct IH as (es1 & s' & es2 & -> & -> & A & B). exists ((s, x) :: es1), s', es2. cbn. split; [auto|].
      split; [lia|]. split; [|exact B]. intros e [<-|I]; auto.
    + destruct IH as (es1 & s' & es2 & -> & -> & A & B). exists ((s, x) :: es1), s', es2. cbn. split; [auto|].
      split; [lia|]. split; [|exact B]. intros e [<-|I]; auto.
    + intros e [<-|I]; auto.
  - exists [], x, es. cbn. split; [auto|]. split; [lia|]. split; [intros e []|exact E].
Qed.
Lemma inorder_es_app G (es1 es2 : list entry) : inorder_es G (es1 ++ es2) = inorder_es G es1 ++ inorder_es G es2.
Proof. apply flat_map_app. Qed.
Lemma inorder_es_cons G s x (es : list entry) : inorder_es G ((s, x) :: es) = below G s ++ x :: inorder_es G es.
Proof. cbn. rewrite <- app_assoc. reflexivity. Qed.
Lemma below_lt v G (es : list entry) rest : sorted (inorder_es G es ++ rest) -> (forall e, In e es -> cmp (snd e) v = Lt) ->
  forall x, In x (inorder_es G es) -> cmp x v = Lt.
Proof.
  revert rest. induction es as [|[s y] es IH]; intros rest S H x I; [destruct I|].
  rewrite inorder_es_cons in *. rewrite <- app_assoc in S. apply sorted_app in S. destruct S as (_ & S2 & S3).
  apply in_app_or in I. destruct I as [I|[<-|I]].
  - apply (ord_lt _ ORD) with y; [|apply (H (s, y)); cbn; auto]. apply S3; cbn; auto.
  - apply (H (s, y)); cbn; auto.
  - cbn in S2. apply sorted_cons in S2. eapply IH; [apply S2|intros e Ie; apply H; cbn; auto|exact I].
Qed.
Lemma above_gt v x (rest : list T) pre : sorted (pre ++ x :: rest) -> cmp x v = Gt -> forall y, In y (x :: rest) -> cmp y v = Gt.
Proof.
  intros S E y [<-|I]; [exact E|]. apply sorted_app in S. destruct S as (_ & S & _). apply sorted_cons in S.
  apply cmp_gt. apply cmp_gt in E. apply (ord_lt _ ORD) with x; [exact E|]. apply S. exact I.
Qed.

(** A node before splitting. *)
Record pre_ok (G : nat -> info) (nd : node) (n : nat) (l : list T) : Prop := {
  q_cont : l = inorder G (ents nd) (gtr nd);
  q_slots : forall e, In e (ents nd) -> slot_ok G n (fst e);
  q_gtr : slot_ok G n (gtr nd);
  q_size : 1 <= length (ents nd) <= lim;
  q_sorted : sorted l
}.
Definition keeps_but (b : nat) (h h' : heap) : Prop :=
  next h <= next h' /\ forall a, a < next h -> a <> b -> mem h a = None -> mem h' a = None.
Lemma keeps_but_compose b h h1 h2 : keeps h h1 -> keeps_but b h1 h2 -> mem h b <> None \/ next h <= b -> keeps h h2.
Proof.
  intros (A & B) (C & D) E. split; [lia|]. intros a La Ma. apply D; [lia| |auto].
  intros ->. destruct E; [congruence|lia].
Qed.
Lemma keeps_keeps_but b h1 h2 h3 : keeps h1 h2 -> keeps_but b h2 h3 -> keeps_but b h1 h3.
Proof. intros (A & B) (C & D). split; [lia|]. intros. apply D; auto. lia. Qed.
Lemma keeps_but_put b h nd : keeps_but b h (put_node h b nd).
Proof. split; [cbn; lia|]. intros a _ N M. cbn. rewrite upd_ne by auto. exact M. Qed.

Lemma children_split (es1 : list entry) s x es2 g :
  children (Node 1 (es1 ++ (s, x) :: es2) g) =
  flat_map (fun e => opt_list (fst e)) es1 ++ opt_list s ++ flat_map (fun e => opt_list (fst e)) es2 ++ opt_list g.
Proof. unfold children. cbn [ents gtr]. rewrite flat_map_app. cbn. rewrite <- !app_assoc. reflexivity. Qed.

(** Putting a node back, split if it is full. *)
Lemma split_ok h R G b nd n l : wf h (children nd ++ R) G -> mem h b = None -> b < next h -> rc nd = 1 -> pre_ok G nd n l ->
  exists h' s G', split lim h b nd = Ret (h', s) /\ keeps_but b h h' /\ (forall c, In c R -> G' c = G c) /\
  match s with
  | None => wf h' (b :: R) G' /\ G' b = Info n l (length (ents nd))
  | Some (r, piv) => wf h' (b :: r :: R) G' /\ ht (G' b) = n /\ ht (G' r) = n /\ sz (G' b) = lim / 2 /\ sz (G' r) = lim / 2 /\
                     l = cont (G' b) ++ piv :: cont (G' r)
  end.
Proof.
  intros W Hb Lb E [Q1 Q2 Q3 Q4 Q5]. destruct (wf_dead _ _ _ _ _ _ W Hb) as (D1 & _). rewrite occ_app in D1.
  assert (NR : forall c, In c R -> c <> b). { intros c I ->. apply occ_in in I. lia. }
  unfold split. destruct (Nat.eqb_spec (length (ents nd)) lim) as [F|F].
  - destruct nd as [k es g]. cbn [ents gtr rc] in *. subst k.
    destruct (nth_error es (lim / 2)) as [[sm piv]|] eqn:P.
    2:{ apply nth_error_None in P. lia. }
    destruct (nth_error_split _ _ P) as (es1 & es2 & -> & L1). rewrite app_length in F. cbn in F.
    assert (L2 : length es2 = lim / 2) by lia.
    destruct (Nat.ltb_spec lim (lim / 2 + 1 + lim / 2)) as [X|_]; [lia|].
    assert (F1 : firstn (lim / 2) (skipn (lim / 2 + 1) (es1 ++ (sm, piv) :: es2)) = es2).
    { rewrite <- L1 at 2. rewrite Nat.add_1_r, skipn_at. apply firstn_all2. lia. }
    assert (F2 : firstn (lim / 2) (es1 ++ (sm, piv) :: es2) = es1) by (rewrite <- L1; apply firstn_at).
     rewrite F1, F2.
    set (rn := Node 1 es2 g). set (ln := Node 1 es1 sm).
    assert (W1 : wf (fst (fresh h)) (children rn ++ (children ln ++ R)) G).
    { apply wf_fresh. eapply wf_occ; [|exact W]. intros a. rewrite children_split. unfold rn, ln, children. cbn [ents gtr].
      rewrite !occ_app. lia. }
    assert (S5 : sorted (inorder_es G es1 ++ below G sm ++ piv :: inorder G es2 g)).
    { rewrite Q1 in Q5. unfold inorder in Q5. rewrite inorder_es_app, inorder_es_cons in Q5. rewrite <- !app_assoc in Q5. exact Q5. }
    rewrite app_assoc in S5. apply sorted_app in S5. destruct S5 as (S5 & S6 & _). apply sorted_cons in S6. destruct S6 as (S6 & _).
    assert (NB : next h <> b) by lia.
    assert (OKr : node_ok G rn (Info n (inorder G es2 g) (lim / 2))).
    { unfold rn. constructor; cbn [ht cont sz ents gtr]; auto; try lia.
      intros e I. apply Q2. apply in_or_app. cbn. auto. }
    assert (W2 := wf_close _ _ _ _ _ (next h) rn _ W1 (upd_eq _ _ _) ltac:(cbn; lia) eq_refl OKr).
    set (G1 := upd G (next h) (Info n (inorder G es2 g) (lim / 2))) in *.
    assert (EXT : forall c, In c (children ln ++ R) -> G1 c = G c).
    { intros c I. apply upd_ne. intros ->.
      destruct (wf_live _ _ _ _ _ (next h) W1) as (nn & X); [apply in_or_app; auto|].
      cbn in X. rewrite upd_eq in X. discriminate. }
    assert (OKl : node_ok G1 ln (Info n (inorder G es1 sm) (lim / 2))).
    { apply node_ok_ext with (G := G); [intros c I; apply EXT; apply in_or_app; auto|].
      unfold ln. constructor; cbn [ht cont sz ents gtr]; auto; try lia.
      - intros e I. apply Q2. apply in_or_app. auto.
      - apply (Q2 (sm, piv)). apply in_or_app. cbn. auto. }
    assert (W2' : wf (put_node (fst (fresh h)) (next h) rn) (children ln ++ (next h :: R)) G1).
    { eapply wf_occ; [|exact W2]. intros a. rewrite occ_cons, !occ_app, occ_cons. lia. }
    assert (M2 : mem (put_node (fst (fresh h)) (next h) rn) b = None).
    { cbn. rewrite !upd_ne by auto. exact Hb. }
    assert (W3 := wf_close _ _ _ _ _ b ln _ W2' M2 ltac:(cbn; lia) eq_refl OKl).
    unfold new_node. change (fresh h) with (fst (fresh h), next h) at 1. cbv beta iota zeta.
    eexists _, _, (upd G1 b (Info n (inorder G es1 sm) (lim / 2))). split; [reflexivity|]. split; [|split].
    + split; [cbn; lia|]. intros a La Na Ma. cbn. rewrite !upd_ne by lia. exact Ma.
    + intros c I. rewrite upd_ne by auto. apply EXT. apply in_or_app. auto.
    + split; [exact W3|]. rewrite upd_eq, (upd_ne _ b _ (next h)) by auto. unfold G1. rewrite upd_eq. cbn [ht cont sz].
      do 4 (split; [reflexivity|]). rewrite Q1. unfold inorder. rewrite inorder_es_app, inorder_es_cons, <- !app_assoc. reflexivity.
  - exists (put_node h b nd), None, (upd G b (Info n l (length (ents nd)))). split; [reflexivity|].
    split; [apply keeps_but_put|]. split; [intros c I; apply upd_ne; auto|]. split; [|apply upd_eq].
    apply wf_close; auto. constructor; cbn [ht cont sz]; auto. lia.
Qed.

(** The whole insertion below one Arc. *)
Definition ins_spec (v : T) (R : list nat) (G : nat -> info) (a : nat) (h' : heap) (b : nat) (o : outcome T) (G' : nat -> info) : Prop :=
  match o with
  | inr r => wf h' (b :: R) G' /\ Ins v (cont (G a)) (cont (G' b)) r /\ ht (G' b) = ht (G a) /\ sz (G a) <= sz (G' b)
  | inl (r, piv) => wf h' (b :: r :: R) G' /\ Ins v (cont (G a)) (cont (G' b) ++ piv :: cont (G' r)) None /\
                    ht (G' b) = ht (G a) /\ ht (G' r) = ht (G a) /\ sz (G' b) = lim / 2 /\ sz (G' r) = lim / 2
  end.
(** Finishing: put the changed node back. *)
Lemma finish_ok h R G0 G b nd n l v a : wf h (children nd ++ R) G -> mem h b = None -> b < next h -> rc nd = 1 ->
  pre_ok G nd n l -> (forall c, In c R -> G c = G0 c) -> n = ht (G0 a) -> Ins v (cont (G0 a)) l None ->
  sz (G0 a) <= length (ents nd) ->
  exists h' o G', (do (h2, s) <- split lim h b nd ;
                   Ret (h2, b, match s with None => inr None | Some splits => inl splits end)) = Ret (h', b, o) /\
    keeps_but b h h' /\ (forall c, In c R -> G' c = G0 c) /\ ins_spec v R G0 a h' b o G'.
Proof.
  intros W Hb Lb E Q A N I Z. destruct (split_ok _ _ _ _ _ _ _ W Hb Lb E Q) as (h' & s & G' & Es & K & A' & X).
  rewrite Es. cbn [bind]. do 3 eexists. split; [reflexivity|]. split; [exact K|]. split; [intros c Ic; rewrite A', A; auto|].
  destruct s as [[r piv]|]; cbn.
  - destruct X as (W' & X1 & X2 & X3 & X4 & X5). rewrite <- X5. subst n. repeat (split; auto).
  - destruct X as (W' & X). rewrite X. cbn [cont ht sz]. subst n. auto.
Qed.
(** Closing without splitting. *)
Lemma close_ok h R G0 G b nd n l v a r : wf h (children nd ++ R) G -> mem h b = None -> b < next h -> rc nd = 1 ->
  pre_ok G nd n l -> length (ents nd) < lim -> (forall c, In c R -> G c = G0 c) -> n = ht (G0 a) -> Ins v (cont (G0 a)) l r ->
  sz (G0 a) <= length (ents nd) ->
  exists G', keeps_but b h (put_node h b nd) /\ (forall c, In c R -> G' c = G0 c) /\ ins_spec v R G0 a (put_node h b nd) b (inr r) G'.
Proof.
  intros W Hb Lb E [Q1 Q2 Q3 Q4 Q5] LE A N I Z. exists (upd G b (Info n l (length (ents nd)))).
  destruct (wf_dead _ _ _ _ _ _ W Hb) as (D1 & _). rewrite occ_app in D1.
  split; [apply keeps_but_put|]. split.
  - intros c Ic. rewrite upd_ne; [auto|]. intros ->. apply occ_in in Ic. lia.
  - cbn. rewrite upd_eq. cbn [cont ht sz]. split; [|auto]. apply wf_close; auto. constructor; cbn [ht cont sz]; auto. lia.
Qed.
(** An entry's child, or the last one, replaced by what insertion below gave. *)
Lemma set_at k (es1 : list entry) s x es2 g d :
  set_smaller (Node k (es1 ++ (s, x) :: es2) g) (length es1) d = Node k (es1 ++ (Some d, x) :: es2) g.
Proof. unfold set_smaller. cbn [ents rc gtr]. rewrite nth_at, firstn_at, skipn_at. reflexivity. Qed.
Lemma set_value_at k (es1 : list entry) s x es2 g v :
  set_value (Node k (es1 ++ (s, x) :: es2) g) (length es1) v = Node k (es1 ++ (s, v) :: es2) g.
Proof. unfold set_value. cbn [ents rc gtr]. rewrite nth_at, firstn_at, skipn_at. reflexivity. Qed.
Lemma inner_insert_at k (es1 : list entry) s x es2 g v r : length (es1 ++ (s, x) :: es2) < lim ->
  inner_insert lim (Node k (es1 ++ (s, x) :: es2) g) (length es1) v r = Ret (Node k (es1 ++ (s, v) :: (r, x) :: es2) g).
Proof.
  intros L. unfold inner_insert. cbn [ents rc gtr]. rewrite nth_at, firstn_at, skipn_at.
  apply Nat.ltb_lt in L.  rewrite L. reflexivity.
Qed.
Lemma inner_push_at k (es : list entry) g v r : length es < lim ->
  inner_push lim (Node k es g) v r = Ret (Node k (es ++ [(g, v)]) r).
Proof. intros L. unfold inner_push. cbn [ents rc gtr]. apply Nat.ltb_lt in L. rewrite L. reflexivity. Qed.

Theorem insert_inner_ok v f : forall h R G a, wf h (a :: R) G -> ht (G a) < f ->
  exists h' b o G', insert_inner cmp lim f h a v = Ret (h', b, o) /\ keeps h h' /\ (forall c, In c R -> G' c = G c) /\
    ins_spec v R G a h' b o G'.
Proof.
  induction f as [|f IH]; intros h R G a W F; [lia|].
  destruct (wf_make_mut _ _ _ _ _ _ W) as (h1 & b & n & E1 & W1 & Hb & Lb & RC & OK & K1 & NB).
  cbn [insert_inner]. rewrite E1. cbn [bind].
  destruct n as [k es g]. cbn [ents gtr rc] in *. subst k.
  destruct OK as [O1 O2 O3 O4 O5 O6]. cbn [ents gtr] in *.
  enough (X : exists h' o G', 
    match find_place cmp v 0 es with
    | AtEq i x => Ret (put_node h1 b (set_value (Node 1 es g) i v), b, inr (Some x))
    | Before i (Some c) =>
          do (h2, d, o) <- insert_inner cmp lim f h1 c v ;
          match o with
          | inr r => Ret (put_node h2 b (set_smaller (Node 1 es g) i d), b, inr r)
          | inl (rgt, pivot) => do n3 <- inner_insert lim (set_smaller (Node 1 es g) i d) i pivot (Some rgt) ;
              do (h2, s) <- split lim h2 b n3 ;
              Ret (h2, b, match s with None => inr None | Some splits => inl splits end)
          end
    | Before i None => do n3 <- inner_insert lim (Node 1 es g) i v None ; 
              do (h2, s) <- split lim h1 b n3 ;
              Ret (h2, b, match s with None => inr None | Some splits => inl splits end)
    | AtEnd =>
          match g with
          | Some c =>
              do (h2, d, o) <- insert_inner cmp lim f h1 c v ;
              match o with
              | inr r => Ret (put_node h2 b (Node 1 es (Some d)), b, inr r)
              | inl (rgt, pivot) => do n3 <- inner_push lim (Node 1 es (Some d)) pivot (Some rgt) ;
                  do (h2, s) <- split lim h2 b n3 ;
                  Ret (h2, b, match s with None => inr None | Some splits => inl splits end)
              end
          | None => do n3 <- inner_push lim (Node 1 es g) v None ;
              do (h2, s) <- split lim h1 b n3 ;
              Ret (h2, b, match s with None => inr None | Some splits => inl splits end)
          end
      end = Ret (h', b, o) /\ keeps_but b h1 h' /\ (forall c, In c R -> G' c = G c) /\ ins_spec v R G a h' b o G').
  { destruct X as (h' & o & G' & X1 & X2 & X3 & X4). exists h', b, o, G'. split; [exact X1|].
    split; [eapply keeps_but_compose; eauto|]. split; auto. }
  pose proof (find_place_ok v es 0) as FP. destruct (find_place cmp v 0 es) as [i x|i s|].
  - (* replacing *)
    destruct FP as (es1 & s & es2 & -> & -> & FL & FE). cbn [Nat.add]. rewrite set_value_at.
    assert (C : cont (G a) = (inorder_es G es1 ++ below G s) ++ [x] ++ inorder G es2 g).
    { rewrite O1. unfold inorder. rewrite inorder_es_app, inorder_es_cons, <- !app_assoc. reflexivity. }
    assert (SO : sorted ((inorder_es G es1 ++ below G s) ++ [x] ++ inorder G es2 g)) by (rewrite <- C; exact O6).
    apply sorted_app in SO. destruct SO as (_ & SO2 & SO3). cbn in SO2. apply sorted_cons in SO2. destruct SO2 as (_ & SO2).
    assert (I : Ins v (cont (G a)) ((inorder_es G es1 ++ below G s) ++ [v] ++ inorder G es2 g) (Some x)).
    { rewrite C. apply ins_ctx; [apply ins_here; exact FE| |].
      - intros y Iy. rewrite <- (cmp_eq_r x v y FE). apply SO3; cbn; auto.
      - intros y Iy. apply cmp_gt. rewrite <- (ord_eq_l _ ORD x v y FE). auto. }
    lazymatch type of I with Ins _ _ ?L _ => destruct (close_ok h1 R G G b (Node 1 (es1 ++ (s, v) :: es2) g) (ht (G a)) L v a (Some x)) with (9 := I) as (G' & Y1 & Y2 & Y3) end;
      [| | | | | | | | |exists (put_node h1 b (Node 1 (es1 ++ (s, v) :: es2) g)), (inr (Some x)), G'; auto].
    + rewrite children_split in *. exact W1.
    + exact Hb.
    + exact Lb.
    + reflexivity.
    + constructor; cbn [ents gtr].
      * unfold inorder. rewrite inorder_es_app, inorder_es_cons, <- !app_assoc. reflexivity.
      * intros e Ie. apply in_app_or in Ie. destruct Ie as [Ie|[<-|Ie]].
        -- apply O2. apply in_or_app. auto.
        -- apply (O2 (s, x)). apply in_or_app. cbn. auto.
        -- apply O2. apply in_or_app. cbn. auto.
      * exact O3.
      * cbn [ents]. rewrite app_length in O5 |- *. cbn [length] in O5 |- *. lia.
      * eapply ins_sorted; eauto.
    + cbn [ents]. rewrite app_length in O5 |- *. cbn [length] in O5 |- *. lia.
    + auto.
    + reflexivity.
    + rewrite O4. cbn [ents]. rewrite !app_length. cbn [length]. lia.
  - (* before an entry *)
    destruct FP as (es1 & x & es2 & -> & -> & FL & FE). cbn [Nat.add].
    assert (C : cont (G a) = inorder_es G es1 ++ below G s ++ x :: inorder G es2 g).
    { rewrite O1. unfold inorder. rewrite inorder_es_app, inorder_es_cons, <- !app_assoc. reflexivity. }
    assert (SO : sorted (inorder_es G es1 ++ below G s ++ x :: inorder G es2 g)) by (rewrite <- C; exact O6).
    pose proof (below_lt v G es1 _ SO FL) as LO.
    assert (HI : forall y, In y (x :: inorder G es2 g) -> cmp y v = Gt).
    { rewrite app_assoc in SO. eapply above_gt; eauto. }
    assert (S1 : forall e, In e es1 -> slot_ok G (ht (G a)) (fst e)) by (intros; apply O2; apply in_or_app; auto).
    assert (S2 : forall e, In e es2 -> slot_ok G (ht (G a)) (fst e)) by (intros; apply O2; apply in_or_app; cbn; auto).
    assert (S0 : slot_ok G (ht (G a)) s) by (apply (O2 (s, x)); apply in_or_app; cbn; auto).
    rewrite children_split in W1. rewrite app_length in O4, O5. cbn in O4, O5.
    destruct s as [c|].
    + (* through a child *)
      set (oth := flat_map (fun e => opt_list (fst e)) es1 ++ flat_map (fun e => opt_list (fst e)) es2 ++ opt_list g ++ R).
      assert (Wc : wf h1 (c :: oth) G).
      { eapply wf_occ; [|exact W1]. intros y. unfold oth. cbn [opt_list]. rewrite occ_cons, !occ_app, occ_cons. cbn. lia. }
      destruct (ht (G a)) as [|m] eqn:HT; [discriminate S0|]. destruct S0 as (c' & Ec & Hc & Zc). injection Ec as <-.
      destruct (IH h1 oth G c Wc ltac:(lia)) as (h2 & d & o & G2 & E2 & K2 & A2 & SP). rewrite E2. cbn [bind].
      assert (Hb2 : mem h2 b = None) by (apply K2; auto). assert (Lb2 : b < next h2) by (destruct K2; lia).
      assert (IN1 : forall e y, In e es1 -> fst e = Some y -> In y oth).
      { intros e y Ie Ey. unfold oth. apply in_or_app. left. apply in_flat_map. exists e. rewrite Ey. cbn. auto. }
      assert (IN2 : forall e y, In e es2 -> fst e = Some y -> In y oth).
      { intros e y Ie Ey. unfold oth. apply in_or_app. right. apply in_or_app. left. apply in_flat_map. exists e. rewrite Ey. cbn. auto. }
      assert (IN3 : forall y, g = Some y -> In y oth).
      { intros y ->. unfold oth. rewrite !in_app_iff. cbn. auto. }
      assert (INR : forall y, In y R -> In y oth) by (intros; unfold oth; rewrite !in_app_iff; auto).
      assert (X1 : inorder_es G2 es1 = inorder_es G es1).
      { pose proof (inorder_ext G G2 es1 None) as Q. unfold inorder in Q. cbn in Q. rewrite !app_nil_r in Q. apply Q; [|discriminate].
        intros. apply A2. eauto. }
      assert (X2 : inorder G2 es2 g = inorder G es2 g) by (apply inorder_ext; intros; apply A2; eauto).
      assert (T1 : forall e, In e es1 -> slot_ok G2 (S m) (fst e)).
      { intros e Ie. eapply slot_ok_ext; [|apply S1; exact Ie]. intros; apply A2; eauto. }
      assert (T2 : forall e, In e es2 -> slot_ok G2 (S m) (fst e)).
      { intros e Ie. eapply slot_ok_ext; [|apply S2; exact Ie]. intros; apply A2; eauto. }
      assert (T3 : slot_ok G2 (S m) g) by (eapply slot_ok_ext; [|exact O3]; intros; apply A2; eauto).
      destruct o as [[r piv]|r]; cbn [ins_spec] in SP.
      * destruct SP as (W2 & I2 & H2 & H3 & Z2 & Z3). rewrite set_at.
        rewrite inner_insert_at by (rewrite app_length; cbn; lia). cbn [bind].
        assert (I : Ins v (cont (G a)) (inorder_es G es1 ++ (cont (G2 d) ++ piv :: cont (G2 r)) ++ x :: inorder G es2 g) None).
        { rewrite C. apply ins_ctx; auto. }
        lazymatch type of I with Ins _ _ ?L _ => destruct (finish_ok h2 R G G2 b (Node 1 (es1 ++ (Some d, piv) :: (Some r, x) :: es2) g) (S m) L v a)
          with (8 := I) as (h3 & o3 & G3 & Y) end; [| | | | | | | |exists h3, o3, G3].
        -- eapply wf_occ; [|exact W2]. intros y. rewrite children_split. cbn [flat_map opt_list fst].
           unfold oth. rewrite !occ_cons, !occ_app, !occ_cons. cbn. lia.
        -- exact Hb2.
        -- exact Lb2.
        -- reflexivity.
        -- constructor; cbn [ents gtr].
           ++ rewrite <- X2. unfold inorder. rewrite inorder_es_app, !inorder_es_cons, X1. cbn [below].
              repeat (rewrite <- !app_assoc; cbn [app]). reflexivity.
           ++ intros e Ie. apply in_app_or in Ie. destruct Ie as [Ie|[<-|[<-|Ie]]]; auto; cbn [fst L_BTree.slot_ok]; eexists; split; try reflexivity; lia.
           ++ exact T3.
           ++ rewrite app_length. cbn. lia.
           ++ eapply ins_sorted; eauto.
        -- auto.
        -- auto.
        -- cbn [ents]. rewrite app_length. cbn. lia.
        -- destruct Y as (Y1 & Y2 & Y3 & Y4). split; [exact Y1|]. split; [eapply keeps_keeps_but; eauto|]. auto.
      * destruct SP as (W2 & I2 & H2 & Z2). rewrite set_at.
        assert (I : Ins v (cont (G a)) (inorder_es G es1 ++ cont (G2 d) ++ x :: inorder G es2 g) r).
        { rewrite C. apply ins_ctx; auto. }
        lazymatch type of I with Ins _ _ ?L _ => destruct (close_ok h2 R G G2 b (Node 1 (es1 ++ (Some d, x) :: es2) g) (S m) L v a r)
          with (9 := I) as (G3 & Y1 & Y2 & Y3) end; [| | | | | | | | |do 2 eexists; exists G3].
        -- eapply wf_occ; [|exact W2]. intros y. rewrite children_split. cbn [flat_map opt_list fst].
           unfold oth. rewrite !occ_cons, !occ_app, !occ_cons. cbn. lia.
        -- exact Hb2.
        -- exact Lb2.
        -- reflexivity.
        -- constructor; cbn [ents gtr].
           ++ rewrite <- X2. unfold inorder. rewrite inorder_es_app, !inorder_es_cons, X1. cbn [below].
              repeat (rewrite <- !app_assoc; cbn [app]). reflexivity.
           ++ intros e Ie. apply in_app_or in Ie. destruct Ie as [Ie|[<-|Ie]]; auto; cbn [fst L_BTree.slot_ok]; eexists; split; try reflexivity; lia.
           ++ exact T3.
           ++ rewrite app_length. cbn. lia.
           ++ eapply ins_sorted; eauto.
        -- cbn [ents]. rewrite app_length. cbn. lia.
        -- auto.
        -- auto.
        -- cbn [ents]. rewrite app_length. cbn. lia.
        -- split; [reflexivity|]. split; [eapply keeps_keeps_but; eauto|]. auto.
    + (* in a leaf *)
      rewrite inner_insert_at by (rewrite app_length; cbn; lia). cbn [bind]. cbn [below app] in C.
      assert (HT : ht (G a) = 0). { destruct (ht (G a)); [reflexivity|]. destruct S0 as (? & ? & _). discriminate. }
      assert (I : Ins v (cont (G a)) (inorder_es G es1 ++ [v] ++ x :: inorder G es2 g) None).
      { rewrite C. apply (ins_ctx v [] [v]); auto. apply ins_empty. }
      lazymatch type of I with Ins _ _ ?L _ => destruct (finish_ok h1 R G G b (Node 1 (es1 ++ (None, v) :: (None, x) :: es2) g) (ht (G a)) L v a)
        with (8 := I) as (h3 & o3 & G3 & Y) end; [| | | | | | | |exists h3, o3, G3; exact Y].
      * rewrite children_split. exact W1.
      * exact Hb.
      * exact Lb.
      * reflexivity.
      * constructor; cbn [ents gtr].
        -- unfold inorder. rewrite inorder_es_app, !inorder_es_cons. cbn [below app].
           repeat (rewrite <- !app_assoc; cbn [app]). reflexivity.
        -- intros e Ie. apply in_app_or in Ie. destruct Ie as [Ie|[<-|[<-|Ie]]]; auto; rewrite HT; reflexivity.
        -- exact O3.
        -- rewrite app_length. cbn. lia.
        -- eapply ins_sorted; eauto.
      * auto.
      * auto.
      * cbn [ents]. rewrite app_length. cbn. lia.
  - (* after all entries *)
    pose proof (below_lt v G es (below G g)) as LO. unfold inorder in O1. rewrite <- O1 in LO. specialize (LO O6 FP).
    unfold children in W1. cbn [ents gtr] in W1.
    destruct g as [c|].
    + set (oth := flat_map (fun e => opt_list (fst e)) es ++ R).
      assert (Wc : wf h1 (c :: oth) G).
      { eapply wf_occ; [|exact W1]. intros y. unfold oth. cbn [opt_list]. rewrite occ_cons, !occ_app, occ_cons. cbn. lia. }
      destruct (ht (G a)) as [|m] eqn:HT; [discriminate O3|]. destruct O3 as (c' & Ec & Hc & Zc). injection Ec as <-.
      destruct (IH h1 oth G c Wc ltac:(lia)) as (h2 & d & o & G2 & E2 & K2 & A2 & SP). rewrite E2. cbn [bind].
      assert (Hb2 : mem h2 b = None) by (apply K2; auto). assert (Lb2 : b < next h2) by (destruct K2; lia).
      assert (IN1 : forall e y, In e es -> fst e = Some y -> In y oth).
      { intros e y Ie Ey. unfold oth. apply in_or_app. left. apply in_flat_map. exists e. rewrite Ey. cbn. auto. }
      assert (INR : forall y, In y R -> In y oth) by (intros; unfold oth; rewrite !in_app_iff; auto).
      assert (X1 : inorder_es G2 es = inorder_es G es).
      { pose proof (inorder_ext G G2 es None) as Q. unfold inorder in Q. cbn in Q. rewrite !app_nil_r in Q. apply Q; [|discriminate].
        intros. apply A2. eauto. }
      assert (T1 : forall e, In e es -> slot_ok G2 (S m) (fst e)).
      { intros e Ie. eapply slot_ok_ext; [|apply O2; exact Ie]. intros; apply A2; eauto. }
      cbn [below] in O1.
      destruct o as [[r piv]|r]; cbn [ins_spec] in SP.
      * destruct SP as (W2 & I2 & H2 & H3 & Z2 & Z3). rewrite inner_push_at by lia. cbn [bind].
        assert (I : Ins v (cont (G a)) (inorder_es G es ++ (cont (G2 d) ++ piv :: cont (G2 r)) ++ []) None).
        { rewrite O1, <- (app_nil_r (cont (G c))). apply ins_ctx; auto. intros ? []. }
        lazymatch type of I with Ins _ _ ?L _ => destruct (finish_ok h2 R G G2 b (Node 1 (es ++ [(Some d, piv)]) (Some r)) (S m) L v a)
          with (8 := I) as (h3 & o3 & G3 & Y) end; [| | | | | | | |exists h3, o3, G3].
        -- eapply wf_occ; [|exact W2]. intros y. rewrite children_split. cbn [flat_map opt_list fst].
           unfold oth. rewrite !occ_cons, !occ_app, !occ_cons. cbn. lia.
        -- exact Hb2.
        -- exact Lb2.
        -- reflexivity.
        -- constructor; cbn [ents gtr].
           ++ unfold inorder. rewrite inorder_es_app, !inorder_es_cons, X1. cbn [below inorder_es flat_map].
              repeat (rewrite <- ?app_assoc, ?app_nil_r; cbn [app]). reflexivity.
           ++ intros e Ie. apply in_app_or in Ie. destruct Ie as [Ie|[<-|[]]]; auto; cbn [fst L_BTree.slot_ok]; eexists; split; try reflexivity; lia.
           ++ cbn [L_BTree.slot_ok]. eexists; split; try reflexivity; lia.
           ++ rewrite app_length. cbn. lia.
           ++ eapply ins_sorted; eauto.
        -- auto.
        -- auto.
        -- cbn [ents]. rewrite app_length. cbn. lia.
        -- destruct Y as (Y1 & Y2 & Y3 & Y4). split; [exact Y1|]. split; [eapply keeps_keeps_but; eauto|]. auto.
      * destruct SP as (W2 & I2 & H2 & Z2).
        assert (I : Ins v (cont (G a)) (inorder_es G es ++ cont (G2 d) ++ []) r).
        { rewrite O1, <- (app_nil_r (cont (G c))). apply ins_ctx; auto. intros ? []. }
        lazymatch type of I with Ins _ _ ?L _ => destruct (close_ok h2 R G G2 b (Node 1 es (Some d)) (S m) L v a r)
          with (9 := I) as (G3 & Y1 & Y2 & Y3) end; [| | | | | | | | |do 2 eexists; exists G3].
        -- eapply wf_occ; [|exact W2]. intros y. unfold children. cbn [ents gtr opt_list].
           unfold oth. rewrite !occ_cons, !occ_app, !occ_cons. cbn. lia.
        -- exact Hb2.
        -- exact Lb2.
        -- reflexivity.
        -- constructor; cbn [ents gtr].
           ++ unfold inorder. rewrite X1. cbn [below]. rewrite app_nil_r. reflexivity.
           ++ exact T1.
           ++ cbn [L_BTree.slot_ok]. eexists; split; try reflexivity; lia.
           ++ lia.
           ++ eapply ins_sorted; eauto.
        -- cbn [ents]. lia.
        -- auto.
        -- auto.
        -- cbn [ents]. lia.
        -- split; [reflexivity|]. split; [eapply keeps_keeps_but; eauto|]. auto.
    + rewrite inner_push_at by lia. cbn [bind]. cbn [below] in O1. 
      assert (HT : ht (G a) = 0). { destruct (ht (G a)); [reflexivity|]. destruct O3 as (? & ? & _). discriminate. }
      assert (I : Ins v (cont (G a)) (inorder_es G es ++ [v] ++ []) None).
      { rewrite O1. apply (ins_ctx v [] [v] None _ []); auto; [apply ins_empty|intros ? []]. }
      lazymatch type of I with Ins _ _ ?L _ => destruct (finish_ok h1 R G G b (Node 1 (es ++ [(None, v)]) None) (ht (G a)) L v a)
        with (8 := I) as (h3 & o3 & G3 & Y) end; [| | | | | | | |exists h3, o3, G3; exact Y].
      * rewrite children_split. cbn [flat_map opt_list app] in *. rewrite !app_nil_r in *. exact W1.
      * exact Hb.
      * exact Lb.
      * reflexivity.
      * constructor; cbn [ents gtr].
        -- unfold inorder. rewrite inorder_es_app, !inorder_es_cons. cbn. rewrite !app_nil_r. reflexivity.
        -- intros e Ie. apply in_app_or in Ie. destruct Ie as [Ie|[<-|[]]]; auto; rewrite HT; reflexivity.
        -- exact O3.
        -- rewrite app_length. cbn. lia.
        -- eapply ins_sorted; eauto.
      * auto.
      * auto.
      * cbn [ents]. rewrite app_length. cbn. lia.
Qed.
End Ins.
