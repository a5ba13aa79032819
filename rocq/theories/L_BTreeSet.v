(** Lemmas on the B-tree model: sets, and programs using many of them. *)
From Coq Require Import List Arith Bool Lia Permutation Sorted.
From Verif Require Import M_Import L_Import M_BTree S_BTree L_BTree L_BTreeIns.
Import ListNotations.

Lemma put_at {A} (l1 : list A) x l2 y : put (l1 ++ x :: l2) (length l1) y = l1 ++ y :: l2.
Proof. unfold put. rewrite firstn_at, skipn_at. reflexivity. Qed.
Lemma F2_length {A B} (P : A -> B -> Prop) l m : Forall2 P l m -> length l = length m.
Proof. induction 1; cbn; congruence. Qed.

Section Sets.
Context {T : Type} (cmp : T -> T -> comparison) (lim : nat) (repl : bool).
Hypothesis ORD : total_order cmp.
Hypothesis ODD : lim = 2 * (lim / 2) + 1.
Hypothesis LIM : 3 <= lim.
Notation heap := (heap T). Notation node := (node T). Notation entry := (option nat * T)%type.
Notation wf := (@wf T cmp lim). Notation sorted := (@sorted T cmp). Notation node_ok := (@node_ok T cmp lim).
Notation slot_ok := (@slot_ok T lim). Notation Ins := (@Ins T cmp).

Lemma find_app {A} (f : A -> bool) l m : find f (l ++ m) = match find f l with Some x => Some x | None => find f m end.
Proof. induction l as [|x l IH]; cbn; [reflexivity|]. destruct (f x); auto. Qed.
Lemma find_none_all {A} (f : A -> bool) l : (forall x, In x l -> f x = false) -> find f l = None.
Proof. induction l as [|x l IH]; cbn; intros H; [reflexivity|]. rewrite H by auto. apply IH. auto. Qed.
Lemma find_unique {A} (f : A -> bool) l x : In x l -> f x = true -> (forall y, In y l -> f y = true -> y = x) -> find f l = Some x.
Proof.
  intros I F U. destruct (find f l) as [y|] eqn:E.
  - apply find_some in E. f_equal. apply U; tauto.
  - rewrite (find_none _ _ E x I) in F. discriminate.
Qed.

(** Looking up. *)
Lemma scan_ok p G bl g es : probe cmp p -> sorted (inorder G es g) ->
  (forall c, g = Some c \/ In (Some c) (map fst es) -> bl c = Ret (find (is_it p) (cont (G c)))) ->
  scan bl p g es = Ret (find (is_it p) (inorder G es g)).
Proof.
  intros P S B. induction es as [|[s x] es IH].
  - cbn. destruct g as [c|]; cbn; [apply B; auto|reflexivity].
  - unfold inorder in *. rewrite inorder_es_cons in *. rewrite <- app_assoc in *. cbn [app] in *.
    pose proof S as S'. apply sorted_app in S'. destruct S' as (S1 & S2 & S3). apply sorted_cons in S2. destruct S2 as (S4 & S5).
    cbn [scan]. rewrite find_app. destruct (p x) as [[]|] eqn:Px.
    + rewrite find_none_all. { cbn. unfold is_it at 1. rewrite Px. reflexivity. }
      intros y I. unfold is_it. rewrite (pr_lt _ _ P y x); [reflexivity| |congruence]. apply S3; cbn; auto.
    + rewrite find_none_all.
      { cbn. unfold is_it at 1. rewrite Px. apply IH; [exact S4|]. intros c [H|H]; apply B; cbn; auto. }
      intros y I. unfold is_it. rewrite (pr_lt _ _ P y x); [reflexivity| |congruence]. apply S3; cbn; auto.
    + assert (Z : find (is_it p) (x :: inorder_es G es ++ below G g) = None).
      { apply find_none_all. intros y [<-|I]; unfold is_it; [rewrite Px; reflexivity|].
        rewrite (pr_gt _ _ P x y); [reflexivity| |congruence]. auto. }
      rewrite Z. destruct s as [c|]; cbn [below]; [|reflexivity]. rewrite B by (cbn; auto).
      destruct (find (is_it p) (cont (G c))); reflexivity.
    + destruct (pr_total _ _ P x Px).
Qed.
Lemma slot_child G n (es : list entry) g c : (forall e, In e es -> slot_ok G n (fst e)) -> slot_ok G n g ->
  g = Some c \/ In (Some c) (map fst es) -> exists m, n = S m /\ ht (G c) = m /\ lim / 2 <= sz (G c).
Proof.
  intros H1 H2 H. assert (Q : slot_ok G n (Some c)).
  { destruct H as [->|H]; [exact H2|]. apply in_map_iff in H. destruct H as (e & E & I). rewrite <- E. auto. }
  destruct n as [|m]; [discriminate Q|]. destruct Q as (c' & E & A & B). injection E as <-. eauto.
Qed.
Lemma child_live h R G a nd c : wf h R G -> mem h a = Some nd -> gtr nd = Some c \/ In (Some c) (map fst (ents nd)) ->
  exists n, mem h c = Some n.
Proof.
  intros W H I. eapply wf_child; eauto. apply in_children. destruct I as [I|I]; [auto|].
  left. apply in_map_iff in I. destruct I as (e & E & I). eauto.
Qed.
Lemma node_get_ok p h R G : probe cmp p -> wf h R G -> forall f a nd, mem h a = Some nd -> ht (G a) < f ->
  node_get f h p a = Ret (find (is_it p) (cont (G a))).
Proof.
  intros P W. induction f as [|f IH]; intros a nd H F; [lia|]. cbn [node_get]. unfold get_node. rewrite H. cbn [bind].
  destruct (w_loc _ _ _ _ _ W a nd H) as [O1 O2 O3 O4 O5 O6]. rewrite O1. apply scan_ok; [exact P|rewrite <- O1; exact O6|].
  intros c Hc. destruct (slot_child _ _ _ _ c O2 O3 Hc) as (m & E & A & _).
  destruct (child_live _ _ _ _ _ c W H Hc) as (nc & Mc). eapply IH; eauto. lia.
Qed.
Lemma count_ok G bl : forall es acc, (forall s, In s (map fst es) -> bl s = Ret (length (below G s))) ->
  count bl acc es = Ret (acc + length (inorder_es (T := T) G es)).
Proof.
  induction es as [|[s x] es IH]; intros acc H; cbn [count].
  - cbn. f_equal. lia.
  - rewrite H by (cbn; auto). cbn [bind]. rewrite IH by (intros; apply H; cbn; auto).
    rewrite inorder_es_cons, app_length. cbn. f_equal. lia.
Qed.
Lemma node_len_ok h R G : wf h R G -> forall f a nd, mem h a = Some nd -> ht (G a) < f ->
  node_len f h a = Ret (length (cont (G a))).
Proof.
  intros W. induction f as [|f IH]; intros a nd H F; [lia|]. cbn [node_len]. unfold get_node. rewrite H. cbn [bind].
  destruct (w_loc _ _ _ _ _ W a nd H) as [O1 O2 O3 O4 O5 O6].
  assert (B : forall s, s = gtr nd \/ In s (map fst (ents nd)) ->
            match s with None => Ret 0 | Some c => node_len f h c end = Ret (length (below G s))).
  { intros [c|] Hc; cbn; [|reflexivity].
    assert (Hc' : gtr nd = Some c \/ In (Some c) (map fst (ents nd))) by (destruct Hc; auto).
    destruct (slot_child _ _ _ _ c O2 O3 Hc') as (m & E & A & _).
    destruct (child_live _ _ _ _ _ c W H Hc') as (nc & Mc). eapply IH; eauto. lia. }
  rewrite (count_ok G) by auto. cbn [bind]. rewrite B by auto. cbn [bind]. rewrite O1. unfold inorder. rewrite app_length. reflexivity.
Qed.
Lemma visit_ok G bl : forall es, (forall s, In s (map fst es) -> bl s = Ret (below G s)) ->
  visit bl es = Ret (inorder_es (T := T) G es).
Proof.
  induction es as [|[s x] es IH]; intros H; cbn [visit].
  - reflexivity.
  - rewrite H by (cbn; auto). cbn [bind]. rewrite IH by (intros; apply H; cbn; auto). cbn [bind].
    rewrite inorder_es_cons. reflexivity.
Qed.
Lemma node_each_ok h R G : wf h R G -> forall f a nd, mem h a = Some nd -> ht (G a) < f ->
  node_each f h a = Ret (cont (G a)).
Proof.
  intros W. induction f as [|f IH]; intros a nd H F; [lia|]. cbn [node_each]. unfold get_node. rewrite H. cbn [bind].
  destruct (w_loc _ _ _ _ _ W a nd H) as [O1 O2 O3 O4 O5 O6].
  assert (B : forall s, s = gtr nd \/ In s (map fst (ents nd)) ->
            match s with None => Ret [] | Some c => node_each f h c end = Ret (below G s)).
  { intros [c|] Hc; cbn; [|reflexivity].
    assert (Hc' : gtr nd = Some c \/ In (Some c) (map fst (ents nd))) by (destruct Hc; auto).
    destruct (slot_child _ _ _ _ c O2 O3 Hc') as (m & E & A & _).
    destruct (child_live _ _ _ _ _ c W H Hc') as (nc & Mc). eapply IH; eauto. lia. }
  rewrite (visit_ok G) by auto. cbn [bind]. rewrite B by auto. cbn [bind]. rewrite O1. reflexivity.
Qed.

(** The order as a probe. *)
Lemma cmp_probe v : probe cmp (fun x => Some (cmp x v)).
Proof.
  constructor.
  - discriminate.
  - intros x y L N. f_equal. destruct (cmp y v) eqn:E; [| |congruence].
    + rewrite <- (cmp_eq_r cmp ORD y v x E). exact L.
    + eapply (ord_lt _ ORD); eauto.
  - intros x y L N. f_equal. apply (cmp_gt cmp ORD). destruct (cmp x v) eqn:E; [|congruence|].
    + rewrite <- (ord_eq_l _ ORD x v y E). exact L.
    + apply (cmp_gt cmp ORD) in E. eapply (ord_lt _ ORD); eauto.
  - intros x y E. f_equal. apply (ord_eq_l _ ORD). exact E.
Qed.
Lemma is_it_cmp v x : is_it (fun y => Some (cmp y v)) x = same cmp v x.
Proof. unfold is_it, same. rewrite (ord_anti _ ORD x v). destruct (cmp x v); reflexivity. Qed.
Lemma find_same_probe v l : find (same cmp v) l = find (is_it (fun x => Some (cmp x v))) l.
Proof. induction l as [|y l IHl]; cbn [find]; [reflexivity|]. rewrite is_it_cmp, IHl. reflexivity. Qed.
Lemma same_eq v x : same cmp v x = true <-> cmp x v = Eq.
Proof. unfold same. rewrite (ord_anti _ ORD x v). destruct (cmp x v); cbn; intuition congruence. Qed.

(** Insertion in a tree that exists. *)
Definition ins_set (v : T) (l l' : list T) (r : option T) : Prop :=
  Ins v l l' r \/ (repl = false /\ l' = l /\ r = Some v /\ exists x, In x l /\ cmp x v = Eq).
Lemma ins_find v l l' old : Ins v l l' old -> find (same cmp v) l = old.
Proof.
  intros (lo & hi & -> & _ & A & B & C). rewrite !find_app.
  rewrite (find_none_all _ lo). 2:{ intros x I. destruct (same cmp v x) eqn:E; [|reflexivity]. apply same_eq in E. rewrite B in E by auto. discriminate. }
  rewrite (find_none_all _ hi). 2:{ intros x I. destruct (same cmp v x) eqn:E; [|reflexivity]. apply same_eq in E. rewrite C in E by auto. discriminate. }
  destruct old as [x|]; cbn; [|reflexivity]. specialize (A x eq_refl). apply same_eq in A. rewrite A. reflexivity.
Qed.
Lemma node_insert_ok v h R G a : wf h (a :: R) G ->
  exists h' b r G', node_insert cmp lim repl (S (next h)) h a v = Ret (h', b, r) /\ wf h' (b :: R) G' /\
    (forall c, In c R -> G' c = G c) /\ ins_set v (cont (G a)) (cont (G' b)) r /\
    (repl = false -> find (same cmp v) (cont (G a)) <> None -> h' = h /\ b = a /\ r = Some v /\ cont (G' b) = cont (G a)).
Proof.
  intros W. destruct (wf_live _ _ _ _ _ a W) as (nd & H); [cbn; auto|]. pose proof (wf_height _ _ _ _ _ _ _ W H) as HT.
  assert (GO : exists h' b r G', (do (h1, b, o) <- insert_inner cmp lim (S (next h)) h a v ;
    match o with
    | inr r => Ret (h1, b, r)
    | inl (rgt, pivot) =>
        do h2 <- incr h1 b ;
        let (h3, root) := new_node h2 (Node 1 [(Some b, pivot)] (Some rgt)) in
        do h4 <- drop_node (S (next h)) h3 b ;
        Ret (h4, root, None)
    end) = Ret (h', b, r) /\ wf h' (b :: R) G' /\
    (forall c, In c R -> G' c = G c) /\ Ins v (cont (G a)) (cont (G' b)) r).
  { destruct (insert_inner_ok cmp lim ORD ODD LIM v (S (next h)) h R G a W ltac:(lia)) as (h1 & b & o & G1 & E1 & K1 & A1 & SP).
    rewrite E1. cbn [bind]. destruct o as [[r piv]|r]; cbn [ins_spec] in SP.
    - destruct SP as (W1 & I1 & H1 & H2 & Z1 & Z2).
      destruct (wf_incr cmp lim h1 (b :: r :: R) G1 b W1) as (h2 & E2 & W2 & K2 & N2 & M2).
      { eapply wf_live; [exact W1|]. cbn. auto. }
      rewrite E2. cbn [bind]. pose proof (wf_fresh _ _ _ _ _ W2) as W3.
      unfold new_node. change (fresh h2) with (fst (fresh h2), next h2) at 1. cbv beta iota zeta.
      set (root := Node 1 [(Some b, piv)] (Some r)).
      set (i := Info (S (ht (G a))) (cont (G1 b) ++ piv :: cont (G1 r)) 1).
      assert (OK : node_ok G1 root i).
      { unfold root, i. constructor; cbn [ents gtr ht cont sz length].
        - unfold inorder. rewrite inorder_es_cons. cbn. rewrite <- app_assoc. reflexivity.
        - intros e [<-|[]]. cbn [fst L_BTree.slot_ok]. exists b. rewrite Z1. auto.
        - cbn [L_BTree.slot_ok]. exists r. rewrite Z2. auto.
        - reflexivity.
        - lia.
        - eapply (ins_sorted cmp ORD); [exact I1|]. apply (w_loc _ _ _ _ _ W a nd H). }
      assert (W4 := wf_close cmp lim (fst (fresh h2)) (b :: R) G1 (next h2) root i).
      specialize (W4 ltac:(eapply wf_occ; [|exact W3]; intros y; unfold root, children; cbn [ents gtr flat_map fst opt_list app];
        rewrite !occ_cons; lia) (upd_eq _ _ _) ltac:(cbn; lia) eq_refl OK).
      set (G2 := upd G1 (next h2) i) in *.
      assert (AG : forall c, In c (b :: r :: R) -> G2 c = G1 c).
      { intros c I. apply upd_ne. intros ->. destruct (wf_live _ _ _ _ _ (next h2) W2) as (nn & X); [cbn; cbn in I; tauto|].
        pose proof (wf_lt _ _ _ _ _ _ _ W2 X). lia. }
      destruct (wf_drop cmp lim (S (next h)) (put_node (fst (fresh h2)) (next h2) root) (next h2 :: R) G2 b) as (h4 & E4 & W5 & K5 & N5).
      { eapply wf_occ; [|exact W4]. intros y. rewrite !occ_cons. lia. }
      { rewrite AG by (cbn; auto). lia. }
      rewrite E4. cbn [bind]. exists h4, (next h2), None, G2. split; [reflexivity|]. split; [exact W5|]. split.
      + intros c I. rewrite AG by (cbn; auto). auto.
      + unfold G2. rewrite upd_eq. exact I1.
    - destruct SP as (W1 & I1 & _). exists h1, b, r, G1. auto. }
  unfold node_insert. destruct repl eqn:RP.
  - destruct GO as (h' & b & r & G' & E & W' & A & I). exists h', b, r, G'. split; [exact E|]. split; [exact W'|].
    split; [exact A|]. split; [left; exact I|discriminate].
  - rewrite (node_get_ok _ h (a :: R) G (cmp_probe v) W (S (next h)) a nd H) by lia. cbn [bind].
    assert (FE : find (is_it (fun x => Some (cmp x v))) (cont (G a)) = find (same cmp v) (cont (G a))).
    { symmetry. apply find_same_probe. }
    rewrite FE. destruct (find (same cmp v) (cont (G a))) as [x|] eqn:FX.
    + exists h, a, (Some v), G. split; [reflexivity|]. split; [exact W|]. split; [auto|]. split; [|auto].
      right. split; [exact RP|]. split; [reflexivity|]. split; [reflexivity|]. exists x. apply find_some in FX. rewrite same_eq in FX. exact FX.
    + destruct GO as (h' & b & r & G' & E & W' & A & I). exists h', b, r, G'. split; [exact E|]. split; [exact W'|].
      split; [exact A|]. split; [left; exact I|congruence].
Qed.

(** Contents against finite sets. *)
Lemma sorted_pair c x y : sorted c -> In x c -> In y c -> x = y \/ cmp x y = Lt \/ cmp y x = Lt.
Proof.
  induction c as [|z c IH]; intros S; [intros []|]. apply sorted_cons in S. destruct S as (S & F).
  intros [<-|I] [<-|J]; auto.
Qed.
Lemma sorted_is_it p c x y : probe cmp p -> sorted c -> In x c -> In y c -> is_it p x = true -> is_it p y = true -> x = y.
Proof.
  intros P S I J. unfold is_it. destruct (sorted_pair c x y S I J) as [E|[L|L]]; auto.
  - destruct (p x) as [[]|] eqn:E; try discriminate. rewrite (pr_gt _ _ P x y L) by congruence. discriminate.
  - destruct (p y) as [[]|] eqn:E; try discriminate. rewrite (pr_gt _ _ P y x L) by congruence. discriminate.
Qed.
Lemma find_perm p c l : probe cmp p -> sorted c -> Permutation c l -> find (is_it p) c = find (is_it p) l.
Proof.
  intros P S E. symmetry. destruct (find (is_it p) c) as [x|] eqn:F.
  - apply find_some in F. destruct F as (I & F). apply find_unique; auto.
    + eapply Permutation_in; eauto.
    + intros y J Fy. eapply (sorted_is_it p c); eauto. eapply Permutation_in; [symmetry; eauto|exact J].
  - apply find_none_all. intros x I. apply (find_none _ _ F). eapply Permutation_in; [symmetry; eauto|exact I].
Qed.
Lemma Permutation_filter {A} (f : A -> bool) l m : Permutation l m -> Permutation (filter f l) (filter f m).
Proof.
  induction 1; cbn; auto.
  - destruct (f x); auto.
  - destruct (f x), (f y); auto. constructor.
  - etransitivity; eauto.
Qed.
Lemma filter_all {A} (f : A -> bool) l : (forall x, In x l -> f x = true) -> filter f l = l.
Proof. induction l as [|x l IH]; cbn; intros H; [reflexivity|]. rewrite H by auto. f_equal. auto. Qed.
Lemma ins_set_finsert v c c' r l : sorted c -> Permutation c l -> ins_set v c c' r ->
  (repl = false -> find (same cmp v) c <> None -> r = Some v /\ c' = c) ->
  exists l', finsert cmp repl v l = (l', r) /\ Permutation c' l' /\ sorted c'.
Proof.
  intros S P I N. unfold finsert.
  assert (FE : find (same cmp v) l = find (same cmp v) c).
  { rewrite !find_same_probe. symmetry. apply find_perm; auto. apply cmp_probe. }
  rewrite FE. destruct I as [I|(RP & -> & -> & x & Ix & Ex)].
  - pose proof (ins_sorted cmp ORD _ _ _ _ I S) as S'. rewrite (ins_find _ _ _ _ I). destruct r as [x|].
    + destruct repl eqn:RP.
      * eexists. split; [reflexivity|]. split; [|exact S'].
        destruct I as (lo & hi & -> & -> & A & B & C). rewrite <- Permutation_middle. constructor.
        rewrite <- (Permutation_filter _ _ _ P). rewrite !filter_app. cbn.
        specialize (A x eq_refl). apply same_eq in A. rewrite A. cbn.
        rewrite !filter_all; [reflexivity| |].
        -- intros y Iy. destruct (same cmp v y) eqn:E; [|reflexivity]. apply same_eq in E. rewrite C in E by auto. discriminate.
        -- intros y Iy. destruct (same cmp v y) eqn:E; [|reflexivity]. apply same_eq in E. rewrite B in E by auto. discriminate.
      * destruct (N eq_refl) as (Q & ->). { rewrite (ins_find _ _ _ _ I). discriminate. }
        injection Q as ->. exists l. auto.
    + eexists. split; [reflexivity|]. split; [|exact S']. destruct I as (lo & hi & -> & -> & _).
      rewrite <- Permutation_middle. constructor. exact P.
  - destruct (find (same cmp v) c) eqn:F.
    + rewrite RP. exists l. auto.
    + apply (find_none _ _ F) in Ix. apply same_eq in Ex. congruence.
Qed.

(** Programs. *)
Definition root_of (o : option tree) : list nat := match o with Some (Some a) => [a] | _ => [] end.
Definition roots (l : list (option tree)) : list nat := flat_map root_of l.
Definition rel (G : nat -> info) (o : option tree) (x : option (list T)) : Prop :=
  match o, x with
  | None, None => True
  | Some t, Some l => Permutation (below G t) l
  | _, _ => False
  end.
Definition winv (w : world T) (F : list (option (list T))) (G : nat -> info) : Prop :=
  wf (hp w) (roots (sets w)) G /\ Forall2 (rel G) (sets w) F.
Lemma wf_empty G : wf heap0 [] G.
Proof. constructor; cbn; auto; discriminate. Qed.
Lemma winv0 : winv world0 [] (fun _ => Info 0 [] 0).
Proof. split; [apply wf_empty|constructor]. Qed.
Lemma rel_ext G G' o x : (forall c, In c (root_of o) -> G' c = G c) -> rel G o x -> rel G' o x.
Proof. destruct o as [[a|]|], x as [l|]; cbn; auto. intros H. rewrite H by auto. auto. Qed.
Lemma rel_list_ext G G' l F : (forall c, In c (roots l) -> G' c = G c) -> Forall2 (rel G) l F -> Forall2 (rel G') l F.
Proof.
  intros H X. induction X as [|o x l F R X IH]; constructor.
  - eapply rel_ext; [|exact R]. intros c I. apply H. unfold roots. cbn. apply in_or_app. auto.
  - apply IH. intros c I. apply H. unfold roots. cbn. apply in_or_app. auto.
Qed.
Lemma rel_empty G t l : (forall a, t = Some a -> cont (G a) <> []) -> rel G (Some t) (Some l) -> (t = None <-> l = []).
Proof.
  destruct t as [a|]; cbn; intros H P.
  - split; [discriminate|]. intros ->. apply Permutation_sym, Permutation_nil in P. destruct (H a eq_refl P).
  - apply Permutation_nil in P. tauto.
Qed.
Lemma cont_nonempty h R G a nd : wf h R G -> mem h a = Some nd -> cont (G a) <> [].
Proof.
  intros W H. destruct (w_loc _ _ _ _ _ W a nd H) as [O1 O2 O3 O4 O5 O6]. rewrite O1. unfold inorder.
  destruct (ents nd) as [|[s x] es]; cbn in *; [lia|]. destruct (below G s); discriminate.
Qed.
Lemma sorted_increasing l : sorted l -> increasing cmp l.
Proof.
  induction l as [|x l IH]; intros S [|i] [|j] y z L; cbn; try discriminate; try lia.
  - intros E1 E2. injection E1 as <-. apply sorted_cons in S. apply S. eapply nth_error_In; eauto.
  - intros E1 E2. apply sorted_cons in S. destruct S as (S & _). eapply (IH S i j); eauto. lia.
Qed.
Lemma roots_app l m : roots (l ++ m) = roots l ++ roots m.
Proof. apply flat_map_app. Qed.
Lemma roots_cons o l : roots (o :: l) = root_of o ++ roots l.
Proof. reflexivity. Qed.
Ltac oc := rewrite ?roots_app, ?roots_cons; cbn [root_of app]; repeat rewrite ?occ_app, ?occ_cons; lia.

(** What a step does, seen from the spec. *)
Lemma nth_rel G l F i : Forall2 (rel G) l F ->
  match nth_error l i, nth_error F i with
  | Some o, Some x => rel G o x
  | None, None => True
  | _, _ => False
  end.
Proof. intros X. revert i. induction X as [|o x l F R X IH]; intros [|i]; cbn; auto. apply IH. Qed.
Lemma split_at G l F i t x : Forall2 (rel G) l F -> nth_error l i = Some t -> nth_error F i = Some x ->
  exists l1 l2 F1 F2, l = l1 ++ t :: l2 /\ F = F1 ++ x :: F2 /\ length l1 = i /\ length F1 = i /\
    Forall2 (rel G) l1 F1 /\ Forall2 (rel G) l2 F2.
Proof.
  intros X E1 E2. destruct (nth_error_split _ _ E1) as (l1 & l2 & -> & L1).
  apply Forall2_app_inv_l in X. destruct X as (F1 & F' & X1 & X2 & ->). inversion X2 as [|? y ? F2 R X3]; subst.
  pose proof (F2_length _ _ _ X1) as L. rewrite L, nth_at in E2. injection E2 as <-.
  exists l1, l2, F1, F2. repeat (split; auto).
Qed.
Theorem step_sim w F G c : winv w F G -> (forall i p, c = CGet i p -> probe cmp p) ->
  match wstep cmp lim repl w c with
  | None => fstep cmp repl F c = None
  | Some (Ret (w', x)) => exists F' y G', fstep cmp repl F c = Some (F', y) /\ agrees cmp x y /\ winv w' F' G'
  | Some _ => False
  end.
Proof.
  intros (W & X) PR.
  assert (ON : forall i, match nth_error (sets w) i, nth_error F i with
     | Some (Some t), Some (Some l) => Permutation (below G t) l /\
         (forall a, t = Some a -> exists nd, mem (hp w) a = Some nd) /\
         exists l1 l2 F1 F2, sets w = l1 ++ Some t :: l2 /\ F = F1 ++ Some l :: F2 /\ length l1 = i /\ length F1 = i /\
            Forall2 (rel G) l1 F1 /\ Forall2 (rel G) l2 F2
     | Some (Some t), _ => False
     | _, Some (Some l) => False
     | _, _ => True end).
  { intros i. pose proof (nth_rel G _ _ i X) as N. destruct (nth_error (sets w) i) as [[t|]|] eqn:E1;
    destruct (nth_error F i) as [[l|]|] eqn:E2; cbn in N; auto.
    split; [exact N|]. split; [|eapply split_at; eauto].
    intros a ->. eapply wf_live; [exact W|]. unfold roots. apply in_flat_map. exists (Some (Some a)).
    split; [eapply nth_error_In; eauto|cbn; auto]. }
  assert (SB : forall t, (forall a, t = Some a -> exists nd, mem (hp w) a = Some nd) -> sorted (below G t)).
  { intros [a|] L; cbn; [|constructor]. destruct (L a eq_refl) as (nd & M). apply (w_loc _ _ _ _ _ W a nd M). }
  destruct c as [|i|i v|i p|i|i|i|i]; cbn [wstep fstep].
  - (* new *) eexists _, _, G. split; [reflexivity|]. split; [reflexivity|]. split; cbn [hp sets].
    + rewrite roots_app. cbn. rewrite app_nil_r. exact W.
    + apply Forall2_app; [exact X|]. repeat constructor.
  - (* clone *) specialize (ON i). destruct (nth_error (sets w) i) as [[t|]|], (nth_error F i) as [[l|]|]; try contradiction; auto.
    destruct ON as (P & L & _). destruct t as [a|]; cbn [set_clone].
    + destruct (wf_incr cmp lim (hp w) (roots (sets w)) G a W (L a eq_refl)) as (h' & -> & W' & _). cbn [bind].
      eexists _, _, G. split; [reflexivity|]. split; [reflexivity|]. split; cbn [hp sets].
      * eapply wf_occ; [|exact W']. intros y. rewrite occ_cons, roots_app, occ_app. change (roots [Some (Some a)]) with [a]. rewrite occ_cons. change (occ [] y) with 0. lia.
      * apply Forall2_app; [exact X|]. repeat constructor. exact P.
    + cbn [bind]. eexists _, _, G. split; [reflexivity|]. split; [reflexivity|]. split; cbn [hp sets].
      * rewrite roots_app. cbn. rewrite app_nil_r. exact W.
      * apply Forall2_app; [exact X|]. repeat constructor. exact P.
  - (* insert *) specialize (ON i). destruct (nth_error (sets w) i) as [[t|]|], (nth_error F i) as [[l|]|]; try contradiction; auto.
    destruct ON as (P & L & l1 & l2 & F1 & F2 & E1 & E2 & L1 & L2 & X1 & X2).
    specialize (SB t L). destruct t as [a|]; cbn [set_insert].
    + assert (W1 : wf (hp w) (a :: roots l1 ++ roots l2) G).
      { eapply wf_occ; [|exact W]. intros y. rewrite E1. oc. }
      destruct (node_insert_ok v _ _ _ _ W1) as (h' & b & r & G' & -> & W' & A & I & N). cbn [bind].
      destruct (ins_set_finsert v (cont (G a)) (cont (G' b)) r l SB P I) as (l' & -> & P' & S').
      { intros RP NF. destruct (N RP NF) as (_ & _ & Q1 & Q2). auto. }
      eexists _, _, G'. split; [reflexivity|]. split; [reflexivity|]. split; cbn [hp sets].
      * rewrite E1, <- L1, put_at. eapply wf_occ; [|exact W']. intros y. oc.
      * rewrite E1, E2. rewrite <- L1 at 1. rewrite <- L2 at 1. rewrite !put_at. apply Forall2_app.
        -- eapply rel_list_ext; [|exact X1]. intros c Ic. apply A. apply in_or_app. auto.
        -- constructor; [exact P'|]. eapply rel_list_ext; [|exact X2]. intros c Ic. apply A. apply in_or_app. auto.
    + destruct (Nat.leb_spec (lim - 1) 0) as [Q|_]; [lia|]. cbn [below] in P. apply Permutation_nil in P. subst l. cbn [finsert find].
      pose proof (wf_fresh _ _ _ _ _ W) as W1. unfold new_node. change (fresh (hp w)) with (fst (fresh (hp w)), next (hp w)) at 1. cbv beta iota zeta.
      cbn [bind]. set (nd := Node 1 [(None, v)] None). set (inf := Info 0 [v] 1).
      assert (OK : node_ok G nd inf).
      { unfold nd, inf. constructor; cbn [ents gtr ht cont sz length].
        - reflexivity.
        - intros e [<-|[]]. reflexivity.
        - reflexivity.
        - reflexivity.
        - lia.
        - repeat constructor. }
      assert (W2 := wf_close cmp lim (fst (fresh (hp w))) (roots (sets w)) G (next (hp w)) nd inf W1 (upd_eq _ _ _) ltac:(cbn; lia) eq_refl OK).
      assert (A : forall c, In c (roots (sets w)) -> upd G (next (hp w)) inf c = G c).
      { intros c Ic. apply upd_ne. intros ->. destruct (wf_live _ _ _ _ _ _ W Ic) as (n & M). pose proof (wf_lt _ _ _ _ _ _ _ W M). lia. }
      eexists _, _, (upd G (next (hp w)) inf). split; [reflexivity|]. split; [reflexivity|]. split; cbn [hp sets].
      * rewrite E1, <- L1, put_at. eapply wf_occ; [|exact W2]. intros y. rewrite E1. oc.
      * rewrite E1, E2. rewrite <- L1 at 1. rewrite <- L2 at 1. rewrite !put_at. rewrite E1, roots_app in A. apply Forall2_app.
        -- eapply rel_list_ext; [|exact X1]. intros c Ic. apply A. apply in_or_app. auto.
        -- constructor; [cbn; rewrite upd_eq; reflexivity|]. eapply rel_list_ext; [|exact X2]. intros c Ic. apply A. apply in_or_app. cbn. auto.
  - (* get *) specialize (ON i). destruct (nth_error (sets w) i) as [[t|]|], (nth_error F i) as [[l|]|]; try contradiction; auto.
    destruct ON as (P & L & _). specialize (SB t L). specialize (PR i p eq_refl). destruct t as [a|]; cbn [set_get].
    + destruct (L a eq_refl) as (nd & M). pose proof (wf_height _ _ _ _ _ _ _ W M).
      rewrite (node_get_ok p _ _ _ PR W (S (next (hp w))) a nd M) by lia. cbn [bind].
      eexists _, _, G. split; [reflexivity|]. split; [|split; auto]. cbn. f_equal. apply find_perm; auto.
    + cbn [bind]. apply Permutation_nil in P. subst l. eexists _, _, G. split; [reflexivity|]. split; [reflexivity|split; auto].
  - (* len *) specialize (ON i). destruct (nth_error (sets w) i) as [[t|]|], (nth_error F i) as [[l|]|]; try contradiction; auto.
    destruct ON as (P & L & _). destruct t as [a|]; cbn [set_len].
    + destruct (L a eq_refl) as (nd & M). pose proof (wf_height _ _ _ _ _ _ _ W M).
      rewrite (node_len_ok _ _ _ W (S (next (hp w))) a nd M) by lia. cbn [bind].
      eexists _, _, G. split; [reflexivity|]. split; [|split; auto]. cbn. f_equal. apply Permutation_length. exact P.
    + cbn [bind]. apply Permutation_nil in P. subst l. eexists _, _, G. split; [reflexivity|]. split; [reflexivity|split; auto].
  - (* is_empty *) specialize (ON i). destruct (nth_error (sets w) i) as [[t|]|], (nth_error F i) as [[l|]|]; try contradiction; auto.
    destruct ON as (P & L & _). eexists _, _, G. split; [reflexivity|]. split; [|split; auto]. cbn. f_equal.
    rewrite <- (Permutation_length P). destruct t as [a|]; cbn; [|reflexivity].
    destruct (L a eq_refl) as (nd & M). pose proof (cont_nonempty _ _ _ _ _ W M). destruct (cont (G a)); [congruence|reflexivity].
  - (* for_each *) specialize (ON i). destruct (nth_error (sets w) i) as [[t|]|], (nth_error F i) as [[l|]|]; try contradiction; auto.
    destruct ON as (P & L & _). specialize (SB t L). destruct t as [a|]; cbn [set_each].
    + destruct (L a eq_refl) as (nd & M). pose proof (wf_height _ _ _ _ _ _ _ W M).
      rewrite (node_each_ok _ _ _ W (S (next (hp w))) a nd M) by lia. cbn [bind].
      eexists _, _, G. split; [reflexivity|]. split; [|split; auto]. cbn. split; [apply sorted_increasing; exact SB|].
      split; [apply Permutation_length; exact P|]. intros x. split; apply Permutation_in; [exact P|symmetry; exact P].
    + cbn [bind]. apply Permutation_nil in P. subst l. eexists _, _, G. split; [reflexivity|]. split; [|split; auto].
      cbn. split; [|tauto]. intros [|?] ? ? ? ?; discriminate.
  - (* drop *) specialize (ON i). destruct (nth_error (sets w) i) as [[t|]|], (nth_error F i) as [[l|]|]; try contradiction; auto.
    destruct ON as (P & L & l1 & l2 & F1 & F2 & E1 & E2 & L1 & L2 & X1 & X2).
    assert (D : exists h', set_drop (hp w) t = Ret h' /\ wf h' (roots l1 ++ roots l2) G).
    { destruct t as [a|]; cbn [set_drop].
      - destruct (L a eq_refl) as (nd & M). pose proof (wf_height _ _ _ _ _ _ _ W M).
        destruct (wf_drop cmp lim (S (next (hp w))) (hp w) (roots l1 ++ roots l2) G a) as (h' & E & W' & _); [|lia|eauto].
        eapply wf_occ; [|exact W]. intros y. rewrite E1. oc.
      - exists (hp w). split; [reflexivity|]. eapply wf_occ; [|exact W]. intros y. rewrite E1, roots_app. reflexivity. }
    destruct D as (h' & -> & W'). cbn [bind]. eexists _, _, G. split; [reflexivity|]. split; [reflexivity|]. split; cbn [hp sets].
    + rewrite E1, <- L1, put_at, roots_app. exact W'.
    + rewrite E1, E2. rewrite <- L1 at 1. rewrite <- L2 at 1. rewrite !put_at. apply Forall2_app; [exact X1|]. constructor; [cbn; auto|exact X2].
Qed.
End Sets.
