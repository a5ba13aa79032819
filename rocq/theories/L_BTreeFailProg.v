(** Lemmas on programs whose insertions in B-trees are interrupted. *)
From Coq Require Import List Arith Bool Lia Permutation Sorted.
From Verif Require Import M_Import L_Import M_BTree S_BTree L_BTree L_BTreeIns L_BTreeSet L_BTreeTop M_BTreeFail S_BTreeFail L_BTreeFail.
Import ListNotations.

Section Prog.
Context {T : Type} (cmp : T -> T -> comparison) (lim : nat) (repl : bool).
Hypothesis ORD : total_order cmp.
Hypothesis ODD : lim = 2 * (lim / 2) + 1.
Hypothesis LIM : 3 <= lim.
Notation heap := (heap T). Notation node := (node T). Notation entry := (option nat * T)%type.
Notation wf := (@wf T cmp lim). Notation sorted := (@sorted T cmp). Notation node_ok := (@node_ok T cmp lim).
Notation slot_ok := (@slot_ok T lim). Notation Ins := (@Ins T cmp). Notation left := (@left T cmp lim).
Notation rel := (@rel T).

Lemma node_getF_ok f : forall (h : heap) v p a,
  match node_getF cmp f h v p a with
  | Ret None => kof p = Some KCmp
  | Ret (Some (p1, o)) => kof p1 = kof p /\ node_get f h (fun x => Some (cmp x v)) a = Ret o
  | Panic => node_get f h (fun x => Some (cmp x v)) a = Panic
  | Fault => node_get f h (fun x => Some (cmp x v)) a = Fault
  | Fuel => node_get f h (fun x => Some (cmp x v)) a = Fuel
  end.
Proof.
  induction f as [|f IH]; intros h v p a; cbn [node_getF node_get]; [reflexivity|].
  destruct (get_node h a) as [n| | |]; cbn [bind]; try reflexivity.
  revert p. induction (ents n) as [|[s x] es IHe]; intros p; cbn [scanF scan].
  - destruct (gtr n) as [c|]; [apply IH|auto].
  - destruct (tick KCmp p) as [p1|] eqn:E; [|apply tick_none; exact E]. apply tick_some in E.
    assert (Q : forall r s, match r with
       | Ret None => kof p1 = Some KCmp | Ret (Some (p2, o)) => kof p2 = kof p1 /\ s = Ret o
       | Panic => s = Panic | Fault => s = Fault | Fuel => s = Fuel end ->
       match r with
       | Ret None => kof p = Some KCmp | Ret (Some (p2, o)) => kof p2 = kof p /\ s = @Ret (option T) o
       | Panic => s = Panic | Fault => s = Fault | Fuel => s = Fuel end).
    { intros [[[p2 o]|]| | |] s' H; auto; [destruct H; split; congruence|congruence]. }
    apply Q. destruct (cmp x v).
    + auto.
    + apply IHe.
    + destruct s as [c|]; [apply IH|auto].
Qed.
Lemma node_insertF_ok v h R G a p : wf h (a :: R) G ->
  exists h' b q, node_insertF cmp lim repl (S (next h)) h a v p = Ret (h', b, q) /\
    match q with
    | Some r => node_insert cmp lim repl (S (next h)) h a v = Ret (h', b, r)
    | None => exists k L G', kof p = Some k /\ (k <> KClone -> L = []) /\ (forall c, In c R -> G' c = G c) /\
              wf h' (b :: L ++ R) G' /\ left k v (cont (G a)) (cont (G' b))
    end.
Proof.
  intros W. destruct (wf_live _ _ _ _ _ a W) as (nd & H); [cbn; auto|]. pose proof (wf_height _ _ _ _ _ _ _ W H) as HT.
  assert (GO : forall p, exists h' b q,
    (do (h1, b, q) <- insert_innerF cmp lim (S (next h)) h a v p ;
    match q with
    | None => Ret (h1, b, None)
    | Some (_, inr r) => Ret (h1, b, Some r)
    | Some (p1, inl (rgt, pivot)) =>
        do h2 <- incr h1 b ;
        match tick KSplit p1 with
        | None => do h3 <- drop_all (drop_node (S (next h))) h2 [b; rgt] ; Ret (h3, b, None)
        | Some _ =>
            let (h3, root) := new_node h2 (Node 1 [(Some b, pivot)] (Some rgt)) in
            do h4 <- drop_node (S (next h)) h3 b ;
            Ret (h4, root, Some None)
        end
    end) = Ret (h', b, q) /\
    match q with
    | Some r => (do (h1, b, o) <- insert_inner cmp lim (S (next h)) h a v ;
    match o with
    | inr r => Ret (h1, b, r)
    | inl (rgt, pivot) =>
        do h2 <- incr h1 b ;
        let (h3, root) := new_node h2 (Node 1 [(Some b, pivot)] (Some rgt)) in
        do h4 <- drop_node (S (next h)) h3 b ;
        Ret (h4, root, None)
    end) = Ret (h', b, r)
    | None => exists k L G', kof p = Some k /\ (k <> KClone -> L = []) /\ (forall c, In c R -> G' c = G c) /\
              wf h' (b :: L ++ R) G' /\ left k v (cont (G a)) (cont (G' b))
    end).
  { intros p0. destruct (insert_innerF_ok cmp lim ORD ODD LIM v (S (next h)) h R G a p0 W ltac:(lia)) as (h1 & b & q & -> & X). cbn [bind].
    destruct q as [[p1 o]|].
    - destruct X as (X & KP). rewrite X. cbn [bind]. destruct o as [[rgt piv]|r]; [|do 3 eexists; split; reflexivity].
      destruct (insert_inner_ok cmp lim ORD ODD LIM v (S (next h)) h R G a W ltac:(lia)) as (h1' & b' & o' & G1 & E1 & K1 & A1 & SP).
      rewrite X in E1. injection E1 as <- <- <-. cbn [ins_spec] in SP. destruct SP as (W1 & I1 & H1 & H2 & Z1 & Z2).
      destruct (wf_incr cmp lim h1 (b :: rgt :: R) G1 b W1) as (h2 & E2 & W2 & K2 & N2 & M2).
      { eapply wf_live; [exact W1|]. cbn. auto. }
      rewrite E2. cbn [bind]. destruct (tick KSplit p1) as [p2|] eqn:TK.
      + pose proof (node_insert_ok cmp lim true ORD ODD LIM v h R G a W) as (h' & b' & r & G' & E & _).
        unfold node_insert in E. rewrite X in E. cbn [bind] in E. rewrite E2 in E. cbn [bind] in E.
        destruct (new_node h2 (Node 1 [(Some b, piv)] (Some rgt))) as [h3 root]. 
        destruct (drop_node (S (next h)) h3 b) as [h4| | |]; cbn [bind] in *; try discriminate. do 3 eexists. split; reflexivity.
      + destruct (wf_drop_all cmp lim (S (next h)) [b; rgt] h2 (b :: R) G1) as (h3 & E3 & W3 & _).
        { eapply wf_occ; [|exact W2]. intros y. cbn [app]. rewrite !occ_cons. lia. }
        { intros c [<-|[<-|[]]]; lia. }
        rewrite E3. cbn [bind]. do 3 eexists. split; [reflexivity|]. apply tick_none in TK. exists KSplit, [], G1.
        split; [congruence|]. split; [auto|]. split; [exact A1|]. split; [exact W3|].
        exists (cont (G1 b)), (piv :: cont (G1 rgt)), []. rewrite !app_nil_r. split; [exact I1|]. split; [reflexivity|].
        cbn [length]. destruct (wf_live _ _ _ _ _ rgt W1) as (nr & Mr); [cbn; auto|].
        destruct (w_loc _ _ _ _ _ W1 rgt nr Mr) as [O1 O2 O3 O4 O5 O6]. rewrite O1. unfold inorder. rewrite app_length.
        assert (Z : length (ents nr) <= length (inorder_es G1 (ents nr))); [|lia].
        clear. induction (ents nr) as [|[s x] es IH]; [cbn; lia|]. rewrite inorder_es_cons, app_length. cbn [length]. lia.
    - destruct X as (K & k & L & G' & X1 & X2 & X3 & X4 & X5 & _). do 3 eexists. split; [reflexivity|]. exists k, L, G'. auto. }
  unfold node_insertF, node_insert. destruct repl.
  - apply GO.
  - pose proof (node_getF_ok (S (next h)) h v p a) as NG.
    pose proof (node_get_ok cmp lim ODD LIM _ h (a :: R) G (cmp_probe cmp ORD v) W (S (next h)) a nd H ltac:(lia)) as NO.
    destruct (node_getF cmp (S (next h)) h v p a) as [[[p1 o]|]| | |]; try congruence; cbn [bind].
    + destruct NG as (KP & NG). rewrite NG. cbn [bind]. destruct o as [x|]; [do 3 eexists; split; reflexivity|].
      destruct (GO p1) as (h' & b & q & E & X). exists h', b, q. split; [exact E|]. rewrite KP in X. exact X.
    + do 3 eexists. split; [reflexivity|]. exists KCmp, [], G. split; [exact NG|]. split; [auto|]. split; [auto|]. split; [exact W|]. reflexivity.
Qed.
Lemma survives_left k v c c' l : sorted c -> Permutation c l -> left k v c c' -> survives cmp lim k v l c'.
Proof.
  intros S P H. destruct k; cbn in *; try (subst; exact P); [|exact H].
  destruct H as (lo & lost & hi & I & -> & Z). pose proof (ins_sorted cmp ORD _ _ _ _ I S) as S1.
  pose proof (ins_find cmp ORD _ _ _ _ I) as FI. split.
  - rewrite (find_same_probe cmp ORD) in *. rewrite <- FI. symmetry. apply (find_perm cmp); auto. apply (cmp_probe cmp ORD).
  - exists lo, lost, hi. split; [apply (sorted_increasing cmp lim ODD LIM); exact S1|]. split; [|split; [reflexivity|exact Z]].
    destruct I as (lo' & hi' & E1 & E2 & _). rewrite E2, <- Permutation_middle. constructor. rewrite <- P, E1. reflexivity.
Qed.

Definition winvL (L : list nat) (w : world T) (F : list (option (list T))) (G : nat -> info) : Prop :=
  wf (hp w) (L ++ roots (sets w)) G /\ Forall2 (rel G) (sets w) F.
Ltac oc := rewrite ?roots_app, ?roots_cons; cbn [root_of app]; repeat rewrite ?occ_app, ?occ_cons; lia.
Theorem step_simL LK w F G c : winvL LK w F G -> (forall i p, c = CGet i p -> probe cmp p) ->
  match wstep cmp lim repl w c with
  | None => fstep cmp repl F c = None
  | Some (Ret (w', x)) => exists F' y G', fstep cmp repl F c = Some (F', y) /\ agrees cmp x y /\ winvL LK w' F' G'
  | Some _ => False
  end.
Proof.
  intros (W & X) PR.
  assert (ON : forall i, match nth_error (sets w) i, nth_error F i with
     | Some (Some t), Some (Some l) => Permutation (below G t) l /\
         (forall a, t = Some a -> exists nd, mem (hp w) a = Some nd) /\
         exists l1 l2 F1 F2, sets w = l1 ++ Some t :: l2 /\ F = F1 ++ Some l :: F2 /\ length l1 = i /\ length F1 = i /\
            Forall2 (rel G) l1 F1 /\ Forall2 (rel G) l2 F2
     | Some (Some t), _ => False
     | _, Some (Some l) => False
     | _, _ => True end).
  { intros i. pose proof (nth_rel G _ _ i X) as N. destruct (nth_error (sets w) i) as [[t|]|] eqn:E1;
    destruct (nth_error F i) as [[l|]|] eqn:E2; cbn in N; auto.
    split; [exact N|]. split; [|eapply split_at; eauto].
    intros a ->. eapply wf_live; [exact W|]. apply in_or_app. right. unfold roots. apply in_flat_map. exists (Some (Some a)).
    split; [eapply nth_error_In; eauto|cbn; auto]. }
  assert (SB : forall t, (forall a, t = Some a -> exists nd, mem (hp w) a = Some nd) -> sorted (below G t)).
  { intros [a|] L; cbn; [|constructor]. destruct (L a eq_refl) as (nd & M). apply (w_loc _ _ _ _ _ W a nd M). }
  destruct c as [|i|i v|i p|i|i|i|i]; cbn [wstep fstep].
  - (* new *) eexists _, _, G. split; [reflexivity|]. split; [reflexivity|]. split; cbn [hp sets].
    + rewrite roots_app. cbn. rewrite app_nil_r. exact W.
    + apply Forall2_app; [exact X|]. repeat constructor.
  - (* clone *) specialize (ON i). destruct (nth_error (sets w) i) as [[t|]|], (nth_error F i) as [[l|]|]; try contradiction; auto.
    destruct ON as (P & L & _). destruct t as [a|]; cbn [set_clone].
    + destruct (wf_incr cmp lim (hp w) ((LK ++ roots (sets w))) G a W (L a eq_refl)) as (h' & -> & W' & _). cbn [bind].
      eexists _, _, G. split; [reflexivity|]. split; [reflexivity|]. split; cbn [hp sets].
      * eapply wf_occ; [|exact W']. intros y. rewrite roots_app. change (roots [Some (Some a)]) with [a]. repeat rewrite ?occ_app, ?occ_cons. change (occ [] y) with 0. lia.
      * apply Forall2_app; [exact X|]. repeat constructor. exact P.
    + cbn [bind]. eexists _, _, G. split; [reflexivity|]. split; [reflexivity|]. split; cbn [hp sets].
      * rewrite roots_app. cbn. rewrite app_nil_r. exact W.
      * apply Forall2_app; [exact X|]. repeat constructor. exact P.
  - (* insert *) specialize (ON i). destruct (nth_error (sets w) i) as [[t|]|], (nth_error F i) as [[l|]|]; try contradiction; auto.
    destruct ON as (P & L & l1 & l2 & F1 & F2 & E1 & E2 & L1 & L2 & X1 & X2).
    specialize (SB t L). destruct t as [a|]; cbn [set_insert].
    + assert (W1 : wf (hp w) (a :: LK ++ roots l1 ++ roots l2) G).
      { eapply wf_occ; [|exact W]. intros y. rewrite E1. oc. }
      destruct (node_insert_ok cmp lim repl ORD ODD LIM v _ _ _ _ W1) as (h' & b & r & G' & -> & W' & A & I & N). cbn [bind].
      destruct (ins_set_finsert cmp repl ORD v (cont (G a)) (cont (G' b)) r l SB P I) as (l' & -> & P' & S').
      { intros RP NF. destruct (N RP NF) as (_ & _ & Q1 & Q2). auto. }
      eexists _, _, G'. split; [reflexivity|]. split; [reflexivity|]. split; cbn [hp sets].
      * rewrite E1, <- L1, put_at. eapply wf_occ; [|exact W']. intros y. oc.
      * rewrite E1, E2. rewrite <- L1 at 1. rewrite <- L2 at 1. rewrite !put_at. apply Forall2_app.
        -- eapply rel_list_ext; [|exact X1]. intros c Ic. apply A. rewrite !in_app_iff. auto.
        -- constructor; [exact P'|]. eapply rel_list_ext; [|exact X2]. intros c Ic. apply A. rewrite !in_app_iff. auto.
    + destruct (Nat.leb_spec (lim - 1) 0) as [Q|_]; [lia|]. cbn [below] in P. apply Permutation_nil in P. subst l. cbn [finsert find].
      pose proof (wf_fresh _ _ _ _ _ W) as W1. unfold new_node. change (fresh (hp w)) with (fst (fresh (hp w)), next (hp w)) at 1. cbv beta iota zeta.
      cbn [bind]. set (nd := Node 1 [(None, v)] None). set (inf := Info 0 [v] 1).
      assert (OK : node_ok G nd inf).
      { unfold nd, inf. constructor; cbn [ents gtr ht cont sz length].
        - reflexivity.
        - intros e [<-|[]]. reflexivity.
        - reflexivity.
        - reflexivity.
        - lia.
        - repeat constructor. }
      assert (W2 := wf_close cmp lim (fst (fresh (hp w))) ((LK ++ roots (sets w))) G (next (hp w)) nd inf W1 (upd_eq _ _ _) ltac:(cbn; lia) eq_refl OK).
      assert (A : forall c, In c ((LK ++ roots (sets w))) -> upd G (next (hp w)) inf c = G c).
      { intros c Ic. apply upd_ne. intros ->. destruct (wf_live _ _ _ _ _ _ W Ic) as (n & M). pose proof (wf_lt _ _ _ _ _ _ _ W M). lia. }
      eexists _, _, (upd G (next (hp w)) inf). split; [reflexivity|]. split; [reflexivity|]. split; cbn [hp sets].
      * rewrite E1, <- L1, put_at. eapply wf_occ; [|exact W2]. intros y. rewrite E1. oc.
      * rewrite E1, E2. rewrite <- L1 at 1. rewrite <- L2 at 1. rewrite !put_at. rewrite E1, roots_app in A. apply Forall2_app.
        -- eapply rel_list_ext; [|exact X1]. intros c Ic. apply A. rewrite !in_app_iff. auto.
        -- constructor; [cbn; rewrite upd_eq; reflexivity|]. eapply rel_list_ext; [|exact X2]. intros c Ic. apply A. rewrite !in_app_iff. cbn. auto.
  - (* get *) specialize (ON i). destruct (nth_error (sets w) i) as [[t|]|], (nth_error F i) as [[l|]|]; try contradiction; auto.
    destruct ON as (P & L & _). specialize (SB t L). specialize (PR i p eq_refl). destruct t as [a|]; cbn [set_get].
    + destruct (L a eq_refl) as (nd & M). pose proof (wf_height _ _ _ _ _ _ _ W M).
      rewrite (node_get_ok cmp lim ODD LIM p _ _ _ PR W (S (next (hp w))) a nd M) by lia. cbn [bind].
      eexists _, _, G. split; [reflexivity|]. split; [|split; auto]. cbn. f_equal. apply (find_perm cmp); auto.
    + cbn [bind]. apply Permutation_nil in P. subst l. eexists _, _, G. split; [reflexivity|]. split; [reflexivity|split; auto].
  - (* len *) specialize (ON i). destruct (nth_error (sets w) i) as [[t|]|], (nth_error F i) as [[l|]|]; try contradiction; auto.
    destruct ON as (P & L & _). destruct t as [a|]; cbn [set_len].
    + destruct (L a eq_refl) as (nd & M). pose proof (wf_height _ _ _ _ _ _ _ W M).
      rewrite (node_len_ok cmp lim ODD LIM _ _ _ W (S (next (hp w))) a nd M) by lia. cbn [bind].
      eexists _, _, G. split; [reflexivity|]. split; [|split; auto]. cbn. f_equal. apply Permutation_length. exact P.
    + cbn [bind]. apply Permutation_nil in P. subst l. eexists _, _, G. split; [reflexivity|]. split; [reflexivity|split; auto].
  - (* is_empty *) specialize (ON i). destruct (nth_error (sets w) i) as [[t|]|], (nth_error F i) as [[l|]|]; try contradiction; auto.
    destruct ON as (P & L & _). eexists _, _, G. split; [reflexivity|]. split; [|split; auto]. cbn. f_equal.
    rewrite <- (Permutation_length P). destruct t as [a|]; cbn; [|reflexivity].
    destruct (L a eq_refl) as (nd & M). pose proof (cont_nonempty cmp lim ODD LIM _ _ _ _ _ W M). destruct (cont (G a)); [congruence|reflexivity].
  - (* for_each *) specialize (ON i). destruct (nth_error (sets w) i) as [[t|]|], (nth_error F i) as [[l|]|]; try contradiction; auto.
    destruct ON as (P & L & _). specialize (SB t L). destruct t as [a|]; cbn [set_each].
    + destruct (L a eq_refl) as (nd & M). pose proof (wf_height _ _ _ _ _ _ _ W M).
      rewrite (node_each_ok cmp lim ODD LIM _ _ _ W (S (next (hp w))) a nd M) by lia. cbn [bind].
      eexists _, _, G. split; [reflexivity|]. split; [|split; auto]. cbn. split; [apply (sorted_increasing cmp lim ODD LIM); exact SB|].
      split; [apply Permutation_length; exact P|]. intros x. split; apply Permutation_in; [exact P|symmetry; exact P].
    + cbn [bind]. apply Permutation_nil in P. subst l. eexists _, _, G. split; [reflexivity|]. split; [|split; auto].
      cbn. split; [|tauto]. intros [|?] ? ? ? ?; discriminate.
  - (* drop *) specialize (ON i). destruct (nth_error (sets w) i) as [[t|]|], (nth_error F i) as [[l|]|]; try contradiction; auto.
    destruct ON as (P & L & l1 & l2 & F1 & F2 & E1 & E2 & L1 & L2 & X1 & X2).
    assert (D : exists h', set_drop (hp w) t = Ret h' /\ wf h' (LK ++ roots l1 ++ roots l2) G).
    { destruct t as [a|]; cbn [set_drop].
      - destruct (L a eq_refl) as (nd & M). pose proof (wf_height _ _ _ _ _ _ _ W M).
        destruct (wf_drop cmp lim (S (next (hp w))) (hp w) (LK ++ roots l1 ++ roots l2) G a) as (h' & E & W' & _); [|lia|eauto].
        eapply wf_occ; [|exact W]. intros y. rewrite E1. oc.
      - exists (hp w). split; [reflexivity|]. eapply wf_occ; [|exact W]. intros y. rewrite E1. oc. }
    destruct D as (h' & -> & W'). cbn [bind]. eexists _, _, G. split; [reflexivity|]. split; [reflexivity|]. split; cbn [hp sets].
    + rewrite E1, <- L1, put_at. eapply wf_occ; [|exact W']. intros y. oc.
    + rewrite E1, E2. rewrite <- L1 at 1. rewrite <- L2 at 1. rewrite !put_at. apply Forall2_app; [exact X1|]. constructor; [cbn; auto|exact X2].
Qed.

Theorem fstep_simL LK w F G c p : winvL LK (base w) F G -> gone w = [] -> (forall i p, c = CGet i p -> probe cmp p) -> kof p <> Some KFirst ->
  match fwstep cmp lim repl w c p with
  | None => fstep cmp repl F c = None
  | Some (Ret (w', x)) => gone w' = [] /\ exists LK' F' y G', gstep cmp lim repl F c p F' y /\ fagrees cmp x y /\ winvL LK' (base w') F' G' /\
      (kof p <> Some KClone -> LK' = LK)
  | Some _ => False
  end.
Proof.
  intros W GN PR NF. pose proof (step_simL LK (base w) F G c W PR) as SS.
  assert (GO : match match wstep cmp lim repl (base w) c with
                     | None => None
                     | Some r => Some (do (w1, x) <- r ; Ret (FWorld w1 (gone w), Some x))
                     end with
    | None => fstep cmp repl F c = None
    | Some (Ret (w', x)) => gone w' = [] /\ exists LK' F' y G', gstep cmp lim repl F c p F' y /\ fagrees cmp x y /\ winvL LK' (base w') F' G' /\
        (kof p <> Some KClone -> LK' = LK)
    | Some _ => False
    end).
  { destruct (wstep cmp lim repl (base w) c) as [[[w1 x]| | |]|]; cbn [bind]; auto.
    destruct SS as (F' & y & G' & E & A & W'). split; [exact GN|]. exists LK, F', (Some y), G'. split; [constructor; exact E|]. auto. }
  unfold fwstep, is_gone. rewrite GN in *. cbn [existsb].
  destruct c as [|i|i v|i q|i|i|i|i]; try exact GO. clear GO.
  cbn [wstep] in SS. destruct (nth_error (sets (base w)) i) as [[t|]|] eqn:Ei; [|exact SS|exact SS].
  assert (DN : forall h t2 r, set_insert cmp lim repl (hp (base w)) t v = Ret (h, t2, r) ->
     exists LK' F' y G', gstep cmp lim repl F (CInsert i v) p F' y /\ fagrees cmp (Some (AOpt r)) y /\
       winvL LK' (World h (put (sets (base w)) i (Some t2))) F' G' /\ (kof p <> Some KClone -> LK' = LK)).
  { intros h t2 r E. rewrite E in SS. cbn [bind] in SS. destruct SS as (F' & y & G' & E' & A & W').
    exists LK, F', (Some y), G'. split; [constructor; exact E'|]. auto. }
  destruct t as [a|]; cbn [set_insertF].
  - destruct W as (W & X). pose proof (nth_rel G _ _ i X) as N. rewrite Ei in N. destruct (nth_error F i) as [[l|]|] eqn:Fi; try contradiction. cbn in N.
    destruct (split_at G _ _ _ _ _ X Ei Fi) as (l1 & l2 & F1 & F2 & E1 & E2 & L1 & L2 & X1 & X2).
    assert (W1 : wf (hp (base w)) (a :: LK ++ roots l1 ++ roots l2) G).
    { eapply wf_occ; [|exact W]. intros y. rewrite E1. oc. }
    destruct (node_insertF_ok v _ _ _ _ p W1) as (h' & b & q & E & Q). rewrite E. cbn [bind]. destruct q as [r|]; cbn [option_map].
    + split; [reflexivity|]. apply DN. cbn [set_insert]. rewrite Q. reflexivity.
    + split; [reflexivity|]. destruct Q as (k & L & G' & K & LN & A & W' & LE).
      destruct (wf_live _ _ _ _ _ a W1) as (nd & M); [cbn; auto|].
      assert (SV : survives cmp lim k v l (cont (G' b))).
      { eapply survives_left; [|exact N|exact LE]. apply (w_loc _ _ _ _ _ W1 a nd M). }
      destruct p as [[k' n]|]; [|discriminate K]. cbn in K. injection K as ->.
      exists (L ++ LK), (put F i (Some (cont (G' b)))), None, G'. split; [eapply g_panic; eauto|]. split; [exact I|]. split.
      * split; cbn [hp sets base].
        -- rewrite E1, <- L1, put_at. eapply wf_occ; [|exact W']. intros y. oc.
        -- rewrite E1, E2. rewrite <- L1 at 1. rewrite <- L2 at 1. rewrite !put_at. apply Forall2_app.
           ++ eapply rel_list_ext; [|exact X1]. intros c Ic. apply A. rewrite !in_app_iff. auto.
           ++ constructor; [cbn; apply Permutation_refl|]. eapply rel_list_ext; [|exact X2]. intros c Ic. apply A. rewrite !in_app_iff. auto.
      * intros NK. rewrite LN; [reflexivity|]. intros ->. apply NK. reflexivity.
  - destruct (Nat.leb_spec (lim - 1) 0) as [Q|_]; [lia|]. destruct (tick KFirst p) as [p1|] eqn:TK.
    2:{ apply tick_none in TK. contradiction. }
    cbn [bind]. destruct (new_node (hp (base w)) (Node 1 [(None, v)] None)) as [h1 a] eqn:NN. cbn [bind option_map]. split; [reflexivity|].
    apply DN. cbn [set_insert]. destruct (Nat.leb_spec (lim - 1) 0) as [Q|_]; [lia|]. rewrite NN. reflexivity.
Qed.

(** Which sets exist does not depend on what they contain. *)
Definition shape (F : list (option (list T))) : list bool := map (fun o => match o with Some _ => true | None => false end) F.
Lemma shape_nth F F' i : shape F = shape F' -> match nth_error F i, nth_error F' i with
  | Some (Some _), Some (Some _) | Some None, Some None | None, None => True | _, _ => False end.
Proof.
  revert F' i. induction F as [|[x|] F IH]; intros [|[y|] F'] [|i] E; cbn in E; try discriminate; cbn; auto; apply IH; injection E as E; exact E.
Qed.
Lemma put_same {A B} (f : A -> B) l : forall i x y, nth_error l i = Some y -> f x = f y -> map f (put l i x) = map f l.
Proof.
  induction l as [|z l IH]; intros [|i] x y E Q; cbn in *; try discriminate.
  - injection E as <-. unfold put. cbn. rewrite Q. reflexivity.
  - unfold put in *. cbn. f_equal. eapply IH; eauto.
Qed.
Lemma map_put {A B} (f : A -> B) l i x : map f (put l i x) = put (map f l) i (f x).
Proof. unfold put. rewrite map_app, map_cons, firstn_map, skipn_map. reflexivity. Qed.
Lemma fstep_shape F F' c : shape F = shape F' ->
  match fstep cmp repl F c, fstep cmp repl F' c with
  | Some (F1, _), Some (F1', _) => shape F1 = shape F1'
  | None, None => True
  | _, _ => False
  end.
Proof.
  intros E. destruct c; cbn [fstep].
  - unfold shape in *. rewrite !map_app, E. reflexivity.
  - pose proof (shape_nth F F' i E). destruct (nth_error F i) as [[?|]|], (nth_error F' i) as [[?|]|]; try contradiction; auto.
    unfold shape in *. rewrite !map_app, E. reflexivity.
  - pose proof (shape_nth F F' i E). destruct (nth_error F i) as [[l|]|] eqn:E1, (nth_error F' i) as [[l'|]|] eqn:E2; try contradiction; auto.
    destruct (finsert cmp repl v l), (finsert cmp repl v l'). unfold shape in *. rewrite !map_put, E. reflexivity.
  - pose proof (shape_nth F F' i E). destruct (nth_error F i) as [[?|]|], (nth_error F' i) as [[?|]|]; try contradiction; auto.
  - pose proof (shape_nth F F' i E). destruct (nth_error F i) as [[?|]|], (nth_error F' i) as [[?|]|]; try contradiction; auto.
  - pose proof (shape_nth F F' i E). destruct (nth_error F i) as [[?|]|], (nth_error F' i) as [[?|]|]; try contradiction; auto.
  - pose proof (shape_nth F F' i E). destruct (nth_error F i) as [[?|]|], (nth_error F' i) as [[?|]|]; try contradiction; auto.
  - pose proof (shape_nth F F' i E). destruct (nth_error F i) as [[?|]|], (nth_error F' i) as [[?|]|]; try contradiction; auto.
    unfold shape in *. rewrite !map_put, E. reflexivity.
Qed.
Lemma gstep_shape F F0 c p F1 y : gstep cmp lim repl F c p F1 y -> shape F = shape F0 ->
  exists F0' z, fstep cmp repl F0 c = Some (F0', z) /\ shape F1 = shape F0'.
Proof.
  intros H E. destruct H as [c p F' x S|i v k n l l' S1 S2].
  - pose proof (fstep_shape F F0 c E) as Q. rewrite S in Q. destruct (fstep cmp repl F0 c) as [[F0' z]|]; [|contradiction]. eauto.
  - pose proof (shape_nth F F0 i E) as Q. rewrite S1 in Q. destruct (nth_error F0 i) as [[l0|]|] eqn:E0; try contradiction.
    cbn [fstep]. rewrite E0. destruct (finsert cmp repl v l0) as [l2 r]. do 2 eexists. split; [reflexivity|].
    unfold shape in *. rewrite !map_put, E. reflexivity.
Qed.
Theorem frun_simL cs : forall LK w F F0 G, winvL LK (base w) F G -> gone w = [] -> shape F = shape F0 -> probes_ok cmp (map fst cs) -> first_ok cs ->
  match fwrun cmp lim repl w cs with
  | None => frun cmp repl F0 (map fst cs) = None
  | Some (Ret (w', xs)) => gone w' = [] /\ exists LK' F' ys G', grun cmp lim repl F cs F' ys /\ Forall2 (fagrees cmp) xs ys /\ winvL LK' (base w') F' G' /\
      (clones_ok cs -> LK' = LK)
  | Some _ => False
  end.
Proof.
  induction cs as [|[c p] cs IH]; intros LK w F F0 G W GN SH PR FO; cbn [fwrun map frun fst].
  - split; [exact GN|]. exists LK, F, [], G. split; [constructor|]. auto.
  - pose proof (fstep_simL LK w F G c p W GN) as SS.
    assert (P0 : forall i q, c = CGet i q -> probe cmp q) by (intros i q ->; apply (PR i); cbn; auto).
    assert (K0 : kof p <> Some KFirst). { destruct p as [[k n]|]; cbn; [|discriminate]. intros Q. injection Q as ->. apply (FO c n). cbn. auto. }
    specialize (SS P0 K0). destruct (fwstep cmp lim repl w c p) as [[[w1 x]| | |]|]; try contradiction.
    + destruct SS as (GN1 & LK1 & F1 & y & G1 & S1 & A1 & W1 & N1).
      destruct (gstep_shape _ F0 _ _ _ _ S1 SH) as (F01 & z & E0 & SH1). rewrite E0.
      specialize (IH LK1 w1 F1 F01 G1 W1 GN1 SH1). destruct (fwrun cmp lim repl w1 cs) as [[[w2 xs]| | |]|].
      * destruct IH as (GN2 & LK2 & F2 & ys & G2 & S2 & A2 & W2 & N2); [intros i q I; apply (PR i); cbn; auto|intros c0 n I; apply (FO c0 n); cbn; auto|].
        split; [exact GN2|]. exists LK2, F2, (y :: ys), G2. split; [econstructor; eauto|]. split; [constructor; auto|]. split; [exact W2|].
        intros CO. rewrite N2 by (intros c0 n I; apply (CO c0 n); cbn; auto). apply N1. destruct p as [[k n]|]; cbn; [|discriminate].
        intros Q. injection Q as ->. apply (CO c n). cbn. auto.
      * apply IH; [intros i q I; apply (PR i); cbn; auto|intros c0 n I; apply (FO c0 n); cbn; auto].
      * apply IH; [intros i q I; apply (PR i); cbn; auto|intros c0 n I; apply (FO c0 n); cbn; auto].
      * apply IH; [intros i q I; apply (PR i); cbn; auto|intros c0 n I; apply (FO c0 n); cbn; auto].
      * rewrite IH; [reflexivity|intros i q I; apply (PR i); cbn; auto|intros c0 n I; apply (FO c0 n); cbn; auto].
    + pose proof (fstep_shape F F0 c SH) as Q. rewrite SS in Q. destruct (fstep cmp repl F0 c) as [[? ?]|]; [contradiction|reflexivity].
Qed.
Lemma winvL0 : winvL [] (base fworld0) [] (fun _ => Info 0 [] 0).
Proof. apply (winv0 cmp lim). Qed.
End Prog.
