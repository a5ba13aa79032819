(** Lemmas on the B-tree model: histories, shape, snapshots, release, maps. *)
From Coq Require Import List Arith Bool Lia Permutation Sorted.
From Verif Require Import M_Import L_Import M_BTree S_BTree L_BTree L_BTreeIns L_BTreeSet.
Import ListNotations.

Lemma nth_put {A} (l : list A) i x j : i < length l -> nth_error (put l i x) j = if j =? i then Some x else nth_error l j.
Proof.
  unfold put. revert i j. induction l as [|y l IH]; intros i j H; cbn in H; [lia|].
  destruct i as [|i], j as [|j]; cbn; auto. apply IH. lia.
Qed.
Lemma find_filter {A} (p f : A -> bool) l : (forall y, p y = true -> f y = true) -> find p (filter f l) = find p l.
Proof.
  intros H. induction l as [|y l IH]; [reflexivity|]. cbn [filter find]. destruct (p y) eqn:P.
  - rewrite (H y P). cbn. rewrite P. reflexivity.
  - destruct (f y); [cbn; rewrite P|]; exact IH.
Qed.

Section Top.
Context {T : Type} (cmp : T -> T -> comparison) (lim : nat) (repl : bool).
Hypothesis ORD : total_order cmp.
Hypothesis ODD : lim = 2 * (lim / 2) + 1.
Hypothesis LIM : 3 <= lim.
Notation wf := (@wf T cmp lim). Notation sorted := (@sorted T cmp).
Notation winv := (@winv T cmp lim).

Lemma run_sim cs : forall w F G, winv w F G -> probes_ok cmp cs ->
  match wrun cmp lim repl w cs with
  | None => frun cmp repl F cs = None
  | Some (Ret (w', xs)) => exists F' ys G', frun cmp repl F cs = Some (F', ys) /\ Forall2 (agrees cmp) xs ys /\ winv w' F' G'
  | Some _ => False
  end.
Proof.
  induction cs as [|c cs IH]; intros w F G W P; cbn [wrun frun].
  - exists F, [], G. auto.
  - pose proof (step_sim cmp lim repl ORD ODD LIM w F G c W) as S.
    destruct (wstep cmp lim repl w c) as [[[w1 x]| | |]|].
    + destruct S as (F1 & y & G1 & -> & A & W1); [intros i p ->; apply (P i); cbn; auto|].
      specialize (IH w1 F1 G1 W1). destruct (wrun cmp lim repl w1 cs) as [[[w2 xs]| | |]|].
      * destruct IH as (F2 & ys & G2 & -> & B & W2); [intros i p I; apply (P i); cbn; auto|]. exists F2, (y :: ys), G2. auto.
      * apply IH. intros i p I; apply (P i); cbn; auto.
      * apply IH. intros i p I; apply (P i); cbn; auto.
      * apply IH. intros i p I; apply (P i); cbn; auto.
      * rewrite IH; [reflexivity|]. intros i p I; apply (P i); cbn; auto.
    + apply S. intros i p ->. apply (P i). cbn. auto.
    + apply S. intros i p ->. apply (P i). cbn. auto.
    + apply S. intros i p ->. apply (P i). cbn. auto.
    + rewrite S; [reflexivity|]. intros i p ->. apply (P i). cbn. auto.
Qed.
Lemma run_inv cs w xs : probes_ok cmp cs -> wrun cmp lim repl world0 cs = Some (Ret (w, xs)) -> exists F G, winv w F G.
Proof.
  intros P E. pose proof (run_sim cs _ _ _ (winv0 cmp lim) P) as S. rewrite E in S. destruct S as (F & _ & G & _ & _ & W). eauto.
Qed.
Lemma winv_live w F G i a : winv w F G -> nth_error (sets w) i = Some (Some (Some a)) -> exists nd, mem (hp w) a = Some nd.
Proof.
  intros (W & _) H. eapply wf_live; [exact W|]. apply in_flat_map. exists (Some (Some a)). split; [eapply nth_error_In; eauto|cbn; auto].
Qed.

(** Shape. *)
Lemma wf_balanced h R G : wf h R G -> forall n a low nd, mem h a = Some nd -> ht (G a) = n -> low <= sz (G a) ->
  balanced lim h n low a.
Proof.
  intros W. induction n as [|n IH]; intros a low nd H E L; cbn [balanced];
  destruct (w_loc _ _ _ _ _ W a nd H) as [O1 O2 O3 O4 O5 O6]; exists nd; (split; [exact H|]); (split; [lia|]); rewrite E in *.
  - split; [|exact O3]. intros s x I. apply (O2 _ I).
  - assert (B : forall s, slot_ok lim G (S n) s -> (forall c, s = Some c -> In c (children nd)) ->
                exists c, s = Some c /\ balanced lim h n (lim / 2) c).
    { intros s (c & -> & A & B) C. exists c. split; [reflexivity|].
      destruct (wf_child _ _ _ _ _ _ _ c W H (C c eq_refl)) as (nc & M). eapply IH; eauto. }
    split.
    + intros s x I. apply B; [apply (O2 _ I)|]. intros c ->. apply in_children. left. exists (Some c, x). auto.
    + apply B; [exact O3|]. intros c Q. apply in_children. auto.
Qed.
Lemma wf_size h R G : wf h R G -> forall n a nd, mem h a = Some nd -> ht (G a) = n ->
  (sz (G a) + 1) * (lim / 2 + 1) ^ n <= length (cont (G a)) + 1.
Proof.
  intros W. induction n as [|n IH]; intros a nd H E;
  destruct (w_loc _ _ _ _ _ W a nd H) as [O1 O2 O3 O4 O5 O6]; rewrite O1, O4, E in *.
  - unfold inorder. rewrite app_length. cbn [Nat.pow].
    assert (Q : length (ents nd) <= length (inorder_es G (ents nd))); [|lia].
    clear. induction (ents nd) as [|[s x] es IHl]; cbn; [lia|]. rewrite !app_length. cbn. unfold inorder_es in *. lia.
  - set (k := (lim / 2 + 1) ^ S n).
    assert (B : forall s, slot_ok lim G (S n) s -> (forall c, s = Some c -> In c (children nd)) -> k <= length (below G s) + 1).
    { intros s (c & -> & A & B) C. cbn [below]. destruct (wf_child _ _ _ _ _ _ _ c W H (C c eq_refl)) as (nc & M).
      specialize (IH c nc M A). unfold k. rewrite Nat.pow_succ_r'. nia. }
    unfold inorder. rewrite app_length.
    assert (Q1 : k <= length (below G (gtr nd)) + 1).
    { apply B; [exact O3|]. intros c Q. apply in_children. auto. }
    assert (Q2 : length (ents nd) * k <= length (inorder_es G (ents nd))).
    { assert (BB : forall e, In e (ents nd) -> k <= length (below G (fst e)) + 1).
      { intros e I. apply B; [apply (O2 _ I)|]. intros c Q. apply in_children. left. eauto. }
      revert BB. clear. induction (ents nd) as [|[s x] es IHl]; intros BB; [cbn; lia|].
      rewrite inorder_es_cons, app_length. cbn [length]. specialize (IHl ltac:(intros; apply BB; cbn; auto)).
      specialize (BB (s, x) ltac:(cbn; auto)). cbn [fst] in BB. nia. }
    nia.
Qed.
Lemma balanced_cost (h : heap T) p : forall n f low a, balanced lim h n low a -> lookup_cost f h p a <= S n.
Proof.
  induction n as [|n IH]; intros [|f] low a B; cbn [lookup_cost]; try lia; cbn [balanced] in B; destruct B as (nd & -> & _ & B1 & B2).
  - apply le_n_S. rewrite B2. induction (ents nd) as [|[s x] es IHl]; [lia|].
    rewrite (B1 s x) by (cbn; auto). destruct (p x) as [[]|]; try lia. apply IHl. intros; eapply B1; cbn; eauto.
  - apply le_n_S. destruct B2 as (g & -> & Bg). specialize (IH f). 
    induction (ents nd) as [|[s x] es IHl]; [eapply IH; eauto|].
    destruct (p x) as [[]|]; try lia.
    + apply IHl. intros; eapply B1; cbn; eauto.
    + destruct (B1 s x) as (c & -> & Bc); [cbn; auto|]. eapply IH; eauto.
Qed.

(** Snapshots. *)
Lemma sorted_unique l : forall m, sorted l -> sorted m -> Permutation l m -> l = m.
Proof.
  assert (IR : forall x, cmp x x <> Lt) by (intros x; rewrite (ord_eq _ ORD); discriminate).
  induction l as [|x l IH]; intros m S1 S2 P; [apply Permutation_nil in P; auto|].
  destruct m as [|y m]; [apply Permutation_sym, Permutation_nil in P; discriminate|].
  apply (sorted_cons cmp) in S1. apply (sorted_cons cmp) in S2. destruct S1 as (S1 & F1), S2 as (S2 & F2).
  assert (E : x = y).
  { pose proof (Permutation_in x P ltac:(cbn; auto)) as I. pose proof (Permutation_in y (Permutation_sym P) ltac:(cbn; auto)) as J.
    destruct I as [->|I]; [reflexivity|]. destruct J as [->|J]; [reflexivity|].
    destruct (IR x). eapply (ord_lt _ ORD); [apply F1; exact J|apply F2; exact I]. }
  subst y. f_equal. apply IH; auto. eapply Permutation_cons_inv; eauto.
Qed.
Lemma fstep_other F c F' y j x : fstep cmp repl F c = Some (F', y) -> ~ changes j c -> nth_error F j = Some x -> nth_error F' j = Some x.
Proof.
  intros S N H. assert (L : j < length F) by (apply nth_error_Some; congruence).
  destruct c; cbn in S, N; try (destruct (nth_error F i) as [[l|]|] eqn:E; try discriminate).
  - injection S as <- _. rewrite nth_error_app1 by exact L. exact H.
  - injection S as <- _. rewrite nth_error_app1 by exact L. exact H.
  - destruct finsert. injection S as <- _. rewrite nth_put by (apply nth_error_Some; congruence).
    destruct (Nat.eqb_spec j i); [congruence|exact H].
  - injection S as <- _. exact H.
  - injection S as <- _. exact H.
  - injection S as <- _. exact H.
  - injection S as <- _. exact H.
  - injection S as <- _. rewrite nth_put by (apply nth_error_Some; congruence).
    destruct (Nat.eqb_spec j i); [congruence|exact H].
Qed.
Lemma frun_other cs : forall F F' ys j x, frun cmp repl F cs = Some (F', ys) -> (forall c, In c cs -> ~ changes j c) ->
  nth_error F j = Some x -> nth_error F' j = Some x.
Proof.
  induction cs as [|c cs IH]; intros F F' ys j x E N H; cbn in E; [injection E as <- <-; exact H|].
  destruct (fstep cmp repl F c) as [[F1 y]|] eqn:S; [|discriminate].
  destruct (frun cmp repl F1 cs) as [[F2 zs]|] eqn:R; [|discriminate]. injection E as <- <-.
  eapply IH; [exact R| |eapply fstep_other; eauto; apply N; cbn; auto]. intros; apply N; cbn; auto.
Qed.
Lemma wstep_other w c w' y j x : wstep cmp lim repl w c = Some (Ret (w', y)) -> ~ changes j c ->
  nth_error (sets w) j = Some x -> nth_error (sets w') j = Some x.
Proof.
  intros S N H. assert (L : j < length (sets w)) by (apply nth_error_Some; congruence).
  destruct c; cbn in S, N; try (destruct (nth_error (sets w) i) as [[l|]|] eqn:E; try discriminate; apply (f_equal (fun o => match o with Some z => z | None => Panic end)) in S; cbn beta iota in S).
  - injection S as <- _. cbn. rewrite nth_error_app1 by exact L. exact H.
  - destruct (set_clone (hp w) l); cbn in S; try discriminate. injection S as <- _. cbn. rewrite nth_error_app1 by exact L. exact H.
  - destruct (set_insert cmp lim repl (hp w) l v) as [[[? ?] ?]| | |]; cbn in S; try discriminate. injection S as <- _. cbn.
    rewrite nth_put by (apply nth_error_Some; congruence). destruct (Nat.eqb_spec j i); [congruence|exact H].
  - destruct (set_get (hp w) l p); cbn in S; try discriminate. injection S as <- _. exact H.
  - destruct (set_len (hp w) l); cbn in S; try discriminate. injection S as <- _. exact H.
  - injection S as <- _. exact H.
  - destruct (set_each (hp w) l); cbn in S; try discriminate. injection S as <- _. exact H.
  - destruct (set_drop (hp w) l); cbn in S; try discriminate. injection S as <- _. cbn.
    rewrite nth_put by (apply nth_error_Some; congruence). destruct (Nat.eqb_spec j i); [congruence|exact H].
Qed.
Lemma wrun_other cs : forall w w' ys j x, wrun cmp lim repl w cs = Some (Ret (w', ys)) -> (forall c, In c cs -> ~ changes j c) ->
  nth_error (sets w) j = Some x -> nth_error (sets w') j = Some x.
Proof.
  induction cs as [|c cs IH]; intros w w' ys j x E N H; cbn in E; [injection E as <- <-; exact H|].
  destruct (wstep cmp lim repl w c) as [[[w1 y]| | |]|] eqn:S; try discriminate.
  destruct (wrun cmp lim repl w1 cs) as [[[w2 zs]| | |]|] eqn:R; try discriminate. injection E as <- <-.
  eapply IH; [exact R| |eapply wstep_other; eauto; apply N; cbn; auto]. intros; apply N; cbn; auto.
Qed.
Lemma each_ok w F G i t l : winv w F G -> nth_error (sets w) i = Some (Some t) -> nth_error F i = Some (Some l) ->
  set_each (hp w) t = Ret (below G t) /\ Permutation (below G t) l /\ sorted (below G t).
Proof.
  intros I E1 E2. pose proof I as (W & X). pose proof (nth_rel G _ _ i X) as N. rewrite E1, E2 in N. cbn in N.
  destruct t as [a|]; cbn [set_each below]; [|repeat split; auto; constructor].
  destruct (winv_live _ _ _ _ _ I E1) as (nd & M). pose proof (wf_height _ _ _ _ _ _ _ W M) as HT.
  rewrite (node_each_ok cmp lim ODD LIM _ _ _ W _ a nd M) by lia. split; [reflexivity|]. split; [exact N|]. apply (w_loc _ _ _ _ _ W a nd M).
Qed.
Lemma get_ok w F G i t l p : winv w F G -> probe cmp p -> nth_error (sets w) i = Some (Some t) -> nth_error F i = Some (Some l) ->
  set_get (hp w) t p = Ret (find (is_it p) l).
Proof.
  intros I P E1 E2. pose proof (each_ok _ _ _ _ _ _ I E1 E2) as (_ & Q & S). rewrite <- (find_perm cmp p _ _ P S Q).
  pose proof I as (W & X). destruct t as [a|]; cbn [set_get below]; [|reflexivity].
  destruct (winv_live _ _ _ _ _ I E1) as (nd & M). pose proof (wf_height _ _ _ _ _ _ _ W M) as HT.
  apply (node_get_ok cmp lim ODD LIM p _ _ _ P W _ a nd M). lia.
Qed.
Lemma spec_of w F G i t : winv w F G -> nth_error (sets w) i = Some (Some t) -> exists l, nth_error F i = Some (Some l).
Proof.
  intros (W & X) E. pose proof (nth_rel G _ _ i X) as N. rewrite E in N. destruct (nth_error F i) as [[l|]|]; cbn in N; try contradiction. eauto.
Qed.

(** Release. *)
Lemma tot_pos n f : 0 < tot n f -> exists i, i < n /\ 0 < f i.
Proof.
  induction n; cbn; [lia|]. intros H. destruct (f n) eqn:E.
  - destruct IHn as (i & L & P); [lia|]. exists i. split; [lia|auto].
  - exists n. lia.
Qed.
Lemma wf_reach w F G : winv w F G -> forall k a nd, mem (hp w) a = Some nd -> next (hp w) - ht (G a) = k -> reachable w a.
Proof.
  intros (W & _). induction k as [k IH] using lt_wf_ind; intros a nd H E.
  pose proof (wf_height _ _ _ _ _ _ _ W H) as HT.
  pose proof (w_cnt _ _ _ _ _ W a) as C. pose proof (w_pos _ _ _ _ _ W a nd H) as P. unfold rcof in C. rewrite H in C.
  destruct (occ (roots (sets w)) a) eqn:O.
  - unfold slots in C. destruct (tot_pos (next (hp w)) (kids_at (hp w) a)) as (i & L & K); [lia|].
    unfold kids_at in K. destruct (mem (hp w) i) as [ni|] eqn:M; [|lia]. apply occ_in in K.
    pose proof (wf_height _ _ _ _ _ _ _ W M) as HI. destruct (w_loc _ _ _ _ _ W i ni M) as [O1 O2 O3 O4 O5 O6].
    apply in_children in K. assert (S : slot_ok lim G (ht (G i)) (Some a)).
    { destruct K as [(e & I & Q)|Q]; rewrite <- Q; auto. }
    destruct (ht (G i)) as [|m] eqn:Hi; [discriminate S|]. destruct S as (c & Q & A & _). injection Q as <-.
    apply r_child with i ni; auto.
    + eapply (IH (next (hp w) - ht (G i))); eauto. lia.
    + destruct K as [([s x] & I & Q)|Q]; [right; exists x; cbn in Q; subst s; auto|auto].
  - assert (I : In a (roots (sets w))) by (apply occ_in; lia). apply in_flat_map in I. destruct I as (o & I & J).
    destruct o as [[b|]|]; cbn in J; try contradiction. destruct J as [->|[]]. apply r_root. exact I.
Qed.
Lemma reach_live w F G a : winv w F G -> reachable w a -> exists nd, mem (hp w) a = Some nd.
Proof.
  intros (W & _). induction 1 as [a I|a nd c R IH M Q].
  - eapply wf_live; [exact W|]. apply in_flat_map. exists (Some (Some a)). split; [exact I|cbn; auto].
  - eapply wf_child; [exact W|exact M|]. apply in_children. destruct Q as [Q|(x & I)]; [auto|]. left. exists (Some c, x). auto.
Qed.
End Top.

(** Maps. *)
Section Maps.
Context {K V : Type} (kcmp : K -> K -> comparison) (lim : nat).
Hypothesis ORD : total_order kcmp.
Hypothesis ODD : lim = 2 * (lim / 2) + 1.
Hypothesis LIM : 3 <= lim.
Lemma entry_order : total_order (entry_cmp (V := V) kcmp).
Proof. destruct ORD. constructor; unfold entry_cmp; eauto. Qed.
Lemma map_probe_ok k : probe (entry_cmp (V := V) kcmp) (map_probe kcmp k).
Proof.
  constructor; unfold map_probe, entry_cmp.
  - discriminate.
  - intros x y L N. pose proof (cmp_probe kcmp ORD k) as P. exact (pr_lt _ _ P (fst x) (fst y) L N).
  - intros x y L N. pose proof (cmp_probe kcmp ORD k) as P. exact (pr_gt _ _ P (fst x) (fst y) L N).
  - intros x y L. pose proof (cmp_probe kcmp ORD k) as P. exact (pr_eq _ _ P (fst x) (fst y) L).
Qed.
Definition as_map (l : list (K * V)) (k : K) : option V := option_map snd (fget (map_probe kcmp k) l).
Lemma is_it_map x k (y : K * V) : is_it (map_probe kcmp x) (k, snd y) = feq kcmp k x.
Proof. reflexivity. Qed.
Lemma finsert_map k v l : let (l', o) := finsert (entry_cmp kcmp) true (k, v) l in
  (forall x, as_map l' x = mput kcmp (as_map l) k v x) /\ option_map snd o = as_map l k.
Proof.
  unfold finsert.
  assert (E : find (same (entry_cmp kcmp) (k, v)) l = fget (map_probe kcmp k) l).
  { apply (find_same_probe (entry_cmp kcmp) entry_order). }
  assert (H : forall x r, (forall y, is_it (map_probe kcmp x) y = true -> feq kcmp k x = false -> negb (same (entry_cmp kcmp) (k, v) y) = true) ->
              as_map ((k, v) :: filter (fun y => negb (same (entry_cmp kcmp) (k, v) y)) r) x = mput kcmp (as_map r) k v x).
  { intros x r Q. unfold as_map, fget, mput. cbn [find]. change (is_it (map_probe kcmp x) (k, v)) with (feq kcmp k x).
    destruct (feq kcmp k x); [reflexivity|]. f_equal. apply find_filter. intros y P. apply Q; auto. }
  assert (Q : forall x y, is_it (map_probe kcmp x) y = true -> feq kcmp k x = false -> negb (same (entry_cmp kcmp) (k, v) y) = true).
  { intros x [ky vy]. unfold is_it, map_probe, feq, same, entry_cmp. cbn [fst].
    destruct (kcmp ky x) eqn:A; try discriminate. intros _. rewrite <- (cmp_eq_r kcmp ORD ky x k A). destruct (kcmp k ky); auto. }
  rewrite E. destruct (fget (map_probe kcmp k) l) as [e|] eqn:F.
  - split; [intros x; apply H; exact (Q x)|]. unfold as_map. rewrite F. reflexivity.
  - split; [|unfold as_map; rewrite F; reflexivity]. intros x. specialize (H x l (Q x)). rewrite <- H.
    rewrite filter_all; [reflexivity|]. intros y I. destruct (same (entry_cmp kcmp) (k, v) y) eqn:S; [|reflexivity].
    apply (find_none _ _ E) in I. congruence.
Qed.
Lemma map_run_ok l : forall h t F G m, winv (entry_cmp kcmp) lim (World h [Some t]) [Some F] G -> (forall k, as_map F k = m k) ->
  exists h' t' F' G' os, map_run kcmp lim h t l = Ret (h', t', os) /\
    winv (entry_cmp kcmp) lim (World h' [Some t']) [Some F'] G' /\
    let (m', os') := mrun kcmp m l in os = os' /\ forall k, as_map F' k = m' k.
Proof.
  induction l as [|[k v] l IH]; intros h t F G m W M; cbn [map_run mrun].
  - exists h, t, F, G, []. auto.
  - pose proof (step_sim (entry_cmp kcmp) lim true entry_order ODD LIM _ _ _ (CInsert 0 (k, v)) W ltac:(discriminate)) as S.
    cbn [wstep sets nth_error hp fstep] in S. unfold map_insert.
    destruct (set_insert (entry_cmp kcmp) lim true h t (k, v)) as [[[h1 t1] r]| | |]; cbn [bind] in S |- *; try contradiction.
    destruct S as (F1 & y & G1 & S & A & W1). pose proof (finsert_map k v F) as FM.
    destruct (finsert (entry_cmp kcmp) true (k, v) F) as [l' o]. injection S as <- <-. cbn in A. injection A as ->.
    destruct FM as (FM1 & FM2). cbn in W1.
    destruct (IH h1 t1 l' G1 (mput kcmp m k v) W1) as (h' & t' & F' & G' & os & -> & W' & R).
    { intros x. rewrite FM1. unfold mput. destruct (feq kcmp k x); auto. }
    cbn [bind]. exists h', t', F', G', (option_map snd o :: os). split; [reflexivity|]. split; [exact W'|].
    destruct (mrun kcmp (mput kcmp m k v) l) as [m' os']. destruct R as (-> & R). split; [|exact R]. rewrite FM2, M. reflexivity.
Qed.
End Maps.

Lemma odd_half lim : Nat.odd lim = true -> lim = 2 * (lim / 2) + 1.
Proof.
  intros H. apply Nat.odd_spec in H. destruct H as (k & ->). f_equal. f_equal.
  rewrite Nat.mul_comm, Nat.div_add_l by lia. cbn. lia.
Qed.
