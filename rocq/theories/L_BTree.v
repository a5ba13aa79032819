(** Lemmas on the B-tree model: the invariant of the heap of nodes. *)
From Coq Require Import List Arith Bool Lia Permutation Sorted.
From Verif Require Import M_Import L_Import M_BTree S_BTree.
Import ListNotations.

(** Occurrences, and sums over addresses. *)
Definition occ (l : list nat) (a : nat) : nat := count_occ Nat.eq_dec l a.
Lemma occ_app l m a : occ (l ++ m) a = occ l a + occ m a.
Proof. apply count_occ_app. Qed.
Lemma occ_cons b l a : occ (b :: l) a = (if Nat.eq_dec b a then 1 else 0) + occ l a.
Proof. unfold occ. cbn. destruct Nat.eq_dec; reflexivity. Qed.
Lemma occ_cons_eq l a : occ (a :: l) a = S (occ l a).
Proof. rewrite occ_cons. destruct (Nat.eq_dec a a); [reflexivity|congruence]. Qed.
Lemma occ_in l a : In a l <-> 0 < occ l a.
Proof. apply count_occ_In. Qed.
Lemma occ_perm l m a : Permutation l m -> occ l a = occ m a.
Proof. intros H. apply (proj1 (Permutation_count_occ Nat.eq_dec l m) H). Qed.

Fixpoint tot (n : nat) (f : nat -> nat) : nat := match n with 0 => 0 | S k => tot k f + f k end.
Lemma tot_ext n f g : (forall i, i < n -> f i = g i) -> tot n f = tot n g.
Proof. induction n; cbn; intros H; [reflexivity|]. rewrite IHn by (intros; apply H; lia). rewrite H by lia. reflexivity. Qed.
Lemma tot_one n f g a : a < n -> (forall i, i <> a -> f i = g i) -> tot n f + g a = tot n g + f a.
Proof.
  induction n; cbn; intros Ha H; [lia|]. destruct (Nat.eq_dec a n) as [->|N].
  - rewrite (tot_ext n f g) by (intros; apply H; lia). lia.
  - rewrite (H n) by lia. specialize (IHn ltac:(lia) H). lia.
Qed.
Lemma tot_ge n f a : a < n -> f a <= tot n f.
Proof. induction n; cbn; intros; [lia|]. destruct (Nat.eq_dec a n) as [->|]; [lia|]. specialize (IHn ltac:(lia)). lia. Qed.

Section Inv.
Context {T : Type} (cmp : T -> T -> comparison) (lim : nat) (repl : bool).
Notation heap := (heap T). Notation node := (node T). Notation entry := (option nat * T)%type.

Definition kids_at (h : heap) (a i : nat) : nat := match mem h i with Some nd => occ (children nd) a | None => 0 end.
Definition slots (h : heap) (a : nat) : nat := tot (next h) (kids_at h a).
Definition rcof (h : heap) (a : nat) : nat := match mem h a with Some nd => rc nd | None => 0 end.

(** What a node stands for: its height, its content, its size. *)
Record info := Info { ht : nat; cont : list T; sz : nat }.
Definition below (G : nat -> info) (o : option nat) : list T := match o with None => [] | Some c => cont (G c) end.
Definition inorder_es (G : nat -> info) (es : list entry) : list T := flat_map (fun e => below G (fst e) ++ [snd e]) es.
Definition inorder (G : nat -> info) (es : list entry) (g : option nat) : list T := inorder_es G es ++ below G g.
Definition slot_ok (G : nat -> info) (n : nat) (o : option nat) : Prop :=
  match n with 0 => o = None | S m => exists c, o = Some c /\ ht (G c) = m /\ lim / 2 <= sz (G c) end.
Definition sorted : list T -> Prop := StronglySorted (fun x y => cmp x y = Lt).
Record node_ok (G : nat -> info) (nd : node) (i : info) : Prop := {
  n_cont : cont i = inorder G (ents nd) (gtr nd);
  n_slots : forall e, In e (ents nd) -> slot_ok G (ht i) (fst e);
  n_gtr : slot_ok G (ht i) (gtr nd);
  n_sz : sz i = length (ents nd);
  n_size : 1 <= length (ents nd) < lim;
  n_sorted : sorted (cont i)
}.
Record wf (h : heap) (R : list nat) (G : nat -> info) : Prop := {
  w_bound : forall a, next h <= a -> mem h a = None;
  w_cnt : forall a, rcof h a = occ R a + slots h a;
  w_pos : forall a nd, mem h a = Some nd -> 0 < rc nd;
  w_loc : forall a nd, mem h a = Some nd -> node_ok G nd (G a)
}.

Lemma in_children (nd : node) c :
  In c (children nd) <-> (exists e, In e (ents nd) /\ fst e = Some c) \/ gtr nd = Some c.
Proof.
  unfold children. rewrite in_app_iff, in_flat_map. split.
  - intros [(e & He & Hc)|Hc].
    + left. exists e. split; auto. destruct (fst e); cbn in Hc; intuition congruence.
    + right. destruct (gtr nd); cbn in Hc; intuition congruence.
  - intros [(e & He & Hc)|Hc]; [left; exists e; rewrite Hc|right; rewrite Hc]; cbn; auto.
Qed.
Lemma inorder_ext G G' (es : list entry) g :
  (forall e c, In e es -> fst e = Some c -> G' c = G c) -> (forall c, g = Some c -> G' c = G c) ->
  inorder G' es g = inorder G es g.
Proof.
  intros H1 H2. unfold inorder. f_equal; [|destruct g; cbn; [rewrite H2|]; auto].
  induction es as [|e es IH]; [reflexivity|]. cbn. f_equal.
  - f_equal. destruct (fst e) eqn:E; cbn; [rewrite (H1 e) by (cbn; auto)|]; auto.
  - apply IH. intros; eapply H1; cbn; eauto.
Qed.
Lemma slot_ok_ext G G' n o : (forall c, o = Some c -> G' c = G c) -> slot_ok G n o -> slot_ok G' n o.
Proof. destruct n; cbn; auto. intros H (c & E & A & B). exists c. rewrite H; auto. Qed.
Lemma node_ok_ext G G' nd i : (forall c, In c (children nd) -> G' c = G c) -> node_ok G nd i -> node_ok G' nd i.
Proof.
  intros H []. assert (He : forall e c, In e (ents nd) -> fst e = Some c -> G' c = G c).
  { intros. apply H. apply in_children. eauto. }
  assert (Hg : forall c, gtr nd = Some c -> G' c = G c) by (intros; apply H; apply in_children; auto).
  constructor; try assumption.
  - rewrite (inorder_ext G G' _ _ He Hg). assumption.
  - intros e I. eapply slot_ok_ext; [|auto]. intros c Ec. exact (He e c I Ec).
  - eapply slot_ok_ext; eauto.
Qed.
(** A node does not depend on its count. *)
Lemma node_ok_rc G nd nd' i : ents nd' = ents nd -> gtr nd' = gtr nd -> node_ok G nd i -> node_ok G nd' i.
Proof. intros E1 E2 []. constructor; rewrite ?E1, ?E2; auto. Qed.

Lemma wf_perm h R R' G : Permutation R R' -> wf h R G -> wf h R' G.
Proof. intros P []. constructor; auto. intros a. rewrite <- (occ_perm _ _ _ P). auto. Qed.
Lemma wf_occ h R R' G : (forall a, occ R a = occ R' a) -> wf h R G -> wf h R' G.
Proof. intros P []. constructor; auto. intros a. rewrite <- P. auto. Qed.
Lemma wf_live h R G a : wf h R G -> In a R -> exists nd, mem h a = Some nd.
Proof.
  intros W H. apply occ_in in H. pose proof (w_cnt _ _ _ W a) as C. unfold rcof in C. destruct (mem h a); [eauto|lia].
Qed.
Lemma wf_dead h R G a : wf h R G -> mem h a = None -> occ R a = 0 /\ slots h a = 0.
Proof. intros W H. pose proof (w_cnt _ _ _ W a) as C. unfold rcof in C. rewrite H in C. lia. Qed.
Lemma wf_lt h R G a nd : wf h R G -> mem h a = Some nd -> a < next h.
Proof. intros W H. destruct (le_lt_dec (next h) a) as [L|L]; [|exact L]. rewrite (w_bound _ _ _ W a L) in H. discriminate. Qed.
Lemma slots_ge h a i nd : i < next h -> mem h i = Some nd -> occ (children nd) a <= slots h a.
Proof.
  intros L H. pose proof (tot_ge (next h) (kids_at h a) i L) as Q. unfold slots. unfold kids_at in Q at 1. rewrite H in Q. exact Q.
Qed.
Lemma wf_child h R G a nd c : wf h R G -> mem h a = Some nd -> In c (children nd) -> exists n, mem h c = Some n.
Proof.
  intros W H I. pose proof (w_cnt _ _ _ W c) as C. pose proof (slots_ge h c a nd (wf_lt _ _ _ _ _ W H) H) as S.
  apply occ_in in I. unfold rcof in C. destruct (mem h c); [eauto|lia].
Qed.

(** Changing the node at one address. *)
Lemma slots_change h h' a b : next h' = next h -> a < next h -> (forall i, i <> a -> mem h' i = mem h i) ->
  slots h' b + kids_at h b a = slots h b + kids_at h' b a.
Proof.
  intros N L E. unfold slots. rewrite N. apply tot_one; [exact L|].
  intros i Hi. unfold kids_at. rewrite E by exact Hi. reflexivity.
Qed.
(** Opening a node that has one owner. *)
Lemma wf_open h R G a nd : wf h (a :: R) G -> mem h a = Some nd -> rc nd = 1 ->
  wf (take_node h a) (children nd ++ R) G /\ occ R a = 0 /\ slots h a = 0.
Proof.
  intros W H E. pose proof (wf_lt _ _ _ _ _ W H) as L.
  assert (Z : occ R a = 0 /\ slots h a = 0).
  { pose proof (w_cnt _ _ _ W a) as C. unfold rcof in C. rewrite H, E, occ_cons_eq in C. lia. }
  split; [|exact Z]. destruct Z as (Z1 & Z2). constructor.
  - intros i Hi. cbn in *. unfold upd. destruct Nat.eqb eqn:Q; [reflexivity|]. exact (w_bound _ _ _ W i Hi).
  - intros b. pose proof (w_cnt _ _ _ W b) as C.
    pose proof (slots_change h (take_node h a) a b eq_refl L) as SC. cbn [mem take_node] in SC.
    specialize (SC ltac:(intros; apply upd_ne; auto)). unfold kids_at in SC. cbn [mem take_node] in SC.
    rewrite H, upd_eq in SC. rewrite occ_app. rewrite occ_cons in C. unfold rcof in *. cbn [mem take_node].
    destruct (Nat.eq_dec a b) as [<-|N].
    + rewrite upd_eq. pose proof (slots_ge h a a nd L H). lia.
    + rewrite upd_ne by auto. lia.
  - intros i n Hi. cbn in Hi. unfold upd in Hi. destruct Nat.eqb; [discriminate|]. exact (w_pos _ _ _ W i n Hi).
  - intros i n Hi. cbn in Hi. unfold upd in Hi. destruct Nat.eqb; [discriminate|]. exact (w_loc _ _ _ W i n Hi).
Qed.
(** Closing it again, or filling a reserved address. *)
Lemma wf_close h R G a nd i : wf h (children nd ++ R) G -> mem h a = None -> a < next h -> rc nd = 1 -> node_ok G nd i ->
  wf (put_node h a nd) (a :: R) (upd G a i).
Proof.
  intros W H L E N. destruct (wf_dead _ _ _ _ W H) as (Z1 & Z2). rewrite occ_app in Z1.
  assert (NI : forall b n, mem h b = Some n -> ~ In a (children n)).
  { intros b n Hb I. apply occ_in in I. pose proof (slots_ge h a b n (wf_lt _ _ _ _ _ W Hb) Hb). lia. }
  constructor.
  - intros b Hb. cbn in *. rewrite upd_ne by lia. exact (w_bound _ _ _ W b Hb).
  - intros b. pose proof (w_cnt _ _ _ W b) as C.
    pose proof (slots_change h (put_node h a nd) a b eq_refl L) as SC. cbn [mem put_node] in SC.
    specialize (SC ltac:(intros; apply upd_ne; auto)). unfold kids_at in SC. cbn [mem put_node] in SC.
    rewrite H, upd_eq in SC. rewrite occ_app in C. rewrite occ_cons. unfold rcof in *. cbn [mem put_node].
    destruct (Nat.eq_dec a b) as [<-|Q].
    + rewrite upd_eq. lia.
    + rewrite upd_ne by auto. lia.
  - intros b n Hb. cbn in Hb. unfold upd in Hb. destruct Nat.eqb; [injection Hb as <-; lia|]. exact (w_pos _ _ _ W b n Hb).
  - intros b n Hb. cbn in Hb. unfold upd at 1 in Hb. destruct (Nat.eqb_spec b a) as [->|Q].
    + injection Hb as <-. rewrite upd_eq. apply node_ok_ext with (2 := N). intros c Ic.
      apply upd_ne. intros ->. apply occ_in in Ic. lia.
    + rewrite upd_ne by auto. apply node_ok_ext with (G := G); [|exact (w_loc _ _ _ W b n Hb)].
      intros c Ic. apply upd_ne. intros ->. exact (NI _ _ Hb Ic).
Qed.
(** Reserving an address. *)
Lemma wf_fresh h R G : wf h R G -> wf (fst (fresh h)) R G.
Proof.
  intros W. pose proof (w_bound _ _ _ W) as B.
  assert (E : forall a, mem (fst (fresh h)) a = mem h a).
  { intros a. cbn. unfold upd. destruct (Nat.eqb_spec a (next h)) as [->|]; [symmetry; apply B; lia|reflexivity]. }
  constructor.
  - intros a Ha. rewrite E. apply B. cbn in Ha. lia.
  - intros a. pose proof (w_cnt _ _ _ W a) as C. unfold rcof in *. rewrite E.
    assert (S : slots (fst (fresh h)) a = slots h a).
    { unfold slots. cbn [next fresh fst tot]. unfold kids_at at 2. rewrite E, B by lia. rewrite Nat.add_0_r.
      apply tot_ext. intros i _. unfold kids_at. rewrite E. reflexivity. }
    lia.
  - intros a nd Ha. rewrite E in Ha. exact (w_pos _ _ _ W a nd Ha).
  - intros a nd Ha. rewrite E in Ha. exact (w_loc _ _ _ W a nd Ha).
Qed.
(** Changing a count. *)
Lemma wf_count h R R' G a nd k : wf h R G -> mem h a = Some nd -> 0 < k ->
  (forall b, occ R' b + (if Nat.eq_dec a b then rc nd else 0) = occ R b + (if Nat.eq_dec a b then k else 0)) ->
  wf (put_node h a (Node k (ents nd) (gtr nd))) R' G.
Proof.
  intros W H K O. pose proof (wf_lt _ _ _ _ _ W H) as L. constructor.
  - intros b Hb. cbn in *. rewrite upd_ne by lia. exact (w_bound _ _ _ W b Hb).
  - intros b. pose proof (w_cnt _ _ _ W b) as C. specialize (O b).
    pose proof (slots_change h (put_node h a (Node k (ents nd) (gtr nd))) a b eq_refl L) as SC. cbn [mem put_node] in SC.
    specialize (SC ltac:(intros; apply upd_ne; auto)). unfold kids_at in SC. cbn [mem put_node] in SC.
    rewrite H, upd_eq in SC. change (children (Node k (ents nd) (gtr nd))) with (children nd) in SC.
    unfold rcof in *. cbn [mem put_node]. destruct (Nat.eq_dec a b) as [<-|N].
    + rewrite upd_eq. cbn [rc]. rewrite H in C. lia.
    + rewrite upd_ne by auto. lia.
  - intros b n Hb. cbn in Hb. unfold upd in Hb. destruct Nat.eqb; [injection Hb as <-; exact K|]. exact (w_pos _ _ _ W b n Hb).
  - intros b n Hb. cbn in Hb. unfold upd in Hb. destruct (Nat.eqb_spec b a) as [->|Q].
    + injection Hb as <-. apply node_ok_rc with (nd := nd); auto. exact (w_loc _ _ _ W a nd H).
    + exact (w_loc _ _ _ W b n Hb).
Qed.

(** Nothing happens to empty addresses already used. *)
Definition keeps (h h' : heap) : Prop :=
  next h <= next h' /\ forall a, a < next h -> mem h a = None -> mem h' a = None.
Lemma keeps_refl h : keeps h h.
Proof. split; auto. Qed.
Lemma keeps_trans h1 h2 h3 : keeps h1 h2 -> keeps h2 h3 -> keeps h1 h3.
Proof. intros (A & B) (C & D). split; [lia|]. intros. apply D; [lia|]. auto. Qed.
Lemma keeps_put h a nd n : mem h a = Some n -> keeps h (put_node h a nd).
Proof. intros H. split; [cbn; lia|]. intros b _ Hb. cbn. rewrite upd_ne; [exact Hb|]. intros ->. congruence. Qed.
Lemma keeps_take h a : keeps h (take_node h a).
Proof. split; [cbn; lia|]. intros b _ Hb. cbn. unfold upd. destruct Nat.eqb; auto. Qed.
Lemma keeps_fresh h : keeps h (fst (fresh h)).
Proof. split; [cbn; lia|]. intros b _ Hb. cbn. unfold upd. destruct Nat.eqb; auto. Qed.

Lemma wf_incr h R G a : wf h R G -> (exists nd, mem h a = Some nd) ->
  exists h', incr h a = Ret h' /\ wf h' (a :: R) G /\ keeps h h' /\ next h' = next h /\
    (forall b nd, mem h b = Some nd -> exists nd', mem h' b = Some nd' /\ ents nd' = ents nd /\ gtr nd' = gtr nd) .
Proof.
  intros W (nd & H). unfold incr, get_node. rewrite H. cbn [bind]. eexists. split; [reflexivity|].
  split; [|split; [eapply keeps_put; eauto|split; [reflexivity|]]].
  - eapply wf_count; eauto; [lia|]. intros b. rewrite occ_cons. destruct Nat.eq_dec; lia.
  - intros b n Hb. cbn. unfold upd. destruct (Nat.eqb_spec b a) as [->|]; [|eauto].
    rewrite H in Hb. injection Hb as <-. eexists. split; [reflexivity|]. split; reflexivity.
Qed.
Lemma wf_incr_all l : forall h R G, wf h R G -> (forall a, In a l -> exists nd, mem h a = Some nd) ->
  exists h', incr_all h l = Ret h' /\ wf h' (l ++ R) G /\ keeps h h' /\ next h' = next h /\
    (forall b nd, mem h b = Some nd -> exists nd', mem h' b = Some nd' /\ ents nd' = ents nd /\ gtr nd' = gtr nd).
Proof.
  induction l as [|a l IH]; intros h R G W H.
  { exists h. cbn. split; [auto|]. split; [auto|]. split; [apply keeps_refl|]. split; eauto. }
  destruct (wf_incr h R G a W) as (h1 & E1 & W1 & K1 & N1 & M1); [apply H; cbn; auto|].
  destruct (IH h1 (a :: R) G W1) as (h2 & E2 & W2 & K2 & N2 & M2).
  { intros b Hb. destruct (H b) as (nd & Q); [cbn; auto|]. destruct (M1 b nd Q) as (nd' & Q' & _). eauto. }
  exists h2. cbn [incr_all]. rewrite E1. cbn [bind]. split; [exact E2|]. split; [|split; [eapply keeps_trans; eauto|split; [lia|]]].
  - eapply wf_perm; [|exact W2]. cbn. symmetry. apply Permutation_middle.
  - intros b nd Hb. destruct (M1 b nd Hb) as (nd' & Q1 & Q2 & Q3). destruct (M2 b nd' Q1) as (nd'' & Q4 & Q5 & Q6).
    exists nd''. rewrite Q5, Q6. auto.
Qed.
(** make_mut gives a node of our own with the same content. *)
Lemma wf_make_mut h R G a : wf h (a :: R) G ->
  exists h1 b n, make_mut h a = Ret (h1, b, n) /\ wf h1 (children n ++ R) G /\ mem h1 b = None /\ b < next h1 /\
    rc n = 1 /\ node_ok G n (G a) /\ keeps h h1 /\ (mem h b <> None \/ next h <= b).
Proof.
  intros W. destruct (wf_live _ _ _ a W) as (nd & H); [cbn; auto|].
  pose proof (wf_lt _ _ _ _ _ W H) as L. pose proof (w_loc _ _ _ W a nd H) as OK.
  unfold make_mut, get_node. rewrite H. cbn [bind]. destruct (Nat.eqb_spec (rc nd) 1) as [E|E].
  - destruct (wf_open _ _ _ _ _ W H E) as (W1 & _). do 3 eexists. split; [reflexivity|].
    split; [exact W1|]. split; [cbn; apply upd_eq|]. split; [exact L|]. split; [exact E|]. split; [exact OK|]. split; [apply keeps_take|]. left. congruence.
  - destruct (wf_incr_all (children nd) h (a :: R) G W) as (h1 & E1 & W1 & K1 & N1 & M1).
    { intros c Hc. eapply wf_child; eauto. }
    rewrite E1. cbn [bind]. destruct (M1 a nd H) as (nd1 & Q1 & Q2 & Q3).
    pose proof (wf_fresh _ _ _ W1) as W2. change (fresh h1) with (fst (fresh h1), next h1) at 1. cbv beta iota zeta.
    assert (Q : mem (fst (fresh h1)) a = Some nd1).
    { cbn. rewrite upd_ne by lia. exact Q1. }
    rewrite Q. cbn [bind]. do 3 eexists. split; [reflexivity|]. cbn [ents gtr rc].
    assert (RC : 1 < rc nd1).
    { pose proof (w_cnt _ _ _ W a) as C. pose proof (w_cnt _ _ _ W1 a) as C1. unfold rcof in *.
      rewrite Q1 in C1. rewrite H in C. pose proof (w_pos _ _ _ W1 a nd1 Q1). pose proof (w_pos _ _ _ W a nd H).
      rewrite occ_app in C1. assert (S : slots h1 a = slots h a).
      { unfold slots. rewrite N1. apply tot_ext. intros i Hi. unfold kids_at. destruct (mem h i) as [ni|] eqn:Ei.
        - destruct (M1 i ni Ei) as (ni' & -> & X1 & X2). unfold children. rewrite X1, X2. reflexivity.
        - destruct K1 as (_ & K1). rewrite K1 by auto. reflexivity. }
      lia. }
    split; [|split; [|split; [|split; [|split; [|split]]]]].
    + change (children (Node 1 (ents nd) (gtr nd))) with (children nd).
      eapply wf_count; eauto; [lia|]. intros b. rewrite !occ_app, occ_cons. destruct Nat.eq_dec; lia.
    + cbn. rewrite upd_ne by lia. apply upd_eq.
    + cbn. lia.
    + reflexivity.
    + eapply node_ok_rc; [| |exact OK]; reflexivity.
    + eapply keeps_trans; [exact K1|]. eapply keeps_trans; [apply keeps_fresh|]. eapply keeps_put; eauto.
    + right. lia.
Qed.

(** Heights are bounded by the number of addresses. *)
Lemma wf_chain h R G : wf h R G -> forall n a nd, mem h a = Some nd -> ht (G a) = n ->
  exists l, length l = S n /\ NoDup l /\ forall b, In b l -> b < next h /\ ht (G b) <= n.
Proof.
  intros W. induction n as [|n IH]; intros a nd H E.
  - exists [a]. cbn. split; [auto|]. split; [repeat constructor; auto|]. intros b [<-|[]]. split; [eapply wf_lt; eauto|lia].
  - pose proof (n_gtr _ _ _ (w_loc _ _ _ W a nd H)) as S. rewrite E in S. cbn in S. destruct S as (c & Ec & Hc & _).
    destruct (wf_child _ _ _ _ _ c W H) as (nc & Mc); [apply in_children; auto|].
    destruct (IH c nc Mc Hc) as (l & Ll & Nl & Bl). exists (a :: l). cbn. split; [lia|]. split.
    + constructor; [|exact Nl]. intros I. destruct (Bl a I). lia.
    + intros b [<-|I]; [split; [eapply wf_lt; eauto|lia]|]. destruct (Bl b I). split; [auto|lia].
Qed.
Lemma wf_height h R G a nd : wf h R G -> mem h a = Some nd -> ht (G a) < next h.
Proof.
  intros W H. destruct (wf_chain h R G W _ a nd H eq_refl) as (l & Ll & Nl & Bl).
  assert (I : incl l (seq 0 (next h))). { intros b Hb. apply in_seq. destruct (Bl b Hb). lia. }
  pose proof (NoDup_incl_length Nl I) as Q. rewrite seq_length in Q. lia.
Qed.

(** Dropping an Arc to a node. *)
Lemma wf_drop f : forall h R G a, wf h (a :: R) G -> ht (G a) < f ->
  exists h', drop_node f h a = Ret h' /\ wf h' R G /\ keeps h h' /\ next h' = next h.
Proof.
  induction f as [|f IH]; intros h R G a W F; [lia|].
  destruct (wf_live _ _ _ a W) as (nd & H); [cbn; auto|]. pose proof (w_loc _ _ _ W a nd H) as OK.
  cbn [drop_node]. unfold get_node. rewrite H. cbn [bind]. destruct (Nat.eqb_spec (rc nd) 1) as [E|E].
  - destruct (wf_open _ _ _ _ _ W H E) as (W1 & _).
    assert (HT : forall c, In c (children nd) -> ht (G c) < f).
    { intros c Hc. apply in_children in Hc. assert (S : slot_ok G (ht (G a)) (Some c)).
      { destruct Hc as [(e & He & Hc)|Hc]; rewrite <- Hc; [exact (n_slots _ _ _ OK e He)|exact (n_gtr _ _ _ OK)]. }
      destruct (ht (G a)); cbn in S; [discriminate|]. destruct S as (c' & Q & Hh & _). injection Q as <-. lia. }
    assert (D : forall l h, wf h (l ++ R) G -> (forall c, In c l -> ht (G c) < f) ->
              exists h', drop_all (drop_node f) h l = Ret h' /\ wf h' R G /\ keeps h h' /\ next h' = next h).
    { induction l as [|c l IHl]; intros h0 W0 HT0.
      - exists h0. cbn. split; [auto|]. split; [exact W0|]. split; [apply keeps_refl|reflexivity].
      - destruct (IH h0 (l ++ R) G c) as (h2 & E2 & W2 & K2 & N2); [exact W0|apply HT0; cbn; auto|].
        cbn [drop_all]. rewrite E2. cbn [bind]. destruct (IHl h2 W2) as (h3 & E3 & W3 & K3 & N3); [intros; apply HT0; cbn; auto|].
        exists h3. split; [exact E3|]. split; [exact W3|]. split; [eapply keeps_trans; eauto|lia]. }
    destruct (D (children nd) _ W1 HT) as (h2 & E2 & W2 & K2 & N2). exists h2. split; [exact E2|]. split; [exact W2|].
    split; [|rewrite N2; reflexivity]. eapply keeps_trans; [apply keeps_take|exact K2].
  - eexists. split; [reflexivity|]. pose proof (w_pos _ _ _ W a nd H). split; [|split; [eapply keeps_put; eauto|reflexivity]].
    eapply wf_count; eauto; [lia|]. intros b. rewrite occ_cons. destruct Nat.eq_dec; lia.
Qed.
End Inv.
