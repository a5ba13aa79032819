(** Lemmas for C109. *)
From Coq Require Import List Arith NArith Bool Lia.
From Verif Require Import M_Report L_Report M_RepList S_RepList.
Import ListNotations.
Local Open Scope nat_scope.

Scheme trep_mut := Induction for trep Sort Prop
with link_mut := Induction for link Sort Prop.
Combined Scheme trep_link_ind from trep_mut, link_mut.
Scheme reads_mut := Minimality for reads_as Sort Prop
with reads_fields_mut := Minimality for reads_fields Sort Prop.

(** The list behind the links, and the tree behind a report. *)
Fixpoint flat (f : link) : list (list N * trep) :=
  match f with LNone => [] | LSome n t f' => (n, t) :: flat f' end.
Fixpoint tree (r : trep) : report :=
  match r with TRep n m v k f => Rep n m v k (trees f) end
with trees (f : link) : list (list N * report) :=
  match f with LNone => [] | LSome n t f' => (n, tree t) :: trees f' end.

Lemma next_const_eq f : next_const f = next f.
Proof. destruct f; reflexivity. Qed.

Lemma answers_none n : answers next n LNone = repeat None n.
Proof. induction n as [|n IH]; cbn [answers repeat next take]; [reflexivity|]. rewrite IH. reflexivity. Qed.
Lemma firstn_repeat_more {A} (x : A) n : forall k, n <= k -> firstn n (repeat x k) = repeat x n.
Proof. induction n as [|n IH]; intros [|k] H; cbn; auto; try lia. f_equal. apply IH. lia. Qed.
Lemma answers_flat f : forall n j, n <= j -> answers next n f = firstn n (map Some (flat f) ++ repeat None j).
Proof.
  induction f as [|nm t f IH]; intros n j H; cbn [flat map app].
  - rewrite answers_none, firstn_repeat_more by exact H. reflexivity.
  - destruct n as [|n]; [reflexivity|]. cbn [answers next take firstn]. f_equal. apply IH. lia.
Qed.
Lemma yields_flat f : yields next f (flat f).
Proof. intros n. apply answers_flat. lia. Qed.
Lemma answers_ext {S A} (g h : S -> S * option A) : (forall s, g s = h s) -> forall n s, answers g n s = answers h n s.
Proof. intros E. induction n as [|n IH]; intros s; cbn; [reflexivity|]. rewrite E. destruct (h s). f_equal. apply IH. Qed.
Lemma prefix_unique {A} (l : list A) : forall l' k j, k <= j -> length l < k -> length l' < k ->
  firstn k (map Some l ++ repeat None j) = firstn k (map Some l' ++ repeat None j) -> l = l'.
Proof.
  induction l as [|x l IH]; intros [|y l'] k j J H H' E; auto.
  - destruct k as [|k]; [cbn in H; lia|]. destruct j as [|j]; [lia|]. cbn in E. discriminate.
  - destruct k as [|k]; [cbn in H; lia|]. destruct j as [|j]; [lia|]. cbn in E. discriminate.
  - destruct k as [|k]; [cbn in H; lia|]. cbn [map app firstn] in E. injection E as E1 E2. subst y. f_equal.
    apply (IH l' k j); auto; cbn in *; lia.
Qed.
Lemma yields_unique {S A} (g : S -> S * option A) s l l' : yields g s l -> yields g s l' -> l = l'.
Proof.
  intros H H'. apply (prefix_unique l l' (1 + length l + length l') (1 + length l + length l')); try lia.
  rewrite <- H, <- H'. reflexivity.
Qed.

Lemma reads_trees f : (forall n t, In (n, t) (flat f) -> reads_as t (tree t)) -> reads_fields (flat f) (trees f).
Proof.
  induction f as [|n t f IH]; cbn [flat trees]; intros H; constructor.
  - apply (H n). left; reflexivity.
  - apply IH. intros n' t' I. apply (H n'). right; exact I.
Qed.
Lemma reads_tree_both : (forall a, reads_as a (tree a)) /\ (forall f, reads_fields (flat f) (trees f)).
Proof.
  apply trep_link_ind.
  - intros n m v k f IH. cbn [tree]. eapply reads_report; cbn [fields]; [reflexivity|apply yields_flat|exact IH].
  - constructor.
  - intros n t IHt f IHf. cbn [flat trees]. constructor; assumption.
Qed.
Lemma reads_tree a : reads_as a (tree a).
Proof. apply reads_tree_both. Qed.
Fixpoint trees_of (fs : list (list N * trep)) : list (list N * report) :=
  match fs with [] => [] | (n, t) :: r => (n, tree t) :: trees_of r end.
Lemma trees_flat f : trees f = trees_of (flat f).
Proof. induction f as [|n t f IH]; cbn; [reflexivity|]. rewrite IH. reflexivity. Qed.
Lemma reads_unique a r : reads_as a r -> r = tree a.
Proof.
  revert a r. apply (reads_mut (fun a r => r = tree a) (fun fs fs' => fs' = trees_of fs)).
  - intros a n m v k fs fs' E Y _ IH. rewrite E. cbn [tree]. rewrite trees_flat.
    rewrite (yields_unique _ _ _ _ (yields_flat (fields a)) Y). rewrite IH. reflexivity.
  - reflexivity.
  - intros n t r fs fs' _ -> _ ->. reflexivity.
Qed.

Lemma tree_inj_both : (forall a b, tree a = tree b -> a = b) /\ (forall f g, trees f = trees g -> f = g).
Proof.
  apply trep_link_ind.
  - intros n m v k f IH [n' m' v' k' f'] E. cbn in E. injection E as -> -> -> -> E. f_equal. apply IH. exact E.
  - intros [|n t g] E; [reflexivity|discriminate].
  - intros n t IHt f IHf [|n' t' g] E; [discriminate|]. cbn in E. injection E as -> E1 E2. f_equal; auto.
Qed.

Fixpoint all_pairs (l l' : list (list N * report)) : bool :=
  match l, l' with
  | (fn, r) :: t, (fn', r') :: t' => bytes_eqb fn fn' && is_compatible r r' && all_pairs t t'
  | _, _ => true
  end.
Lemma compatible_step n m v k fs n' m' v' k' fs' :
  is_compatible (Rep n m v k fs) (Rep n' m' v' k' fs') =
  bytes_eqb n n' && bytes_eqb m m' && N.eqb v v' && tyty_eqb k k' && all_pairs fs fs'.
Proof. cbn [is_compatible]. f_equal. Qed.
Lemma compatible_both : (forall a b, linked_compatible a b = is_compatible (tree a) (tree b)) /\
  (forall f g, linked_all f g = all_pairs (trees f) (trees g)).
Proof.
  apply trep_link_ind.
  - intros n m v k f IH [n' m' v' k' f']. cbn [linked_compatible tree]. rewrite compatible_step, IH. reflexivity.
  - intros g. reflexivity.
  - intros n t IHt f IHf [|n' t' g]; [reflexivity|]. cbn [linked_all trees all_pairs]. rewrite IHt, IHf. reflexivity.
Qed.
Fixpoint hash_all (h : list N) (l : list (list N * report)) : list N :=
  match l with [] => h | (fn, r') :: t => hash_all (hash_report (h ++ fn) r') t end.
Lemma hash_step h n m v k fs : hash_report h (Rep n m v k fs) = hash_all (h ++ m ++ n ++ tyty_bytes k) fs.
Proof. reflexivity. Qed.
Lemma hash_both : (forall a h, linked_hash h a = hash_report h (tree a)) /\
  (forall f h, linked_hash_fields h f = hash_all h (trees f)).
Proof.
  apply trep_link_ind.
  - intros n m v k f IH h. cbn [linked_hash tree]. rewrite hash_step. apply IH.
  - reflexivity.
  - intros n t IHt f IHf h. cbn [linked_hash_fields trees hash_all]. rewrite IHf, IHt. reflexivity.
Qed.
Lemma eq_both : (forall a b, linked_eq a b = true <-> a = b) /\ (forall f g, link_eq f g = true <-> f = g).
Proof.
  apply trep_link_ind.
  - intros n m v k f IH [n' m' v' k' f']. cbn [linked_eq]. rewrite !andb_true_iff, !bytes_eqb_eq, IH, tyty_eqb_eq, N.eqb_eq.
    split; [intros [[[[-> ->] ->] ->] ->]; reflexivity|intros E; injection E as -> -> -> -> ->; auto].
  - intros [|n t g]; cbn [link_eq]; split; intros E; try reflexivity; discriminate.
  - intros n t IHt f IHf [|n' t' g]; cbn [link_eq]; [split; discriminate|].
    rewrite !andb_true_iff, bytes_eqb_eq, IHt, IHf.
    split; [intros [[-> ->] ->]; reflexivity|intros E; injection E as -> -> ->; auto].
Qed.

Lemma link_fields_flat fs : flat (link_fields fs) = rev fs.
Proof.
  unfold link_fields. assert (H : forall acc, flat (fold_left (fun acc f => LSome (fst f) (snd f) acc) fs acc) = rev fs ++ flat acc).
  { induction fs as [|[n t] fs IH]; intros acc; cbn [fold_left rev fst snd]; [reflexivity|]. rewrite IH. cbn [flat]. rewrite <- app_assoc. reflexivity. }
  rewrite H. apply app_nil_r.
Qed.
Lemma declared_eq n m v k fs : declared n m v k fs = Builder n m v k fs.
Proof.
  unfold declared, new_builder. assert (H : forall acc, fold_left (fun b f => add_field b (fst f) (snd f)) fs (Builder n m v k acc) = Builder n m v k (acc ++ fs)).
  { induction fs as [|[x t] fs IH]; intros acc; cbn [fold_left fst snd]; [rewrite app_nil_r; reflexivity|].
    unfold add_field at 1. cbn [b_name b_module b_version b_kind b_fields]. etransitivity; [apply IH|]. rewrite <- app_assoc. reflexivity. }
  apply H.
Qed.
Lemma trees_of_app a b : trees_of (a ++ b) = trees_of a ++ trees_of b.
Proof. induction a as [|[n t] a IH]; cbn; [reflexivity|]. rewrite IH. reflexivity. Qed.
Lemma reads_fields_eq fs fs' : reads_fields fs fs' -> fs' = trees_of fs.
Proof.
  induction fs as [|[n t] fs IH] in fs' |- *; intros H; inversion H; subst; [reflexivity|].
  cbn [trees_of]. f_equal; [|apply IH; assumption]. f_equal. apply reads_unique. assumption.
Qed.
Lemma trees_of_rev fs : trees_of (rev fs) = rev (trees_of fs).
Proof. induction fs as [|[n t] fs IH]; cbn [rev trees_of]; [reflexivity|]. rewrite trees_of_app, IH. reflexivity. Qed.
