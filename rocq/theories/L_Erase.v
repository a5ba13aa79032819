(** Lemmas on M_Erase. *)
From Coq Require Import List NArith Bool Arith Lia.
From Verif Require Import M_Arc L_Arc M_Erase S_Erase.
Import ListNotations.

Lemma nth_put : forall A (l : list A) i x j, nth_error (put l i x) j = if (i =? j) && (i <? length l) then Some x else nth_error l j.
Proof.
  induction l as [|y l IH]; intros [|i] x [|j]; try reflexivity; cbn [put nth_error length].
  - now rewrite andb_false_r.
  - rewrite IH. reflexivity.
Qed.
Lemma length_put : forall A (l : list A) i x, length (put l i x) = length l.
Proof. induction l as [|y l IH]; intros [|i] x; cbn; auto. Qed.
Lemma get_nth : forall A (l : list (option A)) i x, get l i = Some x -> nth_error l i = Some (Some x).
Proof. intros A l i x. unfold get. destruct (nth_error l i) as [o|]; [|discriminate]. intros ->. reflexivity. Qed.
Lemma get_app : forall A (l : list (option A)) o j x, get (l ++ [o]) j = Some x -> get l j = Some x \/ o = Some x.
Proof.
  intros A l o j x. unfold get. destruct (Nat.lt_ge_cases j (length l)) as [H|H].
  - rewrite nth_error_app1 by exact H. auto.
  - rewrite nth_error_app2 by exact H. destruct (j - length l) as [|k]; cbn; [auto|destruct k; discriminate].
Qed.
Lemma get_put : forall A (l : list (option A)) i o j x, get (put l i o) j = Some x -> get l j = Some x \/ o = Some x.
Proof. intros A l i o j x. unfold get. rewrite nth_put. destruct (_ && _); auto. Qed.
Definition b2n (b : bool) : nat := if b then 1 else 0.
Lemma pointing_app : forall A (at_ : A -> nat) l o a, pointing at_ (l ++ [o]) a = pointing at_ l a + b2n (here at_ a o).
Proof. intros. unfold pointing. rewrite filter_app, app_length. cbn [filter]. destruct (here at_ a o); reflexivity. Qed.
Lemma pointing_put : forall A (at_ : A -> nat) l i o x a, nth_error l i = Some o ->
  pointing at_ (put l i x) a + b2n (here at_ a o) = pointing at_ l a + b2n (here at_ a x).
Proof.
  intros A at_ l i o x a. revert i. unfold pointing. induction l as [|y l IH]; intros [|i] H; try discriminate; cbn [nth_error put filter] in *.
  - injection H as ->. destruct (here at_ a x), (here at_ a o); cbn; lia.
  - specialize (IH i H). destruct (here at_ a y); cbn [length]; lia.
Qed.
Lemma pointing_length : forall A (at_ : A -> nat) l a, pointing at_ l a <= length l.
Proof. intros. unfold pointing. induction l as [|o l IH]; cbn; [lia|]. destruct (here at_ a o); cbn; lia. Qed.
Lemma pointing_pos : forall A (at_ : A -> nat) l i x, get l i = Some x -> 0 < pointing at_ l (at_ x).
Proof.
  intros A at_ l i x H. apply get_nth in H. pose proof (pointing_put A at_ l i (Some x) None (at_ x) H) as E.
  cbn in E. rewrite Nat.eqb_refl in E. cbn in E. lia.
Qed.
Lemma pointing_none : forall A (at_ : A -> nat) l a, (forall i x, get l i = Some x -> at_ x < a) -> pointing at_ l a = 0.
Proof.
  intros A at_ l a. unfold pointing. induction l as [|o l IH]; intros H; [reflexivity|]. cbn [filter].
  assert (E : here at_ a o = false) by (destruct o as [x|]; [|reflexivity]; apply Nat.eqb_neq; specialize (H 0 x eq_refl); lia).
  rewrite E. apply IH. intros i x Hx. apply (H (S i) x Hx).
Qed.
Lemma on_nth : forall i f l j, nth_error (on i f l) j = if i =? j then option_map f (nth_error l j) else nth_error l j.
Proof.
  intros i f l j. unfold on. destruct (nth_error l i) as [c|] eqn:E.
  - rewrite nth_put. destruct (i =? j) eqn:F; [|reflexivity]. apply Nat.eqb_eq in F as <-. rewrite E. cbn [option_map andb].
    assert (i < length l) by (apply nth_error_Some; congruence). apply Nat.ltb_lt in H. now rewrite H.
  - destruct (i =? j) eqn:F; [|reflexivity]. apply Nat.eqb_eq in F as <-. now rewrite E.
Qed.
Lemma on_length : forall i f l, length (on i f l) = length l.
Proof. intros. unfold on. destruct (nth_error l i); [apply length_put|reflexivity]. Qed.
Lemma put_on' : forall l i c c' f, nth_error l i = Some c -> f c = c' -> put l i c' = on i f l.
Proof. intros. unfold on. rewrite H. now subst. Qed.
Lemma put_on : forall l i c f, nth_error l i = Some c -> put l i (f c) = on i f l.
Proof. intros. unfold on. now rewrite H. Qed.

Local Open Scope N_scope.
(** The state of an allocation with [o] owners and [w] watchers. *)
Definition ok (o w : nat) (c : cell) : Prop :=
  c_bad c = false /\
  match o with
  | O => length (c_ends c) = 1%nat /\ c_weak c = N.of_nat w /\ c_frees c = (if (w =? 0)%nat then 1 else 0)%nat /\ (w <> 0%nat -> c_strong c = 0)
  | S _ => c_ends c = [] /\ c_frees c = 0%nat /\ c_strong c = N.of_nat o /\ c_weak c = N.of_nat w + 1
  end.
Definition small (n : nat) : Prop := N.of_nat n < 2 ^ 62.
Ltac sc := cbn [fst snd clone_cell downgrade_cell use_cell end_value touch_cell with_strong with_weak c_ty c_strong c_weak c_ends c_frees c_bad orb andb Nat.ltb Nat.leb Nat.eqb length].
Ltac fin := repeat match goal with |- _ /\ _ => split end; cbn [length]; auto; try reflexivity; try lia;
  try (match goal with E : ?w <> 0%nat -> _ |- _ => intros ?; apply E; discriminate end); try (now intros []).
Ltac start c := intros; destruct c as [ty st wk en fr bad]; unfold ok, small in *; cbn [c_ty c_strong c_weak c_ends c_frees c_bad] in *.
Lemma ok_clone : forall o w c, small o -> ok (S o) w c -> ok (S (S o)) w (clone_cell c).
Proof.
  start c. destruct H0 as (-> & -> & -> & -> & ->). sc.
  rewrite inc_small by lia. fin.
Qed.
Lemma ok_use : forall o w c, ok (S o) w c -> ok (S o) w (use_cell c).
Proof. start c. destruct H as (-> & -> & -> & -> & ->). cbn. fin. Qed.
Lemma ok_wdrop : forall o w c, small w -> ok o (S w) c -> ok o w (drop_weak_cell c) /\ c_ends (drop_weak_cell c) = c_ends c.
Proof.
  start c. unfold drop_weak_cell. destruct o as [|o].
  - destruct H0 as (-> & El & -> & Ef & Es). cbn [Nat.eqb] in Ef. subst fr. sc.
    rewrite dec_pos by lia. destruct w as [|w].
    + cbn. fin.
    + replace (N.of_nat (S (S w)) =? 1) with false by (symmetry; apply N.eqb_neq; lia). sc.
      fin.
  - destruct H0 as (-> & -> & -> & -> & ->). sc.
    rewrite dec_pos by lia. replace (N.of_nat (S w) + 1 =? 1) with false by (symmetry; apply N.eqb_neq; lia).
    sc. fin.
Qed.
Lemma ok_drop : forall o w c u, small o -> small w -> ok (S o) w c ->
  ok o w (drop_cell u c) /\ c_ends (drop_cell u c) = (if (o =? 0)%nat then [Dropped u] else []).
Proof.
  start c. destruct H1 as (-> & -> & -> & -> & ->). unfold drop_cell. sc.
  rewrite dec_pos by lia. destruct o as [|o].
  - cbn [N.of_nat Pos.of_succ_nat N.eqb Pos.eqb Nat.eqb]. unfold end_value. sc.
    unfold drop_weak_cell. sc. rewrite dec_pos by lia.
    destruct w as [|w].
    + cbn. fin.
    + replace (N.of_nat (S w) + 1 =? 1) with false by (symmetry; apply N.eqb_neq; lia). sc.
      fin.
  - replace (N.of_nat (S (S o)) =? 1) with false by (symmetry; apply N.eqb_neq; lia). sc.
    fin.
Qed.
Lemma ok_downgrade : forall o w c, small w -> (0 < o + w)%nat -> ok o w c -> ok o (S w) (downgrade_cell c).
Proof.
  start c. destruct o as [|o].
  - destruct H1 as (-> & El & -> & -> & Es). destruct w as [|w]; [lia|]. sc.
    rewrite inc_small by lia. fin.
  - destruct H1 as (-> & -> & -> & -> & ->). sc.
    rewrite inc_small by lia. fin.
Qed.
Lemma ok_upgrade : forall o w c, small o -> ok o (S w) c ->
  fst (upgrade_cell c) = negb (o =? 0)%nat /\ ok (if (o =? 0)%nat then 0%nat else S o) (S w) (snd (upgrade_cell c)) /\ c_ends (snd (upgrade_cell c)) = c_ends c.
Proof.
  start c. unfold upgrade_cell. destruct o as [|o].
  - destruct H0 as (-> & El & -> & -> & Es). rewrite Es by discriminate. cbn. fin.
  - destruct H0 as (-> & -> & -> & -> & ->). sc.
    unfold top_bit. replace (N.of_nat (S o) =? 0) with false by (symmetry; apply N.eqb_neq; lia).
    replace (N.of_nat (S o) =? 2 ^ 63) with false by (symmetry; apply N.eqb_neq; lia). sc.
    rewrite set_top_small by lia. rewrite inc_small by lia.
    replace (N.of_nat (S o) + 2 ^ 63 + 1) with (N.of_nat (S (S o)) + 2 ^ 63) by lia. rewrite clear_top_big by lia. fin.
Qed.
Lemma ok_into : forall o w c u, ok (S o) w c ->
  if fst (into_inner_cell u c) then o = 0%nat /\ w = 0%nat /\ ok 0 0 (snd (into_inner_cell u c)) /\ c_ends (snd (into_inner_cell u c)) = [Moved u]
  else (0 < o + w)%nat /\ ok (S o) w (snd (into_inner_cell u c)).
Proof.
  start c. destruct H as (-> & -> & -> & -> & ->). unfold into_inner_cell. sc.
  destruct o as [|o]; [destruct w as [|w]|].
  - cbn. fin. 
  - replace (N.of_nat (S w) + 1 =? 1) with false by (symmetry; apply N.eqb_neq; lia). rewrite andb_false_r. sc.
    fin.
  - replace (N.of_nat (S (S o)) =? 1) with false by (symmetry; apply N.eqb_neq; lia). sc.
    fin.
Qed.

Local Open Scope nat_scope.
Lemma on_inv : forall k f l a c, nth_error (on k f l) a = Some c ->
  (a = k /\ exists c0, nth_error l a = Some c0 /\ c = f c0) \/ (a <> k /\ nth_error l a = Some c).
Proof.
  intros k f l a c. rewrite on_nth. destruct (k =? a) eqn:E.
  - apply Nat.eqb_eq in E. intros H. left. split; [congruence|]. destruct (nth_error l a) as [c0|]; [|discriminate]. exists c0. split; [reflexivity|]. now injection H.
  - apply Nat.eqb_neq in E. right. split; [congruence|assumption].
Qed.
Record inv (n : nat) (m : mem) : Prop := {
  inv_h : length (hs m) <= n; inv_w : length (ws m) <= n;
  inv_hat : forall i h, get (hs m) i = Some h -> h_at h < length (cells m);
  inv_wat : forall i w, get (ws m) i = Some w -> w_at w < length (cells m) /\ w_dyn w = false;
  inv_ok : forall a c, nth_error (cells m) a = Some c -> ok (owners m a) (watchers m a) c }.
Lemma here_same : forall A (at_ : A -> nat) x, here at_ (at_ x) (Some x) = true.
Proof. intros. cbn. apply Nat.eqb_refl. Qed.
Lemma here_other : forall A (at_ : A -> nat) x a, a <> at_ x -> here at_ a (Some x) = false.
Proof. intros. cbn. apply Nat.eqb_neq. congruence. Qed.
Lemma small_le : forall n k, small n -> k <= n -> small k.
Proof. unfold small. intros. lia. Qed.
Ltac counts := unfold owners, watchers in *; cbn [hs ws cells] in *.
(** A pointer is added, and the counter of its allocation with it. *)
Lemma inv_add_h : forall n m x f, inv n m -> (h_at x < length (cells m)) ->
  (forall c, nth_error (cells m) (h_at x) = Some c -> ok (owners m (h_at x)) (watchers m (h_at x)) c -> ok (S (owners m (h_at x))) (watchers m (h_at x)) (f c)) ->
  inv (S n) (Mem (on (h_at x) f (cells m)) (hs m ++ [Some x]) (ws m)).
Proof.
  intros n m x f [A B C D E] L F. constructor; counts.
  - rewrite app_length. cbn. lia.
  - lia.
  - intros i h H. rewrite on_length. apply get_app in H as [H|[= <-]]; eauto.
  - intros i w H. rewrite on_length. eauto.
  - intros a c H. rewrite pointing_app. apply on_inv in H as [(-> & c0 & H & ->)|(N & H)].
    + rewrite here_same. cbn [b2n]. rewrite Nat.add_1_r. apply F; auto.
    + rewrite here_other by exact N. cbn [b2n]. rewrite Nat.add_0_r. auto.
Qed.
Lemma inv_add_w : forall n m x f, inv n m -> (w_at x < length (cells m)) -> w_dyn x = false ->
  (forall c, nth_error (cells m) (w_at x) = Some c -> ok (owners m (w_at x)) (watchers m (w_at x)) c -> ok (owners m (w_at x)) (S (watchers m (w_at x))) (f c)) ->
  inv (S n) (Mem (on (w_at x) f (cells m)) (hs m) (ws m ++ [Some x])).
Proof.
  intros n m x f [A B C D E] L Y F. constructor; counts.
  - lia.
  - rewrite app_length. cbn. lia.
  - intros i h H. rewrite on_length. eauto.
  - intros i w H. rewrite on_length. apply get_app in H as [H|[= <-]]; eauto.
  - intros a c H. rewrite pointing_app. apply on_inv in H as [(-> & c0 & H & ->)|(N & H)].
    + rewrite here_same. cbn [b2n]. rewrite Nat.add_1_r. apply F; auto.
    + rewrite here_other by exact N. cbn [b2n]. rewrite Nat.add_0_r. auto.
Qed.
(** A pointer is taken away. *)
Lemma inv_del_h : forall n m i x f, inv n m -> get (hs m) i = Some x ->
  (forall k c, nth_error (cells m) (h_at x) = Some c -> owners m (h_at x) = S k -> ok (S k) (watchers m (h_at x)) c -> ok k (watchers m (h_at x)) (f c)) ->
  inv (S n) (Mem (on (h_at x) f (cells m)) (put (hs m) i None) (ws m)).
Proof.
  intros n m i x f [A B C D E] G F. constructor; counts.
  - rewrite length_put. lia.
  - lia.
  - intros j h H. rewrite on_length. apply get_put in H as [H|H]; [eauto|discriminate].
  - intros j w H. rewrite on_length. eauto.
  - intros a c H. pose proof (pointing_put _ h_at _ _ _ None a (get_nth _ _ _ _ G)) as P. cbn [here b2n] in P. rewrite Nat.add_0_r in P.
    apply on_inv in H as [(-> & c0 & H & ->)|(N & H)].
    + rewrite Nat.eqb_refl in P. cbn [b2n] in P. specialize (E _ _ H). symmetry in P. rewrite Nat.add_1_r in P. apply (F _ c0 H P). rewrite <- P. exact E.
    + rewrite (proj2 (Nat.eqb_neq _ _)) in P by congruence. cbn [b2n] in P. rewrite Nat.add_0_r in P. rewrite P. auto.
Qed.
Lemma inv_del_w : forall n m i x f, inv n m -> get (ws m) i = Some x ->
  (forall k c, nth_error (cells m) (w_at x) = Some c -> watchers m (w_at x) = S k -> ok (owners m (w_at x)) (S k) c -> ok (owners m (w_at x)) k (f c)) ->
  inv (S n) (Mem (on (w_at x) f (cells m)) (hs m) (put (ws m) i None)).
Proof.
  intros n m i x f [A B C D E] G F. constructor; counts.
  - lia.
  - rewrite length_put. lia.
  - intros j h H. rewrite on_length. eauto.
  - intros j w H. rewrite on_length. apply get_put in H as [H|H]; [eauto|discriminate].
  - intros a c H. pose proof (pointing_put _ w_at _ _ _ None a (get_nth _ _ _ _ G)) as P. cbn [here b2n] in P. rewrite Nat.add_0_r in P.
    apply on_inv in H as [(-> & c0 & H & ->)|(N & H)].
    + rewrite Nat.eqb_refl in P. cbn [b2n] in P. specialize (E _ _ H). symmetry in P. rewrite Nat.add_1_r in P. apply (F _ c0 H P). rewrite <- P. exact E.
    + rewrite (proj2 (Nat.eqb_neq _ _)) in P by congruence. cbn [b2n] in P. rewrite Nat.add_0_r in P. rewrite P. auto.
Qed.
(** Pointers stay as they are. *)
Lemma inv_same : forall n m k f, inv n m ->
  (forall c, nth_error (cells m) k = Some c -> ok (owners m k) (watchers m k) c -> ok (owners m k) (watchers m k) (f c)) ->
  inv (S n) (Mem (on k f (cells m)) (hs m) (ws m)).
Proof.
  intros n m k f [A B C D E] F. constructor; counts; try lia.
  - intros j h H. rewrite on_length. eauto.
  - intros j w H. rewrite on_length. eauto.
  - intros a c H. apply on_inv in H as [(-> & c0 & H & ->)|(N & H)]; auto.
Qed.
Lemma inv_weaken : forall n m, inv n m -> inv (S n) m.
Proof. intros n m [A B C D E]. constructor; auto; lia. Qed.
Lemma owners_S : forall n m i x, inv n m -> get (hs m) i = Some x -> exists k, owners m (h_at x) = S k /\ k <= n.
Proof.
  intros n m i x I H. pose proof (pointing_pos _ h_at _ _ _ H) as P. pose proof (pointing_length _ h_at (hs m) (h_at x)) as Q. pose proof (inv_h _ _ I).
  unfold owners. destruct (pointing h_at (hs m) (h_at x)) as [|k]; [lia|]. exists k. split; [reflexivity|lia].
Qed.
Lemma watchers_S : forall n m i x, inv n m -> get (ws m) i = Some x -> exists k, watchers m (w_at x) = S k /\ k <= n.
Proof.
  intros n m i x I H. pose proof (pointing_pos _ w_at _ _ _ H) as P. pose proof (pointing_length _ w_at (ws m) (w_at x)) as Q. pose proof (inv_w _ _ I).
  unfold watchers. destruct (pointing w_at (ws m) (w_at x)) as [|k]; [lia|]. exists k. split; [reflexivity|lia].
Qed.
Lemma owners_le : forall n m a, inv n m -> owners m a <= n.
Proof. intros n m a I. pose proof (pointing_length _ h_at (hs m) a). pose proof (inv_h _ _ I). unfold owners. lia. Qed.
Lemma watchers_le : forall n m a, inv n m -> watchers m a <= n.
Proof. intros n m a I. pose proof (pointing_length _ w_at (ws m) a). pose proof (inv_w _ _ I). unfold watchers. lia. Qed.

Lemma inv_exec : forall n m o, small n -> no_dyn_weak o -> inv n m -> inv (S n) (exec o m).
Proof.
  intros n m o Sn ND I. pose proof (fun a => small_le _ _ Sn (owners_le n m a I)) as SO. pose proof (fun a => small_le _ _ Sn (watchers_le n m a I)) as SW.
  destruct o; cbn [exec]; try (destruct ND).
  - (* New *) destruct I as [A B C D E]. constructor; counts.
    + rewrite app_length; cbn; lia.
    + lia.
    + intros i h H. rewrite app_length. cbn. apply get_app in H as [H|[= <-]]; [specialize (C _ _ H); lia|cbn; lia].
    + intros i w H. rewrite app_length. specialize (D _ _ H). intuition lia.
    + intros a c H. rewrite pointing_app. destruct (Nat.lt_ge_cases a (length (cells m))) as [L|L].
      * rewrite nth_error_app1 in H by exact L. rewrite here_other by (cbn; lia). cbn [b2n]. rewrite Nat.add_0_r. auto.
      * rewrite nth_error_app2 in H by exact L. destruct (a - length (cells m)) as [|k] eqn:Z; [|destruct k; discriminate]. injection H as <-.
        assert (a = length (cells m)) as -> by lia. rewrite pointing_none by (intros; eauto). rewrite pointing_none by (intros i x Hx; apply (D _ _ Hx)).
        cbn. rewrite Nat.eqb_refl. repeat split.
  - (* IntoDyn *) destruct (get (hs m) h) as [x|] eqn:G; [|now apply inv_weaken]. destruct I as [A B C D E]. constructor; counts; auto.
    + rewrite length_put. lia.
    + intros i y H. apply get_put in H as [H|[= <-]]; [eauto|]. cbn. eauto.
    + intros a c H. pose proof (pointing_put _ h_at _ _ _ (Some (Handle true (h_ty x) (h_at x))) a (get_nth _ _ _ _ G)) as P. cbn [here h_at] in P.
      replace (pointing h_at (put (hs m) h (Some (Handle true (h_ty x) (h_at x)))) a) with (pointing h_at (hs m) a) by lia. auto.
  - (* Clone *) destruct (get (hs m) h) as [x|] eqn:G; [|now apply inv_weaken]. destruct (owners_S _ _ _ _ I G) as (k & K & Lk).
    apply inv_add_h; auto. { eapply inv_hat; eauto. } intros c _. rewrite K. apply ok_clone. now apply small_le with n.
  - (* Drop *) destruct (get (hs m) h) as [x|] eqn:G; [|now apply inv_weaken].
    apply inv_del_h; auto. intros k c _ K O. apply ok_drop; auto. apply (small_le (owners m (h_at x))); auto; lia.
  - (* Read *) destruct (get (hs m) h) as [x|] eqn:G; [|now apply inv_weaken]. destruct (owners_S _ _ _ _ I G) as (k & K & Lk).
    apply inv_same; auto. intros c _. rewrite K. apply ok_use.
  - (* Ptr *) destruct (get (hs m) h) as [[[] t a]|] eqn:G; try now apply inv_weaken. destruct (owners_S _ _ _ _ I G) as (k & K & Lk). cbn [h_at] in K.
    apply (inv_add_h n m (Handle false 0 a)); auto. { apply (inv_hat _ _ I _ _ G). } cbn [h_at]. intros c _. rewrite K. apply ok_clone. now apply small_le with n.
  - (* Downgrade *) destruct (get (hs m) h) as [[[] t a]|] eqn:G; try now apply inv_weaken. destruct (owners_S _ _ _ _ I G) as (k & K & Lk). cbn [h_at] in K.
    apply (inv_add_w n m (WHandle false t a)); auto. { apply (inv_hat _ _ I _ _ G). } cbn [w_at]. intros c _ O. apply ok_downgrade; auto. rewrite K. lia.
  - (* PtrDowngrade *) destruct (get (hs m) h) as [[[] t a]|] eqn:G; try now apply inv_weaken. destruct (owners_S _ _ _ _ I G) as (k & K & Lk). cbn [h_at] in K.
    apply (inv_add_w n m (WHandle false 0 a)); auto. { apply (inv_hat _ _ I _ _ G). } cbn [w_at]. intros c _ O. apply ok_downgrade; auto. rewrite K. lia.
  - (* Swap *) destruct (get (hs m) h) as [[[] t a]|] eqn:G; try now apply inv_weaken. destruct (get (hs m) g) as [[d u b]|] eqn:G'; try now apply inv_weaken.
    destruct (d || (u =? 0)); [|now apply inv_weaken]. destruct I as [A B C D E]. constructor; counts; auto.
    + rewrite !length_put. lia.
    + intros i y H. apply get_put in H as [H|[= <-]]; [apply get_put in H as [H|[= <-]]; [eauto|]|]; cbn; [apply (C _ _ G')|apply (C _ _ G)].
    + intros z c H.
      pose proof (pointing_put _ h_at _ _ _ (Some (Handle true t b)) z (get_nth _ _ _ _ G)) as P.
      destruct (Nat.eq_dec h g) as [<-|Nhg].
      * rewrite G in G'. injection G' as <- <- <-.
        assert (G2 : nth_error (put (hs m) h (Some (Handle true t a))) h = Some (Some (Handle true t a))).
        { rewrite nth_put, Nat.eqb_refl. apply get_nth in G. assert (L : h < length (hs m)) by (apply nth_error_Some; congruence). apply Nat.ltb_lt in L. now rewrite L. }
        pose proof (pointing_put _ h_at _ _ _ (Some (Handle true t a)) z G2) as Q. specialize (E z c H).
        replace (pointing h_at (put (put (hs m) h (Some (Handle true t a))) h (Some (Handle true t a))) z) with (pointing h_at (hs m) z) by lia. auto.
      * assert (G2 : nth_error (put (hs m) h (Some (Handle true t b))) g = Some (Some (Handle d u b))).
        { rewrite nth_put. rewrite (proj2 (Nat.eqb_neq h g) Nhg). cbn [andb]. now apply get_nth. }
        pose proof (pointing_put _ h_at _ _ _ (Some (Handle d u a)) z G2) as Q. cbn [here h_at] in P, Q.
        replace (pointing h_at (put (put (hs m) h (Some (Handle true t b))) g (Some (Handle d u a))) z) with (pointing h_at (hs m) z) by lia. auto.
  - (* IntoInner *) destruct (get (hs m) h) as [[[] t a]|] eqn:G; try now apply inv_weaken. destruct (owners_S _ _ _ _ I G) as (k & K & Lk). cbn [h_at] in K.
    destruct (nth_error (cells m) a) as [c|] eqn:Ec; [|now apply inv_weaken]. pose proof (inv_ok _ _ I a c Ec) as O. rewrite K in O.
    pose proof (ok_into _ _ _ t O) as Q. destruct (into_inner_cell t c) as [[] c'] eqn:F; cbn [fst snd] in Q.
    + destruct Q as (-> & W & Q & _). replace c' with ((fun _ => c') c) by reflexivity. rewrite (put_on _ _ _ _ Ec). apply (inv_del_h n m h (Handle false t a)); auto.
      cbn [h_at]. intros k c0 _ K' _. rewrite K in K'. injection K' as <-. now rewrite W.
    + destruct Q as (_ & Q). replace c' with ((fun _ => c') c) by reflexivity. rewrite (put_on _ _ _ _ Ec). apply inv_same; auto. intros c0 _ _. now rewrite K.
  - (* WClone *) destruct (get (ws m) w) as [x|] eqn:G; [|now apply inv_weaken]. destruct (watchers_S _ _ _ _ I G) as (k & K & Lk).
    destruct (inv_wat _ _ I _ _ G). apply inv_add_w; auto. intros c _ O. apply ok_downgrade; auto. lia.
  - (* WDrop *) destruct (get (ws m) w) as [x|] eqn:G; [|now apply inv_weaken]. destruct (inv_wat _ _ I _ _ G) as [L ->]. cbn [cells hs ws].
    apply inv_del_w; auto. intros k c _ K O. apply ok_wdrop; auto. apply (small_le (watchers m (w_at x))); auto. lia.
  - (* Upgrade *) destruct (get (ws m) w) as [x|] eqn:G; [|now apply inv_weaken]. destruct (inv_wat _ _ I _ _ G) as [L Y]. rewrite Y.
    destruct (watchers_S _ _ _ _ I G) as (k & K & Lk).
    destruct (nth_error (cells m) (w_at x)) as [c|] eqn:Ec; [|now apply inv_weaken]. pose proof (inv_ok _ _ I _ c Ec) as O. rewrite K in O.
    pose proof (ok_upgrade _ _ _ (SO _) O) as (F & Q & _). destruct (upgrade_cell c) as [b c'] eqn:U. cbn [fst snd] in *. subst b.
    replace c' with ((fun _ => c') c) by reflexivity. rewrite (put_on _ _ _ _ Ec). destruct (owners m (w_at x) =? 0) eqn:Z; cbn [negb].
    + apply inv_same; auto. intros c0 _ _. apply Nat.eqb_eq in Z. now rewrite Z, K.
    + apply (inv_add_h n m (Handle false (w_ty x) (w_at x))); auto. cbn [h_at]. intros c0 _ _. now rewrite K.
Qed.
Lemma inv_execs : forall l, small (length l) -> Forall no_dyn_weak l -> inv (length l) (execs l).
Proof.
  intros l. unfold execs. induction l as [|o l IH] using rev_ind; intros Sm F.
  - cbn. constructor; cbn; auto; intros; try lia.
    + unfold get in H. destruct i; discriminate.
    + unfold get in H. destruct i; discriminate.
    + destruct a; discriminate.
  - apply Forall_app in F as [F1 F2]. inversion F2; subst. rewrite fold_left_app, app_length, Nat.add_1_r. cbn [fold_left]. apply inv_exec; auto.
    + apply small_le with (length (l ++ [o])); auto. rewrite app_length. lia.
    + apply IH; auto. apply small_le with (length (l ++ [o])); auto. rewrite app_length. lia.
Qed.
Lemma inv_well : forall n m, inv n m -> well_owned m.
Proof.
  intros n m I a c H. destruct (inv_ok _ _ I a c H) as (B & O). destruct (owners m a) as [|k]; cbn [Nat.eqb andb].
  - destruct O as (L & _ & F & _). auto.
  - destruct O as (-> & -> & _). auto.
Qed.

(** Types of pointers and of ends. *)
Record types (P : nat -> nat -> Prop) (m : mem) : Prop := {
  ty_h : forall i h, get (hs m) i = Some h -> exists c, nth_error (cells m) (h_at h) = Some c /\ P (c_ty c) (h_ty h);
  ty_w : forall i w, get (ws m) i = Some w -> exists c, nth_error (cells m) (w_at w) = Some c /\ P (c_ty c) (w_ty w);
  ty_e : forall a c e, nth_error (cells m) a = Some c -> In e (c_ends c) -> P (c_ty c) (ended_as e) }.
(** An allocation changes, and pointers go or come. *)
Lemma types_on : forall P m k f H W, types P m -> (forall c, c_ty (f c) = c_ty c) ->
  (forall c e, nth_error (cells m) k = Some c -> In e (c_ends (f c)) -> In e (c_ends c) \/ P (c_ty c) (ended_as e)) ->
  (forall i h, get H i = Some h -> exists c, nth_error (cells m) (h_at h) = Some c /\ P (c_ty c) (h_ty h)) ->
  (forall i w, get W i = Some w -> exists c, nth_error (cells m) (w_at w) = Some c /\ P (c_ty c) (w_ty w)) ->
  types P (Mem (on k f (cells m)) H W).
Proof.
  intros P m k f H W [A B C] T F GH GW. assert (K : forall a c, nth_error (cells m) a = Some c -> exists c', nth_error (on k f (cells m)) a = Some c' /\ c_ty c' = c_ty c).
  { intros a c E. rewrite on_nth, E. destruct (k =? a); eexists; split; try reflexivity. cbn. apply T. }
  constructor; cbn [cells hs ws].
  - intros i h E. destruct (GH i h E) as (c & E1 & E2). destruct (K _ _ E1) as (c' & E3 & E4). exists c'. rewrite E4. auto.
  - intros i h E. destruct (GW i h E) as (c & E1 & E2). destruct (K _ _ E1) as (c' & E3 & E4). exists c'. rewrite E4. auto.
  - intros a c e E I. apply on_inv in E as [(-> & c0 & E & ->)|(_ & E)]; [|eauto]. rewrite T. destruct (F c0 e E I); eauto.
Qed.
Lemma ty_touch : forall c, c_ty (touch_cell c) = c_ty c /\ c_ends (touch_cell c) = c_ends c.
Proof. now intros []. Qed.
Lemma ty_wdrop : forall c, c_ty (drop_weak_cell c) = c_ty c /\ c_ends (drop_weak_cell c) = c_ends c.
Proof. intros c. unfold drop_weak_cell. destruct c; cbn. destruct (_ =? _)%N; cbn; auto. Qed.
Lemma ty_drop : forall u c, c_ty (drop_cell u c) = c_ty c /\ (c_ends (drop_cell u c) = c_ends c \/ c_ends (drop_cell u c) = Dropped u :: c_ends c).
Proof.
  intros u c. unfold drop_cell. destruct (_ =? _)%N.
  - destruct (ty_wdrop (end_value (Dropped u) (with_strong (dec (c_strong (touch_cell c))) (touch_cell c)))) as [-> ->]. destruct c; cbn; auto.
  - destruct c; cbn; auto.
Qed.
Lemma ty_into : forall u c, c_ty (snd (into_inner_cell u c)) = c_ty c /\
  (c_ends (snd (into_inner_cell u c)) = c_ends c \/ c_ends (snd (into_inner_cell u c)) = Moved u :: c_ends c).
Proof.
  intros u c. unfold into_inner_cell. destruct (_ && _); cbn [snd].
  - destruct (ty_wdrop (end_value (Moved u) (touch_cell c))) as [-> ->]. destruct c; cbn; auto.
  - destruct c; cbn; auto.
Qed.
Lemma ty_upgrade : forall c, c_ty (snd (upgrade_cell c)) = c_ty c /\ c_ends (snd (upgrade_cell c)) = c_ends c.
Proof. intros c. unfold upgrade_cell. destruct c; cbn. destruct (_ || _); cbn; auto. Qed.
Ltac old I := first [exact (ty_h _ _ I) | exact (ty_w _ _ I)].
Lemma types_drop_dyn_weak : forall P m w c, types P m -> nth_error (cells m) (w_at w) = Some c -> P (c_ty c) (w_ty w) -> types P (drop_dyn_weak w m).
Proof.
  intros P m w c I E Hp. unfold drop_dyn_weak. apply types_on; auto; try old I.
  - intros. apply ty_drop.
  - intros c0 e E0 He. rewrite E in E0. injection E0 as <-. destruct (ty_drop (w_ty w) c) as [_ [K|K]]; rewrite K in He; auto. destruct He as [<-|He]; auto.
Qed.
Lemma types_exec : forall (P : nat -> nat -> Prop) m o, (forall t, P t t) -> no_swap o -> no_ptr o \/ (forall t, P t 0) -> types P m -> types P (exec o m).
Proof.
  intros P m o R NS NP I. destruct o; cbn [exec]; try (destruct NS; fail).
  - (* New *) destruct I as [A B C]. constructor; cbn [cells hs ws].
    + intros i h H. apply get_app in H as [H|[= <-]].
      * destruct (A _ _ H) as (c & E & Q). exists c. split; [|exact Q]. rewrite nth_error_app1; [exact E|]. apply nth_error_Some. congruence.
      * cbn. rewrite nth_error_app2, Nat.sub_diag by lia. eexists. split; [reflexivity|]. cbn. auto.
    + intros i h H. destruct (B _ _ H) as (c & E & Q). exists c. split; [|exact Q]. rewrite nth_error_app1; [exact E|]. apply nth_error_Some. congruence.
    + intros a c e E He. destruct (Nat.lt_ge_cases a (length (cells m))) as [L|L].
      * rewrite nth_error_app1 in E by exact L. eauto.
      * rewrite nth_error_app2 in E by exact L. destruct (a - length (cells m)) as [|k]; [|destruct k; discriminate]. injection E as <-. destruct He.
  - destruct (get (hs m) h) as [x|] eqn:G; [|exact I]. constructor; cbn [cells hs ws]; try old I; [|exact (ty_e _ _ I)].
    intros i y H. apply get_put in H as [H|[= <-]]; [eapply ty_h; eauto|]. cbn. eapply ty_h; eauto.
  - destruct (get (hs m) h) as [x|] eqn:G; [|exact I]. apply types_on; try exact I; try old I; try (now intros []); try (intros [] ? _; cbn; now auto).
    + intros i y H. apply get_app in H as [H|[= <-]]; eapply ty_h; eauto.
  - destruct (get (hs m) h) as [x|] eqn:G; [|exact I]. destruct (ty_h _ _ I _ _ G) as (c & E & Q). apply types_on; try exact I; try old I; try (now intros []); try (intros [] ? _; cbn; now auto).
    + intros. apply ty_drop.
    + intros c0 e E0 He. rewrite E in E0. injection E0 as <-. destruct (ty_drop (h_ty x) c) as [_ [K|K]]; rewrite K in He; auto. destruct He as [<-|He]; auto.
    + intros i y H. apply get_put in H as [H|H]; [eapply ty_h; eauto|discriminate].
  - destruct (get (hs m) h) as [x|] eqn:G; [|exact I]. apply types_on; try exact I; try old I; try (now intros []); try (intros [] ? _; cbn; now auto).
  - destruct NP as [[]|P0]. destruct (get (hs m) h) as [[[] t a]|] eqn:G; try exact I. apply types_on; try exact I; try old I; try (now intros []); try (intros [] ? _; cbn; now auto).
    + intros i y H. apply get_app in H as [H|[= <-]]; [eapply ty_h; eauto|]. destruct (ty_h _ _ I _ _ G) as (c & E & _). exists c. split; [exact E|apply P0].
  - destruct (get (hs m) h) as [[[] t a]|] eqn:G; try exact I. apply types_on; try exact I; try old I; try (now intros []); try (intros [] ? _; cbn; now auto).
    + intros i y H. apply get_app in H as [H|[= <-]]; [eapply ty_w; eauto|]. exact (ty_h _ _ I _ _ G).
  - destruct NP as [[]|P0]. destruct (get (hs m) h) as [[[] t a]|] eqn:G; try exact I. apply types_on; try exact I; try old I; try (now intros []); try (intros [] ? _; cbn; now auto).
    + intros i y H. apply get_app in H as [H|[= <-]]; [eapply ty_w; eauto|]. destruct (ty_h _ _ I _ _ G) as (c & E & _). exists c. split; [exact E|apply P0].
  - destruct (get (hs m) h) as [[[] t a]|] eqn:G; try exact I. destruct (nth_error (cells m) a) as [c|] eqn:E; [|exact I].
    destruct (ty_h _ _ I _ _ G) as (c0 & E0 & Q). cbn [h_at h_ty] in *. rewrite E in E0. injection E0 as <-.
    pose proof (ty_into t) as T. destruct (into_inner_cell t c) as [ok' c'] eqn:F.
    rewrite (put_on' _ _ _ c' (fun x => snd (into_inner_cell t x)) E) by (cbn beta; now rewrite F). apply types_on; try exact I; try old I; try (now intros []); try (intros [] ? _; cbn; now auto).
    + intros. apply T.
    + intros c0 e E0 He. rewrite E in E0. injection E0 as <-. destruct (T c) as [_ [K|K]]; rewrite K in He; auto. destruct He as [<-|He]; auto.
    + destruct ok'; [|old I]. intros i y H. apply get_put in H as [H|H]; [eapply ty_h; eauto|discriminate].
  - destruct (get (ws m) w) as [x|] eqn:G; [|exact I]. apply types_on; try exact I; try old I; try (now intros []); try (intros [] ? _; cbn; now auto).
    + intros i y H. apply get_app in H as [H|[= <-]]; eapply ty_w; eauto.
  - destruct (get (ws m) w) as [x|] eqn:G; [|exact I]. destruct (ty_w _ _ I _ _ G) as (c & E & Q).
    assert (GW : forall i y, get (put (ws m) w None) i = Some y -> exists c, nth_error (cells m) (w_at y) = Some c /\ P (c_ty c) (w_ty y)).
    { intros i y H. apply get_put in H as [H|H]; [eapply ty_w; eauto|discriminate]. }
    destruct (w_dyn x).
    + apply types_drop_dyn_weak with c; auto. constructor; cbn [cells hs ws]; auto; [old I|exact (ty_e _ _ I)].
    + cbn [cells hs ws]. apply (types_on P m); try exact I; try exact GW; try old I; try (now intros []); try (intros [] ? _; cbn; now auto). * intros. apply ty_wdrop. * intros c0 e _. rewrite (proj2 (ty_wdrop c0)). auto.
  - destruct (get (ws m) w) as [x|] eqn:G; [|exact I]. destruct (ty_w _ _ I _ _ G) as (c & E & Q). rewrite E.
    pose proof ty_upgrade as T. destruct (upgrade_cell c) as [ok' c'] eqn:F.
    rewrite (put_on' _ _ _ c' (fun x => snd (upgrade_cell x)) E) by (cbn beta; now rewrite F).
    set (m1 := Mem (on (w_at x) (fun x => snd (upgrade_cell x)) (cells m)) (if ok' then hs m ++ [Some (Handle (w_dyn x) (w_ty x) (w_at x))] else hs m) (ws m)). assert (I1 : types P m1).
    { apply types_on; try exact I; try old I; try (now intros []); try (intros [] ? _; cbn; now auto). * intros. apply T. * intros c0 e _. rewrite (proj2 (T c0)). auto.
      * destruct ok'; [|old I]. intros i y H. apply get_app in H as [H|[= <-]]; [eapply ty_h; eauto|]. exists c. cbn. split; [exact E|exact Q]. }
    destruct (w_dyn x); [|exact I1]. assert (E1 : nth_error (cells m1) (w_at x) = Some (snd (upgrade_cell c))).
    { unfold m1. cbn [cells]. rewrite on_nth, Nat.eqb_refl, E. reflexivity. }
    apply types_drop_dyn_weak with (snd (upgrade_cell c)); [|exact E1|now rewrite (proj1 (T c))].
    constructor; cbn [cells hs ws]; [old I1| |exact (ty_e _ _ I1)]. intros i y H. apply get_put in H as [H|H]; [eapply ty_w; eauto|discriminate].
  - destruct (get (hs m) h) as [[[] t a]|] eqn:G; try exact I. apply types_on; try exact I; try old I; try (now intros []); try (intros [] ? _; cbn; now auto).
    + intros i y H. apply get_app in H as [H|[= <-]]; [eapply ty_w; eauto|]. exact (ty_h _ _ I _ _ G).
  - destruct (get (ws m) w) as [x|] eqn:G; [|exact I]. constructor; cbn [cells hs ws]; try old I; [|exact (ty_e _ _ I)].
    intros i y H. apply get_put in H as [H|[= <-]]; [eapply ty_w; eauto|]. cbn. eapply ty_w; eauto.
Qed.
Lemma types_execs : forall (P : nat -> nat -> Prop) l, (forall t, P t t) -> Forall no_swap l -> Forall no_ptr l \/ (forall t, P t 0) -> types P (execs l).
Proof.
  intros P l R F G. unfold execs. induction l as [|o l IH] using rev_ind.
  - cbn. constructor; cbn; intros; try (unfold get in H; destruct i; discriminate). destruct a; discriminate.
  - apply Forall_app in F as [F1 F2]. inversion F2; subst. rewrite fold_left_app. cbn [fold_left]. apply types_exec; auto.
    + destruct G as [G|G]; auto. apply Forall_app in G as [_ G]. inversion G; auto.
    + apply IH; auto. destruct G as [G|G]; auto. apply Forall_app in G as [G _]. auto.
Qed.
