(** Lemmas on boxes: one invariant, kept by every step. *)
From Coq Require Import List Arith Bool Lia Permutation.
From Verif Require Import M_Box S_Box.
Import ListNotations.

Lemma put_split {A} (l : list A) i x : nth_error l i = Some x ->
  exists l1 l2, l = l1 ++ x :: l2 /\ length l1 = i /\ forall y, put l i y = l1 ++ y :: l2.
Proof.
  intros H. destruct (nth_error_split _ _ H) as (l1 & l2 & E & L). exists l1, l2. split; [exact E|]. split; [exact L|]. intros y. subst l i. unfold put.
  rewrite firstn_app, firstn_all, Nat.sub_diag. cbn [firstn]. rewrite app_nil_r. f_equal. f_equal.
  replace (S (length l1)) with (length (l1 ++ [x])) by (rewrite app_length; cbn; lia).
  replace (l1 ++ x :: l2) with ((l1 ++ [x]) ++ l2) by (rewrite <- app_assoc; reflexivity).
  rewrite skipn_app, skipn_all, Nat.sub_diag. reflexivity.
Qed.
Lemma put_same {A} (l : list A) i x y : nth_error l i = Some x -> nth_error (put l i y) i = Some y.
Proof. intros H. destruct (put_split _ _ _ H) as (l1 & l2 & E & L & P). rewrite P, <- L, nth_error_app2, Nat.sub_diag by lia. reflexivity. Qed.
Lemma put_other {A} (l : list A) i j x y : nth_error l i = Some x -> i <> j -> nth_error (put l i y) j = nth_error l j.
Proof.
  intros H N. destruct (put_split _ _ _ H) as (l1 & l2 & E & L & P). rewrite P. subst l.
  destruct (Nat.lt_ge_cases j i) as [G|G].
  - rewrite !nth_error_app1 by lia. reflexivity.
  - rewrite !nth_error_app2 by lia. destruct (j - length l1) eqn:Q; [lia|reflexivity].
Qed.
Lemma put_length {A} (l : list A) i x y : nth_error l i = Some x -> length (put l i y) = length l.
Proof. intros H. destruct (put_split _ _ _ H) as (l1 & l2 & E & L & P). rewrite P. subst l. rewrite !app_length. reflexivity. Qed.

(** Pointers and values of a list of variables, over a heap. *)
Definition ptr_of (x : option (kind * nat)) : list nat := match x with Some (_, p) => [p] | None => [] end.
Definition ptrs (vs : list (option (kind * nat))) : list nat := flat_map ptr_of vs.
Definition val_in (h : list (option block)) (x : option (kind * nat)) : list nat :=
  match x with
  | Some (_, p) => match nth_error h p with Some (Some b) => match bval b with Some v => [v] | None => [] end | _ => [] end
  | None => []
  end.
Definition vals (h : list (option block)) (vs : list (option (kind * nat))) : list nat := flat_map (val_in h) vs.
Definition allocs_of (x : option block) : list nat := match x with Some b => match balloc b with Some a => [a] | None => [] end | None => [] end.
Lemma vals_same h h' vs : (forall p, In p (ptrs vs) -> nth_error h' p = nth_error h p) -> vals h' vs = vals h vs.
Proof.
  induction vs as [|x vs IH]; intros H; [reflexivity|]. unfold vals in *. cbn [flat_map]. f_equal.
  - destruct x as [[k p]|]; [|reflexivity]. cbn [val_in]. rewrite H; [reflexivity|]. apply in_or_app. left. left. reflexivity.
  - apply IH. intros p G. apply H. apply in_or_app. right. exact G.
Qed.
Lemma ptrs_app a b : ptrs (a ++ b) = ptrs a ++ ptrs b.
Proof. apply flat_map_app. Qed.
Lemma vals_app h a b : vals h (a ++ b) = vals h a ++ vals h b.
Proof. apply flat_map_app. Qed.

(** What holds between steps. [rq] are the allocators of the blocks in order. *)
Record good (rq : list nat) (s : state) : Prop := Good {
  g_len : length (heap s) = length rq;
  g_alloc : forall p b, nth_error (heap s) p = Some (Some b) -> balloc b = nth_error rq p;
  g_vars : forall k p, In (Some (k, p)) (vars s) -> exists a x, nth_error (heap s) p = Some (Some (Blk (Some a) x)) /\ (x = None <-> k = KUninit);
  g_once : NoDup (ptrs (vars s));
  g_freed : forall p, In p (map snd (freed s)) <-> nth_error (heap s) p = Some None;
  g_freed_once : NoDup (map snd (freed s));
  g_freed_by : forall a p, In (a, p) (freed s) -> nth_error rq p = Some a }.

(** Changes of variables only. *)
Lemma good_vars rq s l1 l2 k k' p : good rq s -> vars s = l1 ++ Some (k, p) :: l2 -> k <> KUninit -> k' <> KUninit ->
  good rq (set_vars s (l1 ++ Some (k', p) :: l2)).
Proof.
  intros G V N N'. destruct G. split; cbn [set_vars heap vars freed]; auto.
  - intros k0 p0 H. apply in_app_or in H. destruct H as [H|[H|H]].
    + apply g_vars0. rewrite V. apply in_or_app. auto.
    + injection H as <- <-. destruct (g_vars0 k p) as (a & x & E & Q); [rewrite V; apply in_or_app; right; left; reflexivity|]. exists a, x.
      split; [exact E|]. split; intros F; [apply Q in F; contradiction|contradiction].
    + apply g_vars0. rewrite V. apply in_or_app. right. right. exact H.
  - rewrite V in g_once0. rewrite ptrs_app in *. exact g_once0.
Qed.
(** A variable is moved out, and its block freed. *)
Lemma good_free rq s l1 l2 k p a x : good rq s -> vars s = l1 ++ Some (k, p) :: l2 -> nth_error (heap s) p = Some (Some (Blk (Some a) x)) ->
  forall s', heap s' = put (heap s) p None -> vars s' = l1 ++ None :: l2 -> freed s' = (a, p) :: freed s -> good rq s'.
Proof.
  intros G V H s' Eh Ev Ef. destruct G.
  assert (O : NoDup (ptrs l1 ++ ptrs l2) /\ ~ In p (ptrs l1 ++ ptrs l2)).
  { rewrite V, ptrs_app in g_once0. cbn in g_once0. split; [apply NoDup_remove_1 in g_once0|apply NoDup_remove_2 in g_once0]; exact g_once0. }
  assert (I : forall k0 p0, In (Some (k0, p0)) (l1 ++ None :: l2) -> In (Some (k0, p0)) (vars s) /\ p0 <> p).
  { intros k0 p0 I. apply in_app_or in I. split.
    - rewrite V. apply in_or_app. destruct I as [I|[I|I]]; [auto|discriminate|right; right; exact I].
    - intros ->. apply (proj2 O). apply in_or_app. destruct I as [I|[I|I]]; [left|discriminate|right]; apply in_flat_map; exists (Some (k0, p)); split; auto; left; reflexivity. }
  split.
  - rewrite Eh, (put_length _ _ _ _ H). exact g_len0.
  - intros q b Q. rewrite Eh in Q. destruct (Nat.eq_dec p q) as [<-|N]; [rewrite (put_same _ _ _ _ H) in Q; discriminate|].
    rewrite (put_other _ _ _ _ _ H N) in Q. apply g_alloc0, Q.
  - intros k0 p0 Q. rewrite Ev in Q. destruct (I _ _ Q) as (Q' & N). destruct (g_vars0 _ _ Q') as (a0 & x0 & E & F). exists a0, x0.
    rewrite Eh, (put_other _ _ _ _ _ H) by congruence. auto.
  - rewrite Ev, ptrs_app. cbn. apply O.
  - intros q. rewrite Ef, Eh. cbn [map In snd]. destruct (Nat.eq_dec p q) as [<-|N].
    + rewrite (put_same _ _ _ _ H). split; auto.
    + rewrite (put_other _ _ _ _ _ H N), <- g_freed0. split; [intros [C|C]; [congruence|exact C]|auto].
  - rewrite Ef. cbn [map snd]. constructor; [|exact g_freed_once0]. rewrite g_freed0. congruence.
  - intros a0 q. rewrite Ef. intros [Q|Q]; [|apply g_freed_by0, Q]. injection Q as <- <-. rewrite <- (g_alloc0 _ _ H). reflexivity.
Qed.
(** A variable is moved out, and its block is left behind. *)
Lemma good_leak rq s l1 l2 k p : good rq s -> vars s = l1 ++ Some (k, p) :: l2 ->
  forall s', heap s' = heap s -> vars s' = l1 ++ None :: l2 -> freed s' = freed s -> good rq s'.
Proof.
  intros G V s' Eh Ev Ef. destruct G. split; rewrite ?Eh, ?Ev, ?Ef; auto.
  - intros k0 p0 I. apply g_vars0. rewrite V. apply in_app_or in I. apply in_or_app. destruct I as [I|[I|I]]; [auto|discriminate|right; right; exact I].
  - rewrite V in g_once0. rewrite ptrs_app in *. cbn in *. apply NoDup_remove_1 in g_once0. exact g_once0.
Qed.
(** A block is allocated, and may be owned by a new variable. *)
Lemma good_new rq s a x vs : good rq s ->
  (vs = [] \/ exists k, vs = [Some (k, length (heap s))] /\ (x = None <-> k = KUninit)) ->
  forall s', heap s' = heap s ++ [Some (Blk (Some a) x)] -> vars s' = vars s ++ vs -> freed s' = freed s -> good (rq ++ [a]) s'.
Proof.
  intros G V s' Eh Ev Ef. destruct G.
  assert (NA : forall q b, nth_error (heap s) q = Some b -> nth_error (heap s') q = Some b).
  { intros q b Q. rewrite Eh, nth_error_app1; [exact Q|]. apply nth_error_Some. congruence. }
  assert (LQ : forall q, nth_error rq q <> None -> nth_error (rq ++ [a]) q = nth_error rq q).
  { intros q Q. apply nth_error_app1. apply nth_error_Some. exact Q. }
  split.
  - rewrite Eh, !app_length. cbn. lia.
  - intros q b Q. rewrite Eh in Q. destruct (Nat.lt_ge_cases q (length (heap s))) as [L|L].
    + rewrite nth_error_app1 in Q by exact L. rewrite nth_error_app1 by lia. apply g_alloc0, Q.
    + rewrite nth_error_app2 in Q by exact L. rewrite nth_error_app2 by lia. rewrite <- g_len0. destruct (q - length (heap s)) as [|n]; cbn in *; [|destruct n; discriminate].
      injection Q as <-. reflexivity.
  - intros k p I. rewrite Ev in I. apply in_app_or in I. destruct I as [I|I].
    + destruct (g_vars0 _ _ I) as (a0 & x0 & E & F). exists a0, x0. split; [apply NA, E|exact F].
    + destruct V as [->|(k0 & -> & F)]; [destruct I|]. destruct I as [I|[]]. injection I as <- <-. exists a, x. split; [|exact F].
      rewrite Eh, nth_error_app2, Nat.sub_diag by lia. reflexivity.
  - rewrite Ev, ptrs_app. destruct V as [->|(k0 & -> & F)]; [rewrite app_nil_r; exact g_once0|]. cbn.
    apply Permutation_NoDup with (l := length (heap s) :: ptrs (vars s)); [apply Permutation_cons_append|]. constructor; [|exact g_once0].
    intros I. apply in_flat_map in I. destruct I as ([[k p]|] & I & J); [|destruct J]. destruct J as [J|[]]. subst p. destruct (g_vars0 _ _ I) as (a0 & x0 & E & _).
    assert (length (heap s) < length (heap s)) by (apply nth_error_Some; congruence). lia.
  - intros q. rewrite Ef, g_freed0, Eh. destruct (Nat.lt_ge_cases q (length (heap s))) as [L|L].
    + rewrite nth_error_app1 by exact L. reflexivity.
    + rewrite (proj2 (nth_error_None (heap s) q)) by exact L. rewrite nth_error_app2 by exact L. split; [discriminate|].
      destruct (q - length (heap s)) as [|n]; [discriminate|]. destruct n; discriminate.
  - rewrite Ef. exact g_freed_once0.
  - intros a0 q. rewrite Ef. intros Q. pose proof (g_freed_by0 _ _ Q) as R. rewrite LQ by congruence. exact R.
Qed.
(** Changes outside of heap, variables and freed blocks do not matter. *)
Lemma good_ext rq s s' : good rq s -> heap s' = heap s -> vars s' = vars s -> freed s' = freed s -> good rq s'.
Proof. intros [] Eh Ev Ef. split; rewrite ?Eh, ?Ev, ?Ef; auto. Qed.
(** A value is replaced. *)
Lemma good_put rq s k p a x y : good rq s -> In (Some (k, p)) (vars s) -> nth_error (heap s) p = Some (Some (Blk (Some a) (Some x))) ->
  forall s', heap s' = put (heap s) p (Some (Blk (Some a) (Some y))) -> vars s' = vars s -> freed s' = freed s -> good rq s'.
Proof.
  intros G I H s' Eh Ev Ef. destruct G. split; rewrite ?Ev, ?Ef; auto.
  - rewrite Eh, (put_length _ _ _ _ H). exact g_len0.
  - intros q b Q. rewrite Eh in Q. destruct (Nat.eq_dec p q) as [<-|N].
    + rewrite (put_same _ _ _ _ H) in Q. injection Q as <-. cbn. exact (g_alloc0 _ _ H).
    + rewrite (put_other _ _ _ _ _ H N) in Q. apply g_alloc0, Q.
  - intros k0 q J. destruct (g_vars0 _ _ J) as (a0 & x0 & E & F). destruct (Nat.eq_dec p q) as [<-|N].
    + exists a, (Some y). rewrite Eh, (put_same _ _ _ _ H). split; [reflexivity|]. rewrite H in E. injection E as <- <-.
      split; [discriminate|]. intros ->. destruct F as [_ F]. discriminate (F eq_refl).
    + exists a0, x0. rewrite Eh, (put_other _ _ _ _ _ H N). auto.
  - intros q. rewrite g_freed0, Eh. destruct (Nat.eq_dec p q) as [<-|N].
    + rewrite (put_same _ _ _ _ H), H. split; discriminate.
    + rewrite (put_other _ _ _ _ _ H N). reflexivity.
Qed.

(** Lists as multisets. *)
Definition cnt (l : list nat) (x : nat) : nat := count_occ Nat.eq_dec l x.
Lemma cnt_app a b x : cnt (a ++ b) x = cnt a x + cnt b x.
Proof. apply count_occ_app. Qed.
Lemma cnt_cons a b x : cnt (a :: b) x = cnt [a] x + cnt b x.
Proof. apply (count_occ_app Nat.eq_dec [a] b x). Qed.
Lemma cnt_perm a b : Permutation a b <-> forall x, cnt a x = cnt b x.
Proof. apply Permutation_count_occ. Qed.

Record ledger (ops : list op) (s : state) : Prop := Ledger {
  l_good : good (requests ops) s;
  l_values : forall x, cnt (flat_map new_values ops) x = cnt (vals (heap s) (vars s)) x + cnt (out s) x + cnt (dropped s) x + cnt (called s) x;
  l_allocs : forall x, cnt (flat_map new_allocs ops) x = cnt (flat_map allocs_of (heap s)) x + cnt (hout s) x + cnt (hdropped s) x;
  l_calm : Forall calm ops -> forall p b, nth_error (heap s) p = Some (Some b) -> In p (ptrs (vars s)) }.

Lemma requests_snoc ops o : requests (ops ++ [o]) = requests ops ++ request o.
Proof. unfold requests. rewrite flat_map_app. cbn. rewrite app_nil_r. reflexivity. Qed.
Lemma snoc_map {A} (f : op -> list A) ops o : flat_map f (ops ++ [o]) = flat_map f ops ++ f o.
Proof. rewrite flat_map_app. cbn. rewrite app_nil_r. reflexivity. Qed.
Lemma calm_snoc ops o : Forall calm (ops ++ [o]) -> Forall calm ops /\ calm o.
Proof. intros H. apply Forall_app in H. destruct H as (A & B). split; [exact A|]. inversion B; assumption. Qed.
Lemma var_bound rq s k p : good rq s -> In (Some (k, p)) (vars s) -> p < length (heap s).
Proof. intros G I. destruct (g_vars _ _ G _ _ I) as (a & x & E & _). apply nth_error_Some. congruence. Qed.
Lemma ptrs_in vs p : In p (ptrs vs) -> exists k, In (Some (k, p)) vs.
Proof. intros H. apply in_flat_map in H. destruct H as ([[k q]|] & I & J); [|destruct J]. destruct J as [<-|[]]. eauto. Qed.
Lemma in_ptrs vs k p : In (Some (k, p)) vs -> In p (ptrs vs).
Proof. intros H. apply in_flat_map. exists (Some (k, p)). split; [exact H|left; reflexivity]. Qed.

(** A step that allocates a block. *)
Lemma ledger_new ops s o a x vs : ledger ops s -> request o = [a] -> new_allocs o = [a] ->
  new_values o = (match x with Some v => [v] | None => [] end) ->
  (vs = [] /\ ~ calm o /\ x = None \/ exists k, vs = [Some (k, length (heap s))] /\ (x = None <-> k = KUninit)) ->
  forall s', heap s' = heap s ++ [Some (Blk (Some a) x)] -> vars s' = vars s ++ vs -> freed s' = freed s ->
    out s' = out s -> dropped s' = dropped s -> called s' = called s -> hout s' = hout s -> hdropped s' = hdropped s -> ledger (ops ++ [o]) s'.
Proof.
  intros [G V A C] R NA NV VS s' Eh Ev Ef E1 E2 E3 E4 E5. split.
  - rewrite requests_snoc, R. apply (good_new _ s a x vs G); [|exact Eh|exact Ev|exact Ef]. destruct VS as [(-> & _ & _)|(k & -> & F)]; [left; reflexivity|right; exists k; auto].
  - intros y. rewrite snoc_map, cnt_app, NV, V, Ev, vals_app, cnt_app, E1, E2, E3.
    replace (vals (heap s') (vars s)) with (vals (heap s) (vars s)).
    2:{ symmetry. apply vals_same. intros p I. apply ptrs_in in I. destruct I as (k & I). rewrite Eh. apply nth_error_app1. eapply var_bound; eauto. }
    enough (cnt (vals (heap s') vs) y = cnt match x with Some v => [v] | None => [] end y) by lia.
    destruct VS as [(-> & _ & ->)|(k & -> & F)]; [reflexivity|]. unfold vals. cbn [flat_map val_in]. rewrite Eh, nth_error_app2, Nat.sub_diag by lia. cbn [nth_error bval].
    destruct x; reflexivity.
  - intros y. rewrite snoc_map, cnt_app, NA, A, Eh, flat_map_app, cnt_app, E4, E5. cbn. lia.
  - intros K p b Q. apply calm_snoc in K. destruct K as (K1 & K2). rewrite Ev, ptrs_app. apply in_or_app. rewrite Eh in Q.
    destruct (Nat.lt_ge_cases p (length (heap s))) as [L|L].
    + left. rewrite nth_error_app1 in Q by exact L. eapply C; eauto.
    + right. rewrite nth_error_app2 in Q by exact L. destruct (p - length (heap s)) as [|n] eqn:D; [|destruct n; discriminate].
      destruct VS as [(_ & N & _)|(k & -> & F)]; [contradiction|]. cbn. left. lia.
Qed.
(** A step that touches no block. *)
Lemma ledger_none ops s o : ledger ops s -> request o = [] ->
  forall s', heap s' = heap s -> vars s' = vars s -> freed s' = freed s ->
    (forall y, cnt (out s') y + cnt (dropped s') y + cnt (called s') y = cnt (new_values o) y + cnt (out s) y + cnt (dropped s) y + cnt (called s) y) ->
    (forall y, cnt (hout s') y + cnt (hdropped s') y = cnt (new_allocs o) y + cnt (hout s) y + cnt (hdropped s) y) -> ledger (ops ++ [o]) s'.
Proof.
  intros [G V A C] R s' Eh Ev Ef E1 E2. split.
  - rewrite requests_snoc, R, app_nil_r. eapply good_ext; eauto.
  - intros y. rewrite snoc_map, cnt_app, V, Eh, Ev. specialize (E1 y). lia.
  - intros y. rewrite snoc_map, cnt_app, A, Eh. specialize (E2 y). lia.
  - intros K p b Q. apply calm_snoc in K. rewrite Eh in Q. rewrite Ev. eapply C; [apply K|exact Q].
Qed.
Lemma allocs_put h p a x : nth_error h p = Some (Some (Blk (Some a) x)) ->
  forall y, cnt (flat_map allocs_of h) y = cnt (flat_map allocs_of (put h p None)) y + cnt [a] y.
Proof.
  intros H y. destruct (put_split _ _ _ H) as (l1 & l2 & E & _ & P). rewrite P. rewrite E at 1. rewrite !flat_map_app, !cnt_app. cbn [flat_map allocs_of balloc app].
  rewrite cnt_cons. lia.
Qed.
(** A step that consumes a variable and frees its block. *)
Lemma ledger_free ops s o i k p a x : ledger ops s -> request o = [] -> new_allocs o = [] -> new_values o = [] ->
  nth_error (vars s) i = Some (Some (k, p)) -> nth_error (heap s) p = Some (Some (Blk (Some a) x)) ->
  forall s', heap s' = put (heap s) p None -> vars s' = put (vars s) i None -> freed s' = (a, p) :: freed s ->
    (forall y, cnt (out s') y + cnt (dropped s') y + cnt (called s') y =
       cnt (match x with Some v => [v] | None => [] end) y + cnt (out s) y + cnt (dropped s) y + cnt (called s) y) ->
    hout s' = hout s -> hdropped s' = a :: hdropped s -> ledger (ops ++ [o]) s'.
Proof.
  intros [G V A C] R NA NV Hi Hp s' Eh Ev Ef E1 E2 E3. destruct (put_split _ _ _ Hi) as (l1 & l2 & E & _ & P). rewrite P in Ev.
  assert (N : ~ In p (ptrs l1 ++ ptrs l2)).
  { pose proof (g_once _ _ G) as O. rewrite E, ptrs_app in O. apply NoDup_remove_2 in O. exact O. }
  assert (S1 : forall l, ~ In p (ptrs l) -> vals (heap s') l = vals (heap s) l).
  { intros l I. apply vals_same. intros q Q. rewrite Eh. eapply put_other; [exact Hp|]. intros <-. contradiction. }
  split.
  - rewrite requests_snoc, R, app_nil_r. eapply good_free; eauto.
  - intros y. rewrite snoc_map, cnt_app, V, NV, E, Ev, !vals_app, !cnt_app.
    rewrite S1 by (intros I; apply N, in_or_app; auto). unfold vals at 2 4. cbn [flat_map]. fold (vals (heap s) l2). fold (vals (heap s') l2). rewrite S1 by (intros I; apply N, in_or_app; auto).
    cbn [val_in]. rewrite Hp. cbn [bval]. rewrite !cnt_app. specialize (E1 y). change (cnt [] y) with 0. lia.
  - intros y. rewrite snoc_map, cnt_app, NA, A, Eh, E2, E3, (allocs_put _ _ _ _ Hp y), (cnt_cons a (hdropped s)). change (cnt [] y) with 0. lia.
  - intros K q b Q. apply calm_snoc in K. destruct K as (K & _). rewrite Eh in Q. destruct (Nat.eq_dec p q) as [<-|D]; [rewrite (put_same _ _ _ _ Hp) in Q; discriminate|].
    rewrite (put_other _ _ _ _ _ Hp D) in Q. pose proof (C K _ _ Q) as I. rewrite E, ptrs_app in I. rewrite Ev, ptrs_app.
    apply in_app_or in I. apply in_or_app. cbn in *. destruct I as [I|[I|I]]; auto. congruence.
Qed.
Lemma holds_at rq s i k : good rq s -> holds s i k -> exists p a x, nth_error (vars s) i = Some (Some (k, p)) /\ nth_error (heap s) p = Some (Some (Blk (Some a) x)) /\
  (x = None <-> k = KUninit).
Proof. intros G (p & H). destruct (g_vars _ _ G k p) as (a & x & E & F); [eapply nth_error_In; eauto|]. exists p, a, x. auto. Qed.

Lemma step_ledger ops s o : ledger ops s -> compiles s o -> exists s', step s o = Some s' /\ ledger (ops ++ [o]) s'.
Proof.
  intros L K. pose proof (l_good _ _ L) as G. destruct o as [v a ok|v a ok|c a ok|i|i|i|i|i v|i v a ok|i bad|i]; cbn [compiles] in K.
  - eexists. split; [reflexivity|]. unfold try_new_in, try_make_in. destruct ok.
    + eapply (ledger_new _ _ _ a (Some v)); eauto; try reflexivity. right. exists KBox. split; [reflexivity|]. split; discriminate.
    + eapply ledger_none; eauto; try reflexivity; intros y; cbn; unfold cnt; cbn [count_occ]; destruct (Nat.eq_dec _ _); lia.
  - eexists. split; [reflexivity|]. unfold new_in, try_make_in. destruct ok.
    + eapply (ledger_new _ _ _ a (Some v)); eauto; try reflexivity. right. exists KBox. split; [reflexivity|]. split; discriminate.
    + eapply ledger_none; eauto; try reflexivity; intros y; cbn; unfold cnt; cbn [count_occ]; destruct (Nat.eq_dec _ _); lia.
  - eexists. split; [reflexivity|]. unfold make_in, try_make_in. destruct ok.
    + destruct c as [v| |].
      * eapply (ledger_new _ _ _ a (Some v)); eauto; try reflexivity. right. exists KBox. split; [reflexivity|]. split; discriminate.
      * eapply (ledger_new _ _ _ a None); eauto; try reflexivity. right. exists KUninit. split; [reflexivity|]. split; reflexivity.
      * eapply (ledger_new _ _ _ a None [] L); try reflexivity; [left; repeat split; cbn; auto|]. cbn. rewrite app_nil_r. reflexivity.
    + eapply ledger_none; eauto; try reflexivity; intros y; destruct c; cbn; unfold cnt; cbn [count_occ]; try destruct (Nat.eq_dec _ _); lia.
  - destruct (holds_at _ _ _ _ G K) as (p & a & x & Hi & Hp & F). destruct x as [v|]; [|destruct F as [F _]; discriminate (F eq_refl)].
    unfold step, var. rewrite Hi. unfold into_inner, free. cbn [moved set_vars heap]. unfold at_. rewrite Hp. eexists. split; [reflexivity|].
    eapply (ledger_free _ _ _ _ _ _ _ (Some v)); eauto; try reflexivity. intros y. cbn [give set_vars moved out dropped called]. rewrite (cnt_cons v). lia.
  - destruct (holds_at _ _ _ _ G K) as (p & a & x & Hi & Hp & F). unfold step, var. rewrite Hi. eexists. split; [reflexivity|].
    destruct (put_split _ _ _ Hi) as (l1 & l2 & E & _ & P). rewrite P. destruct L as [_ V A C]. split.
    + rewrite requests_snoc. cbn [request]. rewrite app_nil_r. eapply good_vars; eauto; discriminate.
    + intros y. rewrite snoc_map. cbn [new_values]. rewrite app_nil_r, V. cbn [set_vars heap vars out dropped called]. rewrite E at 1. rewrite !vals_app. reflexivity.
    + intros y. rewrite snoc_map. cbn [new_allocs]. rewrite app_nil_r. apply A.
    + intros Q q b N. apply calm_snoc in Q. specialize (C (proj1 Q) q b N). rewrite E, ptrs_app in C. cbn [set_vars vars]. rewrite ptrs_app. exact C.
  - destruct (holds_at _ _ _ _ G K) as (p & a & x & Hi & Hp & F). unfold step, var. rewrite Hi. eexists. split; [reflexivity|].
    destruct (put_split _ _ _ Hi) as (l1 & l2 & E & _ & P). rewrite P. destruct L as [_ V A C]. split.
    + rewrite requests_snoc. cbn [request]. rewrite app_nil_r. eapply good_vars; eauto; discriminate.
    + intros y. rewrite snoc_map. cbn [new_values]. rewrite app_nil_r, V. cbn [set_vars heap vars out dropped called]. rewrite E at 1. rewrite !vals_app. reflexivity.
    + intros y. rewrite snoc_map. cbn [new_allocs]. rewrite app_nil_r. apply A.
    + intros Q q b N. apply calm_snoc in Q. specialize (C (proj1 Q) q b N). rewrite E, ptrs_app in C. cbn [set_vars vars]. rewrite ptrs_app. exact C.
  - destruct (holds_at _ _ _ _ G K) as (p & a & x & Hi & Hp & F). unfold step, var. rewrite Hi. eexists. split; [reflexivity|].
    destruct (put_split _ _ _ Hi) as (l1 & l2 & E & _ & P). rewrite P. destruct L as [_ V A C]. split.
    + rewrite requests_snoc. cbn [request]. rewrite app_nil_r. eapply good_vars; eauto; discriminate.
    + intros y. rewrite snoc_map. cbn [new_values]. rewrite app_nil_r, V. cbn [set_vars heap vars out dropped called]. rewrite E at 1. rewrite !vals_app. reflexivity.
    + intros y. rewrite snoc_map. cbn [new_allocs]. rewrite app_nil_r. apply A.
    + intros Q q b N. apply calm_snoc in Q. specialize (C (proj1 Q) q b N). rewrite E, ptrs_app in C. cbn [set_vars vars]. rewrite ptrs_app. exact C.
  - destruct (holds_at _ _ _ _ G K) as (p & a & x & Hi & Hp & F). destruct x as [old|]; [|destruct F as [F _]; discriminate (F eq_refl)].
    unfold step, var. rewrite Hi. unfold assign, at_. rewrite Hp. eexists. split; [reflexivity|].
    destruct (put_split _ _ _ Hi) as (l1 & l2 & E & _ & P). destruct L as [_ V A C].
    assert (N : ~ In p (ptrs l1 ++ ptrs l2)).
    { pose proof (g_once _ _ G) as O. rewrite E, ptrs_app in O. apply NoDup_remove_2 in O. exact O. }
    set (h' := put (heap s) p (Some (Blk (Some a) (Some v)))).
    assert (S1 : forall l, ~ In p (ptrs l) -> vals h' l = vals (heap s) l).
    { intros l I. apply vals_same. intros q Q. eapply put_other; [exact Hp|]. intros <-. contradiction. }
    split.
    + rewrite requests_snoc. cbn [request]. rewrite app_nil_r. eapply (good_put _ s KBox p a old v); eauto. eapply nth_error_In; eauto.
    + intros y. rewrite snoc_map, cnt_app, V. cbn [new_values destroy set_heap heap vars out dropped called]. fold h'. rewrite (cnt_cons old), E, !vals_app, !cnt_app.
      rewrite S1 by (intros I; apply N, in_or_app; auto). unfold vals at 2 4. cbn [flat_map]. fold (vals (heap s) l2). fold (vals h' l2).
      rewrite S1 by (intros I; apply N, in_or_app; auto). cbn [val_in]. unfold h' at 1. rewrite (put_same _ _ _ _ Hp), Hp. cbn [bval]. rewrite !cnt_app. lia.
    + intros y. rewrite snoc_map. cbn [new_allocs]. rewrite app_nil_r, A. cbn [destroy set_heap heap hout hdropped].
      destruct (put_split _ _ _ Hp) as (h1 & h2 & Eh & _ & Ph). unfold h'. rewrite Ph. rewrite Eh at 1. rewrite !flat_map_app. reflexivity.
    + intros Q q b B. apply calm_snoc in Q. cbn [destroy set_heap heap vars] in *. destruct (Nat.eq_dec p q) as [<-|D].
      * eapply in_ptrs, nth_error_In; eauto.
      * unfold h' in B; rewrite (put_other _ _ _ _ _ Hp D) in B. eapply C; eauto. apply Q.
  - destruct (holds_at _ _ _ _ G K) as (p & b & x & Hi & Hp & F). destruct x as [old|]; [|destruct F as [F _]; discriminate (F eq_refl)].
    unfold step, var. rewrite Hi. unfold clone, at_. rewrite Hp. eexists. split; [reflexivity|]. unfold new_in, try_make_in. destruct ok.
    + eapply (ledger_new _ _ _ a (Some v)); eauto; try reflexivity. right. exists KBox. split; [reflexivity|]. split; discriminate.
    + eapply ledger_none; eauto; try reflexivity; intros y; cbn; unfold cnt; cbn [count_occ]; destruct (Nat.eq_dec _ _); lia.
  - destruct K as [K|[K|K]]; destruct (holds_at _ _ _ _ G K) as (p & a & x & Hi & Hp & F).
    + destruct x as [v|]; [|destruct F as [F _]; discriminate (F eq_refl)].
      unfold step, var. rewrite Hi. unfold box_drop, at_. cbn [moved set_vars heap]. rewrite Hp. destruct bad.
      * eexists. split; [reflexivity|]. destruct (put_split _ _ _ Hi) as (l1 & l2 & E & _ & P). destruct L as [_ V A C]. split.
        -- rewrite requests_snoc. cbn [request]. rewrite app_nil_r. eapply good_leak; eauto; try reflexivity. cbn. apply P.
        -- intros y. rewrite snoc_map. cbn [new_values]. rewrite app_nil_r, V. cbn [panic destroy moved set_vars heap vars out dropped called].
           rewrite P, E, !vals_app, !cnt_app. unfold vals at 2 4. cbn [flat_map val_in]. rewrite Hp. cbn [bval app]. rewrite (cnt_cons v), (cnt_cons v (dropped s)). lia.
        -- intros y. rewrite snoc_map. cbn [new_allocs]. rewrite app_nil_r. apply A.
        -- intros Q. apply calm_snoc in Q. destruct Q as (_ & Q). discriminate Q.
      * unfold free, at_. cbn [destroy moved set_vars heap]. rewrite Hp. eexists. split; [reflexivity|].
        eapply (ledger_free _ _ _ _ _ _ _ (Some v)); eauto; try reflexivity. intros y. cbn [destroy set_vars moved out dropped called]. rewrite (cnt_cons v). lia.
    + destruct x as [v|]; [destruct F as [_ F]; discriminate (F eq_refl)|].
      unfold step, var. rewrite Hi. unfold uninit_drop, free, at_. cbn [moved set_vars heap]. rewrite Hp. eexists. split; [reflexivity|].
      eapply (ledger_free _ _ _ _ _ _ _ None); eauto; try reflexivity.
    + destruct x as [v|]; [|destruct F as [F _]; discriminate (F eq_refl)].
      unfold step, var. rewrite Hi. unfold dyn_drop, free, at_. cbn [destroy moved set_vars heap]. rewrite Hp. eexists. split; [reflexivity|].
      eapply (ledger_free _ _ _ _ _ _ _ (Some v)); eauto; try reflexivity. intros y. cbn [destroy set_vars moved out dropped called]. rewrite (cnt_cons v). lia.
  - destruct (holds_at _ _ _ _ G K) as (p & a & x & Hi & Hp & F). destruct x as [v|]; [|destruct F as [F _]; discriminate (F eq_refl)].
    unfold step, var. rewrite Hi. unfold call_once, into_inner, free, at_. cbn [moved set_vars heap]. rewrite Hp. eexists. split; [reflexivity|].
    eapply (ledger_free _ _ _ _ _ _ _ (Some v)); eauto; try reflexivity. intros y. cbn [run_closure set_vars moved out dropped called]. rewrite (cnt_cons v). lia.
Qed.
Lemma start_ledger : ledger [] start.
Proof.
  split; try reflexivity; [split; cbn; try tauto; try (constructor; fail); try reflexivity|].
  - intros p b H. destruct p; discriminate.
  - intros p. split; [tauto|]. destruct p; discriminate.
  - intros _ p b H. destruct p; discriminate.
Qed.
Lemma runs_ledger ops r : runs ops r -> exists s, r = Some s /\ ledger ops s.
Proof.
  induction 1 as [|ops s o R IH K]; [exists start; split; [reflexivity|apply start_ledger]|]. destruct IH as (s0 & E & L). injection E as <-.
  apply (step_ledger ops s o L K).
Qed.

Definition show_in (h : list (option block)) (x : option (kind * nat)) : owner :=
  match x with Some (k, p) => Some (k, match nth_error h p with Some (Some b) => bval b | _ => None end) | None => None end.
Lemma show_same h h' vs : (forall p, In p (ptrs vs) -> nth_error h' p = nth_error h p) -> map (show_in h') vs = map (show_in h) vs.
Proof.
  induction vs as [|x vs IH]; intros H; [reflexivity|]. cbn [map]. f_equal.
  - destruct x as [[k p]|]; [|reflexivity]. cbn [show_in]. rewrite H; [reflexivity|]. left. reflexivity.
  - apply IH. intros p G. apply H. apply in_or_app. right. exact G.
Qed.
Lemma change_split l1 x l2 y : change (l1 ++ x :: l2) (length l1) y = l1 ++ y :: l2.
Proof. induction l1 as [|z l1 IH]; [reflexivity|]. cbn [app length change]. rewrite IH. reflexivity. Qed.
(** What variables show after a step. *)
Lemma show_new rq s a x vs : good rq s ->
  map (show_in (heap s ++ [Some (Blk (Some a) x)])) (vars s ++ vs) = map (show_in (heap s)) (vars s) ++ map (show_in (heap s ++ [Some (Blk (Some a) x)])) vs.
Proof.
  intros G. rewrite map_app. f_equal. apply show_same. intros p I. apply ptrs_in in I. destruct I as (k & I). apply nth_error_app1. eapply var_bound; eauto.
Qed.
Lemma show_put rq s i k p y x : good rq s -> nth_error (vars s) i = Some (Some (k, p)) ->
  (match x with Some (_, q) => q = p | None => True end) ->
  map (show_in (put (heap s) p y)) (put (vars s) i x) = change (map (show_in (heap s)) (vars s)) i (show_in (put (heap s) p y) x).
Proof.
  intros G Hi Hx. destruct (put_split _ _ _ Hi) as (l1 & l2 & E & L & P). rewrite P, E, !map_app. cbn [map]. rewrite <- L.
  rewrite <- (map_length (show_in (heap s)) l1), change_split. destruct (g_vars _ _ G k p) as (a & z & Hp & _); [eapply nth_error_In; eauto|].
  assert (N : ~ In p (ptrs l1 ++ ptrs l2)).
  { pose proof (g_once _ _ G) as O. rewrite E, ptrs_app in O. apply NoDup_remove_2 in O. exact O. }
  f_equal; [|f_equal]; apply show_same; intros q Q; (eapply put_other; [exact Hp|]); intros <-; apply N, in_or_app; auto.
Qed.
Lemma show_var s i k k' p : nth_error (vars s) i = Some (Some (k, p)) ->
  map (show_in (heap s)) (put (vars s) i (Some (k', p))) =
  change (map (show_in (heap s)) (vars s)) i (option_map (fun x => (k', snd x)) (nth i (map (show_in (heap s)) (vars s)) None)).
Proof.
  intros Hi. destruct (put_split _ _ _ Hi) as (l1 & l2 & E & L & P). rewrite P, E, !map_app. cbn [map]. rewrite <- L.
  rewrite <- (map_length (show_in (heap s)) l1), change_split. rewrite app_nth2, Nat.sub_diag by lia. reflexivity.
Qed.
Lemma show_gone s i k p : nth_error (vars s) i = Some (Some (k, p)) ->
  map (show_in (heap s)) (put (vars s) i None) = change (map (show_in (heap s)) (vars s)) i None.
Proof.
  intros Hi. destruct (put_split _ _ _ Hi) as (l1 & l2 & E & L & P). rewrite P, E, !map_app. cbn [map]. rewrite <- L.
  rewrite <- (map_length (show_in (heap s)) l1), change_split. reflexivity.
Qed.
Lemma show_nth s i k p a x : nth_error (vars s) i = Some (Some (k, p)) -> nth_error (heap s) p = Some (Some (Blk a x)) ->
  nth i (map (show_in (heap s)) (vars s)) None = Some (k, x).
Proof. intros Hi Hp. apply nth_error_nth. rewrite nth_error_map, Hi. cbn [option_map show_in]. rewrite Hp. reflexivity. Qed.
Lemma put_put_same {A} (l : list A) i x : nth_error l i = Some x -> put l i x = l.
Proof. intros H. destruct (put_split _ _ _ H) as (l1 & l2 & E & _ & P). rewrite P. auto. Qed.

Lemma step_effect ops s o s' : ledger ops s -> compiles s o -> step s o = Some s' ->
  let '(m, g, d, c) := effect (map (show_in (heap s)) (vars s)) o in
  map (show_in (heap s')) (vars s') = m /\ out s' = g ++ out s /\ dropped s' = d ++ dropped s /\ called s' = c ++ called s.
Proof.
  intros L K E. pose proof (l_good _ _ L) as G.
  assert (NEW : forall a x k, map (show_in (heap s ++ [Some (Blk (Some a) x)])) (vars s ++ [Some (k, length (heap s))]) =
    map (show_in (heap s)) (vars s) ++ [Some (k, x)]).
  { intros a x k. rewrite (show_new _ _ _ _ _ G). cbn [map show_in]. rewrite nth_error_app2, Nat.sub_diag by lia. reflexivity. }
  destruct o as [v a ok|v a ok|c a ok|i|i|i|i|i v|i v a ok|i bad|i]; cbn [compiles] in K.
  - cbn [step] in E. injection E as <-. unfold try_new_in, try_make_in. destruct ok; cbn; auto.
  - cbn [step] in E. injection E as <-. unfold new_in, try_make_in. destruct ok; cbn; auto.
  - cbn [step] in E. injection E as <-. unfold make_in, try_make_in. destruct ok, c; cbn; auto.
    pose proof (show_new _ _ a None [] G) as Q. rewrite !app_nil_r in Q. cbn [map app] in Q. auto.
  - destruct (holds_at _ _ _ _ G K) as (p & a & x & Hi & Hp & F). destruct x as [v|]; [|destruct F as [F _]; discriminate (F eq_refl)].
    revert E. unfold step, var. rewrite Hi. unfold into_inner, free. cbn [moved set_vars heap]. unfold at_. rewrite Hp. intros [= <-]. cbn [effect].
    rewrite (show_nth _ _ _ _ _ _ Hi Hp). cbn [give heap vars out dropped called]. split; [|auto]. exact (show_put _ _ _ _ _ None None G Hi I).
  - destruct (holds_at _ _ _ _ G K) as (p & a & x & Hi & Hp & F). revert E. unfold step, var. rewrite Hi. intros [= <-]. cbn. split; [|auto]. apply (show_var _ _ _ _ _ Hi).
  - destruct (holds_at _ _ _ _ G K) as (p & a & x & Hi & Hp & F). revert E. unfold step, var. rewrite Hi. intros [= <-]. cbn. split; [|auto]. apply (show_var _ _ _ _ _ Hi).
  - destruct (holds_at _ _ _ _ G K) as (p & a & x & Hi & Hp & F). revert E. unfold step, var. rewrite Hi. intros [= <-]. cbn. split; [|auto]. apply (show_var _ _ _ _ _ Hi).
  - destruct (holds_at _ _ _ _ G K) as (p & a & x & Hi & Hp & F). destruct x as [old|]; [|destruct F as [F _]; discriminate (F eq_refl)].
    revert E. unfold step, var. rewrite Hi. unfold assign, at_. rewrite Hp. intros [= <-]. cbn [effect]. rewrite (show_nth _ _ _ _ _ _ Hi Hp).
    cbn [destroy set_heap heap vars out dropped called]. split; [|auto].
    pose proof (show_put _ _ _ _ _ (Some (Blk (Some a) (Some v))) (Some (KBox, p)) G Hi eq_refl) as Q. rewrite (put_put_same _ _ _ Hi) in Q. rewrite Q. cbn [show_in].
    rewrite (put_same _ _ _ _ Hp). reflexivity.
  - destruct (holds_at _ _ _ _ G K) as (p & b & x & Hi & Hp & F). destruct x as [old|]; [|destruct F as [F _]; discriminate (F eq_refl)].
    revert E. unfold step, var. rewrite Hi. unfold clone, at_. rewrite Hp. intros [= <-]. unfold new_in, try_make_in. destruct ok; cbn; auto.
  - destruct K as [K|[K|K]]; destruct (holds_at _ _ _ _ G K) as (p & a & x & Hi & Hp & F).
    + destruct x as [v|]; [|destruct F as [F _]; discriminate (F eq_refl)].
      revert E. unfold step, var. rewrite Hi. unfold box_drop, at_. cbn [moved set_vars heap]. rewrite Hp. destruct bad.
      * intros [= <-]. cbn [effect]. rewrite (show_nth _ _ _ _ _ _ Hi Hp). cbn. split; [|auto]. exact (show_gone _ _ _ _ Hi).
      * unfold free, at_. cbn [destroy moved set_vars heap]. rewrite Hp. intros [= <-]. cbn [effect]. rewrite (show_nth _ _ _ _ _ _ Hi Hp).
        cbn [heap vars out dropped called destroy moved set_vars]. split; [|auto]. exact (show_put _ _ _ _ _ None None G Hi I).
    + destruct x as [v|]; [destruct F as [_ F]; discriminate (F eq_refl)|].
      revert E. unfold step, var. rewrite Hi. unfold uninit_drop, free, at_. cbn [moved set_vars heap]. rewrite Hp. intros [= <-]. cbn [effect].
      rewrite (show_nth _ _ _ _ _ _ Hi Hp). cbn [heap vars out dropped called moved set_vars]. split; [|auto]. exact (show_put _ _ _ _ _ None None G Hi I).
    + destruct x as [v|]; [|destruct F as [F _]; discriminate (F eq_refl)].
      revert E. unfold step, var. rewrite Hi. unfold dyn_drop, free, at_. cbn [destroy moved set_vars heap]. rewrite Hp. intros [= <-]. cbn [effect].
      rewrite (show_nth _ _ _ _ _ _ Hi Hp). cbn [heap vars out dropped called destroy moved set_vars]. split; [|auto]. exact (show_put _ _ _ _ _ None None G Hi I).
  - destruct (holds_at _ _ _ _ G K) as (p & a & x & Hi & Hp & F). destruct x as [v|]; [|destruct F as [F _]; discriminate (F eq_refl)].
    revert E. unfold step, var. rewrite Hi. unfold call_once, into_inner, free, at_. cbn [moved set_vars heap]. rewrite Hp. intros [= <-]. cbn [effect].
    rewrite (show_nth _ _ _ _ _ _ Hi Hp). cbn [run_closure heap vars out dropped called]. split; [|auto]. exact (show_put _ _ _ _ _ None None G Hi I).
Qed.
