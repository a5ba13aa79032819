(** Lemmas on atomic cells of trees: simulation of the sequential object. *)
From Coq Require Import List Arith Bool Lia.
From Verif Require Import M_Import L_Import M_ATree S_ATree.
Import ListNotations.

Lemma put_eq {A} : forall (l : list A) t p q, nth_error l t = Some p -> nth_error (put l t q) t = Some q.
Proof. induction l as [|x l IH]; intros [|t] p q H; cbn in *; try discriminate; eauto. Qed.
Lemma put_ne {A} : forall (l : list A) t u q, u <> t -> nth_error (put l t q) u = nth_error l u.
Proof. induction l as [|x l IH]; intros [|t] [|u] q H; cbn; auto; congruence. Qed.
Lemma put_len {A} : forall (l : list A) t q, length (put l t q) = length l.
Proof. induction l as [|x l IH]; intros [|t] q; cbn; auto. Qed.
Definition cnt {A} (f : A -> bool) (l : list A) : nat := length (filter f l).
Lemma cnt_put {A} : forall f (l : list A) t p q, nth_error l t = Some p ->
  cnt f (put l t q) + Nat.b2n (f p) = cnt f l + Nat.b2n (f q).
Proof.
  induction l as [|x l IH]; intros [|t] p q H; cbn in H; try discriminate.
  - injection H as ->. unfold cnt; cbn. destruct (f p), (f q); cbn [length Nat.b2n]; lia.
  - specialize (IH t p q H). unfold cnt in *; cbn. destruct (f x); cbn [length]; lia.
Qed.
Lemma cnt_in {A} : forall f (l : list A) i p, nth_error l i = Some p -> f p = true -> 0 < cnt f l.
Proof.
  induction l as [|x l IH]; intros [|i] p H Hf; cbn in H; try discriminate; unfold cnt; cbn.
  - injection H as ->. rewrite Hf. cbn. lia.
  - specialize (IH _ _ H Hf). unfold cnt in IH. destruct (f x); cbn [length]; lia.
Qed.
Lemma cnt_two {A} : forall f (l : list A) i j p q, i <> j -> nth_error l i = Some p -> f p = true ->
  nth_error l j = Some q -> f q = true -> 1 < cnt f l.
Proof.
  induction l as [|x l IH]; intros [|i] [|j] p q N H Hf H' Hg; cbn in H, H'; try discriminate; try congruence; unfold cnt; cbn.
  - injection H as ->. rewrite Hf. cbn. pose proof (cnt_in f l _ _ H' Hg). unfold cnt in *. lia.
  - injection H' as ->. rewrite Hg. cbn. pose proof (cnt_in f l _ _ H Hf). unfold cnt in *. lia.
  - assert (1 < cnt f l) by (eapply (IH i j); eauto). unfold cnt in *. destruct (f x); cbn [length]; lia.
Qed.
Lemma cnt_zero {A} : forall f (l : list A), (forall p, In p l -> f p = false) -> cnt f l = 0.
Proof.
  intros f l H. unfold cnt. induction l as [|x l IH]; cbn; [lia|].
  rewrite (H x (or_introl eq_refl)). apply IH. intros p Hp. apply H. now right.
Qed.

Section Sim.
Context {V L : Type}.
Variable empty : V.
Variable prog : L -> call V L.

Definition points (p : option nat) (a : nat) : bool := match p with Some b => a =? b | None => false end.
Definition holds (a : nat) (p : pc V L) : bool :=
  match p with
  | Copied _ _ _ cur | GCopied _ _ cur => points cur a
  | Ready _ _ _ _ _ new => points new a
  | Release _ b => a =? b
  | _ => false
  end.

Definition tinv (s : cell V L) (h : list V) (p : pc V L) (th : thread V L) : Prop :=
  match p with
  | Idle l | Release l _ => th = Out l
  | Loaded l held f cur => exists n, th = Inside l (Edit held f) n /\ n < length h /\ ptr s = cur
  | Copied l held f cur => exists n i, th = Inside l (Edit held f) n /\ n <= i /\ nth_error h i = Some (content empty s cur) /\
      (held = false -> ptr s = cur)
  | Ready l held f cur l' new => exists n i v, th = Inside l (Edit held f) n /\ n <= i /\ nth_error h i = Some v /\
      (cur = new -> f l v = (l', None)) /\
      (cur <> new -> exists a v', new = Some a /\ f l v = (l', Some v') /\ val s a = v' /\ (ptr s = cur -> v = last h empty))
  | GLoaded l g cur => exists n, th = Inside l (Get g) n /\ n < length h /\ ptr s = cur
  | GCopied l g cur => exists n i, th = Inside l (Get g) n /\ n <= i /\ nth_error h i = Some (content empty s cur)
  end.

Record rel (s : cell V L) (o : object V L) : Prop := {
  r_ptr : content empty s (ptr s) = last (hist o) empty;
  r_ne : 0 < length (hist o);
  r_len : length (pcs s) = length (threads o);
  r_thr : forall t p th, nth_error (pcs s) t = Some p -> nth_error (threads o) t = Some th -> tinv s (hist o) p th;
  r_rc : forall a, rc s a = Nat.b2n (points (ptr s) a) + cnt (holds a) (pcs s);
  r_priv : forall t l held f cur l' a, nth_error (pcs s) t = Some (Ready l held f cur l' (Some a)) -> cur <> Some a ->
    rc s a = 1 /\ forall u q, u <> t -> nth_error (pcs s) u = Some q -> compares a q = false;
  r_fault : fault s = false
}.

Lemma rel_new ls : rel (cell_new empty ls) (object_new empty ls).
Proof.
  constructor; cbn [cell_new object_new ptr rc val pcs fault hist threads content last length points Nat.b2n Nat.add]; auto.
  - rewrite !map_length. reflexivity.
  - intros t p th H1 H2. rewrite nth_error_map in H1, H2. destruct (nth_error ls t); [|discriminate].
    injection H1 as <-. injection H2 as <-. reflexivity.
  - intros a. rewrite cnt_zero; [reflexivity|]. intros p Hp. apply in_map_iff in Hp. destruct Hp as (l & <- & _). reflexivity.
  - intros t l held f cur l' a H. rewrite nth_error_map in H. destruct (nth_error ls t); discriminate.
Qed.

(** A step of thread [t] from [p] to [q]. *)
Lemma rel_put s o t p th s' h' q th' : rel s o ->
  nth_error (pcs s) t = Some p -> nth_error (threads o) t = Some th ->
  pcs s' = put (pcs s) t q ->
  content empty s' (ptr s') = last h' empty -> 0 < length h' ->
  tinv s' h' q th' ->
  (forall u q' th'', u <> t -> nth_error (pcs s) u = Some q' -> tinv s (hist o) q' th'' -> tinv s' h' q' th'') ->
  (forall a, rc s' a + Nat.b2n (holds a p) + Nat.b2n (points (ptr s) a) = rc s a + Nat.b2n (holds a q) + Nat.b2n (points (ptr s') a)) ->
  (forall l held f cur l' a, q = Ready l held f cur l' (Some a) -> cur <> Some a ->
    rc s' a = 1 /\ forall u q', u <> t -> nth_error (pcs s) u = Some q' -> compares a q' = false) ->
  (forall u l held f cur l' a, u <> t -> nth_error (pcs s) u = Some (Ready l held f cur l' (Some a)) -> cur <> Some a ->
    rc s a = 1 -> rc s' a = 1 /\ (compares a p = false -> compares a q = false)) ->
  fault s' = false ->
  rel s' (Object h' (put (threads o) t th')).
Proof.
  intros R Hp Hth Epcs Ec Hh Tq Fr Rc Pq Po Fl. constructor; cbn [hist threads]; auto.
  - rewrite Epcs, !put_len. apply (r_len _ _ R).
  - intros u p0 th0 H1 H2. rewrite Epcs in H1. destruct (Nat.eq_dec u t) as [->|N].
    + rewrite (put_eq _ _ _ _ Hp) in H1. rewrite (put_eq _ _ _ _ Hth) in H2. injection H1 as <-. injection H2 as <-. exact Tq.
    + rewrite put_ne in H1 by exact N. rewrite put_ne in H2 by exact N. eapply Fr; eauto. eapply (r_thr _ _ R); eauto.
  - intros a. specialize (Rc a). rewrite (r_rc _ _ R a) in Rc. rewrite Epcs. pose proof (cnt_put (holds a) (pcs s) t p q Hp). lia.
  - intros u l held f cur l' a H N. rewrite Epcs in H. destruct (Nat.eq_dec u t) as [->|M].
    + rewrite (put_eq _ _ _ _ Hp) in H. injection H as ->. destruct (Pq _ _ _ _ _ _ eq_refl N) as (A & B). split; [exact A|].
      intros u q' M H. rewrite Epcs, put_ne in H by exact M. eauto.
    + rewrite put_ne in H by exact M. destruct (r_priv _ _ R _ _ _ _ _ _ _ H N) as (A & B).
      destruct (Po _ _ _ _ _ _ _ M H N A) as (C & D). split; [exact C|]. intros w q' W Hw. rewrite Epcs in Hw.
      destruct (Nat.eq_dec w t) as [->|M2].
      * rewrite (put_eq _ _ _ _ Hp) in Hw. injection Hw as <-. apply D. eapply B; [|exact Hp]. congruence.
      * rewrite put_ne in Hw by exact M2. eauto.
Qed.

(** What other threads know stays true if the pointer does not change. *)
Lemma tinv_frame s s' h q th : ptr s' = ptr s -> (forall a, holds a q = true -> val s' a = val s a) ->
  tinv s h q th -> tinv s' h q th.
Proof.
  intros E F T. destruct q; cbn [tinv holds] in *; auto.
  - destruct T as (n & A & B & C). exists n. rewrite E. auto.
  - destruct T as (n & i & A & B & C & D). exists n, i. rewrite E. repeat (split; auto). rewrite C. f_equal.
    destruct cur; cbn [content points] in *; [|reflexivity]. symmetry. apply F. apply Nat.eqb_refl.
  - destruct T as (n & i & v & A & B & C & D & G). exists n, i, v. repeat (split; auto). intros N. destruct (G N) as (a & v' & -> & X & Y & Z).
    exists a, v'. rewrite E. repeat (split; auto). rewrite <- Y. apply F. cbn. apply Nat.eqb_refl.
  - destruct T as (n & A & B & C). exists n. rewrite E. auto.
  - destruct T as (n & i & A & B & C). exists n, i. repeat (split; auto). rewrite C. f_equal.
    destruct cur; cbn [content points] in *; [|reflexivity]. symmetry. apply F. apply Nat.eqb_refl.
Qed.
(** ... or if they are not exposed. *)
Lemma tinv_swap s s' h v q th b : ptr s' = Some b -> compares b q = false -> exposed q = false -> val s' = val s ->
  tinv s h q th -> tinv s' (h ++ [v]) q th.
Proof.
  intros E Cq X F T.
  assert (nth : forall i w, nth_error h i = Some w -> nth_error (h ++ [v]) i = Some w).
  { intros i w H. rewrite nth_error_app1; [exact H|]. apply nth_error_Some. congruence. }
  assert (Cn : forall c, content empty s' c = content empty s c) by (intros [a|]; cbn; rewrite ?F; reflexivity).
  destruct q; cbn [tinv exposed compares] in *; auto; try discriminate X.
  - destruct T as (n & i & A & B & C & D). exists n, i. rewrite Cn. repeat (split; auto). intros ->. discriminate X.
  - destruct T as (n & i & w & A & B & C & D & G). exists n, i, w. repeat (split; auto). intros N. destruct (G N) as (a & v' & -> & Y & Z & W).
    exists a, v'. rewrite F. repeat (split; auto). rewrite E. intros <-. rewrite Nat.eqb_refl in Cq. discriminate Cq.
  - destruct T as (n & i & A & B & C). exists n, i. rewrite Cn. auto.
Qed.

Lemma put_same {A} : forall (l : list A) t x, nth_error l t = Some x -> put l t x = l.
Proof. induction l as [|y l IH]; intros [|t] x H; cbn in *; try discriminate; [injection H as ->; reflexivity|f_equal; auto]. Qed.
Lemma object_same (o : object V L) t th : nth_error (threads o) t = Some th -> Object (hist o) (put (threads o) t th) = o.
Proof. intros H. rewrite put_same by exact H. destruct o. reflexivity. Qed.
Lemma points_true p a : points p a = true <-> p = Some a.
Proof.
  destruct p as [b|]; cbn; [rewrite Nat.eqb_eq|]; split; intros H; try discriminate; congruence.
Qed.
Lemma same_true x y : same x y = true <-> x = y.
Proof.
  destruct x as [a|], y as [b|]; cbn; try rewrite Nat.eqb_eq; split; intros H; try discriminate; auto; congruence.
Qed.
Lemma last_nth (h : list V) : 0 < length h -> nth_error h (length h - 1) = Some (last h empty).
Proof.
  intros H. destruct h as [|x h] using rev_ind; [cbn in H; lia|]. rewrite app_length. cbn [length]. rewrite Nat.add_sub, last_last.
  rewrite nth_error_app2, Nat.sub_diag by lia. reflexivity.
Qed.
(** References counted. *)
Lemma rc_ptr s o a : rel s o -> ptr s = Some a -> 0 < rc s a.
Proof. intros R E. rewrite (r_rc _ _ R a), E. cbn [points]. rewrite Nat.eqb_refl. cbn. lia. Qed.
Lemma rc_holds s o a t p : rel s o -> nth_error (pcs s) t = Some p -> holds a p = true -> 0 < rc s a.
Proof. intros R E H. rewrite (r_rc _ _ R a). pose proof (cnt_in _ _ _ _ E H). lia. Qed.
Lemma rc_both s o a t p : rel s o -> ptr s = Some a -> nth_error (pcs s) t = Some p -> holds a p = true -> 1 < rc s a.
Proof.
  intros R E Hp H. rewrite (r_rc _ _ R a), E. cbn [points]. rewrite Nat.eqb_refl. pose proof (cnt_in _ _ _ _ Hp H). cbn [Nat.b2n]. lia.
Qed.
Lemma upd_if {A} (m : nat -> A) a x b : upd m a x b = if b =? a then x else m b.
Proof. unfold upd. reflexivity. Qed.

Ltac eqb := repeat match goal with |- context [?x =? ?y] => destruct (Nat.eqb_spec x y); subst end.

Lemma rel_step s o t a : rel s o -> calm empty prog s (t, a) ->
  exists o', (o' = o \/ takes empty prog o t o') /\ rel (step empty prog s (t, a)) o'.
Proof.
  intros R C. unfold calm in C. cbn [step] in *. destruct (nth_error (pcs s) t) as [p|] eqn:Hp; [|exists o; auto].
  assert (Hth : exists th, nth_error (threads o) t = Some th).
  { destruct (nth_error (threads o) t) eqn:E; eauto. apply nth_error_None in E. rewrite <- (r_len _ _ R) in E. apply nth_error_None in E. congruence. }
  destruct Hth as (th & Hth). pose proof (r_thr _ _ R _ _ _ Hp Hth) as T.
  destruct p as [l|l held f cur|l held f cur|l held f cur l' new|l p|l g cur|l g cur]; cbn [tinv] in T.
  - (* Idle *) subst th. destruct (prog l) as [held f|g|] eqn:Ep.
    + eexists. split; [right; apply (begins _ _ _ _ l (length (hist o) - 1) Hth); [congruence|pose proof (r_ne _ _ R); lia]|].
      rewrite Ep. eapply (rel_put _ _ _ _ _ _ _ _ _ R Hp Hth); cbn [goto pcs ptr rc val fault]; auto.
      * exact (r_ptr _ _ R).
      * exact (r_ne _ _ R).
      * exists (length (hist o) - 1). pose proof (r_ne _ _ R). repeat split; auto; lia.
      * discriminate.
      * exact (r_fault _ _ R).
    + eexists. split; [right; apply (begins _ _ _ _ l (length (hist o) - 1) Hth); [congruence|pose proof (r_ne _ _ R); lia]|].
      rewrite Ep. eapply (rel_put _ _ _ _ _ _ _ _ _ R Hp Hth); cbn [goto pcs ptr rc val fault]; auto.
      * exact (r_ptr _ _ R).
      * exact (r_ne _ _ R).
      * exists (length (hist o) - 1). pose proof (r_ne _ _ R). repeat split; auto; lia.
      * discriminate.
      * exact (r_fault _ _ R).
    + exists o. auto.
  - (* Loaded *) exists o. split; [auto|]. destruct T as (n & -> & Ln & Ec). rewrite <- (object_same o t _ Hth).
    assert (K : rel (goto t (Copied l held f cur) (incr cur s)) (Object (hist o) (put (threads o) t (Inside l (Edit held f) n)))); [|exact K].
    eapply (rel_put _ _ _ _ _ _ _ _ _ R Hp Hth).
    + destruct cur; reflexivity.
    + transitivity (content empty s (ptr s)); [destruct cur; reflexivity|exact (r_ptr _ _ R)].
    + exact (r_ne _ _ R).
    + exists n, (length (hist o) - 1). split; [reflexivity|]. split; [lia|]. split.
      * rewrite last_nth by exact (r_ne _ _ R). rewrite <- (r_ptr _ _ R), Ec. destruct cur; reflexivity.
      * intros _. destruct cur; exact Ec.
    + intros u q' th'' N Hu. apply tinv_frame; [destruct cur; reflexivity|]. destruct cur; reflexivity.
    + intros b. destruct cur as [p|]; cbn [incr goto rc holds points ptr]; rewrite ?upd_if; eqb; cbn [Nat.b2n]; lia.
    + discriminate.
    + intros u l0 held0 f0 cur0 l0' b N Hu Nb Eb. split; [|auto]. destruct cur as [p|]; cbn [incr goto rc]; [|exact Eb].
      rewrite upd_if. destruct (Nat.eqb_spec b p) as [->|]; [|exact Eb].
      pose proof (rc_both _ _ _ _ _ R Ec Hu (Nat.eqb_refl p)). lia.
    + destruct cur as [p|]; cbn [incr goto fault]; rewrite (r_fault _ _ R); [|reflexivity].
      pose proof (rc_ptr _ _ _ R Ec). destruct (Nat.eqb_spec (rc s p) 0); [lia|reflexivity].
  - (* Copied *) destruct T as (n & i & -> & Ln & Ei & Eh).
    destruct (f l (content empty s cur)) as [l' r] eqn:Ef. destruct r as [v|].
    2:{ exists o. split; [auto|]. rewrite <- (object_same o t _ Hth).
        eapply (rel_put _ _ _ _ _ _ _ _ _ R Hp Hth); cbn [goto pcs ptr rc val fault]; auto.
        - exact (r_ptr _ _ R).
        - exact (r_ne _ _ R).
        - exists n, i, (content empty s cur). repeat (split; auto). intros N. contradiction.
        - intros l0 held0 f0 cur0 l0' b E Nb. injection E as <- <- <- <- <- E. contradiction.
        - intros u l0 held0 f0 cur0 l0' b N Hu Nb Eb. split; [exact Eb|]. intros _. cbn [compares].
          destruct cur as [p|]; [|reflexivity]. apply Nat.eqb_neq. intros ->.
          pose proof (cnt_two (holds p) _ _ _ _ _ N Hu (Nat.eqb_refl p) Hp (Nat.eqb_refl p)). pose proof (r_rc _ _ R p). lia.
        - exact (r_fault _ _ R). }
    destruct cur as [p|].
    + pose proof (rc_holds _ _ p _ _ R Hp (Nat.eqb_refl p)) as Hpos.
      destruct (negb held && (rc s p =? 1)) eqn:Ei'.
      { exfalso. apply andb_prop in Ei'. destruct Ei' as (A & B). apply Nat.eqb_eq in B. destruct held; [discriminate A|].
        pose proof (rc_both _ _ _ _ _ R (Eh eq_refl) Hp (Nat.eqb_refl p)). lia. }
      destruct (Nat.eqb_spec (rc s a) 0) as [Ea|]; [|exists o; auto].
      assert (Nap : a <> p) by (intros ->; lia).
      exists o. split; [auto|]. rewrite <- (object_same o t _ Hth).
      assert (Fa : forall u q', nth_error (pcs s) u = Some q' -> holds a q' = false).
      { intros u q' Hu. destruct (holds a q') eqn:E; [|reflexivity]. pose proof (rc_holds _ _ _ _ _ R Hu E). lia. }
      assert (Pa : ptr s <> Some a). { intros E. pose proof (rc_ptr _ _ _ R E). lia. }
      eapply (rel_put _ _ _ _ _ _ _ _ _ R Hp Hth); cbn [goto pcs ptr rc val fault alloc decr]; auto.
      * rewrite <- (r_ptr _ _ R). destruct (ptr s) as [b|]; [|reflexivity]. change (upd (val s) a v b = val s b).
        apply upd_ne. congruence.
      * exact (r_ne _ _ R).
      * exists n, i, (val s p). repeat (split; auto); [congruence|]. intros _. exists a, v. cbn [val ptr]. repeat (split; auto).
        -- change (upd (val s) a v a = v). apply upd_eq.
        -- intros E. cbn [goto ptr alloc] in E. pose proof (r_ptr _ _ R) as Q. rewrite E in Q. exact Q.
      * intros u q' th'' N Hu. apply tinv_frame; [reflexivity|]. intros b Hb. change (upd (val s) a v b = val s b).
        apply upd_ne. intros ->. rewrite (Fa _ _ Hu) in Hb. discriminate Hb.
      * intros b. cbn [holds points]. rewrite !upd_if. eqb; cbn [Nat.b2n]; try lia.
      * intros l0 held0 f0 cur0 l0' b E Nb. injection E as _ _ _ _ _ <-. split.
        -- rewrite !upd_if, Nat.eqb_refl. destruct (Nat.eqb_spec a p); [contradiction|reflexivity].
        -- intros u q' N Hu. exact (proj2 (C u q' N Hu) Ea).
      * intros u l0 held0 f0 cur0 l0' b N Hu Nb Eb.
        assert (b <> p).
        { intros ->. pose proof (cnt_two (holds p) _ _ _ _ _ N Hu (Nat.eqb_refl p) Hp (Nat.eqb_refl p)). pose proof (r_rc _ _ R p). lia. }
        split; [rewrite !upd_if; eqb; lia|]. intros _. cbn [compares]. apply Nat.eqb_neq. assumption.
      * rewrite (r_fault _ _ R). rewrite upd_if. destruct (Nat.eqb_spec p a); [congruence|]. destruct (Nat.eqb_spec (rc s p) 0); [lia|reflexivity].
    + destruct (Nat.eqb_spec (rc s a) 0) as [Ea|]; [|exists o; auto].
      exists o. split; [auto|]. rewrite <- (object_same o t _ Hth).
      assert (Fa : forall u q', nth_error (pcs s) u = Some q' -> holds a q' = false).
      { intros u q' Hu. destruct (holds a q') eqn:E; [|reflexivity]. pose proof (rc_holds _ _ _ _ _ R Hu E). lia. }
      assert (Pa : ptr s <> Some a). { intros E. pose proof (rc_ptr _ _ _ R E). lia. }
      eapply (rel_put _ _ _ _ _ _ _ _ _ R Hp Hth); cbn [goto pcs ptr rc val fault alloc decr]; auto.
      * rewrite <- (r_ptr _ _ R). destruct (ptr s) as [b|]; [|reflexivity]. change (upd (val s) a v b = val s b).
        apply upd_ne. congruence.
      * exact (r_ne _ _ R).
      * exists n, i, empty. repeat (split; auto); [discriminate|]. intros _. exists a, v. cbn [val ptr]. repeat (split; auto).
        -- change (upd (val s) a v a = v). apply upd_eq.
        -- intros E. cbn [goto ptr alloc] in E. pose proof (r_ptr _ _ R) as Q. rewrite E in Q. exact Q.
      * intros u q' th'' N Hu. apply tinv_frame; [reflexivity|]. intros b Hb. change (upd (val s) a v b = val s b).
        apply upd_ne. intros ->. rewrite (Fa _ _ Hu) in Hb. discriminate Hb.
      * intros b. cbn [holds points]. rewrite !upd_if. eqb; cbn [Nat.b2n]; try lia.
      * intros l0 held0 f0 cur0 l0' b E Nb. injection E as _ _ _ _ _ <-. split.
        -- rewrite !upd_if, Nat.eqb_refl. reflexivity.
        -- intros u q' N Hu. exact (proj2 (C u q' N Hu) Ea).
      * intros u l0 held0 f0 cur0 l0' b N Hu Nb Eb. split; [rewrite !upd_if; eqb; lia|]. reflexivity.
      * exact (r_fault _ _ R).
  - (* Ready *) destruct T as (n & i & v & -> & Ln & Ei & Es & En).
    destruct (same cur new) eqn:E1.
    + (* nothing changed *) apply same_true in E1. subst new. specialize (Es eq_refl).
      eexists. split; [right; exact (keeps _ _ _ _ _ _ _ _ _ _ _ Hth Ln Ei Es)|].
      eapply (rel_put _ _ _ _ _ _ _ _ _ R Hp Hth).
      * destruct cur; reflexivity.
      * transitivity (content empty s (ptr s)); [destruct cur; reflexivity|exact (r_ptr _ _ R)].
      * exact (r_ne _ _ R).
      * reflexivity.
      * intros u q' th'' N Hu. apply tinv_frame; [destruct cur; reflexivity|]. destruct cur; reflexivity.
      * intros b. pose proof (rc_holds _ _ b _ _ R Hp). cbn [holds] in *.
        destruct cur as [p|]; cbn [decr goto rc holds points ptr] in *; rewrite ?upd_if; revert H; eqb; cbn [Nat.b2n]; lia.
      * discriminate.
      * intros u l0 held0 f0 cur0 l0' b N Hu Nb Eb. split; [|auto]. destruct cur as [p|]; cbn [decr goto rc]; [|exact Eb].
        rewrite upd_if. destruct (Nat.eqb_spec b p) as [->|]; [|exact Eb].
        pose proof (cnt_two (holds p) _ _ _ _ _ N Hu (Nat.eqb_refl p) Hp (Nat.eqb_refl p)). pose proof (r_rc _ _ R p). lia.
      * destruct cur as [p|]; cbn [decr goto fault]; rewrite (r_fault _ _ R); [|reflexivity].
        pose proof (rc_holds _ _ p _ _ R Hp (Nat.eqb_refl p)). destruct (Nat.eqb_spec (rc s p) 0); [lia|reflexivity].
    + assert (Nc : cur <> new) by (intros E; apply same_true in E; congruence).
      destruct (En Nc) as (b & v' & -> & Ef & Ev & El).
      destruct (r_priv _ _ R _ _ _ _ _ _ _ Hp Nc) as (Rb & Pb).
      assert (Fb : forall u q', u <> t -> nth_error (pcs s) u = Some q' -> holds b q' = false).
      { intros u q' N Hu. destruct (holds b q') eqn:E; [|reflexivity].
        pose proof (cnt_two (holds b) _ _ _ _ _ N Hu E Hp (Nat.eqb_refl b)). pose proof (r_rc _ _ R b). lia. }
      assert (Pp : ptr s <> Some b). { intros E. pose proof (rc_both _ _ _ _ _ R E Hp (Nat.eqb_refl b)). lia. }
      destruct (same (ptr s) cur) eqn:E2.
      * (* exchanged *) apply same_true in E2. specialize (El E2). subst v.
        assert (K : rel (goto t (match cur with None => Idle l' | Some p => Release l' p end) (swap (Some b) s))
                        (Object (hist o ++ [v']) (put (threads o) t (Out l')))).
        { eapply (rel_put _ _ _ _ _ _ _ _ _ R Hp Hth); cbn [goto swap pcs ptr rc val fault]; auto.
          - rewrite last_last. exact Ev.
          - rewrite app_length. cbn. lia.
          - destruct cur; reflexivity.
          - intros u q' th'' N Hu. apply (tinv_swap _ _ _ _ _ _ b); auto.
            + exact (Pb _ _ N Hu).
            + apply (proj1 (C u q' N Hu)). destruct cur; cbn [goto swap ptr]; congruence.
          - intros c. rewrite E2. destruct cur as [p|]; cbn [holds points]; eqb; cbn [Nat.b2n]; lia.
          - destruct cur; discriminate.
          - intros u l0 held0 f0 cur0 l0' c N Hu Nb0 Eb. split; [exact Eb|]. destruct cur; reflexivity.
          - exact (r_fault _ _ R). }
        exists (Object (hist o ++ [v']) (put (threads o) t (Out l'))). split; [right; exact (swaps _ _ _ _ _ _ _ _ _ _ Hth Ef)|].
        destruct cur; exact K.
      * (* failed *) eexists. split; [right; exact (discards _ _ _ _ _ _ _ _ _ _ _ _ Hth Ln Ei Ef)|].
        eapply (rel_put _ _ _ _ _ _ _ _ _ R Hp Hth); cbn [goto decr swap pcs ptr rc val fault]; auto.
        -- exact (r_ptr _ _ R).
        -- exact (r_ne _ _ R).
        -- exists n. repeat split; auto. apply nth_error_Some in Hth || idtac. assert (i < length (hist o)) by (apply nth_error_Some; congruence). lia.
        -- intros c. cbn [holds points]. rewrite upd_if. eqb; cbn [Nat.b2n]; lia.
        -- discriminate.
        -- intros u l0 held0 f0 cur0 l0' c N Hu Nb0 Eb. split; [|reflexivity]. rewrite upd_if.
           destruct (Nat.eqb_spec c b) as [->|]; [|exact Eb]. specialize (Fb _ _ N Hu). cbn [holds points] in Fb. rewrite Nat.eqb_refl in Fb. discriminate Fb.
        -- rewrite (r_fault _ _ R), Rb. reflexivity.
  - (* Release *) exists o. split; [auto|]. subst th. rewrite <- (object_same o t _ Hth).
    eapply (rel_put _ _ _ _ _ _ _ _ _ R Hp Hth); cbn [decr goto pcs ptr rc fault content val]; auto.
    + exact (r_ptr _ _ R).
    + exact (r_ne _ _ R).
    + reflexivity.
    + intros b. pose proof (rc_holds _ _ b _ _ R Hp). cbn [holds] in *. rewrite upd_if. revert H. eqb; cbn [Nat.b2n]; try lia.
    + discriminate.
    + intros u l0 held0 f0 cur0 l0' b N Hu Nb Eb. split; [|auto]. 
      rewrite upd_if. destruct (Nat.eqb_spec b p) as [->|]; [|exact Eb].
      pose proof (cnt_two (holds p) _ _ _ _ _ N Hu (Nat.eqb_refl p) Hp (Nat.eqb_refl p)). pose proof (r_rc _ _ R p). lia.
    + rewrite (r_fault _ _ R). pose proof (rc_holds _ _ p _ _ R Hp (Nat.eqb_refl p)). destruct (Nat.eqb_spec (rc s p) 0); [lia|reflexivity].
  - (* GLoaded *) exists o. split; [auto|]. destruct T as (n & -> & Ln & Ec). rewrite <- (object_same o t _ Hth).
    assert (K : rel (goto t (GCopied l g cur) (incr cur s)) (Object (hist o) (put (threads o) t (Inside l (Get g) n)))); [|exact K].
    eapply (rel_put _ _ _ _ _ _ _ _ _ R Hp Hth).
    + destruct cur; reflexivity.
    + transitivity (content empty s (ptr s)); [destruct cur; reflexivity|exact (r_ptr _ _ R)].
    + exact (r_ne _ _ R).
    + exists n, (length (hist o) - 1). split; [reflexivity|]. split; [lia|]. 
      rewrite last_nth by exact (r_ne _ _ R). rewrite <- (r_ptr _ _ R), Ec. destruct cur; reflexivity.
    + intros u q' th'' N Hu. apply tinv_frame; [destruct cur; reflexivity|]. destruct cur; reflexivity.
    + intros b. destruct cur as [p|]; cbn [incr goto rc holds points ptr]; rewrite ?upd_if; eqb; cbn [Nat.b2n]; lia.
    + discriminate.
    + intros u l0 held0 f0 cur0 l0' b N Hu Nb Eb. split; [|auto]. destruct cur as [p|]; cbn [incr goto rc]; [|exact Eb].
      rewrite upd_if. destruct (Nat.eqb_spec b p) as [->|]; [|exact Eb].
      pose proof (rc_both _ _ _ _ _ R Ec Hu (Nat.eqb_refl p)). lia.
    + destruct cur as [p|]; cbn [incr goto fault]; rewrite (r_fault _ _ R); [|reflexivity].
      pose proof (rc_ptr _ _ _ R Ec). destruct (Nat.eqb_spec (rc s p) 0); [lia|reflexivity].
  - (* GCopied *) destruct T as (n & i & -> & Ln & Ec). 
    eexists. split; [right; exact (reads _ _ _ _ _ _ _ _ _ Hth Ln Ec)|].
    eapply (rel_put _ _ _ _ _ _ _ _ _ R Hp Hth).
    + destruct cur; reflexivity.
    + transitivity (content empty s (ptr s)); [destruct cur; reflexivity|exact (r_ptr _ _ R)].
    + exact (r_ne _ _ R).
    + reflexivity.
    + intros u q' th'' N Hu. apply tinv_frame; [destruct cur; reflexivity|]. destruct cur; reflexivity.
    + intros b. pose proof (rc_holds _ _ b _ _ R Hp). cbn [holds] in *.
      destruct cur as [p|]; cbn [decr goto rc holds points ptr] in *; rewrite ?upd_if; revert H; eqb; cbn [Nat.b2n]; lia.
    + discriminate.
    + intros u l0 held0 f0 cur0 l0' b N Hu Nb Eb. split; [|auto]. destruct cur as [p|]; cbn [decr goto rc]; [|exact Eb].
      rewrite upd_if. destruct (Nat.eqb_spec b p) as [->|]; [|exact Eb].
      pose proof (cnt_two (holds p) _ _ _ _ _ N Hu (Nat.eqb_refl p) Hp (Nat.eqb_refl p)). pose proof (r_rc _ _ R p). lia.
    + destruct cur as [p|]; cbn [decr goto fault]; rewrite (r_fault _ _ R); [|reflexivity].
      pose proof (rc_holds _ _ p _ _ R Hp (Nat.eqb_refl p)). destruct (Nat.eqb_spec (rc s p) 0); [lia|reflexivity].
Qed.

Lemma becomes_step' o o1 o2 t : becomes empty prog o o1 -> (o2 = o1 \/ takes empty prog o1 t o2) -> becomes empty prog o o2.
Proof. intros B [->|T]; [exact B|]. eapply becomes_step; eauto. Qed.
Lemma rel_run sched s o o0 : rel s o -> becomes empty prog o0 o -> calm_run empty prog sched s ->
  exists o', becomes empty prog o0 o' /\ rel (run empty prog sched s) o'.
Proof.
  revert s o. induction sched as [|[t a] sched IH]; intros s o R B C; [exists o; auto|].
  destruct (rel_step s o t a R) as (o' & X & R'); [exact (C 0 _ eq_refl)|].
  apply (IH _ o' R'); [eapply becomes_step'; eauto|].
  intros k act H. exact (C (S k) act H).
Qed.
Lemma rel_atomic ls s o : becomes empty prog (object_new empty ls) o -> rel s o -> atomic empty prog ls s.
Proof.
  intros B R. exists o. split; [exact B|]. split; [exact (r_ptr _ _ R)|].
  assert (G : forall (ps : list (pc V L)) (ths : list (thread V L)), length ps = length ths ->
    (forall t p th, nth_error ps t = Some p -> nth_error ths t = Some th -> tinv s (hist o) p th) -> Forall2 agree ps ths).
  { induction ps as [|p ps IH]; intros [|th ths] E H; try discriminate; constructor.
    - specialize (H 0 _ _ eq_refl eq_refl). destruct p; cbn [tinv] in H; [subst th|..]; try (subst th; cbn; auto; fail).
      + cbn. auto.
      + destruct H as (n & -> & _). cbn. auto.
      + destruct H as (n & i & -> & _). cbn. auto.
      + destruct H as (n & i & v & -> & _). cbn. auto.
      + destruct H as (n & -> & _). cbn. auto.
      + destruct H as (n & i & -> & _). cbn. auto.
    - apply IH; [now injection E|]. intros t p' th' H1 H2. exact (H (S t) _ _ H1 H2). }
  apply G; [exact (r_len _ _ R)|exact (r_thr _ _ R)].
Qed.
Lemma rel_no_leak s o : rel s o -> no_leak s.
Proof.
  intros R I a Ha. rewrite (r_rc _ _ R a), cnt_zero in Ha; [|intros p Hp; destruct (I p Hp) as (l & ->); reflexivity].
  apply points_true. destruct (points (ptr s) a); [reflexivity|cbn in Ha; lia].
Qed.

(** Calm executions can be recognised. *)
Definition calmb (s : cell V L) (act : nat * nat) : bool :=
  forallb (fun uq => let '(u, q) := uq in (u =? fst act) ||
    ((same (ptr (step empty prog s act)) (ptr s) || negb (exposed q)) && (negb (rc s (snd act) =? 0) || negb (compares (snd act) q))))
    (combine (seq 0 (length (pcs s))) (pcs s)).
Fixpoint calm_runb (sched : list (nat * nat)) (s : cell V L) : bool :=
  match sched with [] => true | act :: sched => calmb s act && calm_runb sched (step empty prog s act) end.
Lemma combine_seq {A} : forall (l : list A) n u q, nth_error l u = Some q -> In (n + u, q) (combine (seq n (length l)) l).
Proof.
  induction l as [|x l IH]; intros n [|u] q H; cbn in *; try discriminate.
  - injection H as <-. left. f_equal. lia.
  - right. replace (n + S u) with (S n + u) by lia. auto.
Qed.
Lemma calmb_sound s act : calmb s act = true -> calm empty prog s act.
Proof.
  intros H. destruct act as [t a]. unfold calmb in H. rewrite forallb_forall in H. intros u q N Hu.
  specialize (H _ (combine_seq _ 0 _ _ Hu)). cbn [fst snd Nat.add] in H. apply orb_prop in H. destruct H as [H|H]; [apply Nat.eqb_eq in H; contradiction|].
  apply andb_prop in H. destruct H as (A & B). split.
  - intros X. apply orb_prop in A. destruct A as [A|A]; [apply same_true in A; contradiction|]. destruct (exposed q); [discriminate A|reflexivity].
  - intros X. rewrite X in B. cbn in B. destruct (compares a q); [discriminate B|reflexivity].
Qed.
Lemma calm_runb_sound sched : forall s, calm_runb sched s = true -> calm_run empty prog sched s.
Proof.
  induction sched as [|act sched IH]; intros s H k act' Hk; [destruct k; discriminate|].
  cbn [calm_runb] in H. apply andb_prop in H. destruct H as (A & B). destruct k as [|k]; cbn in Hk.
  - injection Hk as <-. apply calmb_sound. exact A.
  - exact (IH _ B k act' Hk).
Qed.
End Sim.
