(** Invariant of concurrent executions on Arc and Weak. *)
From Coq Require Import List NArith Bool Arith Lia ZifyBool ZifyN ZifyNat.
From Verif Require Import M_Arc S_Arc L_Arc.
Import ListNotations.
Local Open Scope N_scope.

(** * Counting threads *)
Definition cnt (f : pc -> bool) (l : list pc) : N := N.of_nat (length (filter f l)).
Definition b2n (b : bool) : N := if b then 1 else 0.

Lemma cnt_put : forall f l t p q, nth_error l t = Some p ->
  cnt f (put l t q) + b2n (f p) = cnt f l + b2n (f q).
Proof.
  induction l as [|x l IH]; intros [|t] p q H; cbn in H; try discriminate.
  - injection H as ->. unfold cnt; cbn. destruct (f p), (f q); cbn [length b2n]; lia.
  - specialize (IH t p q H). unfold cnt in *; cbn. destruct (f x); cbn [length]; lia.
Qed.
Lemma cnt_pos : forall f l, 0 < cnt f l -> exists i p, nth_error l i = Some p /\ f p = true.
Proof.
  induction l as [|x l IH]; unfold cnt in *; cbn; [lia|].
  destruct (f x) eqn:E; intros H.
  - now exists 0%nat, x.
  - destruct (IH H) as (i & p & Hp). now exists (S i), p.
Qed.
Lemma cnt_in : forall f l i p, nth_error l i = Some p -> f p = true -> 0 < cnt f l.
Proof.
  induction l as [|x l IH]; intros [|i] p H Hf; cbn in H; try discriminate; unfold cnt; cbn.
  - injection H as ->. rewrite Hf. cbn [length]. lia.
  - specialize (IH _ _ H Hf). unfold cnt in IH. destruct (f x); cbn [length]; lia.
Qed.
Lemma cnt_two : forall f l, 1 < cnt f l -> exists i j p q, i <> j /\
  nth_error l i = Some p /\ nth_error l j = Some q /\ f p = true /\ f q = true.
Proof.
  induction l as [|x l IH]; unfold cnt in *; cbn; [lia|].
  destruct (f x) eqn:E; cbn [length]; intros H.
  - destruct (cnt_pos f l) as (j & q & Hj & Hq); [unfold cnt; lia|].
    exists 0%nat, (S j), x, q. repeat split; auto.
  - destruct (IH H) as (i & j & p & q & Hij & Hi & Hj & Hp & Hq).
    exists (S i), (S j), p, q. repeat split; auto.
Qed.
Lemma cnt_le : forall f g l, (forall p, f p = true -> g p = true) -> cnt f l <= cnt g l.
Proof.
  intros f g l H. unfold cnt. induction l as [|x l IH]; cbn; [lia|].
  specialize (H x). destruct (f x), (g x); cbn [length]; try lia; now specialize (H eq_refl).
Qed.
Lemma cnt_zero : forall f l, (forall p, In p l -> f p = false) -> cnt f l = 0.
Proof.
  intros f l H. unfold cnt. induction l as [|x l IH]; cbn; [lia|].
  rewrite (H x) by now left. apply IH. intros p Hp. apply H. now right.
Qed.
Lemma cnt_existsb : forall f l, existsb f l = negb (cnt f l =? 0).
Proof.
  intros f l. unfold cnt. induction l as [|x l IH]; cbn; [reflexivity|].
  destruct (f x); cbn [orb length]; [|exact IH]. symmetry. apply negb_true_iff. apply N.eqb_neq. lia.
Qed.

Definition is_dv p := match p with DropVal => true | _ => false end.
Definition is_rw p := match p with RelWeak => true | _ => false end.
Definition is_fm p := match p with FreeMem => true | _ => false end.
Definition is_un p := match p with UpNone => true | _ => false end.
Definition is_ua p := match p with UpAdd => true | _ => false end.
Definition is_ud p := match p with UpAnd => true | _ => false end.
Definition is_ck p := match p with Check _ => true | _ => false end.
Definition is_mu p := match p with Mutating => true | _ => false end.
Definition is_cl p := match p with CloneVal | DropOld => true | _ => false end.
Definition is_tv p := match p with TakeVal => true | _ => false end.

Lemma cnt_up : forall l, cnt upgrading l = cnt is_un l + cnt is_ua l + cnt is_ud l.
Proof. unfold cnt. induction l as [|x l IH]; cbn; [lia|]. destruct x; cbn [length upgrading is_un is_ua is_ud]; lia. Qed.

Lemma calm_cnt : forall s, calm s ->
  cnt is_un (pcs s) + cnt is_ua (pcs s) + cnt is_ud (pcs s) <= 1 /\
  (0 < cnt is_un (pcs s) + cnt is_ua (pcs s) + cnt is_ud (pcs s) -> cnt is_ck (pcs s) = 0).
Proof.
  intros s C. rewrite <- cnt_up. split.
  - destruct (N.le_gt_cases (cnt upgrading (pcs s)) 1) as [H|H]; [exact H|exfalso].
    destruct (cnt_two _ _ H) as (i & j & p & q & Hij & Hi & Hj & Hp & Hq).
    destruct (C i j p q Hi Hj Hij Hp) as [Hu _]. congruence.
  - intros H. destruct (cnt_pos _ _ H) as (i & p & Hi & Hp).
    destruct (N.eq_dec (cnt is_ck (pcs s)) 0) as [E|E]; [exact E|exfalso].
    destruct (cnt_pos is_ck (pcs s)) as (j & q & Hj & Hq); [lia|].
    assert (i <> j) by (intros ->; assert (p = q) by congruence; subst; destruct q; discriminate).
    destruct (C i j p q Hi Hj H0 Hp) as [_ Hc]. destruct q; discriminate.
Qed.

(** * The invariant, over numbers *)
Definition numbers (k st we al dr ta fr ba a w dv rw fm un ua ud ck mu cl tv : N) : Prop :=
  let h := a + ud + ck + mu + cl in
  ba = 0 /\
  h + ua <= 1 + k /\ w <= k /\
  un + ua + ud <= 1 /\ (0 < un + ua + ud -> ck = 0 /\ 0 < w) /\
  ((al = 1 /\ dv = 0 /\ tv = 0 /\ rw = 0 /\ fm = 0 /\ fr = 0 /\ dr = 0 /\ ta = 0 /\ we = w + 1 /\ un = 0 /\
      st = h + (ua + ud) * 2 ^ 63 /\ 0 < h + ua /\ (0 < ck -> h = 1) /\ (0 < mu -> h = 1 /\ w = 0))
   \/ (al = 1 /\ dv = 1 /\ tv = 0 /\ rw = 0 /\ fm = 0 /\ fr = 0 /\ dr = 0 /\ ta = 0 /\ we = w + 1 /\
      h = 0 /\ ua = 0 /\ st = un * 2 ^ 63)
   \/ (al = 1 /\ dv = 0 /\ tv = 1 /\ rw = 0 /\ fm = 0 /\ fr = 0 /\ dr = 0 /\ ta = 0 /\ we = 1 /\ w = 0 /\
      h = 0 /\ ua = 0)
   \/ (al = 0 /\ dv = 0 /\ tv = 0 /\ rw <= 1 /\ dr + ta = 1 /\ h = 0 /\ ua = 0 /\ we = w + rw /\
      (ta = 1 -> w = 0) /\ (ta = 0 -> st = un * 2 ^ 63) /\
      (we = 0 -> fr + fm = 1) /\ (0 < we -> fr = 0 /\ fm = 0))).

Definition inv (k : N) (s : sys) : Prop :=
  let b := blk s in let l := pcs s in
  numbers k (strong b) (weak b) (b2n (alive b)) (N.of_nat (dropped b)) (N.of_nat (taken b)) (N.of_nat (frees b)) (b2n (bad b))
    (N.of_nat (arcs s)) (N.of_nat (weaks s))
    (cnt is_dv l) (cnt is_rw l) (cnt is_fm l) (cnt is_un l) (cnt is_ua l) (cnt is_ud l)
    (cnt is_ck l) (cnt is_mu l) (cnt is_cl l) (cnt is_tv l).

Lemma inv_new : forall n, inv 0 (arc_new n).
Proof.
  intros n. unfold inv, arc_new. cbn [blk pcs strong weak alive dropped taken frees bad arcs weaks].
  rewrite !cnt_zero by (intros p Hp; apply repeat_spec in Hp; now subst).
  unfold numbers. cbn. repeat split; try lia. 
Qed.

Ltac put_facts Hp :=
  match type of Hp with nth_error ?l ?t = Some ?p =>
    repeat match goal with
    | |- context [cnt ?f (put l t ?q)] =>
        let c := fresh "c" in let Hc := fresh "Hc" in
        pose proof (cnt_put f l t p q Hp) as Hc; cbn [b2n f] in Hc;
        set (c := cnt f (put l t q)) in *; clearbody c
    end
  end.
Ltac abs_cnt :=
  repeat match goal with
  | |- context [cnt ?f ?l] => let c := fresh "n" in set (c := cnt f l) in *; clearbody c
  | H : context [cnt ?f ?l] |- _ => let c := fresh "n" in set (c := cnt f l) in *; clearbody c
  end.

Lemma spare_cnt : forall s, spare_weak s = true -> (0 < weaks s)%nat /\
  ((1 < weaks s)%nat \/ cnt is_un (pcs s) + cnt is_ua (pcs s) + cnt is_ud (pcs s) = 0).
Proof.
  intros s H. unfold spare_weak in H. rewrite cnt_existsb, cnt_up in H.
  apply orb_true_iff in H. destruct H as [H|H]; [apply Nat.ltb_lt in H; lia|].
  apply andb_true_iff in H. destruct H as [H1 H2]. apply Nat.ltb_lt in H1.
  rewrite negb_involutive in H2. apply N.eqb_eq in H2. lia.
Qed.

Ltac parts := repeat match goal with
  | |- _ /\ _ => split
  | |- _ -> _ => intro
  end.
Ltac solve_parts := parts; lia.
Ltac br1 := left; solve_parts.
Ltac br2 := right; left; solve_parts.
Ltac br3 := right; right; left; solve_parts.
Ltac br4 := right; right; right; solve_parts.
Ltac pick := first [br1 | br2 | br3 | br4].

Lemma inv_mono : forall k k' s, inv k s -> k <= k' -> inv k' s.
Proof.
  unfold inv, numbers. intros k k' s (H1 & H2 & H3 & H4 & H5 & H6) Hk.
  split; [exact H1|]. split; [lia|]. split; [lia|]. split; [exact H4|]. split; [exact H5|]. exact H6.
Qed.

Ltac ops_facts :=
  repeat match goal with
  | |- context [inc ?x] => rewrite (inc_small x) by lia
  | |- context [dec ?x] => rewrite (dec_pos x) by lia
  | |- context [set_top ?x] => rewrite (set_top_small x) by lia
  | |- context [clear_top ?x] => replace x with (x - 2 ^ 63 + 2 ^ 63) by lia; rewrite (clear_top_big (x - 2 ^ 63)) by lia
  end.
Ltac go :=
  unfold inv, touch, use, destroy, move_out, free, set_strong, set_weak, use, touch;
  cbn [blk pcs strong weak alive dropped taken frees bad arcs weaks log];
  try match goal with Hp : nth_error _ _ = Some _ |- _ => put_facts Hp end; abs_cnt;
  intros [C1 C2]; unfold numbers in *;
  match goal with I : _ /\ _ |- _ => destruct I as (_ & I2 & I3 & I4 & I5 & I) end;
  match goal with fr : nat, al : bool, I : _ \/ _ |- _ =>
    destruct I as [I|[I|[I|I]]]; try (exfalso; lia);
    (assert (fr = 0%nat) by lia; subst fr);
    (destruct al; cbn [b2n] in I; [|try (exfalso; lia)]; try (exfalso; lia));
    cbn [orb negb Nat.ltb Nat.leb b2n];
    ops_facts;
    (split; [reflexivity|]; split; [lia|]; split; [lia|]; split; [lia|]; split; [solve_parts|]);
    pick
  end.
Ltac single :=
  match goal with Hp : nth_error _ _ = Some _ |- _ =>
    unfold step; cbn [pcs blk]; rewrite Hp end.

Lemma inv_step : forall k s a, inv k s -> k + 2 < 2 ^ 62 -> snd a <> ODynWeakDrop ->
  calm (step s a) -> inv (k + 1) (step s a).
Proof.
  intros k s [t o] I Hk Ho C. cbn [snd] in Ho.
  apply calm_cnt in C. revert C.
  destruct (nth_error (pcs s) t) as [p|] eqn:Hp.
  2: { unfold step. rewrite Hp. intros _. eapply inv_mono; [exact I|lia]. }
  assert (Hba : bad (blk s) = false).
  { destruct I as (I & _). destruct (bad (blk s)); cbn [b2n] in I; [discriminate|reflexivity]. }
  destruct s as [[st we al dr ta fr ba] l a w lg]. cbn in Hp, Hba. subst ba.
  unfold inv in I. cbn [blk pcs strong weak alive dropped taken frees bad arcs weaks b2n] in I.
  assert (Hin : forall f, f p = true -> 0 < cnt f l) by (intros; now apply (cnt_in f l t p)).
  destruct p.
  - (* Idle *) 
    unfold step. cbn [pcs blk]. rewrite Hp. clear Hin. unfold start, with_arcs, with_weaks, touch.
    cbn [blk pcs arcs weaks log strong weak alive dropped taken frees bad].
    destruct o; try congruence.
    1-6: destruct a as [|a]; [intros _; eapply inv_mono; [exact I|lia]|].
    + go.
    + go.
    + unfold drop_strong, touch, set_strong. cbn [blk pcs arcs weaks log strong weak alive dropped taken frees bad].
      destruct (N.eqb_spec st 1); go.
    + go.
    + go.
    + go.
    + destruct w as [|w]; [intros _; eapply inv_mono; [exact I|lia]|]. go.
    + destruct w as [|w]; [intros _; eapply inv_mono; [exact I|lia]|]. 
      destruct (N.eqb_spec st 0); [|destruct (N.eqb_spec st top_bit); unfold top_bit in *]; cbn [orb]; go.
    + destruct (spare_weak _) eqn:Hs; [|intros _; eapply inv_mono; [exact I|lia]].
      apply spare_cnt in Hs. cbn [pcs weaks] in Hs. destruct Hs as [Hs1 Hs2].
      destruct w as [|w]; [lia|]. cbn [pred].
      unfold drop_weak, touch, set_weak. cbn [blk pcs arcs weaks log strong weak alive dropped taken frees bad].
      destruct (N.eqb_spec we 1); go.
    + destruct a as [|a]; [intros _; eapply inv_mono; [exact I|lia]|].
      destruct (N.eqb_spec st 1); [|destruct k0]; go.
  - (* DropVal *) specialize (Hin is_dv eq_refl). single. go.
  - (* RelWeak *) specialize (Hin is_rw eq_refl). single.
    unfold drop_weak, touch, set_weak. cbn [blk pcs arcs weaks log strong weak alive dropped taken frees bad].
    destruct (N.eqb_spec we 1); go.
  - (* FreeMem *) specialize (Hin is_fm eq_refl). single. go.
  - (* UpNone *) specialize (Hin is_un eq_refl). single. go.
  - (* UpAdd *) specialize (Hin is_ua eq_refl). single. go.
  - (* UpAnd *) specialize (Hin is_ud eq_refl). single. go.
  - (* Check *) specialize (Hin is_ck eq_refl). single. unfold touch.
    cbn [blk pcs arcs weaks log strong weak alive dropped taken frees bad].
    destruct (N.eqb_spec we 1); destruct k0; go.
  - (* Mutating *) specialize (Hin is_mu eq_refl). single. go.
  - (* CloneVal *) specialize (Hin is_cl eq_refl). single. go.
  - (* DropOld *) specialize (Hin is_cl eq_refl). single.
    unfold drop_strong, touch, set_strong. cbn [blk pcs arcs weaks log strong weak alive dropped taken frees bad].
    destruct (N.eqb_spec st 1); go.
  - (* TakeVal *) specialize (Hin is_tv eq_refl). single. go.
Qed.

Lemma calm_run_prefix : forall sched a s, calm_run (sched ++ [a]) s ->
  calm_run sched s /\ calm (run (sched ++ [a]) s).
Proof.
  intros sched a s H. split.
  - intros k. destruct (Nat.le_gt_cases k (length sched)) as [E|E].
    + specialize (H k). rewrite firstn_app in H. replace (k - length sched)%nat with 0%nat in H by lia.
      cbn [firstn] in H. now rewrite app_nil_r in H.
    + specialize (H (length sched)). rewrite firstn_app, Nat.sub_diag in H. cbn [firstn] in H.
      rewrite app_nil_r, firstn_all in H. now rewrite firstn_all2 by lia.
  - specialize (H (length (sched ++ [a]))). now rewrite firstn_all in H.
Qed.

Lemma inv_run : forall n sched, N.of_nat (length sched) < 2 ^ 61 ->
  (forall t, ~ In (t, ODynWeakDrop) sched) -> calm_run sched (arc_new n) ->
  inv (N.of_nat (length sched)) (run sched (arc_new n)).
Proof.
  intros n sched. induction sched as [|a sched IH] using rev_ind; intros Hl Hd Hc.
  - apply inv_new.
  - rewrite app_length in *. cbn [length] in *. apply calm_run_prefix in Hc. destruct Hc as [Hc1 Hc2].
    unfold run in *. rewrite fold_left_app in *. cbn [fold_left] in *.
    replace (N.of_nat (length sched + 1)) with (N.of_nat (length sched) + 1) by lia.
    apply inv_step; [apply IH| | |exact Hc2].
    + lia.
    + intros t Hin. apply (Hd t). apply in_or_app. now left.
    + exact Hc1.
    + lia.
    + intros E. apply (Hd (fst a)). apply in_or_app. right. left. destruct a; cbn in *. now subst.
Qed.

Lemma idle_cnt : forall s f, all_idle s -> f Idle = false -> cnt f (pcs s) = 0.
Proof. intros s f H Hf. apply cnt_zero. intros p Hp. now rewrite (H p Hp). Qed.

Lemma inv_safe : forall k s, inv k s ->
  bad (blk s) = false /\
  ((0 < arcs s)%nat -> alive (blk s) = true) /\
  (dropped (blk s) + taken (blk s) <= 1)%nat /\
  (frees (blk s) <= 1)%nat /\
  ((0 < arcs s + weaks s)%nat -> frees (blk s) = 0%nat) /\
  (all_idle s -> arcs s = 0%nat -> (dropped (blk s) + taken (blk s) = 1)%nat) /\
  (all_idle s -> arcs s = 0%nat -> weaks s = 0%nat -> frees (blk s) = 1%nat).
Proof.
  intros k s I. unfold inv in I.
  assert (Hid : all_idle s -> arcs s = 0%nat -> (dropped (blk s) + taken (blk s) = 1)%nat /\
    (weaks s = 0%nat -> frees (blk s) = 1%nat)).
  { intros Hi Ha. rewrite !(idle_cnt s) in I by (exact Hi || reflexivity).
    destruct I as (_ & _ & _ & _ & _ & I). rewrite Ha in I.
    destruct I as [I|[I|[I|I]]]; try (exfalso; lia). split; [lia|]. intros Hw. lia. }
  destruct I as (I1 & I2 & I3 & I4 & I5 & I).
  split; [destruct (bad (blk s)); [discriminate|reflexivity]|].
  split; [intros Ha; destruct (alive (blk s)); [reflexivity|cbn [b2n] in I; destruct I as [I|[I|[I|I]]]; lia]|].
  split; [destruct I as [I|[I|[I|I]]]; lia|].
  split; [destruct I as [I|[I|[I|I]]]; lia|].
  split; [intros Ha; destruct I as [I|[I|[I|I]]]; lia|].
  split; [intros Hi Ha; now apply Hid|].
  intros Hi Ha. now apply Hid.
Qed.

Lemma inv_exclusive : forall k s t p, inv k s -> nth_error (pcs s) t = Some p ->
  p = Mutating \/ p = TakeVal -> alive (blk s) = true /\ arcs s = 0%nat /\ weaks s = 0%nat /\
  forall u q, nth_error (pcs s) u = Some q -> u <> t -> reaches_value q = false.
Proof.
  intros k s t p I Hp Hpq. unfold inv in I.
  assert (Hm : 0 < cnt is_mu (pcs s) + cnt is_tv (pcs s)).
  { destruct Hpq; subst p; [pose proof (cnt_in is_mu _ _ _ Hp eq_refl)|pose proof (cnt_in is_tv _ _ _ Hp eq_refl)]; lia. }
  destruct I as (I1 & I2 & I3 & I4 & I5 & I).
  split; [destruct (alive (blk s)); [reflexivity|cbn [b2n] in I; destruct I as [I|[I|[I|I]]]; lia]|].
  split; [destruct I as [I|[I|[I|I]]]; lia|].
  split; [destruct I as [I|[I|[I|I]]]; lia|].
  intros u q Hq Hne.
  destruct (reaches_value q) eqn:E; [exfalso|reflexivity].
  assert (Hc : 1 < cnt is_dv (pcs s) + cnt is_ua (pcs s) + cnt is_ud (pcs s) + cnt is_ck (pcs s) +
    cnt is_mu (pcs s) + cnt is_cl (pcs s) + cnt is_tv (pcs s)).
  { clear - Hp Hq Hne E Hpq. revert t u Hp Hq Hne. generalize (pcs s). intros l.
    induction l as [|x l IH]; intros [|t] [|u] Hp Hq Hne; cbn in Hp, Hq; try discriminate; try congruence.
    - injection Hp as ->. 
      assert (0 < cnt is_dv l + cnt is_ua l + cnt is_ud l + cnt is_ck l + cnt is_mu l + cnt is_cl l + cnt is_tv l).
      { destruct q; try discriminate E;
          match type of Hq with _ = Some ?z => idtac end;
          first [pose proof (cnt_in is_dv l u _ Hq eq_refl); lia | pose proof (cnt_in is_ua l u _ Hq eq_refl); lia
               | pose proof (cnt_in is_ud l u _ Hq eq_refl); lia | pose proof (cnt_in is_ck l u _ Hq eq_refl); lia
               | pose proof (cnt_in is_mu l u _ Hq eq_refl); lia | pose proof (cnt_in is_cl l u _ Hq eq_refl); lia
               | pose proof (cnt_in is_tv l u _ Hq eq_refl); lia]. }
      destruct Hpq; subst p; unfold cnt in *; cbn [filter is_dv is_ua is_ud is_ck is_mu is_cl is_tv length]; lia.
    - injection Hq as ->.
      assert (0 < cnt is_mu l + cnt is_tv l).
      { destruct Hpq; subst p; [pose proof (cnt_in is_mu _ _ _ Hp eq_refl)|pose proof (cnt_in is_tv _ _ _ Hp eq_refl)]; lia. }
      destruct q; try discriminate E; unfold cnt in *; cbn [filter is_dv is_ua is_ud is_ck is_mu is_cl is_tv length]; lia.
    - specialize (IH t u Hp Hq ltac:(congruence)). unfold cnt in *.
      destruct x; cbn [filter is_dv is_ua is_ud is_ck is_mu is_cl is_tv length]; lia. }
  destruct I as [I|[I|[I|I]]]; lia.
Qed.

(** A way to decide [calm] on concrete runs. *)
Fixpoint calm_b (l : list pc) : bool :=
  match l with
  | [] => true
  | p :: l =>
      (if upgrading p then forallb (fun q => negb (upgrading q || checking q)) l else true) &&
      (if upgrading p || checking p then forallb (fun q => negb (upgrading q)) l else true) && calm_b l
  end.
Lemma calm_b_ok : forall s, calm_b (pcs s) = true -> calm s.
Proof.
  intros s. unfold calm. generalize (pcs s). induction l as [|x l IH]; intros H i j p q Hi Hj Hij Hu.
  - destruct i; discriminate.
  - cbn in H. apply andb_true_iff in H. destruct H as [H H3]. apply andb_true_iff in H. destruct H as [H1 H2].
    destruct i as [|i], j as [|j]; cbn in Hi, Hj; try congruence.
    + injection Hi as ->. rewrite Hu in H1. rewrite forallb_forall in H1.
      specialize (H1 q (nth_error_In _ _ Hj)). apply negb_true_iff, orb_false_iff in H1. exact H1.
    + injection Hj as ->. destruct (upgrading q || checking q) eqn:E.
      * rewrite forallb_forall in H2. specialize (H2 p (nth_error_In _ _ Hi)). rewrite Hu in H2. discriminate.
      * now apply orb_false_iff in E.
    + apply (IH H3 i j p q Hi Hj); [congruence|exact Hu].
Qed.
Lemma calm_run_b : forall sched s,
  forallb (fun k => calm_b (pcs (run (firstn k sched) s))) (seq 0 (S (length sched))) = true ->
  calm_run sched s.
Proof.
  intros sched s H k. rewrite forallb_forall in H. apply calm_b_ok.
  destruct (Nat.le_gt_cases k (length sched)) as [E|E].
  - apply H. apply in_seq. lia.
  - rewrite firstn_all2 by lia. rewrite <- (firstn_all sched) at 1. apply H. apply in_seq. lia.
Qed.
