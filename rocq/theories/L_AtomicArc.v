(** Lemmas on AtomicArc. *)
From Coq Require Import List Arith Bool Lia ZifyBool.
From Verif Require Import M_Import L_Import M_AtomicArc S_AtomicArc.
Import ListNotations.

Definition in_cell (s : acell) (b : nat) : nat := if same (cell s) (Some b) then 1 else 0.

Lemma same_spec : forall x y, reflect (x = y) (same x y).
Proof.
  intros [a|] [b|]; cbn; try (constructor; congruence).
  destruct (Nat.eqb_spec a b); constructor; congruence.
Qed.

Definition P (e : bool) (h c s : nat) (g : bool) (b n : nat) : Prop :=
  h + c <= s /\ (e = true -> h + c = s) /\ (g = true -> s = 0) /\ (b < n -> s = 0 -> g = true) /\
  (n <= b -> s = 0 /\ g = false).
Definition ainv (e : bool) (s : acell) : Prop :=
  fault s = false /\ forall b, P e (hs s b) (in_cell s b) (st s b) (gone s b) b (next s).

Lemma ainv_new : forall e, ainv e acell_new.
Proof. intros e. split; [reflexivity|]. intros b. unfold P. cbn. lia. Qed.

Ltac upds :=
  repeat match goal with
  | |- context [upd _ ?t _ ?t'] =>
      destruct (Nat.eq_dec t' t) as [?|?]; [subst; rewrite ?upd_eq|rewrite ?upd_ne by assumption]
  end.

Lemma fetch_ainv : forall e t s, ainv e s -> ainv e (fetch t s).
Proof.
  intros e t s I. unfold fetch. destruct s as [c]. cbn [cell]. destruct c; exact I.
Qed.
Lemma give_ainv : forall n s, ainv false s -> ainv false (give n s).
Proof.
  intros [b|] s [I1 I2]; [|exact (conj I1 I2)]. split; [exact I1|].
  intros b'. specialize (I2 b'). unfold P, in_cell in *. cbn [give hs cell st gone next]. upds; lia.
Qed.

Lemma ainv_step : forall e s a,
  (forall t b, apcs s t = AIncr b -> cell s = Some b) -> (e = true -> ~ lossy s a) ->
  ainv e s -> ainv e (astep s a).
Proof.
  intros e s [t o] Hu Hl [I1 I2]. unfold astep. destruct (apcs s t) as [|b] eqn:Ep.
  - destruct o as [|b|b| |n|cur|cur n].
    + split; [exact I1|]. intros b. pose proof (I2 b) as I. unfold P, in_cell in *. cbn [hs cell st gone next].
      upds; [destruct (same (cell s) (Some (next s)))|]; lia.
    + cbn [has]. destruct (Nat.leb_spec 1 (hs s b)) as [H|H]; [|exact (conj I1 I2)].
      assert (gone s b = false) by (pose proof (I2 b) as I; unfold P in I; lia).
      split; [cbn; now rewrite I1, H0|]. intros b'. pose proof (I2 b') as I.
      unfold P, in_cell in *. cbn [hs cell st gone next]. upds; lia.
    + cbn [has]. destruct (Nat.leb_spec 1 (hs s b)) as [H|H]; [|exact (conj I1 I2)].
      assert (gone s b = false) by (pose proof (I2 b) as I; unfold P in I; lia).
      split; [cbn; now rewrite I1, H0|]. intros b'. pose proof (I2 b') as I.
      unfold a_release, P, in_cell in *. cbn [hs cell st gone next give].
      destruct (Nat.eqb_spec (st s b) 1); upds; lia.
    + apply fetch_ainv. exact (conj I1 I2).
    + destruct (has s n 1) eqn:Hh; [|exact (conj I1 I2)].
      assert (Hn : e = true -> cell s = None).
      { intros ->. specialize (Hl eq_refl). unfold lossy in Hl. cbn in Hl.
        destruct (cell s); [|reflexivity]. exfalso. apply Hl. split; [exact Ep|discriminate]. }
      split; [destruct n; exact I1|]. intros b'. pose proof (I2 b') as I.
      unfold P, in_cell in *. destruct n as [b|]; cbn [has] in Hh; cbn [put_cell give hs cell st gone next].
      * destruct (same_spec (Some b) (Some b')) as [Es|Es].
        -- injection Es as ->. rewrite upd_eq.
           destruct e; [rewrite (Hn eq_refl) in I; cbn [same] in I|]; lia.
        -- rewrite upd_ne by congruence. destruct e; [rewrite (Hn eq_refl) in I; cbn [same] in I|]; lia.
      * cbn [same]. destruct e; [rewrite (Hn eq_refl) in I; cbn [same] in I|]; lia.
    + destruct (has s cur 1); [|exact (conj I1 I2)]. destruct (same (cell s) cur); [exact (conj I1 I2)|].
      apply fetch_ainv. exact (conj I1 I2).
    + destruct (has s cur 1 && has s n (if same cur n then 2 else 1)) eqn:Hh; [|exact (conj I1 I2)].
      apply andb_true_iff in Hh. destruct Hh as [Hc Hn].
      destruct (same_spec (cell s) cur) as [Es|Es].
      * split; [destruct n; exact I1|]. intros b'. pose proof (I2 b') as I. clear Hl.
        unfold P, in_cell in *. subst cur.
        destruct n as [b|]; cbn [has] in Hn; cbn [receive put_cell give hs cell st gone next];
        destruct (cell s) as [c|] eqn:Ec; cbn [same has] in *.
        -- destruct (Nat.eqb_spec c b); destruct (Nat.eqb_spec c b'); destruct (Nat.eqb_spec b b'); subst; upds; try congruence; lia.
        -- destruct (Nat.eqb_spec b b'); upds; try congruence; lia.
        -- destruct (Nat.eqb_spec c b'); upds; try congruence; lia.
        -- lia.
      * destruct n as [b|]; [|apply fetch_ainv; exact (conj I1 I2)].
        destruct e.
        -- exfalso. apply (Hl eq_refl). split; [exact Ep|exact Es].
        -- apply fetch_ainv, give_ainv. exact (conj I1 I2).
  - assert (Hc := Hu t b Ep).
    assert (gone s b = false /\ 1 <= st s b) as [H H1].
    { pose proof (I2 b) as I. unfold P, in_cell in I. rewrite Hc in I. cbn [same] in I. rewrite Nat.eqb_refl in I. lia. }
    split; [cbn; now rewrite I1, H|]. intros b'. pose proof (I2 b') as I.
    unfold P, in_cell in *. cbn [receive hs cell st gone next]. destruct (same (cell s) (Some b')); upds; lia.
Qed.

Lemma firstn_snoc : forall {A} (l : list A) a k, k <= length l -> firstn k (l ++ [a]) = firstn k l.
Proof.
  intros A l a k H. rewrite firstn_app. replace (k - length l) with 0 by lia. cbn. apply app_nil_r.
Qed.

Lemma ainv_run : forall e sched, undisturbed sched -> (e = true -> lossless sched) ->
  ainv e (arun sched acell_new).
Proof.
  intros e sched. induction sched as [|a sched IH] using rev_ind; intros Hu Hl; [apply ainv_new|].
  unfold arun in *. rewrite fold_left_app. cbn [fold_left].
  apply ainv_step.
  - intros t b Ht. specialize (Hu (length sched) t b). cbn zeta in Hu.
    rewrite firstn_snoc, firstn_all in Hu by lia. now apply Hu.
  - intros ->. specialize (Hl eq_refl (length sched) a).
    rewrite nth_error_app2, Nat.sub_diag in Hl by lia. specialize (Hl eq_refl).
    rewrite firstn_snoc, firstn_all in Hl by lia. exact Hl.
  - apply IH.
    + intros k t b. cbn zeta. destruct (Nat.le_gt_cases k (length sched)).
      * specialize (Hu k t b). cbn zeta in Hu. now rewrite firstn_snoc in Hu by lia.
      * specialize (Hu (length sched) t b). cbn zeta in Hu. rewrite firstn_snoc, firstn_all in Hu by lia.
        now rewrite firstn_all2 by lia.
    + intros He k x Hx. assert (k < length sched) by (apply nth_error_Some; congruence).
      specialize (Hl He k x). rewrite nth_error_app1, firstn_snoc in Hl by lia. now apply Hl.
Qed.

Lemma ainv_safe : forall e s, ainv e s -> no_early_release s.
Proof.
  intros e s [I1 I2]. split; [exact I1|]. intros b Hb. pose proof (I2 b) as I.
  unfold P, in_cell in I. destruct Hb as [Hb|Hb]; [lia|]. rewrite Hb in I. cbn [same] in I. rewrite Nat.eqb_refl in I. lia.
Qed.
Lemma ainv_no_leak : forall s, ainv true s -> no_leak s.
Proof.
  intros s [I1 I2] b Hb Hh Hc. pose proof (I2 b) as I. unfold P, in_cell in I.
  destruct (same_spec (cell s) (Some b)); [contradiction|]. lia.
Qed.
Lemma ainv_drop : forall e s, ainv e s -> ainv e (acell_drop s).
Proof.
  intros e s [I1 I2]. unfold acell_drop. destruct (cell s) as [b|] eqn:Ec; [|exact (conj I1 I2)].
  assert (gone s b = false /\ 1 <= st s b).
  { pose proof (I2 b) as I. unfold P, in_cell in I. rewrite Ec in I. cbn [same] in I. rewrite Nat.eqb_refl in I. lia. }
  split; [cbn; rewrite I1; cbn; tauto|]. intros b'. pose proof (I2 b') as I.
  unfold P, in_cell in *. rewrite Ec in I. cbn [put_cell a_release hs cell st gone next same] in *.
  destruct (Nat.eqb_spec b b'); destruct (Nat.eqb_spec (st s b) 1); upds; try congruence; lia.
Qed.
