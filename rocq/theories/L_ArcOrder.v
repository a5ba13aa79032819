(** Lemmas on the orderings of Arc. *)
From Coq Require Import List Arith Bool Lia.
From Verif Require Import M_Import L_Import M_ArcOrder S_ArcOrder.
Import ListNotations.

Lemma owns_in : forall t s, owns t s = true -> In t (holders s).
Proof.
  intros t s H. apply existsb_exists in H. destruct H as (x & Hx & E). apply Nat.eqb_eq in E. now subst.
Qed.
Lemma remove_one_length : forall t l, In t l -> S (length (remove_one t l)) = length l.
Proof.
  induction l as [|x l IH]; cbn; [tauto|]. intros H. destruct (Nat.eqb_spec x t); [reflexivity|].
  cbn [length]. rewrite IH; [reflexivity|tauto].
Qed.
Lemma remove_one_in : forall t u l, In u l -> u <> t -> In u (remove_one t l).
Proof.
  induction l as [|x l IH]; cbn; [tauto|]. intros H Hne. destruct (Nat.eqb_spec x t).
  - destruct H; [congruence|exact H].
  - destruct H; [now left|right; now apply IH].
Qed.

Record oinv (s : oblock) : Prop := {
  o_count : count s = length (holders s);
  o_known : forall t, acc s t <= rel s t \/ exists u, In u (holders s) /\ acc s t <= know s u t;
  o_free : race_free s
}.

Lemma oinv_new : oinv oblock_new.
Proof. constructor; cbn; [reflexivity|intros; left; lia|intros a k []]. Qed.

Lemma sole_in : forall (l : list nat) t u, length l = 1 -> In t l -> In u l -> u = t.
Proof. intros [|x [|]] t u H Ht Hu; cbn in *; try (exfalso; lia); try tauto. destruct Ht as [<-|[]], Hu as [<-|[]]. reflexivity. Qed.

Lemma oinv_step : forall s op, oinv s -> oinv (ostep AcqRel s op).
Proof.
  intros s op [Ic Ik If]. unfold ostep.
  destruct op as [t|t|t u|t|t]; destruct (owns t s) eqn:Ho; try (now constructor);
    apply owns_in in Ho.
  - constructor; cbn.
    + exact Ic.
    + intros t'. destruct (Nat.eq_dec t' t) as [->|Hne].
      * right. exists t. split; [exact Ho|]. now rewrite !upd_eq.
      * rewrite upd_ne by exact Hne. destruct (Ik t') as [H|(v & Hv & H)]; [now left|right].
        exists v. split; [exact Hv|]. destruct (Nat.eq_dec v t) as [->|Hv2].
        -- rewrite upd_eq, upd_ne by exact Hne. exact H.
        -- now rewrite upd_ne.
    + exact If.
  - constructor; cbn; [now rewrite Ic| |exact If].
    intros t'. destruct (Ik t') as [H|(v & Hv & H)]; [now left|right]. exists v. tauto.
  - constructor; cbn; [rewrite Ic; now rewrite remove_one_length| |exact If].
    intros t'. destruct (Ik t') as [H|(v & Hv & H)]; [now left|right].
    destruct (Nat.eq_dec v t) as [->|Hvt].
    + exists u. split; [now left|]. rewrite upd_eq. unfold join. lia.
    + exists v. split; [right; now apply remove_one_in|].
      destruct (Nat.eq_dec v u) as [->|Hvu]; [rewrite upd_eq; unfold join; lia|now rewrite upd_ne].
  - constructor; cbn.
    + rewrite Ic. pose proof (remove_one_length t _ Ho). lia.
    + intros t'. destruct (Ik t') as [H|(v & Hv & H)]; [left; unfold join; lia|].
      destruct (Nat.eq_dec v t) as [->|Hvt]; [left; unfold join; lia|].
      right. exists v. split; [now apply remove_one_in|now rewrite upd_ne].
    + destruct (Nat.eqb_spec (count s) 1) as [E|]; [|exact If].
      intros a k [H|H] t'; [|now apply (If a k H)]. injection H as <- <-. unfold join.
      destruct (Ik t') as [H|(v & Hv & H)]; [lia|].
      rewrite (sole_in (holders s) t v) in H by (congruence || assumption). lia.
  - constructor; cbn; [exact Ic| |].
    + intros t'. destruct (Ik t') as [H|(v & Hv & H)]; [now left|right].
      exists v. split; [exact Hv|]. destruct (Nat.eq_dec v t) as [->|]; [rewrite upd_eq; unfold join; lia|now rewrite upd_ne].
    + destruct (Nat.eqb_spec (count s) 1) as [E|]; [|exact If].
      intros a k [H|H] t'; [|now apply (If a k H)]. injection H as <- <-. unfold join.
      destruct (Ik t') as [H|(v & Hv & H)]; [lia|].
      rewrite (sole_in (holders s) t v) in H by (congruence || assumption). lia.
Qed.

Lemma orun_inv : forall ops, oinv (orun AcqRel ops).
Proof.
  intros ops. unfold orun. assert (H := oinv_new). revert H. generalize oblock_new.
  induction ops as [|op ops IH]; intros s H; [exact H|]. cbn. apply IH. now apply oinv_step.
Qed.

(** One thread only: no ordering is needed. *)
Record oinv1 (s : oblock) : Prop := {
  o1_h : forall t, In t (holders s) -> t = 0;
  o1_a : forall t, t <> 0 -> acc s t = 0;
  o1_k : acc s 0 <= know s 0 0;
  o1_f : race_free s
}.
Lemma remove_one_incl : forall t u l, In u (remove_one t l) -> In u l.
Proof.
  induction l as [|x l IH]; cbn; [tauto|]. destruct (Nat.eqb_spec x t); [tauto|]. cbn. tauto.
Qed.
Lemma oinv1_step : forall s op, (forall t u, op <> Give t u) -> oinv1 s -> oinv1 (ostep Relaxed s op).
Proof.
  intros s op Hg [H1 H2 H3 H4]. unfold ostep.
  destruct op as [t|t|t u|t|t]; try (exfalso; now apply (Hg t u));
    destruct (owns t s) eqn:Ho; try (now constructor); apply owns_in in Ho;
    assert (t = 0) by (now apply H1); subst t.
  - constructor; cbn [holders acc know excl]; auto.
    + intros t Ht. rewrite upd_ne by exact Ht. auto.
  - constructor; cbn [holders acc know excl]; auto. intros t [<-|H]; auto.
  - constructor; cbn [holders acc know excl]; auto.
    + intros t Ht. apply remove_one_incl in Ht. auto.
    + destruct (count s =? 1); [|exact H4].
      intros a k [H|H] t; [|now apply (H4 a k H)]. injection H as <- <-.
      destruct (Nat.eq_dec t 0) as [->|Ht]; [exact H3|]. rewrite H2 by exact Ht. lia.
  - constructor; cbn [holders acc know excl]; auto.
    + destruct (count s =? 1); [|exact H4].
      intros a k [H|H] t; [|now apply (H4 a k H)]. injection H as <- <-.
      destruct (Nat.eq_dec t 0) as [->|Ht]; [exact H3|]. rewrite H2 by exact Ht. lia.
Qed.
Lemma orun_inv1 : forall ops, (forall t u, ~ In (Give t u) ops) -> oinv1 (orun Relaxed ops).
Proof.
  intros ops. unfold orun.
  assert (H : oinv1 oblock_new) by (constructor; [intros t [<-|[]]; reflexivity|intros; reflexivity|cbn; lia|intros a k H; destruct H]).
  revert H. generalize oblock_new.
  induction ops as [|op ops IH]; intros s H Hg; [exact H|]. cbn. apply IH.
  - apply oinv1_step; [|exact H]. intros t u E. apply (Hg t u). now left.
  - intros t u Hin. apply (Hg t u). now right.
Qed.
