(** Lemmas behind P_Adapter. *)
From Coq Require Import List Arith NArith Bool Lia.
From Verif Require Import M_Layout M_Result M_Enum M_Dyn M_Waker M_Adapter S_Layout S_Dyn S_Adapter L_Dyn L_LayoutApi L_Enum.
From Verif Require P_Dyn P_Result.
Import ListNotations.

Lemma through_same T r : wf T -> (forall v, r = Some v -> exists x, decode T v = Some x) -> exists r', through T r = Some r' /\ same_item T r' r.
Proof.
  intros W H. destruct (P_Result.option_core_round_trip_partial T W) as [d [p [Ld [Ep [Hs Hn]]]]]. unfold through. rewrite Ld, Ep.
  destruct r as [v|].
  - destruct (H v eq_refl) as [x Hx]. destruct (Hs v x Hx) as [s [w [E1 [_ [E2 Hw]]]]]. rewrite E1, E2. exists (Some w). split; [reflexivity|]. exists x. auto.
  - destruct Hn as [s [E1 [_ E2]]]. rewrite E1, E2. exists None. split; [reflexivity|exact I].
Qed.
Lemma right_call_built {S} pg reg mem h o (i : iter S) j : built pg reg mem true o (type_of i) (addr_of i) -> nth_error (heads (vtype o)) 0 = Some h -> j < arity pg h ->
  right_call pg mem h o i j = true.
Proof.
  intros B Hh Hj. destruct (P_Dyn.receiver_partial _ _ _ _ _ _ B) as [_ [Hc _]]. unfold right_call. rewrite (Hc 0 h j Hh Hj). rewrite !Nat.eqb_refl. reflexivity.
Qed.
Lemma same_item_trans T a b c : same_item T a b -> same_item T b c -> same_item T a c.
Proof.
  unfold same_item. destruct a, b, c; try tauto. intros [v [H1 H2]] [w [H3 H4]]. exists v. split; [exact H1|]. congruence.
Qed.
Lemma same_item_refl T r : (forall v, r = Some v -> exists x, decode T v = Some x) -> same_item T r r.
Proof. intros H. destruct r as [v|]; [|exact I]. destruct (H v eq_refl) as [x Hx]. exists x. auto. Qed.
Lemma same_item_valid T a b : same_item T a b -> forall v, a = Some v -> exists x, decode T v = Some x.
Proof. intros H v ->. destruct b; [|contradiction]. destruct H as [x [Hx _]]. eauto. Qed.

Section L.
Variables (S : Type) (pg : program) (reg : list nat -> nat) (mem : nat -> nat) (h : nat) (T : ty).
Hypothesis arity2 : arity pg h = 2.
Hypothesis WT : wf T.
Lemma next_same f i : yields T f -> layered pg reg mem h i ->
  exists r i', next S pg mem h T f i = Some (r, i') /\ same_item T r (fst (f (inside i))) /\ inside i' = snd (f (inside i)) /\
    layered pg reg mem h i' /\ type_of i' = type_of i /\ addr_of i' = addr_of i /\ depth i' = depth i.
Proof.
  intros Y. induction i as [t a st|t o i IH]; intros L; cbn [next inside].
  - destruct (f st) as [r st'] eqn:E. exists r, (Base t a st'). split; [reflexivity|]. cbn. split; [|auto 6].
    apply same_item_refl. intros v Hv. apply (Y st v). rewrite E. exact Hv.
  - destruct L as [B [Hh L]]. rewrite (right_call_built pg reg mem h o i 0 B Hh) by lia.
    destruct (IH L) as [r [i' [E [Hr [Hi [L' [Ht [Ha Hd]]]]]]]]. rewrite E.
    destruct (through_same T r WT (same_item_valid _ _ _ Hr)) as [r' [E' Hr']]. rewrite E'. exists r', (Layer t o i'). split; [reflexivity|].
    cbn. rewrite Ht, Ha, Hd. split; [eapply same_item_trans; eauto|]. auto 7.
Qed.
Lemma nexts_same f n : yields T f -> forall i, layered pg reg mem h i ->
  exists l i', nexts S pg mem h T f n i = Some (l, i') /\ Forall2 (same_item T) l (fst (base_nexts f n (inside i))) /\
    inside i' = snd (base_nexts f n (inside i)) /\ layered pg reg mem h i' /\ depth i' = depth i.
Proof.
  intros Y. induction n as [|n IH]; intros i L; cbn [nexts base_nexts].
  - exists [], i. cbn. auto.
  - destruct (next_same f i Y L) as [r [i1 [E [Hr [Hi [L1 [_ [_ Hd]]]]]]]]. rewrite E. destruct (IH i1 L1) as [l [i' [E' [Hl [Hi' [L' Hd']]]]]]. rewrite E'.
    rewrite Hi in Hl, Hi'. destruct (f (inside i)) as [r0 st0]. cbn [fst snd] in *. destruct (base_nexts f n st0) as [l0 st1]. cbn [fst snd] in *.
    exists (r :: l), i'. split; [reflexivity|]. split; [constructor; auto|]. split; [exact Hi'|]. split; [exact L'|congruence].
Qed.
Lemma hint_same f i : (forall st v, snd (f st) = Some v -> exists x, decode (TPlain 8 8) v = Some x) -> layered pg reg mem h i ->
  exists lo hi, size_hint S pg mem h f i = Some (lo, hi) /\ lo = fst (f (inside i)) /\ same_item (TPlain 8 8) hi (snd (f (inside i))).
Proof.
  intros Y. induction i as [t a st|t o i IH]; intros L; cbn [size_hint inside].
  - destruct (f st) as [lo hi] eqn:E. exists lo, hi. split; [reflexivity|]. split; [reflexivity|]. apply same_item_refl. intros v Hv. apply (Y st v). rewrite E. exact Hv.
  - destruct L as [B [Hh L]]. rewrite (right_call_built pg reg mem h o i 1 B Hh) by lia.
    destruct (IH L) as [lo [hi [E [Hlo Hhi]]]]. rewrite E.
    destruct (through_same (TPlain 8 8) hi eq_refl (same_item_valid _ _ _ Hhi)) as [r' [E' Hr']]. rewrite E'. exists lo, r'. split; [reflexivity|].
    split; [exact Hlo|]. eapply same_item_trans; eauto.
Qed.
End L.
Section F.
Variables (S : Type) (pg : program) (reg : list nat -> nat) (mem : nat -> nat) (h : nat) (T : ty).
Hypothesis arity1 : 0 < arity pg h.
Hypothesis WT : wf T.
Lemma poll_same f i : (forall w, yields T (fun st => f st w)) -> forall w, layered pg reg mem h i ->
  exists r i', poll S pg mem h T f i w = Some (r, i') /\ same_item T r (fst (f (inside i) (wrap (depth i) w))) /\ inside i' = snd (f (inside i) (wrap (depth i) w)) /\
    layered pg reg mem h i' /\ type_of i' = type_of i /\ addr_of i' = addr_of i /\ depth i' = depth i.
Proof.
  intros Y. induction i as [t a st|t o i IH]; intros w L; cbn [poll inside depth wrap].
  - destruct (f st w) as [r st'] eqn:E. exists r, (Base t a st'). split; [reflexivity|]. cbn. split; [|auto 6].
    apply same_item_refl. intros v Hv. apply (Y w st v). rewrite E. exact Hv.
  - destruct L as [B [Hh L]]. rewrite (right_call_built pg reg mem h o i 0 B Hh) by lia.
    destruct (IH (Borrowed 0 w) L) as [r [i' [E [Hr [Hi [L' [Ht [Ha Hd]]]]]]]]. rewrite E.
    destruct (through_same T r WT (same_item_valid _ _ _ Hr)) as [r' [E' Hr']]. rewrite E'. exists r', (Layer t o i'). split; [reflexivity|].
    cbn. rewrite Ht, Ha, Hd. split; [eapply same_item_trans; eauto|]. auto 7.
Qed.
Lemma wrap_root n : forall w, root (wrap n w) = root w.
Proof. induction n; intros w; cbn; auto. rewrite IHn. reflexivity. Qed.
Lemma polls_same f ws : (forall w, yields T (fun st => f st w)) -> same_waker_same f -> forall i, layered pg reg mem h i ->
  exists l i', polls S pg mem h T f ws i = Some (l, i') /\ Forall2 (same_item T) l (fst (base_polls f ws (inside i))) /\
    inside i' = snd (base_polls f ws (inside i)) /\ layered pg reg mem h i' /\ depth i' = depth i.
Proof.
  intros Y K. induction ws as [|w ws IH]; intros i L; cbn [polls base_polls].
  - exists [], i. cbn. auto.
  - destruct (poll_same f i Y w L) as [r [i1 [E [Hr [Hi [L1 [_ [_ Hd]]]]]]]]. rewrite E. destruct (IH i1 L1) as [l [i' [E' [Hl [Hi' [L' Hd']]]]]]. rewrite E'.
    rewrite (K (inside i) (wrap (depth i) w) w (wrap_root _ _)) in Hr, Hi.
    rewrite Hi in Hl, Hi'. destruct (f (inside i) w) as [r0 st0]. cbn [fst snd] in *. destruct (base_polls f ws st0) as [l0 st1]. cbn [fst snd] in *.
    exists (r :: l), i'. split; [reflexivity|]. split; [constructor; auto|]. split; [exact Hi'|]. split; [exact L'|congruence].
Qed.
End F.
