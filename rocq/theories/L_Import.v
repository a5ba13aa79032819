(** Lemmas on imported symbols. *)
From Coq Require Import List Arith Bool Lia.
From Verif Require Import M_Import S_Import.
Import ListNotations.

Lemma upd_eq : forall {A} (m : nat -> A) t a, upd m t a t = a.
Proof. intros; unfold upd; now rewrite Nat.eqb_refl. Qed.
Lemma upd_ne : forall {A} (m : nat -> A) t a t', t' <> t -> upd m t a t' = m t'.
Proof. intros; unfold upd. destruct (Nat.eqb_spec t' t); congruence. Qed.

Section Imp.
Context {F : Type} (answer : option F).

Notation busy := (@initialising F).

Definition okout (o : load_order) (x : outcome F) : Prop :=
  match answer with
  | Some f => exists k, x = Gave (Some f) k /\ (o = Acquire -> k = true)
  | None => x = Mismatch
  end.

Record inv (o : load_order) (s : import F) : Prop := {
  i_val : checked s = VALIDATED -> result s <> None;
  i_inval : checked s = INVALIDATED -> answer = None;
  i_fresh : checked s = UNCHECKED \/ checked s = INVALIDATED -> result s = None;
  i_lock : checked s = LOCKED -> exists t, busy (pcs s t);
  i_busy : forall t, busy (pcs s t) -> checked s = LOCKED;
  i_one : forall t t', busy (pcs s t) -> busy (pcs s t') -> t = t';
  i_res : forall f, result s = Some f -> answer = Some f;
  i_writes : writes s = match result s with Some _ => 1 | None => 0 end;
  i_cas : forall t f, pcs s t = Cas f -> answer = Some f;
  i_write : forall t f, pcs s t = Write f -> answer = Some f /\ result s = None;
  i_pub : forall t, pcs s t = Publish -> result s <> None /\ knows s t = true;
  i_ref : forall t, pcs s t = TakeRef -> result s <> None;
  i_refuse : forall t, pcs s t = Refuse -> answer = None;
  i_vpub : checked s = VALIDATED -> published s = true;
  i_know : o = Acquire -> forall t, pcs s t = TakeRef -> knows s t = true;
  i_log : forall t x, In (t, x) (log s) -> okout o x
}.

Lemma inv_new : forall o, inv o import_new.
Proof.
  intros o. constructor; unfold import_new; cbn; intros; try congruence; try tauto; try discriminate.
  all: try (destruct H; discriminate).
Qed.

Lemma busy_case : forall p, busy p \/ ~ busy p.
Proof. intros []; cbn; auto. Qed.

(** Changing only the place of thread [t]. *)
Ltac pcs_tac t :=
  repeat match goal with
  | H : context [upd _ t _ ?t'] |- _ => 
      destruct (Nat.eq_dec t' t) as [->|?];
      [rewrite upd_eq in H|rewrite upd_ne in H by assumption]
  | |- context [upd _ t _ ?t'] =>
      destruct (Nat.eq_dec t' t) as [->|?];
      [rewrite upd_eq|rewrite upd_ne by assumption]
  end.

Lemma inv_step : forall o s a, inv o s -> inv o (import_step o answer s a).
Proof.
  intros o s [t sp] I.
  destruct I as [Ival Iinv Ifr Ilo Ibu Ion Ire Iwr Ica Iwt Ipu Irf Irs Ivp Ikn Ilg].
  assert (Hlog : forall x, okout o x -> forall t' y, In (t', y) (log s ++ [(t, x)]) -> okout o y).
  { intros x Hx t' y Hin. apply in_app_or in Hin. destruct Hin as [Hin|[Hin|[]]].
    - exact (Ilg _ _ Hin).
    - injection Hin as <- <-. exact Hx. }
  unfold import_step.
  destruct (pcs s t) as [| | |f|f| | |] eqn:Ep.
  - (* Idle *)
    constructor; cbn; intros; pcs_tac t; try discriminate; try (cbn in *; tauto); eauto.
    + destruct (Ilo H) as [t' Ht']. exists t'. rewrite upd_ne; [exact Ht'|].
      intros ->. rewrite Ep in Ht'. exact Ht'.
  - (* Load *)
    assert (Hk : forall t', t' <> t -> knows s t' = true ->
      match o with Relaxed => knows s | Acquire => upd (knows s) t (knows s t || published s) end t' = true).
    { intros t' Hne K. destruct o; [exact K|]. now rewrite upd_ne. }
    assert (Hp : forall t', t' <> t -> pcs s t' = Publish -> result s <> None /\
      match o with Relaxed => knows s | Acquire => upd (knows s) t (knows s t || published s) end t' = true).
    { intros t' Hne K. destruct (Ipu _ K). auto. }
    destruct (checked s) eqn:Ec;
      constructor; cbn; rewrite ?Ec; intros; pcs_tac t; try discriminate; try (cbn in *; tauto); eauto.
    + intros; subst o; rewrite upd_eq, Ivp by reflexivity; apply orb_true_r.
    + eapply (Hlog Mismatch); [|exact H]. unfold okout. rewrite Iinv by reflexivity. reflexivity.
    + destruct (Ilo eq_refl) as [t' Ht']. exists t'. rewrite upd_ne; [exact Ht'|].
      intros ->. rewrite Ep in Ht'. exact Ht'.
  - (* Check *)
    destruct answer as [f|] eqn:Ea.
    + constructor; cbn; rewrite ?Ea in *; intros; pcs_tac t; try discriminate; try (cbn in *; tauto); eauto; try congruence.
      destruct (Ilo H) as [t' Ht']. exists t'. rewrite upd_ne; [exact Ht'|].
      intros ->. rewrite Ep in Ht'. exact Ht'.
    + constructor; cbn; rewrite ?Ea in *; intros; pcs_tac t; try discriminate; try (cbn in *; tauto); eauto; try congruence.
      destruct (Ilo H) as [t' Ht']. exists t'. rewrite upd_ne; [exact Ht'|].
      intros ->. rewrite Ep in Ht'. exact Ht'.
  - (* Cas *)
    assert (Hback : inv o (Import (checked s) (result s) (upd (pcs s) t Load) (writes s) (published s) (knows s) (log s))).
    { constructor; cbn; intros; pcs_tac t; try discriminate; try (cbn in *; tauto); eauto.
      destruct (Ilo H) as [t' Ht']. exists t'. rewrite upd_ne; [exact Ht'|].
      intros ->. rewrite Ep in Ht'. exact Ht'. }
    destruct (checked s) eqn:Ec; try exact Hback. destruct sp; [exact Hback|].
    assert (Hlk : forall t', ~ busy (pcs s t')) by (intros t' Hb; specialize (Ibu _ Hb); congruence).
    pose proof (Ifr (or_introl eq_refl)) as Hr.
    constructor; cbn; intros; pcs_tac t; try discriminate; try (cbn in *; tauto); eauto; try congruence.
    + exists t. rewrite upd_eq. exact I.
    + exfalso; eapply Hlk; eauto.
    + exfalso; eapply Hlk; eauto.
    + injection H as <-. split; [eapply Ica; eauto | exact Hr].
  - (* Write *)
    destruct (Iwt _ _ Ep) as [Ha Hr].
    assert (Hc : checked s = LOCKED) by (apply (Ibu t); rewrite Ep; exact I).
    assert (Hlk : forall t', t' <> t -> ~ busy (pcs s t')).
    { intros t' Hne Hb. apply Hne. apply (Ion t' t Hb). rewrite Ep. exact I. }
    constructor; cbn; rewrite ?Hc; intros; pcs_tac t; try discriminate; try (cbn in *; tauto); eauto; try congruence.
    + destruct H; discriminate.
    + exists t. rewrite upd_eq. exact I.
    + exfalso; eapply Hlk; eauto.
    + exfalso; eapply Hlk; eauto.
    + rewrite Iwr, Hr. reflexivity.
    + exfalso. apply (Hlk t0); [assumption|]. rewrite H. exact I.
    + split; [discriminate|]. apply upd_eq.
    + exfalso. apply (Hlk t0); [assumption|]. rewrite H. exact I.
    + exfalso. apply (Irf _ H0). exact Hr.
  - (* Publish *)
    destruct (Ipu _ Ep) as [Hr Hk].
    assert (Hc : checked s = LOCKED) by (apply (Ibu t); rewrite Ep; exact I).
    assert (Hlk : forall t', t' <> t -> ~ busy (pcs s t')).
    { intros t' Hne Hb. apply Hne. apply (Ion t' t Hb). rewrite Ep. exact I. }
    constructor; cbn; intros; pcs_tac t; try discriminate; try (cbn in *; tauto); eauto; try congruence.
    + destruct H; discriminate.
    + exfalso; eapply Hlk; eauto.
  - (* TakeRef *)
    pose proof (Irf _ Ep) as Hr.
    constructor; cbn; intros; pcs_tac t; try discriminate; try (cbn in *; tauto); eauto.
    + destruct (Ilo H) as [t' Ht']. exists t'. rewrite upd_ne; [exact Ht'|].
      intros ->. rewrite Ep in Ht'. exact Ht'.
    + eapply Hlog; [|exact H]. unfold okout. destruct (result s) as [f|] eqn:Er; [|congruence].
      rewrite (Ire _ eq_refl). exists (knows s t). split; [reflexivity|]. intros Ho. eauto.
  - (* Refuse *)
    pose proof (Irs _ Ep) as Ha.
    assert (Hn : result s = None).
    { destruct (result s) as [f|] eqn:Er; [|reflexivity]. specialize (Ire _ eq_refl). congruence. }
    assert (Hlk : forall t', ~ busy (pcs s t')).
    { intros t' Hb. destruct (pcs s t') as [| | |g|g| | |] eqn:E'; cbn in Hb; try tauto.
      - destruct (Iwt _ _ E'). congruence.
      - destruct (Ipu _ E'). congruence. }
    constructor; cbn; intros; pcs_tac t; try discriminate; try (cbn in *; tauto); eauto; try congruence.
    + exfalso; eapply Hlk; eauto.
    + eapply (Hlog Mismatch); [|exact H]. unfold okout. rewrite Ha. reflexivity.
Qed.

Lemma inv_run : forall o sched s, inv o s -> inv o (import_run o answer sched s).
Proof.
  intros o sched. unfold import_run. induction sched as [|a sched IH]; intros s I; cbn; [exact I|].
  apply IH. now apply inv_step.
Qed.
Lemma inv_reach : forall o sched, inv o (import_run o answer sched import_new).
Proof. intros. apply inv_run, inv_new. Qed.

Lemma import_agree : forall o sched t x, In (t, x) (log (import_run o answer sched import_new)) ->
  answers answer x.
Proof.
  intros o sched t x H. pose proof (i_log _ _ (inv_reach o sched) _ _ H) as G.
  unfold okout in G; unfold answers. destruct answer; [|exact G]. destruct G as (k & G & _). eauto.
Qed.
Lemma import_once : forall o sched, writes (import_run o answer sched import_new) <= 1.
Proof.
  intros o sched. rewrite (i_writes _ _ (inv_reach o sched)). destruct (result _); lia.
Qed.
Lemma import_drop_ok : forall o sched, let s := import_run o answer sched import_new in
  import_drop s <> None /\ ((forall t, ~ busy (pcs s t)) -> import_drop s = Some (result s)).
Proof.
  intros o sched s. pose proof (inv_reach o sched) as I. fold s in I. unfold import_drop. split.
  { destruct (checked s) eqn:Ec; try discriminate. pose proof (i_val _ _ I Ec). destruct (result s); congruence. }
  intros Hi. destruct (checked s) eqn:Ec.
  - rewrite (i_fresh _ _ I) by auto. reflexivity.
  - pose proof (i_val _ _ I Ec). destruct (result s); congruence.
  - rewrite (i_fresh _ _ I) by auto. reflexivity.
  - exfalso. destruct (i_lock _ _ I Ec) as [t Ht]. exact (Hi _ Ht).
Qed.
Lemma import_acquire : forall sched t v k,
  In (t, Gave v k) (log (import_run Acquire answer sched import_new)) -> k = true.
Proof.
  intros sched t v k H. pose proof (i_log _ _ (inv_reach Acquire sched) _ _ H) as G.
  unfold okout in G. destruct answer; [|discriminate]. destruct G as (k' & G & K). injection G as _ ->. auto.
Qed.

(** Progress. *)
Lemma import_run_app : forall o l1 l2 (s : import F),
  import_run o answer (l1 ++ l2) s = import_run o answer l2 (import_run o answer l1 s).
Proof. intros. unfold import_run. apply fold_left_app. Qed.
Definition fin o t n (s : import F) : Prop := exists m, m <= n /\
  length (log (import_run o answer (repeat (t, false) m) s)) = S (length (log s)).
Lemma fin_S : forall o t n s s', import_step o answer s (t, false) = s' -> log s' = log s ->
  fin o t n s' -> fin o t (S n) s.
Proof.
  intros o t n s s' Hs Hl (m & Hm & H). exists (S m). split; [lia|].
  unfold import_run in *. cbn [repeat fold_left]. rewrite Hs, H, Hl. reflexivity.
Qed.
Lemma fin_1 : forall o t n s x, log (import_step o answer s (t, false)) = log s ++ [x] -> fin o t (S n) s.
Proof.
  intros o t n s x H. exists 1. split; [lia|]. unfold import_run. cbn [repeat fold_left].
  rewrite H, app_length. cbn. lia.
Qed.
Lemma fin_le : forall o t n n' s, n <= n' -> fin o t n s -> fin o t n' s.
Proof. intros o t n n' s H (m & Hm & G). exists m. split; [lia|exact G]. Qed.
Lemma fin_ref : forall o t s, pcs s t = TakeRef -> fin o t 1 s.
Proof. intros o t s H. eapply fin_1. unfold import_step. rewrite H. reflexivity. Qed.
Lemma fin_refuse : forall o t s, pcs s t = Refuse -> fin o t 1 s.
Proof. intros o t s H. eapply fin_1. unfold import_step. rewrite H. reflexivity. Qed.
Lemma fin_publish : forall o t s, pcs s t = Publish -> fin o t 2 s.
Proof.
  intros o t s H. eapply fin_S; [unfold import_step; rewrite H; reflexivity|reflexivity|].
  apply fin_ref. apply upd_eq.
Qed.
Lemma fin_write : forall o t s f, pcs s t = Write f -> fin o t 3 s.
Proof.
  intros o t s f H. eapply fin_S; [unfold import_step; rewrite H; reflexivity|reflexivity|].
  apply fin_publish. apply upd_eq.
Qed.
Lemma fin_cas : forall o t s f, pcs s t = Cas f -> checked s = UNCHECKED -> fin o t 4 s.
Proof.
  intros o t s f H Hc. eapply fin_S; [unfold import_step; rewrite H, Hc; reflexivity|reflexivity|].
  eapply fin_write. apply upd_eq.
Qed.
Lemma fin_check : forall o t s, pcs s t = Check -> checked s = UNCHECKED -> fin o t 5 s.
Proof.
  intros o t s H Hc. destruct answer as [f|] eqn:Ea.
  - eapply fin_S; [unfold import_step; rewrite H, Ea; reflexivity|reflexivity|].
    eapply fin_cas; [apply upd_eq|exact Hc].
  - eapply fin_le; [|eapply fin_S; [unfold import_step; rewrite H, Ea; reflexivity|reflexivity|]].
    2:{ apply fin_refuse. apply upd_eq. } lia.
Qed.
Lemma fin_load : forall o t s, pcs s t = Load -> checked s <> LOCKED -> fin o t 6 s.
Proof.
  intros o t s H Hc. destruct (checked s) eqn:Ec; [| | |congruence].
  - eapply fin_S; [unfold import_step; rewrite H, Ec; reflexivity|reflexivity|].
    apply fin_check; [apply upd_eq|reflexivity].
  - eapply fin_le; [|eapply fin_S; [unfold import_step; rewrite H, Ec; reflexivity|reflexivity|]].
    2:{ apply fin_ref. apply upd_eq. } lia.
  - eapply fin_1. unfold import_step. rewrite H, Ec. reflexivity.
Qed.
Lemma fin_cas' : forall o t s f, pcs s t = Cas f -> checked s <> LOCKED -> fin o t 7 s.
Proof.
  intros o t s f H Hc. destruct (checked s) eqn:Ec; [| | |congruence].
  - eapply fin_le; [|eapply fin_cas; eauto]. lia.
  - eapply fin_S; [unfold import_step; rewrite H, Ec; reflexivity|reflexivity|].
    apply fin_load; [apply upd_eq|discriminate].
  - eapply fin_S; [unfold import_step; rewrite H, Ec; reflexivity|reflexivity|].
    apply fin_load; [apply upd_eq|discriminate].
Qed.
Lemma import_progress : forall o sched t, let s := import_run o answer sched import_new in
  (forall t', t' <> t -> ~ busy (pcs s t')) ->
  exists n, n <= 8 /\
    length (log (import_run o answer (sched ++ repeat (t, false) n) import_new)) = S (length (log s)).
Proof.
  intros o sched t s Hi. pose proof (inv_reach o sched) as I. fold s in I.
  assert (Hlk : ~ busy (pcs s t) -> checked s <> LOCKED).
  { intros Hb Hc. destruct (i_lock _ _ I Hc) as [t' Ht']. destruct (Nat.eq_dec t' t) as [->|Hne]; [auto|].
    exact (Hi _ Hne Ht'). }
  assert (G : fin o t 8 s).
  2:{ destruct G as (n & Hn & G). exists n. rewrite import_run_app. auto. }
  destruct (pcs s t) as [| | |f|f| | |] eqn:Ep.
  - eapply fin_le; [|eapply fin_S; [unfold import_step; rewrite Ep; reflexivity|reflexivity|]].
    2:{ apply fin_load; [apply upd_eq|]. apply Hlk. auto. } lia.
  - eapply fin_le; [|apply fin_load; auto]. lia.
  - destruct answer as [f|] eqn:Ea.
    + eapply fin_S; [unfold import_step; rewrite Ep, Ea; reflexivity|reflexivity|].
      eapply fin_cas'; [apply upd_eq|]. apply Hlk. auto.
    + eapply fin_le; [|eapply fin_S; [unfold import_step; rewrite Ep, Ea; reflexivity|reflexivity|]].
      2:{ apply fin_refuse. apply upd_eq. } lia.
  - eapply fin_le; [|eapply fin_cas'; eauto]. lia.
  - eapply fin_le; [|eapply fin_write; eauto]. lia.
  - eapply fin_le; [|eapply fin_publish; eauto]. lia.
  - eapply fin_le; [|eapply fin_ref; eauto]. lia.
  - eapply fin_le; [|eapply fin_refuse; eauto]. lia.
Qed.
End Imp.

(** Canaried imports. *)
Record cinv (s : canaried) : Prop := {
  c_runs : runs s <= 1;
  c_fresh : cchecked s = false -> runs s = 0 /\ clog s = [] /\ forall t, cpcs s t <> CCanary /\ cpcs s t <> CReturn;
  c_run : cchecked s = true -> runs s = 1 \/ (runs s = 0 /\ exists t, cpcs s t = CCanary);
  c_one : forall t t', cpcs s t = CCanary -> cpcs s t' = CCanary -> t = t';
  c_busy : forall t, cpcs s t = CCanary -> runs s = 0
}.
Lemma cinv_new : cinv canaried_new.
Proof. constructor; cbn; intros; try discriminate; auto. repeat split; auto; discriminate. Qed.
Lemma cinv_step : forall s t, cinv s -> cinv (canaried_step s t).
Proof.
  intros s t [Ir If Iu Io Ib]. unfold canaried_step. destruct (cpcs s t) eqn:Ep.
  - constructor; cbn.
    + exact Ir.
    + intros H. destruct (If H) as (A & B & C). repeat split; auto;
      unfold upd; destruct (Nat.eqb t0 t); try discriminate; apply C.
    + intros H. destruct (Iu H) as [A|(A & t' & B)]; [now left|right]. split; [exact A|].
      exists t'. rewrite upd_ne; [exact B|]. intros ->. congruence.
    + intros x y. unfold upd. destruct (Nat.eqb x t), (Nat.eqb y t); try discriminate. apply Io.
    + intros x. unfold upd. destruct (Nat.eqb x t); try discriminate. apply Ib.
  - constructor; cbn.
    + exact Ir.
    + discriminate.
    + intros _. destruct (cchecked s) eqn:Ec.
      * destruct (Iu eq_refl) as [A|(A & t' & B)]; [now left|right]. split; [exact A|].
        exists t'. rewrite upd_ne; [exact B|]. intros ->. congruence.
      * right. destruct (If eq_refl) as (A & _). split; [exact A|]. exists t. apply upd_eq.
    + intros x y. unfold upd. destruct (cchecked s) eqn:Ec.
      * destruct (Nat.eqb x t), (Nat.eqb y t); try discriminate. apply Io.
      * destruct (If eq_refl) as (_ & _ & C).
        destruct (Nat.eqb_spec x t), (Nat.eqb_spec y t); intros H1 H2; try congruence; exfalso;
          first [exact (proj1 (C x) H1) | exact (proj1 (C y) H2)].
    + intros x. unfold upd. destruct (Nat.eqb_spec x t) as [->|].
      * destruct (cchecked s) eqn:Ec; [discriminate|]. intros _. now apply If.
      * apply Ib.
  - constructor; cbn.
    + rewrite (Ib _ Ep). lia.
    + intros H. destruct (If H) as (_ & _ & C). exfalso. now apply (proj1 (C t)).
    + intros _. left. rewrite (Ib _ Ep). reflexivity.
    + intros x y. unfold upd. destruct (Nat.eqb x t), (Nat.eqb y t); try discriminate. apply Io.
    + intros x. unfold upd. destruct (Nat.eqb_spec x t); [discriminate|]. intros H. exfalso. apply n. eauto.
  - constructor; cbn.
    + exact Ir.
    + intros H. destruct (If H) as (_ & _ & C). exfalso. now apply (proj2 (C t)).
    + intros H. destruct (Iu H) as [A|(A & t' & B)]; [now left|right]. split; [exact A|].
      exists t'. rewrite upd_ne; [exact B|]. intros ->. congruence.
    + intros x y. unfold upd. destruct (Nat.eqb x t), (Nat.eqb y t); try discriminate. apply Io.
    + intros x. unfold upd. destruct (Nat.eqb x t); [discriminate|]. apply Ib.
Qed.
Lemma cinv_reach : forall sched, cinv (canaried_run sched canaried_new).
Proof.
  intros sched. unfold canaried_run. pose proof cinv_new as H. revert H. generalize canaried_new.
  induction sched as [|t sched IH]; intros s H; cbn; [exact H|]. apply IH. now apply cinv_step.
Qed.
Lemma canaried_once : forall sched, let s := canaried_run sched canaried_new in
  runs s <= 1 /\ (clog s <> [] -> (forall t, cpcs s t <> CCanary) -> runs s = 1).
Proof.
  intros sched s. pose proof (cinv_reach sched) as I. fold s in I. split; [apply I|].
  intros Hl Hn. destruct (cchecked s) eqn:Ec.
  - destruct (c_run _ I Ec) as [A|(A & t & B)]; [exact A|]. exfalso. now apply (Hn t).
  - destruct (c_fresh _ I Ec) as (_ & B & _). congruence.
Qed.
Lemma canaried_single : forall sched t0, (forall t, In t sched -> t = t0) ->
  forall t n, In (t, n) (clog (canaried_run sched canaried_new)) -> n = 1.
Proof.
  intros sched t0.
  assert (G : forall s, cinv s -> (forall t, t <> t0 -> cpcs s t = CIdle) ->
    (forall t n, In (t, n) (clog s) -> n = 1) -> (cpcs s t0 = CReturn -> runs s = 1) ->
    (forall t, In t sched -> t = t0) ->
    forall t n, In (t, n) (clog (canaried_run sched s)) -> n = 1).
  2:{ intros H. apply G; auto; try apply cinv_new; cbn; try tauto; try discriminate. }
  unfold canaried_run. induction sched as [|a sched IH]; intros s I Hid Hlog Hret Hin; cbn; [exact Hlog|].
  assert (a = t0) by (apply Hin; now left). subst a.
  apply IH.
  - now apply cinv_step.
  - intros t Ht. unfold canaried_step. destruct (cpcs s t0); cbn; rewrite upd_ne by assumption; auto.
  - intros t n. unfold canaried_step. destruct (cpcs s t0) eqn:Ep; cbn; try apply Hlog.
    intros H. apply in_app_or in H. destruct H as [H|[H|[]]]; [eauto|]. injection H as <- <-. auto.
  - unfold canaried_step. destruct (cpcs s t0) eqn:Ep; cbn; rewrite upd_eq; try discriminate.
    + destruct (cchecked s) eqn:Ec; [|discriminate]. intros _.
      destruct (c_run _ I Ec) as [A|(A & t & B)]; [exact A|]. destruct (Nat.eq_dec t t0) as [->|Hne]; [congruence|].
      rewrite Hid in B by assumption. discriminate.
    + intros _. rewrite (c_busy _ I _ Ep). reflexivity.
  - intros t H. apply Hin. now right.
Qed.
