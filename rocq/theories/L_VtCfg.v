(** Lemmas about configurations of vtables. *)
From Coq Require Import String.
From Coq Require Import NArith List Bool Lia.
From Verif Require Import M_BuildRs M_VtCfg S_VtCfg.
Import ListNotations.
Local Open Scope string_scope.
Local Open Scope N_scope.
Local Open Scope list_scope.

Lemma since_78 : forall t, since 78 0 t = (78 <=? t_minor t).
Proof.
  intros t. unfold since.
  destruct (N.ltb_spec 78 (t_minor t)), (N.eqb_spec 78 (t_minor t)), (N.leb_spec 78 (t_minor t)); try lia; simpl; try reflexivity.
  destruct (t_patch t); reflexivity.
Qed.
Lemma default_allocator_on : forall given c a, default_allocator given c = Some a -> alloc_on given c = enabled a.
Proof.
  intros given c a H. unfold default_allocator in H. unfold alloc_on.
  set (l := default_alloc_cfg given c) in *. clearbody l.
  assert (X : existsb (String.eqb "disabled") l = if in_dec string_dec "disabled" l then true else false).
  { destruct (in_dec string_dec "disabled" l) as [i | n].
    - apply existsb_exists. exists "disabled". split; [exact i | reflexivity].
    - destruct (existsb (String.eqb "disabled") l) eqn:E; [ | reflexivity].
      apply existsb_exists in E. destruct E as [x [i e]]. apply String.eqb_eq in e. subst x. contradiction. }
  rewrite X. clear X. cbn [filter cfg_name] in H.
  destruct (in_dec string_dec "RustAlloc" l), (in_dec string_dec "LibcAlloc" l), (in_dec string_dec "disabled" l);
    try discriminate H; cbn [type_exists] in H;
    try (match type of H with (if ?b then _ else _) = _ => destruct b end; try discriminate H); injection H as <-; reflexivity.
Qed.
Lemma is_nightly_spec : forall t, is_nightly t = true <-> t_chan t = Nightly.
Proof. intros t. unfold is_nightly. destruct (t_chan t); split; intro; congruence. Qed.
Lemma affected_gate : forall t, affected t <-> gate t = true.
Proof.
  intros t. unfold gate, affected. rewrite since_78, andb_true_iff, negb_true_iff, N.leb_le.
  unfold is_nightly. destruct (t_chan t); split; intros [A B]; split; congruence.
Qed.
(** Affected toolchains, computed. *)
Lemma affected_flags : forall t, affected t -> is_nightly t = false /\ since 78 0 t = true /\ gate t = true.
Proof.
  intros t H. apply affected_gate in H. split; [ | split; [ | exact H]]; unfold gate in H; apply andb_true_iff in H; destruct H as [A B];
    [apply negb_true_iff; exact A | exact B].
Qed.
(** The others that are supported: nightly since 1.78, or not nightly and before. *)
Lemma unaffected_flags : forall t, supported t -> ~ affected t ->
  (is_nightly t = true /\ since 78 0 t = true /\ gate t = false /\ t_freeze t = true) \/
  (is_nightly t = false /\ since 78 0 t = false /\ gate t = false).
Proof.
  intros t S0 A. assert (G : gate t = false). { destruct (gate t) eqn:E; [ | reflexivity]. exfalso. apply A, affected_gate, E. }
  destruct (is_nightly t) eqn:Ni.
  - left. apply is_nightly_spec in Ni. destruct (S0 Ni) as [B F]. split; [reflexivity | split; [ | split; [exact G | exact F]]].
    rewrite since_78. apply N.leb_le, B.
  - right. split; [reflexivity | split; [ | exact G]]. unfold gate in G. rewrite Ni in G. exact G.
Qed.
Lemma unaffected_compile : forall t cf given c a, supported t -> ~ affected t -> default_allocator given c = Some a ->
  compile t cf given c = Built InPlace.
Proof.
  intros t cf given c a Sp A D. unfold compile. rewrite D.
  destruct (unaffected_flags t Sp A) as [[Ni [Si [G F]]] | [Ni [Si G]]];
    unfold ctors, statics, impl_items; rewrite Ni, Si, G, ?F, ?andb_false_r; cbn [negb app];
    destruct (alloc_on given c); cbn [andb app]; destruct (cfg_is "btree" cf); cbn [andb app]; rewrite ?F; reflexivity.
Qed.
Lemma affected_compile : forall t cf given c a, affected t -> default_allocator given c = Some a ->
  compile t cf given c =
  if enabled a then
    if cfg_is "vec" cf then if cfg_is "btree" cf || negb (cfg_bare cf) then Broken else Built InVec
    else if cfg_is "btree" cf || negb (cfg_bare cf) then Built InTree else Refused
  else Refused.
Proof.
  intros t cf given c a A D. unfold compile. rewrite D, (default_allocator_on _ _ _ D).
  destruct (affected_flags t A) as [Ni [Si G]].
  unfold ctors, statics, impl_items, any_store. rewrite Ni, Si, G.
  destruct (enabled a), (cfg_is "vec" cf), (cfg_is "btree" cf), (cfg_bare cf); reflexivity.
Qed.
Lemma const_val_words : forall t v, since 78 0 t = true -> const_val t v = Some (functions v).
Proof.
  intros t v Si. induction v; cbn [const_val functions]; unfold impl_items; rewrite Si; cbn [negb app existsb item_eqb orb]; auto.
  rewrite IHv1, IHv2. reflexivity.
Qed.
Lemma const_ref_words : forall k t v, since 78 0 t = false -> const_ref k t v = Some (functions v).
Proof.
  intros k t v Si. induction v; cbn [const_ref functions]; unfold impl_items; rewrite Si; cbn [negb app existsb item_eqb orb]; auto.
  rewrite IHv1, IHv2. reflexivity.
Qed.
Lemma const_ref_default : forall k t v, since 78 0 t = true -> existsb (item_eqb VTABLE_REF) (c_defaults k) = true ->
  const_ref k t v = Some (functions v).
Proof.
  intros k t v Si Df. rewrite <- (const_val_words t v Si).
  destruct v; cbn [const_ref]; unfold impl_items at 1; rewrite Si; cbn [negb app existsb item_eqb orb]; rewrite Df; reflexivity.
Qed.
Lemma built_shows : forall t cf given c p v, compile t cf given c = Built p -> vtable_shows t cf given c v = Some (functions v).
Proof.
  intros t cf given c p v H. unfold compile in H. destruct (default_allocator given c); [ | discriminate H]. cbv zeta in H.
  unfold vtable_shows. revert H. generalize (alloc_on given c). intros on H.
  unfold ctors in *. unfold gate in *. unfold impl_items in H.
  destruct (is_nightly t) eqn:Ni; destruct (since 78 0 t) eqn:Si; cbn [negb andb] in *; rewrite ?andb_false_r, ?andb_true_r in *; cbn [app] in *.
  - destruct (statics t cf on) as [ | ? [ | ? ?]]; try discriminate H; cbn [c_body]; apply const_ref_default; auto.
  - destruct (statics t cf on) as [ | ? [ | ? ?]]; discriminate H.
  - destruct (on && any_store cf); cbn [negb app] in *; destruct (statics t cf on) as [ | s [ | ? ?]]; try discriminate H;
      cbn [c_body] in *; try (apply const_val_words; exact Si); exfalso; revert H; clear; compute; discriminate.
  - destruct (statics t cf on) as [ | ? [ | ? ?]]; try discriminate H; cbn [c_body]; apply const_ref_words; exact Si.
Qed.
