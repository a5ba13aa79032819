(** Lemmas for C79. *)
From Coq Require Import List Arith NArith Bool Lia.
From Verif Require Import M_Report S_Report L_Report M_Trait S_Trait L_Trait S_Scope.
Import ListNotations.

Section Scope.
Variable binds : N -> N -> bool.
Notation g := (gather binds). Notation ga := (gather_args binds). Notation gn := (gather_next binds).

Lemma unselfed_gather l :
  (forall t u, written t = true -> unselfed l t = Some u -> g u = g t) /\
  (forall t u, written_args t = true -> unselfed_args l t = Some u -> ga u = ga t) /\
  (forall t u, written_next t = true -> unselfed_next l t = Some u -> gn u = gn t).
Proof.
  apply ty_args_next_ind; intros;
    cbn [unselfed unselfed_args unselfed_next written written_args written_next] in *; opts;
    cbn [gather gather_args gather_next app]; try reflexivity; try discriminate;
    repeat match goal with
    | IH : forall u, ?w = true -> ?x = Some u -> _, H : ?w = true, K : ?x = Some ?v |- _ =>
        rewrite (IH v H K); clear IH
    end; reflexivity.
Qed.

(** What [elide] does to lifetimes. *)
Definition to_static (x : bool * option N) : bool * option N :=
  if fst x then x else (false, option_map (fun _ => static) (snd x)).
Lemma elide_gather :
  (forall t, flat t = true -> g (elide t) = map to_static (g t)) /\
  (forall t, flat_args t = true -> ga (elide_args t) = map to_static (ga t)) /\
  (forall t, flat_next t = true -> gn (elide_next t) = map to_static (gn t)).
Proof.
  apply ty_args_next_ind; intros; cbn [flat flat_args flat_next] in *; opts;
    cbn [elide elide_args elide_next gather gather_args gather_next map app]; try reflexivity; try discriminate;
    rewrite ?map_app;
    repeat match goal with
    | IH : ?w = true -> _, H : ?w = true |- _ => rewrite (IH H); clear IH
    end; try reflexivity.
  rewrite map_map. apply map_ext. reflexivity.
Qed.

Lemma elide_legal t : flat t = true ->
  (forall x, In x (g (elide t)) -> snd x = Some static) <-> explicit binds t.
Proof.
  intros F. rewrite (proj1 elide_gather) by assumption. unfold explicit. split.
  - intros H i x Hx. specialize (H (to_static (i, x)) (in_map _ _ _ Hx)). unfold to_static in H; cbn in H.
    destruct i; cbn in H; [assumption|]. destruct x; [discriminate|cbn in H; discriminate].
  - intros H y Hy. apply in_map_iff in Hy. destruct Hy as ((i, x) & <- & Hx). specialize (H i x Hx).
    unfold to_static; cbn. destruct i; cbn; [assumption|]. destruct x; [reflexivity|congruence].
Qed.
Lemma unselfed_legal l t u : written t = true -> unselfed l t = Some u ->
  (forall x, In x (g (elide u)) -> snd x = Some static) <-> explicit binds t.
Proof.
  intros W H. rewrite elide_legal by (eapply (proj1 (unselfed_flat l)); eassumption).
  unfold explicit. rewrite (proj1 (unselfed_gather l) t u W H). tauto.
Qed.

Lemma cond_inputs_legal l ts c r :
  (forall t, In t ts -> written t = true) -> cond_inputs l c ts = Some r ->
  legal_cond binds r <-> legal_cond binds c /\ forall t, In t ts -> plain t = true -> explicit binds t.
Proof.
  revert c; induction ts as [|t ts IH]; cbn [cond_inputs]; intros c W H; opts.
  { firstorder. }
  rewrite IH; [|intros; apply W; cbn; auto|eassumption].
  rewrite (proj1 (ty_eq_plain l) _ _ H). destruct (plain t) eqn:Pl; cbn [legal_cond].
  - rewrite (unselfed_legal l t x) by (cbn; auto using in_eq). split.
    + intros [[A B] C]. split; [assumption|]. intros u [<-|Hu] Hp; auto.
    + intros [A B]. split; [split; [assumption|]|]; intros; apply B; cbn; auto.
  - split.
    + intros [A C]. split; [assumption|]. intros u [<-|Hu] Hp; [congruence|auto].
    + intros [A B]. split; [assumption|]. intros; apply B; cbn; auto.
Qed.
Lemma stability_cond_legal l m r :
  (forall t, In t (types m) -> written t = true) -> stability_cond l m = Some r ->
  legal_cond binds r <-> forall t, In t (types m) -> plain t = true -> explicit binds t.
Proof.
  unfold stability_cond, cond_output, types. intros W H. opts.
  rewrite (cond_inputs_legal l (m_inputs m) x r);
    [|intros t Ht; apply W, in_app_iff; right; assumption|assumption].
  destruct (m_output m) as [o|]; opts; cbn [app] in *.
  - pose proof (proj1 (ty_eq_plain l) _ _ H) as Q. rewrite Q. destruct (plain o) eqn:Pl; cbn [legal_cond].
    + rewrite (unselfed_legal l o x0); [|apply W; left; reflexivity|assumption]. split.
      * intros [A B] t [<-|Ht] Hp; auto.
      * intros A. split; [apply A; cbn; auto|]. intros; apply A; cbn; auto.
    + split.
      * intros [A B] t [<-|Ht] Hp; [congruence|auto].
      * intros A. split; [exact I|]. intros; apply A; cbn; auto.
  - cbn. tauto.
Qed.

Lemma mapM_gather l ts us : (forall t, In t ts -> written t = true) -> mapM (unselfed l) ts = Some us ->
  map g us = map g ts.
Proof.
  revert us; induction ts as [|t ts IH]; cbn [mapM]; intros us W H; opts; [reflexivity|].
  cbn. f_equal; [apply (proj1 (unselfed_gather l)); auto using in_eq|].
  apply IH; [intros; apply W; cbn; auto|assumption].
Qed.

Lemma pointer_ext recv s s' : s_copied s = s_copied s' -> map g (s_inputs s) = map g (s_inputs s') ->
  option_map g (s_output s) = option_map g (s_output s') ->
  legal_pointer binds recv s -> legal_pointer binds recv s'.
Proof.
  unfold legal_pointer. intros E1 E2 E3 H [o [Ho Hn]] t x Ht Hx.
  rewrite <- E1. rewrite Ho in E3. destruct (s_output s) as [o'|] eqn:E; cbn in E3; [|discriminate].
  injection E3 as E3. apply (in_map g) in Ht. rewrite <- E2 in Ht. apply in_map_iff in Ht.
  destruct Ht as (t' & Et & Ht). apply (H ltac:(exists o'; rewrite E3; auto) t' x Ht). rewrite Et. assumption.
Qed.
Lemma field_legal_pointer recv l m s : (forall t, In t (types m) -> written t = true) ->
  field_signature l m = Some s ->
  legal_pointer binds recv s <-> legal_pointer binds recv (declared_sig true m).
Proof.
  intros W H. unfold field_signature, optM in H. opts.
  assert (E : map g x = map g (m_inputs m)).
  { eapply mapM_gather; [|eassumption]. intros; apply W. unfold types. apply in_app_iff; auto. }
  assert (E' : option_map g x0 = option_map g (m_output m)).
  { unfold types in W. destruct (m_output m); opts; cbn; [|reflexivity]. f_equal.
    apply (proj1 (unselfed_gather l)); auto using in_eq. apply W. cbn; auto. }
  split; apply pointer_ext; cbn; auto.
Qed.

Lemma scope_exactly recv d fs : proper d -> vtable d = Some fs ->
  Forall (legal_field binds recv) fs <->
  forall m, In m (methods d) -> legal_pointer binds recv (declared_sig true m) /\
    (d_checked d = true -> forall t, In t (types m) -> plain t = true -> explicit binds t).
Proof.
  intros P Hf. unfold vtable in Hf. rewrite describe_fns in Hf.
  apply mapM_Forall2, Forall2_in_l in Hf.
  assert (K : Forall (legal_field binds recv) fs <->
    forall m, In m (vt_methods d) -> legal_pointer binds recv (declared_sig true m) /\
    (d_checked d = true -> forall t, In t (types m) -> plain t = true -> explicit binds t)).
  { revert Hf.
    assert (G : forall ms fs', (forall m, In m ms -> In m (vt_methods d)) ->
      Forall2 (fun a b => vt_field (d_checked d) (sdts (describe d)) a = Some b) ms fs' ->
      Forall (legal_field binds recv) fs' <->
      forall m, In m ms -> legal_pointer binds recv (declared_sig true m) /\
        (d_checked d = true -> forall t, In t (types m) -> plain t = true -> explicit binds t)).
    { intros ms fs' Hin HF. induction HF as [|m f ms fs' H HF IH].
      { split; [intros _ m []|constructor]. }
      rewrite Forall_cons_iff, IH by (intros; apply Hin; cbn; auto).
      assert (W : forall t, In t (types m) -> written t = true).
      { intros t Ht. apply (P m); [apply vt_methods_in, Hin; left; reflexivity|assumption]. }
      assert (Q : legal_field binds recv f <-> legal_pointer binds recv (declared_sig true m) /\
        (d_checked d = true -> forall t, In t (types m) -> plain t = true -> explicit binds t)).
      { unfold vt_field in H. opts. unfold legal_field; cbn [f_if f_sig].
        rewrite (field_legal_pointer recv _ m _ W H).
        destruct (d_checked d); [|intuition discriminate].
        rewrite (stability_cond_legal _ m _ W H0). intuition. }
      rewrite Q. split.
      + intros [A B] m' [<-|Hm]; eauto.
      + intros A. split; intros; apply A; cbn; eauto. }
    intros Hf. apply G; [auto|]. eapply Forall2_imp; [|exact Hf]. cbn; tauto. }
  rewrite K. split; intros H m Hm; apply H; apply vt_methods_in; assumption.
Qed.
End Scope.
