(** Lemmas for C70-C72. *)
From Coq Require Import String.
From Coq Require Import List Arith NArith Bool Lia.
From Verif Require Import M_Report S_Report L_Report M_Trait S_Trait.
Import ListNotations.
Local Open Scope string_scope. Local Open Scope list_scope. Local Open Scope nat_scope.

Scheme ty_mut := Induction for ty Sort Prop
with args_mut := Induction for args Sort Prop
with onext_mut := Induction for onext Sort Prop.
Combined Scheme ty_args_next_ind from ty_mut, args_mut, onext_mut.

Lemma ident_eqb_eq a b : ident_eqb a b = true <-> a = b.
Proof.
  destruct a, b; cbn; rewrite ?N.eqb_eq, ?Nat.eqb_eq; split; intros; try congruence; try discriminate.
Qed.
Lemma lt_eqb_eq a b : lt_eqb a b = true <-> a = b.
Proof. destruct a, b; cbn; rewrite ?N.eqb_eq; split; intros; try congruence; try discriminate. Qed.

Lemma same_sound :
  (forall a b, same a b = true -> a = b) /\
  (forall a b, same_args a b = true -> a = b) /\
  (forall a b, same_next a b = true -> a = b).
Proof.
  apply ty_args_next_ind; intros;
    match goal with H : _ ?a ?b = true |- _ = ?b => destruct b end;
    cbn [same same_args same_next] in *; try discriminate; try reflexivity;
    rewrite ?andb_true_iff, ?N.eqb_eq, ?eqb_true_iff, ?lt_eqb_eq, ?ident_eqb_eq in *;
    repeat match goal with H : _ /\ _ |- _ => destruct H end; subst; f_equal; auto.
Qed.
Lemma same_refl :
  (forall a, same a a = true) /\ (forall a, same_args a a = true) /\ (forall a, same_next a a = true).
Proof.
  apply ty_args_next_ind; intros; cbn [same same_args same_next];
    rewrite ?andb_true_iff, ?N.eqb_eq, ?eqb_true_iff, ?lt_eqb_eq, ?ident_eqb_eq; auto.
Qed.

Lemma find_nth l t n : find l t = Some n -> nth_error l n = Some t.
Proof.
  revert n; induction l as [|u r IH]; cbn; intros n H; [discriminate|].
  destruct (same u t) eqn:E.
  - injection H as <-. cbn. f_equal. apply same_sound; assumption.
  - destruct (find r t) as [k|]; cbn in H; [|discriminate]. injection H as <-. cbn. auto.
Qed.
Lemma find_in l t : In t l -> exists n, find l t = Some n.
Proof.
  induction l as [|u r IH]; cbn; [tauto|].
  intros H. destruct (same u t) eqn:E; [eauto|].
  destruct H as [->|H]; [rewrite (proj1 same_refl) in E; discriminate|].
  destruct (IH H) as [n Hn]; rewrite Hn; cbn; eauto.
Qed.
Lemma push_in l t u : In u (push l t) <-> In u l \/ u = t.
Proof.
  unfold push. destruct (find l t) as [n|] eqn:E.
  - split; [tauto|]. intros [H| ->]; [assumption|]. apply find_nth in E. eapply nth_error_In; eassumption.
  - rewrite in_app_iff; cbn. intuition.
Qed.
Lemma extend_in ts l u : In u (extend l ts) <-> In u l \/ In u ts.
Proof.
  unfold extend. revert l; induction ts as [|t ts IH]; cbn; intros l; [tauto|].
  rewrite IH, push_in. intuition.
Qed.

Lemma omap_some {A B} (f : A -> B) o b : option_map f o = Some b -> exists a, o = Some a /\ b = f a.
Proof. destruct o; cbn; intros H; [injection H as <-; eauto|discriminate]. Qed.
Lemma bind_some {A B} (f : A -> option B) o b : bind o f = Some b -> exists a, o = Some a /\ f a = Some b.
Proof. destruct o; cbn; intros H; [eauto|discriminate]. Qed.

Ltac opts := repeat match goal with
  | H : option_map _ _ = Some _ |- _ => apply omap_some in H; destruct H as (? & ? & ->)
  | H : bind _ _ = Some _ |- _ => apply bind_some in H; destruct H as (? & ? & ?)
  | H : Some _ = Some _ |- _ => injection H as <-
  | H : _ && _ = true |- _ => apply andb_true_iff in H; destruct H
  end.

Lemma unselfed_denote assoc lt l :
  (forall t u, written t = true -> unselfed l t = Some u ->
     denote (venv assoc lt l) u = denote (venv assoc lt l) t) /\
  (forall t u, written_args t = true -> unselfed_args l t = Some u ->
     denote_args (venv assoc lt l) u = denote_args (venv assoc lt l) t) /\
  (forall t u, written_next t = true -> unselfed_next l t = Some u ->
     denote_next (venv assoc lt l) u = denote_next (venv assoc lt l) t).
Proof.
  apply ty_args_next_ind; intros;
    cbn [unselfed unselfed_args unselfed_next written written_args written_next] in *; opts;
    cbn [denote denote_args denote_next]; try reflexivity; try discriminate; try solve [f_equal; auto].
  - cbn. apply find_nth in H1. erewrite nth_error_nth by exact H1. reflexivity.
  - destruct segment; [|discriminate]. f_equal; auto.
Qed.

Lemma unselfed_total l :
  (forall t, incl (self_types t) l -> exists u, unselfed l t = Some u) /\
  (forall t, incl (self_types_args t) l -> exists u, unselfed_args l t = Some u) /\
  (forall t, incl (self_types_next t) l -> exists u, unselfed_next l t = Some u).
Proof.
  apply ty_args_next_ind; intros;
    cbn [unselfed unselfed_args unselfed_next self_types self_types_args self_types_next] in *;
    repeat match goal with
    | H : incl (_ ++ _) _ |- _ => apply incl_app_inv in H; destruct H
    | IH : incl ?a l -> exists _, _ = _, H : incl ?a l |- _ => let E := fresh in destruct (IH H) as [? E]; rewrite E; clear IH
    end; cbn; eauto.
  destruct (find_in l t) as [n Hn]; [apply H0; left; reflexivity|]. rewrite Hn; cbn; eauto.
Qed.

(** Without [Self::x]. *)
Fixpoint flat (t : ty) : bool :=
  match t with
  | TNever | TUnit => true
  | TArb _ _ | TSelf _ => false
  | TRef _ _ t | TPtr _ t | TArr t _ | TColon t => flat t
  | TFn _ i o => flat_args i && flat o
  | TPath s a n => flat_args a && flat_next n
  | TQual a b c => flat a && flat b && flat c
  end
with flat_args (a : args) : bool :=
  match a with
  | ANil => true
  | ALt _ r | AConst _ r => flat_args r
  | ATy t r => flat t && flat_args r
  end
with flat_next (n : onext) : bool :=
  match n with NNone => true | NSome t => flat t end.

Lemma unselfed_flat l :
  (forall t u, written t = true -> unselfed l t = Some u -> flat u = true) /\
  (forall t u, written_args t = true -> unselfed_args l t = Some u -> flat_args u = true) /\
  (forall t u, written_next t = true -> unselfed_next l t = Some u -> flat_next u = true).
Proof.
  apply ty_args_next_ind; intros;
    cbn [unselfed unselfed_args unselfed_next written written_args written_next] in *; opts;
    cbn [flat flat_args flat_next]; try discriminate; rewrite ?andb_true_iff; auto.
Qed.

Lemma elide_denote e : (forall l, e_lt e l = static) ->
  (forall t, flat t = true -> denote e (elide t) = denote e t) /\
  (forall t, flat_args t = true -> denote_args e (elide_args t) = denote_args e t) /\
  (forall t, flat_next t = true -> denote_next e (elide_next t) = denote_next e t).
Proof.
  intros Hl. apply ty_args_next_ind; intros; cbn [flat flat_args flat_next] in *; opts;
    cbn [elide elide_args elide_next denote denote_args denote_next]; try reflexivity; try discriminate;
    try solve [f_equal; auto].
  - f_equal; auto. destruct lifetime; cbn; rewrite ?Hl; reflexivity.
  - destruct segment; f_equal; auto.
  - rewrite !Hl. f_equal; auto.
Qed.

Lemma ident_eqb_refl s : ident_eqb s s = true.
Proof. apply ident_eqb_eq; reflexivity. Qed.
Lemma lt_eqb_refl s : lt_eqb s s = true.
Proof. apply lt_eqb_eq; reflexivity. Qed.

Lemma ty_eq_plain l :
  (forall t u, unselfed l t = Some u -> ty_eq u t = plain t) /\
  (forall t : args, True) /\
  (forall t u, unselfed_next l t = Some u ->
     match u, t with NNone, NNone => true | NSome a, NSome b => ty_eq a b | _, _ => false end =
     match t with NNone => true | NSome t => plain t end).
Proof.
  apply ty_args_next_ind; intros; auto;
    cbn [unselfed unselfed_args unselfed_next] in *; opts;
    cbn [ty_eq plain]; try reflexivity;
    rewrite ?N.eqb_refl, ?lt_eqb_refl, ?ident_eqb_refl, ?eqb_reflx; cbn [andb]; auto.
  repeat match goal with IH : forall u, _ = Some u -> ty_eq u _ = _, H : _ = Some _ |- _ => rewrite (IH _ H); clear H end.
  reflexivity.
Qed.

Lemma replace_self_denote e w :
  (forall t, written t = true -> denote e (replace_self w t) = denote e t) /\
  (forall t, written_args t = true -> denote_args e (replace_self_args w t) = denote_args e t) /\
  (forall t, written_next t = true -> denote_next e (replace_self_next w t) = denote_next e t).
Proof.
  apply ty_args_next_ind; intros; cbn [written written_args written_next] in *; opts;
    cbn [replace_self replace_self_args replace_self_next denote denote_args denote_next];
    try reflexivity; try discriminate; try solve [f_equal; auto].
  destruct segment; [|discriminate]. f_equal; auto.
Qed.

(** What [describe] collects. *)
Lemma describe_items is b :
  let r := fold_left describe_item is b in
  let ms := flat_map (fun i => match i with IFn m => [m] | IType _ => [] end) is in
  functions r = functions b ++ filter (fun m => negb (m_mut m)) ms /\
  mut_functions r = mut_functions b ++ filter m_mut ms /\
  incl (sdts b) (sdts r).
Proof.
  revert b; induction is as [|i is IH]; cbn; intros b.
  { rewrite !app_nil_r. repeat split. apply incl_refl. }
  destruct (IH (describe_item b i)) as (A & B & C). rewrite A, B.
  destruct i as [m|n]; cbn [describe_item] in *.
  - destruct (m_mut m) eqn:E; cbn [functions mut_functions sdts app filter negb] in *;
      rewrite ?E; cbn [negb]; rewrite <- ?app_assoc; cbn [app]; repeat split; auto.
  - cbn [functions mut_functions sdts] in *. repeat split.
    intros u Hu. apply C, push_in. auto.
Qed.
Lemma describe_fns d : functions (describe d) ++ mut_functions (describe d) = vt_methods d.
Proof.
  unfold describe. cbn [functions mut_functions].
  destruct (describe_items (d_items d) (Desc [] [] [])) as (A & B & _). cbn zeta in A, B.
  rewrite A, B. reflexivity.
Qed.
Lemma describe_sdts d m : In m (vt_methods d) -> incl (fn_self_types m) (sdts (describe d)).
Proof.
  intros H u Hu. unfold describe; cbn [sdts]. apply extend_in. right.
  apply in_flat_map. exists m. split; [|assumption].
  pose proof (describe_fns d) as E. unfold describe in E; cbn [functions mut_functions] in E.
  rewrite E. assumption.
Qed.
Lemma vt_methods_in d m : In m (vt_methods d) <-> In m (methods d).
Proof.
  unfold vt_methods. rewrite in_app_iff, !filter_In. destruct (m_mut m); cbn; intuition discriminate.
Qed.

Lemma mapM_total {A B} (f : A -> option B) l : (forall a, In a l -> exists b, f a = Some b) ->
  exists r, mapM f l = Some r.
Proof.
  induction l as [|a l IH]; intros H; cbn; [eauto|].
  destruct (H a) as [b Hb]; [left; reflexivity|]. rewrite Hb; cbn.
  destruct IH as [r Hr]; [intros; apply H; right; assumption|]. rewrite Hr; cbn; eauto.
Qed.
Lemma mapM_Forall2 {A B} (f : A -> option B) l r : mapM f l = Some r -> Forall2 (fun a b => f a = Some b) l r.
Proof.
  revert r; induction l as [|a l IH]; cbn; intros r H; opts; constructor; auto.
Qed.
Lemma mapM_map {A B C} (f : A -> option B) (g : B -> C) (h : A -> C) l r : mapM f l = Some r ->
  (forall a b, In a l -> f a = Some b -> g b = h a) -> map g r = map h l.
Proof.
  revert r; induction l as [|a l IH]; cbn; intros r H K; opts; cbn; [reflexivity|].
  f_equal; [apply K; auto|apply IH; auto].
Qed.

Lemma self_types_in m t : In t (types m) -> incl (self_types t) (fn_self_types m).
Proof.
  unfold types, fn_self_types. intros H u Hu. apply in_app_iff in H. apply in_app_iff.
  destruct H as [H|H].
  - destruct (m_output m); cbn in H; [|tauto]. destruct H as [->|[]]. auto.
  - right. apply in_flat_map. eauto.
Qed.
Lemma unselfed_types d m t : In m (vt_methods d) -> In t (types m) ->
  exists u, unselfed (sdts (describe d)) t = Some u.
Proof.
  intros Hm Ht. apply unselfed_total. intros u Hu.
  apply (describe_sdts d m Hm). apply (self_types_in m t Ht). assumption.
Qed.

Lemma cond_inputs_total l ts c : (forall t, In t ts -> exists u, unselfed l t = Some u) ->
  exists r, cond_inputs l c ts = Some r.
Proof.
  revert c; induction ts as [|t ts IH]; cbn; intros c H; [eauto|].
  destruct (H t) as [u Hu]; [auto|]. rewrite Hu; cbn. apply IH. auto.
Qed.
Lemma vt_field_total d m : In m (vt_methods d) ->
  exists f, vt_field (d_checked d) (sdts (describe d)) m = Some f.
Proof.
  intros Hm. unfold vt_field, field_signature, stability_cond, cond_output, optM.
  pose proof (unselfed_types d m) as U.
  destruct (mapM_total (unselfed (sdts (describe d))) (m_inputs m)) as [ins Hi].
  { intros t Ht. apply U; [assumption|]. unfold types. apply in_app_iff; auto. }
  rewrite Hi; cbn [bind].
  assert (K : forall c, exists r, cond_inputs (sdts (describe d)) c (m_inputs m) = Some r).
  { intros c. apply cond_inputs_total. intros t Ht. apply U; [assumption|]. unfold types. apply in_app_iff; auto. }
  destruct (m_output m) as [o|] eqn:E.
  - destruct (U o) as [u Hu]; [assumption|unfold types; rewrite E; left; reflexivity|].
    rewrite Hu; cbn [bind option_map].
    destruct (K (if ty_eq u o then CTy (elide u) else CUnit)) as [r Hr].
    rewrite Hr; cbn; eauto.
  - cbn [bind option_map]. destruct (K CUnit) as [r Hr]. rewrite Hr; cbn; eauto.
Qed.

Lemma vtable_total d : exists fs, vtable d = Some fs.
Proof.
  unfold vtable. rewrite describe_fns. apply mapM_total. intros m Hm. apply vt_field_total; assumption.
Qed.

Lemma vt_field_sig d m f : proper d -> In m (vt_methods d) ->
  vt_field (d_checked d) (sdts (describe d)) m = Some f ->
  f_name f = m_name m /\
  forall assoc lt w, let e := venv assoc lt (sdts (describe d)) in
    denote_sig e (f_sig f) = denote_sig e (declared_sig true m) /\
    denote_sig e (ptr_signature w m) = denote_sig e (declared_sig false m).
Proof.
  intros P Hm H. unfold vt_field, field_signature in H. opts. cbn [f_name f_sig].
  split; [reflexivity|]. intros assoc lt w.
  assert (W : forall t, In t (types m) -> written t = true).
  { intros t Ht. apply (P m); [apply vt_methods_in|]; assumption. }
  unfold denote_sig, declared_sig, ptr_signature; cbn [s_copied s_mut s_unit s_inputs s_output]. split; f_equal.
  - eapply mapM_map; [eassumption|]. intros a b Ha Hb.
    apply (proj1 (unselfed_denote assoc lt (sdts (describe d)))); [|assumption].
    apply W. unfold types. apply in_app_iff; auto.
  - unfold types in W. unfold optM in *. destruct (m_output m) as [o|]; opts; cbn; [|reflexivity].
    f_equal. apply (proj1 (unselfed_denote assoc lt (sdts (describe d)))); [|assumption].
    apply W. left; reflexivity.
  - rewrite map_map. apply map_ext_in. intros t Ht. apply replace_self_denote. apply W. unfold types. apply in_app_iff; auto.
  - unfold types in W. destruct (m_output m) as [o|]; cbn; [|reflexivity].
    f_equal. apply replace_self_denote. apply W. left; reflexivity.
Qed.

Lemma Forall2_imp {A B} (R Q : A -> B -> Prop) l r :
  (forall a b, R a b -> Q a b) -> Forall2 R l r -> Forall2 Q l r.
Proof. intros H; induction 1; constructor; auto. Qed.
Lemma Forall2_in_l {A B} (R : A -> B -> Prop) l r : Forall2 R l r ->
  Forall2 (fun a b => In a l /\ R a b) l r.
Proof.
  induction 1 as [|a b l r H K IH]; constructor; [split; [left; reflexivity|assumption]|].
  eapply Forall2_imp; [|exact IH]. cbn; intros ? ? [? ?]; auto.
Qed.

Lemma vtable_sigs d : proper d -> exists fs, vtable d = Some fs /\
  Forall2 (fun m f => f_name f = m_name m /\
    forall assoc lt w, let e := venv assoc lt (sdts (describe d)) in
      denote_sig e (f_sig f) = denote_sig e (declared_sig true m) /\
      denote_sig e (ptr_signature w m) = denote_sig e (declared_sig false m)) (vt_methods d) fs.
Proof.
  intros P. destruct (vtable_total d) as [fs Hf]. exists fs. split; [assumption|].
  unfold vtable in Hf. rewrite describe_fns in Hf. apply mapM_Forall2 in Hf.
  apply Forall2_in_l in Hf. eapply Forall2_imp; [|exact Hf]. cbn. intros m f [Hm H].
  apply vt_field_sig; assumption.
Qed.

(** Conditions. *)
Lemma cond_inputs_stable (St : ty -> Prop) (D : ty -> ty) l ts c r :
  (forall t u, In t ts -> unselfed l t = Some u -> D (elide u) = D t) ->
  cond_inputs l c ts = Some r ->
  cond_stable (fun t => St (D t)) r <->
  cond_stable (fun t => St (D t)) c /\ forall t, In t ts -> plain t = true -> St (D t).
Proof.
  revert c; induction ts as [|t ts IH]; cbn [cond_inputs]; intros c E H; opts.
  { firstorder. }
  rewrite IH; [|intros; apply E; cbn; auto|eassumption].
  rewrite (proj1 (ty_eq_plain l) _ _ H). destruct (plain t) eqn:Pl; cbn [cond_stable].
  - rewrite (E t x) by (cbn; auto). split.
    + intros [[A B] C]. split; [assumption|]. intros u [<-|Hu] Hp; auto.
    + intros [A B]. split; [split; [assumption|]|]; intros; apply B; cbn; auto.
  - split.
    + intros [A C]. split; [assumption|]. intros u [<-|Hu] Hp; [congruence|auto].
    + intros [A B]. split; [assumption|]. intros; apply B; cbn; auto.
Qed.
Lemma stability_cond_stable (St : ty -> Prop) (D : ty -> ty) l m r :
  (forall t u, In t (types m) -> unselfed l t = Some u -> D (elide u) = D t) ->
  stability_cond l m = Some r ->
  cond_stable (fun t => St (D t)) r <-> forall t, In t (types m) -> plain t = true -> St (D t).
Proof.
  unfold stability_cond, cond_output, types. intros E H. opts.
  rewrite (cond_inputs_stable St D l (m_inputs m) x r);
    [|intros t u Ht Hu; apply E; [apply in_app_iff; right|]; assumption|assumption].
  destruct (m_output m) as [o|]; opts; cbn [app] in *.
  - pose proof (proj1 (ty_eq_plain l) _ _ H) as Q. rewrite Q. destruct (plain o) eqn:Pl; cbn [cond_stable].
    + rewrite (E o x0) by (cbn; auto). split.
      * intros [A B] t [<-|Ht] Hp; auto.
      * intros A. split; [apply A; cbn; auto|]. intros; apply A; cbn; auto.
    + split.
      * intros [A B] t [<-|Ht] Hp; [congruence|auto].
      * intros A. split; [exact I|]. intros; apply A; cbn; auto.
  - cbn. tauto.
Qed.

Lemma checked_exactly d (St : ty -> Prop) assoc fs : proper d -> d_checked d = true ->
  vtable d = Some fs ->
  let e := venv assoc (fun _ => static) (sdts (describe d)) in
  vt_stable (fun t => St (denote e t)) fs <->
  forall m t, In m (methods d) -> In t (types m) -> plain t = true -> St (denote e t).
Proof.
  intros P C Hf e. unfold vtable in Hf. rewrite describe_fns in Hf.
  apply mapM_Forall2, Forall2_in_l in Hf.
  assert (K : vt_stable (fun t => St (denote e t)) fs <->
    forall m t, In m (vt_methods d) -> In t (types m) -> plain t = true -> St (denote e t)).
  { unfold vt_stable. revert Hf.
    assert (G : forall ms fs', (forall m, In m ms -> In m (vt_methods d)) ->
      Forall2 (fun a b => vt_field (d_checked d) (sdts (describe d)) a = Some b) ms fs' ->
      Forall (field_stable (fun t => St (denote e t))) fs' <->
      forall m t, In m ms -> In t (types m) -> plain t = true -> St (denote e t)).
    { intros ms fs' Hin HF. induction HF as [|m f ms fs' H HF IH].
      { split; [intros _ m t []|constructor]. }
      rewrite Forall_cons_iff, IH by (intros; apply Hin; cbn; auto).
      assert (Q : field_stable (fun t => St (denote e t)) f <->
        forall t, In t (types m) -> plain t = true -> St (denote e t)).
      { unfold vt_field in H. opts. unfold field_stable; cbn [f_if]. rewrite C.
        eapply stability_cond_stable; [|eassumption].
        intros t u Ht Hu. assert (W : written t = true).
        { apply (P m); [apply vt_methods_in, Hin; left; reflexivity|assumption]. }
        rewrite (proj1 (elide_denote e (fun _ => eq_refl))).
        - apply (proj1 (unselfed_denote assoc (fun _ => static) (sdts (describe d)))); assumption.
        - eapply (proj1 (unselfed_flat (sdts (describe d)))); eassumption. }
      rewrite Q. split.
      + intros [A B] m' t [<-|Hm]; eauto.
      + intros A. split; intros; eapply A; cbn; eauto. }
    intros Hf. apply G; [auto|]. eapply Forall2_imp; [|exact Hf]. cbn; tauto. }
  rewrite K. split; intros H m t Hm; apply H; apply vt_methods_in; assumption.
Qed.

(** Reports. *)
Lemma agree_inv n m v k fs n' m' v' k' fs' : agree (Rep n m v k fs) (Rep n' m' v' k' fs') <->
  n = n' /\ m = m' /\ v = v' /\ k = k' /\
  (forall i x y, nth_error fs i = Some x -> nth_error fs' i = Some y -> fst x = fst y /\ agree (snd x) (snd y)).
Proof.
  split.
  - inversion 1; subst; auto 10.
  - intros (-> & -> & -> & -> & H). constructor. assumption.
Qed.
Lemma agree_refl r : agree r r.
Proof. apply compat_agree, compat_refl. Qed.
Lemma agree_vt d fs d' fs' :
  agree (vt_report d fs) (vt_report d' fs') <->
  d_name d = d_name d' /\ d_module d = d_module d' /\
  forall i a b, nth_error (rev (map f_name fs)) i = Some a ->
    nth_error (rev (map f_name fs')) i = Some b -> a = b.
Proof.
  unfold vt_report, macro_report. rewrite agree_inv.
  assert (E : forall l : list field, rev (map field_report l) =
    map (fun n => (n, ref_report unit_report)) (rev (map f_name l))).
  { intros l. rewrite <- map_rev, <- map_rev, map_map. reflexivity. }
  rewrite !E. split.
  - intros (A & B & _ & _ & C). apply app_inv_head in A. repeat split; auto.
    intros i a b Ha Hb. apply (C i (a, ref_report unit_report) (b, ref_report unit_report)).
    + rewrite nth_error_map, Ha; reflexivity.
    + rewrite nth_error_map, Hb; reflexivity.
  - intros (A & B & C). rewrite A, B. repeat split.
    + rewrite nth_error_map in H, H0.
      destruct (nth_error (rev (map f_name fs)) i) eqn:Ea; cbn in H; [|discriminate].
      destruct (nth_error (rev (map f_name fs')) i) eqn:Eb; cbn in H0; [|discriminate].
      injection H as <-. injection H0 as <-. cbn. eapply C; eassumption.
    + rewrite nth_error_map in H, H0.
      destruct (nth_error (rev (map f_name fs)) i) eqn:Ea; cbn in H; [|discriminate].
      destruct (nth_error (rev (map f_name fs')) i) eqn:Eb; cbn in H0; [|discriminate].
      injection H as <-. injection H0 as <-. cbn. apply agree_refl.
Qed.
Lemma agree_pair t h t' h' : agree (pair_report t h) (pair_report t' h') <-> agree t t' /\ agree h h'.
Proof.
  unfold pair_report, macro_report. rewrite agree_inv. cbn [rev app]. split.
  - intros (_ & _ & _ & _ & H). split.
    + apply (H 1 (bytes_of "tail", t) (bytes_of "tail", t')); reflexivity.
    + apply (H 0 (bytes_of "head", h) (bytes_of "head", h')); reflexivity.
  - intros [A B]. split; [reflexivity|]. split; [reflexivity|]. split; [reflexivity|]. split; [reflexivity|].
    intros i x y Hx Hy. destruct i as [|[|i]]; cbn [nth_error] in Hx, Hy.
    + injection Hx as <-. injection Hy as <-. split; [reflexivity|assumption].
    + injection Hx as <-. injection Hy as <-. split; [reflexivity|assumption].
    + destruct i; discriminate.
Qed.
Lemma agree_dynref v v' : agree (dynref_report v) (dynref_report v') <-> agree v v'.
Proof.
  unfold dynref_report, macro_report. rewrite agree_inv. cbn [rev app]. split.
  - intros (_ & _ & _ & _ & H).
    specialize (H 1 (bytes_of "vtable", ref_report v) (bytes_of "vtable", ref_report v') eq_refl eq_refl).
    destruct H as [_ H]. cbn [snd] in H. unfold ref_report in H. apply agree_inv in H.
    destruct H as (_ & _ & _ & _ & H).
    apply (H 0 (bytes_of "inner", v) (bytes_of "inner", v')); reflexivity.
  - intros A. split; [reflexivity|]. split; [reflexivity|]. split; [reflexivity|]. split; [reflexivity|].
    intros i x y Hx Hy. destruct i as [|[|[|i]]]; cbn in Hx, Hy.
    + injection Hx as <-. injection Hy as <-. split; [reflexivity|apply agree_refl].
    + injection Hx as <-. injection Hy as <-. split; [reflexivity|]. cbn [snd]. unfold ref_report.
      apply agree_inv. split; [reflexivity|]. split; [reflexivity|]. split; [reflexivity|]. split; [reflexivity|].
      intros i x y Hx Hy. destruct i as [|[|i]]; cbn [nth_error] in Hx, Hy; try discriminate.
      injection Hx as <-. injection Hy as <-. split; [reflexivity|assumption].
    + injection Hx as <-. injection Hy as <-. split; [reflexivity|apply agree_refl].
    + destruct i; discriminate.
Qed.
Lemma compound_snoc l x : compound_report (l ++ [x]) = pair_report (compound_report l) (vt_report (fst x) (snd x)).
Proof. unfold compound_report. rewrite fold_left_app. reflexivity. Qed.
Lemma drop_pair t h : ~ agree drop_report (pair_report t h) /\ ~ agree (pair_report t h) drop_report.
Proof. split; intros H; apply agree_inv in H; destruct H as (H & _); discriminate. Qed.
Lemma agree_compound l l' : agree (compound_report l) (compound_report l') <->
  Forall2 (fun x y => agree (vt_report (fst x) (snd x)) (vt_report (fst y) (snd y))) l l'.
Proof.
  revert l'; induction l as [|x l IH] using rev_ind; intros l'.
  - destruct l' as [|y l' _] using rev_ind.
    + split; [constructor|intros _; apply agree_refl].
    + rewrite compound_snoc. split.
      * intros H. exfalso. apply drop_pair in H. assumption.
      * intros H. inversion H. destruct l'; discriminate.
  - destruct l' as [|y l' _] using rev_ind.
    + rewrite compound_snoc. split.
      * intros H. exfalso. apply drop_pair in H. assumption.
      * intros H. inversion H. destruct l; discriminate.
    + rewrite !compound_snoc, agree_pair, IH. split.
      * intros [A B]. apply Forall2_app; [assumption|]. constructor; [assumption|constructor].
      * intros H. apply Forall2_app_inv_l in H. destruct H as (a & b & A & B & E).
        inversion B as [|? z ? b' B1 B2]; subst. inversion B2; subst.
        apply app_inj_tail in E. destruct E as [-> ->]. auto.
Qed.

Lemma find_none l t : find l t = None -> ~ In t l.
Proof. intros H K. destruct (find_in l t K) as [n Hn]. congruence. Qed.
Lemma push_nodup l t : NoDup l -> NoDup (push l t).
Proof.
  intros H. unfold push. destruct (find l t) eqn:E; [assumption|].
  apply NoDup_rev in H. rewrite <- (rev_involutive (l ++ [t])). apply NoDup_rev.
  rewrite rev_app_distr. cbn. constructor; [|assumption]. rewrite <- in_rev. apply find_none; assumption.
Qed.
Lemma extend_nodup ts l : NoDup l -> NoDup (extend l ts).
Proof.
  unfold extend. revert l; induction ts as [|t ts IH]; cbn; intros l H; [assumption|].
  apply IH, push_nodup; assumption.
Qed.
Lemma describe_nodup is b : NoDup (sdts b) -> NoDup (sdts (fold_left describe_item is b)).
Proof.
  revert b; induction is as [|i is IH]; cbn; intros b H; [assumption|].
  apply IH. destruct i as [m|n]; cbn; [destruct (m_mut m); assumption|apply push_nodup; assumption].
Qed.
Lemma sdts_nodup d i j t :
  nth_error (sdts (describe d)) i = Some t -> nth_error (sdts (describe d)) j = Some t -> i = j.
Proof.
  intros Hi Hj.
  assert (N : NoDup (sdts (describe d))).
  { unfold describe; cbn [sdts]. apply extend_nodup, describe_nodup. constructor. }
  rewrite NoDup_nth_error in N. apply N; [apply nth_error_Some; congruence|congruence].
Qed.

Lemma checked_complete d (St : ty -> Prop) assoc fs : proper d -> vtable d = Some fs ->
  let e := venv assoc (fun _ => static) (sdts (describe d)) in
  (forall m t, In m (methods d) -> In t (types m) -> St (denote e t)) ->
  vt_stable (fun t => St (denote e t)) fs.
Proof.
  intros P V e H. destruct (d_checked d) eqn:C.
  - apply (checked_exactly d St assoc fs P C V). intros m t Hm Ht _. apply (H m); assumption.
  - unfold vtable in V. rewrite C in V. apply mapM_Forall2 in V. unfold vt_stable.
    induction V as [|m f ms fs A B IH]; constructor; auto.
    unfold vt_field in A. opts. exact I.
Qed.

Lemma vtable_names d fs : vtable d = Some fs -> map f_name fs = map m_name (vt_methods d).
Proof.
  unfold vtable. rewrite describe_fns. intros H. eapply mapM_map; [eassumption|].
  intros m f _ A. unfold vt_field in A. opts. reflexivity.
Qed.
Lemma dyn_reports l l' :
  (forall d fs, In (d, fs) (l ++ l') -> vtable d = Some fs) ->
  is_compatible (dynref_report (compound_report l)) (dynref_report (compound_report l')) = true <->
  Forall2 (fun x y => d_name (fst x) = d_name (fst y) /\ d_module (fst x) = d_module (fst y) /\
    forall i a b, nth_error (rev (map m_name (vt_methods (fst x)))) i = Some a ->
      nth_error (rev (map m_name (vt_methods (fst y)))) i = Some b -> a = b) l l'.
Proof.
  intros V. rewrite compat_agree, agree_dynref, agree_compound.
  revert l' V; induction l as [|[d fs] l IH]; intros l' V; [split; intros H; inversion H; constructor|].
  destruct l' as [|[d' fs'] l']; [split; intros H; inversion H|].
  assert (E : forall x y (R : _ -> _ -> Prop) (a b : list (decl * list field)),
    Forall2 R (x :: a) (y :: b) <-> R x y /\ Forall2 R a b).
  { intros. split; [inversion 1; auto|intros []; constructor; auto]. }
  rewrite !E, IH; cbn [fst snd].
  - rewrite agree_vt, (vtable_names d fs), (vtable_names d' fs'); [reflexivity| |].
    + apply V. apply in_app_iff. right; left; reflexivity.
    + apply V. left; reflexivity.
  - intros d0 fs0 H. apply V. apply in_app_iff in H. cbn. rewrite in_app_iff. cbn. tauto.
Qed.
Lemma nth_eq {A} (a b : list A) : length a = length b ->
  (forall i x y, nth_error a i = Some x -> nth_error b i = Some y -> x = y) -> a = b.
Proof.
  revert b; induction a as [|x a IH]; intros [|y b] L H; cbn in L; try discriminate; [reflexivity|].
  f_equal; [apply (H 0); reflexivity|]. apply IH; [lia|]. intros i; apply (H (S i)).
Qed.
Lemma filter_lengths {A} (f : A -> bool) l : length (filter (fun x => negb (f x)) l ++ filter f l) = length l.
Proof.
  rewrite app_length. induction l as [|x l IH]; cbn; [reflexivity|]. destruct (f x); cbn; lia.
Qed.
Lemma dyn_reports_names l l' :
  (forall d fs, In (d, fs) (l ++ l') -> vtable d = Some fs) ->
  Forall2 (fun x y => length (methods (fst x)) = length (methods (fst y))) l l' ->
  is_compatible (dynref_report (compound_report l)) (dynref_report (compound_report l')) = true ->
  map (fun x => map fst (interface (fst x))) l = map (fun x => map fst (interface (fst x))) l'.
Proof.
  intros V L H. apply (dyn_reports l l' V) in H. clear V.
  induction H as [|x y l l' (_ & _ & A) B IH]; [reflexivity|].
  inversion L as [|? ? ? ? L1 L2]; subst. cbn. f_equal; [|apply IH; assumption].
  unfold interface. rewrite !map_map. cbn [fst].
  change (map m_name (vt_methods (fst x)) = map m_name (vt_methods (fst y))).
  rewrite <- (rev_involutive (map m_name (vt_methods (fst x)))), <- (rev_involutive (map m_name (vt_methods (fst y)))).
  f_equal. apply nth_eq; [|exact A].
  rewrite !rev_length, !map_length. unfold vt_methods. rewrite !filter_lengths. assumption.
Qed.
