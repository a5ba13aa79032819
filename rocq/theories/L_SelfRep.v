From Coq Require Import Ascii String.
From Coq Require Import List Arith NArith Bool Lia.
From Verif Require Import M_Layout M_Report M_Decl M_SelfRep S_SelfRep L_Report L_Decl.
Import ListNotations.

Section Ind.
Variable P : type -> Prop.
Hypothesis HP : forall x args, Forall P args -> P (TPath x args).
Hypothesis HC : forall c args, Forall P args -> P (TCon c args).
Fixpoint type_ind' (t : type) : P t :=
  let all := fix all l : Forall P l := match l with [] => Forall_nil _ | x :: r => Forall_cons _ (type_ind' x) (all r) end in
  match t with TPath x args => HP x args (all args) | TCon c args => HC c args (all args) end.
End Ind.

Lemma eqb_refl' x : bytes_eqb x x = true.
Proof. now apply bytes_eqb_eq. Qed.
Lemma eqb_dec x y : {x = y} + {bytes_eqb x y = false}.
Proof. destruct (bytes_eqb x y) eqn:E; [left; now apply bytes_eqb_eq|now right]. Qed.
Lemma neqb x y : x <> y -> bytes_eqb x y = false.
Proof. intros H. destruct (bytes_eqb x y) eqn:E; [|reflexivity]. apply bytes_eqb_eq in E. contradiction. Qed.

Lemma mapM_F {A B} (f : A -> option B) l l' : mapM f l = Some l' <-> Forall2 (fun x y => f x = Some y) l l'.
Proof.
  revert l'. induction l as [|x r IH]; intros l'; cbn.
  - split; [now intros [= <-]|]. intros H. now inversion H.
  - split.
    + destruct (f x) eqn:E; [|discriminate]. destruct (mapM f r) eqn:E2; [|discriminate]. intros [= <-]. constructor; [assumption|]. now apply IH.
    + intros H. inversion H as [|? y ? ys E H']; subst. rewrite E. apply IH in H'. now rewrite H'.
Qed.
Lemma mapM_len {A B} (f : A -> option B) l l' : mapM f l = Some l' -> length l' = length l.
Proof. rewrite mapM_F. induction 1; cbn; congruence. Qed.
Lemma mapM_ext {A B} (f g : A -> option B) l : (forall x, In x l -> f x = g x) -> mapM f l = mapM g l.
Proof. induction l as [|x r IH]; intros H; cbn; [reflexivity|]. rewrite (H x) by now left. rewrite IH by (intros; apply H; now right). reflexivity. Qed.
Lemma Forall2_map_r {A B C} (f : B -> C) (R : A -> C -> Prop) l l' : Forall2 R l (map f l') <-> Forall2 (fun x y => R x (f y)) l l'.
Proof.
  split.
  - revert l; induction l' as [|y r IH]; intros l H; inversion H; subst; constructor; auto.
  - induction 1; cbn; constructor; auto.
Qed.
Lemma Forall2_map_l {A B C} (f : A -> B) (R : B -> C -> Prop) l l' : Forall2 R (map f l) l' <-> Forall2 (fun x y => R (f x) y) l l'.
Proof.
  split.
  - revert l'; induction l as [|y r IH]; intros l' H; inversion H; subst; constructor; auto.
  - induction 1; cbn; constructor; auto.
Qed.
Lemma Forall2_imp {A B} (R R' : A -> B -> Prop) l l' : (forall x y, In x l -> R x y -> R' x y) -> Forall2 R l l' -> Forall2 R' l l'.
Proof.
  intros H F. induction F as [|x y l l' Hr F IH]; constructor; [apply H; [now left|assumption]|]. apply IH. intros; apply H; [now right|assumption].
Qed.

(** Reports and layouts only grow with the number of levels. *)
Lemma report_mono a E n t r : type_report a E n t = Some r -> forall m, n <= m -> type_report a E m t = Some r.
Proof.
  revert t r. induction n as [|n IH]; intros t r H m L; [discriminate|]. destruct m as [|m]; [lia|].
  cbn [type_report] in *. destruct t as [x args|c args].
  - destruct (find_decl E x) as [d|]; [|discriminate]. destruct (length args =? length (d_params d)); [|discriminate].
    destruct (mapM _ (d_fields d)) as [fs|] eqn:F in H; [|discriminate].
    rewrite mapM_F in F. replace (mapM _ (d_fields d)) with (Some fs); [assumption|]. symmetry. apply mapM_F.
    revert F. apply Forall2_imp. intros f g _. destruct (resolve _ _ _ _) as [u|]; [|discriminate].
    destruct (type_report a E n u) as [ru|] eqn:G; [|discriminate]. now rewrite (IH _ _ G m) by lia.
  - destruct (mapM _ args) as [fs|] eqn:F in H; [|discriminate].
    rewrite mapM_F in F. replace (mapM _ args) with (Some fs); [assumption|]. symmetry. apply mapM_F.
    revert F. apply Forall2_imp. intros f g _ G. apply (IH _ _ G). lia.
Qed.

(** Substitution for the placeholder. *)
Fixpoint sub (s : type) (t : type) : type :=
  match t with
  | TPath x args => if bytes_eqb x self_name then s else TPath x (map (sub s) args)
  | TCon c args => TCon c (map (sub s) args)
  end.
Lemma sub_avoids s t : avoids self_name t = true -> sub s t = t.
Proof.
  induction t as [x args IH|c args IH] using type_ind'; cbn [avoids sub]; intros H.
  - apply andb_prop in H as [H1 H2]. apply negb_true_iff in H1. rewrite H1. f_equal.
    rewrite forallb_forall in H2. rewrite Forall_forall in IH. rewrite <- map_id. apply map_ext_in. auto.
  - f_equal. rewrite forallb_forall in H. rewrite Forall_forall in IH. rewrite <- map_id. apply map_ext_in. auto.
Qed.
Lemma subs_avoids s l : forallb (avoids self_name) l = true -> map (sub s) l = l.
Proof. intros H. rewrite forallb_forall in H. rewrite <- map_id. apply map_ext_in. intros. apply sub_avoids. auto. Qed.

Definition defaults_ok (ps : list (ident * option type)) : Prop := forall p t, In p ps -> snd p = Some t -> avoids self_name t = true.
Lemma fill_sub s ps args l : defaults_ok ps -> fill ps args = Some l -> fill ps (map (sub s) args) = Some (map (sub s) l).
Proof.
  revert args l. induction ps as [|[x o] ps IH]; intros args l D H.
  - destruct args; [|discriminate]. injection H as <-. reflexivity.
  - assert (D' : defaults_ok ps) by (intros p t I; apply D; now right). destruct args as [|a args]; cbn [fill map] in *.
    + destruct o as [t|]; [|discriminate]. destruct (fill ps []) as [l'|] eqn:F; [|discriminate]. injection H as <-.
      specialize (IH [] l' D' F). cbn [map] in IH. rewrite F in IH. injection IH as IH. cbn. rewrite <- IH, (sub_avoids s t); [reflexivity|]. apply (D (x, Some t)); [now left|reflexivity].
    + destruct o; (destruct (fill ps args) as [l'|] eqn:F; [|discriminate]; injection H as <-; cbn; rewrite (IH _ _ D' F); reflexivity).
Qed.
Lemma fill_full ps args : length args = length ps -> fill ps args = Some args.
Proof. revert args. induction ps as [|[x o] ps IH]; intros [|a args]; cbn; try discriminate; [reflexivity|]. intros [= H]. rewrite (IH _ H). now destruct o. Qed.
Lemma fill_len ps args l : fill ps args = Some l -> length l = length ps.
Proof.
  revert args l. induction ps as [|[x o] ps IH]; intros args l H.
  - destruct args; [|discriminate]. now injection H as <-.
  - destruct args as [|a args]; cbn [fill] in H.
    + destruct o as [t|]; [|discriminate]. destruct (fill ps []) eqn:F; [|discriminate]. injection H as <-. cbn. f_equal. eauto.
    + destruct o; (destruct (fill ps args) eqn:F; [|discriminate]; injection H as <-; cbn; f_equal; eauto).
Qed.
Lemma lookup_sub s ps args x : lookup (combine ps (map (sub s) args)) x = option_map (sub s) (lookup (combine ps args) x).
Proof. revert args. induction ps as [|p ps IH]; intros [|a args]; cbn; try reflexivity. destruct (bytes_eqb p x); [reflexivity|apply IH]. Qed.
Lemma lookup_in ps (args : list type) x u : lookup (combine ps args) x = Some u -> In x ps /\ In u args.
Proof.
  revert args. induction ps as [|p ps IH]; intros [|a args]; cbn; try discriminate. destruct (eqb_dec p x) as [->|E].
  - rewrite eqb_refl'. intros [= <-]. auto.
  - rewrite E. intros H. apply IH in H as [? ?]. auto.
Qed.

(** What is known of declarations. *)
Record dgood (d : decl) : Prop := {
  dg_self : d_name d <> self_name; dg_Self : d_name d <> Self_name;
  dg_pself : forall x, In x (map fst (d_params d)) -> x <> self_name /\ x <> Self_name /\ x <> d_name d;
  dg_def : defaults_ok (d_params d);
  dg_fields : forall f, In f (d_fields d) -> avoids self_name (snd f) = true }.
Lemma proper_good d : proper d = true -> dgood d.
Proof.
  unfold proper. rewrite !andb_true_iff, !forallb_forall. intros [[[H1 H2] H3] H4].
  assert (K : forall x, In x (d_name d :: map fst (d_params d)) -> x <> self_name /\ x <> Self_name).
  { intros x I. apply H1 in I. apply andb_prop in I as [I1 I2]. apply negb_true_iff in I1, I2.
    split; intros ->; [rewrite eqb_refl' in I1|rewrite eqb_refl' in I2]; discriminate. }
  constructor.
  - apply K. now left.
  - apply K. now left.
  - intros x I. destruct (K x) as [A B]; [now right|]. repeat split; auto. intros ->. apply in_map_iff in I as (p & E & I).
    apply H2 in I. rewrite E, eqb_refl' in I. discriminate.
  - intros p t I E. specialize (H3 p I). now rewrite E in H3.
  - intros f I. now apply H4.
Qed.
Lemma find_spec E x d : find_decl E x = Some d -> (x = self_name /\ d = self_decl) \/ (x <> self_name /\ In d E /\ d_name d = x).
Proof.
  unfold find_decl. destruct (eqb_dec x self_name) as [->|N].
  - rewrite eqb_refl'. intros [= <-]. auto.
  - rewrite N. intros H. right. split; [intros ->; rewrite eqb_refl' in N; discriminate|]. apply find_some in H as [H1 H2]. apply bytes_eqb_eq in H2. auto.
Qed.

(** Resolution after [unself] against resolution with the true meaning: a type that may mention itself, given arguments without placeholders. *)
Lemma resolve_unself E d args f g self : dgood d -> (forall e, In e E -> dgood e) -> find_decl E (d_name d) = Some d -> length args = length (d_params d) ->
  forallb (avoids self_name) args = true -> avoids self_name f = true -> (d_params d <> [] -> mentions (d_name d) f = false) ->
  resolve E (bind_params d args) self (unself (d_name d) f) = Some g ->
  resolve E (bind_params d args) (TPath (d_name d) args) f = Some (sub (TPath (d_name d) args) g).
Proof.
  intros G GE Fd La Aa. set (T := TPath (d_name d) args). revert g.
  assert (DD : forall x e, find_decl E x = Some e -> defaults_ok (d_params e)).
  { intros x e H. apply find_spec in H as [[-> ->]|(_ & I & _)]; [intros p t []|apply GE; assumption]. }
  assert (SS : lookup (bind_params d args) self_name = None).
  { destruct (lookup _ self_name) as [u|] eqn:L; [|reflexivity]. apply lookup_in in L as [I _]. now apply (dg_pself d G) in I. }
  assert (ST : sub T placeholder = T) by reflexivity.
  induction f as [x fs IH|c fs IH] using type_ind'; intros g Af Mf H.
  - cbn [avoids] in Af. apply andb_prop in Af as [Ax Afs]. apply negb_true_iff in Ax.
    destruct fs as [|f0 fs].
    + cbn [unself] in H. destruct (eqb_dec x Self_name) as [->|NS].
      * rewrite eqb_refl' in H. cbn [orb] in H. unfold placeholder in H. cbn [resolve mapM] in H. change (bytes_eqb self_name Self_name) with false in H.
        cbn match in H. rewrite SS in H. cbn in H. injection H as <-. cbn [resolve]. rewrite eqb_refl'. reflexivity.
      * rewrite NS in H. cbn [orb] in H. destruct (eqb_dec x (d_name d)) as [->|ND].
        -- rewrite eqb_refl' in H. unfold placeholder in H. cbn [resolve mapM] in H. change (bytes_eqb self_name Self_name) with false in H.
           cbn match in H. rewrite SS in H. cbn in H. injection H as <-. cbn [resolve mapM]. rewrite NS.
           destruct (d_params d) eqn:EP.
           ++ destruct (lookup (bind_params d args) (d_name d)) eqn:L; [apply lookup_in in L as [I _]; rewrite EP in I; destruct I|].
              rewrite Fd, EP. destruct args; [|discriminate]. cbn. reflexivity.
           ++ specialize (Mf ltac:(discriminate)). cbn [mentions] in Mf. rewrite eqb_refl' in Mf. discriminate.
        -- rewrite ND in H. cbn [resolve mapM] in *. rewrite NS in *. destruct (lookup (bind_params d args) x) as [u|] eqn:L.
           ++ injection H as <-. apply lookup_in in L as [_ I]. rewrite forallb_forall in Aa. now rewrite sub_avoids by auto.
           ++ destruct (find_decl E x) as [e|] eqn:Fe; [|discriminate]. destruct (fill (d_params e) []) as [l|] eqn:Fl; [|discriminate].
              injection H as <-. pose proof Fl as Fl'. apply (fill_sub T) in Fl'; [|eauto]. cbn [map] in Fl'. rewrite Fl in Fl'. injection Fl' as Fl'.
              cbn [option_map sub]. rewrite Ax, <- Fl'. reflexivity.
    + change (unself (d_name d) (TPath x (f0 :: fs))) with (TPath x (map (unself (d_name d)) (f0 :: fs))) in H.
      remember (f0 :: fs) as l eqn:El. cbn [resolve] in *.
      destruct (map (unself (d_name d)) l) as [|m0 ms] eqn:Em; [subst; discriminate|]. rewrite <- Em in H. clear m0 ms Em.
      assert (H' : match find_decl E x, mapM (resolve E (bind_params d args) self) (map (unself (d_name d)) l) with
                   | Some d0, Some ts => option_map (TPath x) (fill (d_params d0) ts) | _, _ => None end = Some g) by exact H.
      clear H. destruct (find_decl E x) as [e|] eqn:Fe; [|discriminate].
      destruct (mapM _ (map (unself (d_name d)) l)) as [ts|] eqn:M; [|discriminate]. destruct (fill (d_params e) ts) as [full|] eqn:Fl; [|discriminate].
      injection H' as <-. apply (fill_sub T) in Fl; [|eauto].
      assert (M' : mapM (resolve E (bind_params d args) T) l = Some (map (sub T) ts)).
      { apply mapM_F. apply Forall2_map_r. apply mapM_F in M. apply (proj1 (Forall2_map_l _ _ _ _)) in M. revert M. apply Forall2_imp.
        intros a b I R. rewrite Forall_forall in IH. rewrite forallb_forall in Afs. apply (IH a I b (Afs a I)); [|exact R].
        intros NP. specialize (Mf NP). cbn [mentions] in Mf. apply orb_false_iff in Mf as [_ Mf]. destruct (mentions (d_name d) a) eqn:Ma; [|reflexivity].
        rewrite <- Mf. symmetry. apply existsb_exists. eauto. }
      rewrite M', Fl. cbn [option_map sub]. rewrite Ax. subst l. reflexivity.
  - cbn [unself resolve avoids sub] in *. destruct (mapM _ (map (unself (d_name d)) fs)) as [ts|] eqn:M; [|discriminate]. injection H as <-.
    assert (M' : mapM (resolve E (bind_params d args) T) fs = Some (map (sub T) ts)).
    { apply mapM_F. apply Forall2_map_r. apply mapM_F in M. apply (proj1 (Forall2_map_l _ _ _ _)) in M. revert M. apply Forall2_imp.
      intros a b I R. rewrite Forall_forall in IH. rewrite forallb_forall in Af. apply (IH a I b (Af a I)); [|exact R].
      intros NP. specialize (Mf NP). cbn [mentions] in Mf. destruct (mentions (d_name d) a) eqn:Ma; [|reflexivity].
      rewrite <- Mf. symmetry. apply existsb_exists. eauto. }
    rewrite M'. reflexivity.
Qed.

Lemma unself_none this f : mentions this f = false -> mentions Self_name f = false -> unself this f = f.
Proof.
  induction f as [x fs IH|c fs IH] using type_ind'; cbn [mentions]; intros H1 H2.
  - apply orb_false_iff in H1 as [H1 K1], H2 as [H2 K2]. destruct fs as [|f0 fs]; [cbn [unself]; rewrite H1, H2; reflexivity|].
    cbn [unself]. f_equal. rewrite <- map_id. apply map_ext_in. intros a I. rewrite Forall_forall in IH. apply IH; [assumption| |].
    + destruct (mentions this a) eqn:M; [|reflexivity]. rewrite <- K1. symmetry. apply existsb_exists. eauto.
    + destruct (mentions Self_name a) eqn:M; [|reflexivity]. rewrite <- K2. symmetry. apply existsb_exists. eauto.
  - cbn [unself]. f_equal. rewrite <- map_id. apply map_ext_in. intros a I. rewrite Forall_forall in IH. apply IH; [assumption| |].
    + destruct (mentions this a) eqn:M; [|reflexivity]. rewrite <- H1. symmetry. apply existsb_exists. eauto.
    + destruct (mentions Self_name a) eqn:M; [|reflexivity]. rewrite <- H2. symmetry. apply existsb_exists. eauto.
Qed.
(** A type that does not mention itself, given arguments with placeholders. *)
Lemma resolve_sub E d args f g s self self' : (forall e, In e E -> dgood e) -> avoids self_name f = true -> mentions Self_name f = false ->
  resolve E (bind_params d args) self f = Some g -> resolve E (bind_params d (map (sub s) args)) self' f = Some (sub s g).
Proof.
  intros GE. revert g.
  assert (DD : forall x e, find_decl E x = Some e -> defaults_ok (d_params e)).
  { intros x e H. apply find_spec in H as [[-> ->]|(_ & I & _)]; [intros p t []|apply GE; assumption]. }
  induction f as [x fs IH|c fs IH] using type_ind'; intros g Af Mf H.
  - cbn [avoids mentions] in *. apply andb_prop in Af as [Ax Afs]. apply negb_true_iff in Ax. apply orb_false_iff in Mf as [Mx Mfs].
    assert (M' : forall ts, mapM (resolve E (bind_params d args) self) fs = Some ts ->
                 mapM (resolve E (bind_params d (map (sub s) args)) self') fs = Some (map (sub s) ts)).
    { intros ts M. apply mapM_F. apply Forall2_map_r. apply mapM_F in M. revert M. apply Forall2_imp.
      intros a b I R. rewrite Forall_forall in IH. rewrite forallb_forall in Afs. apply (IH a I b (Afs a I)); [|exact R].
      destruct (mentions Self_name a) eqn:Ma; [|reflexivity]. rewrite <- Mfs. symmetry. apply existsb_exists. eauto. }
    assert (K : match find_decl E x, mapM (resolve E (bind_params d args) self) fs with
                | Some d0, Some ts => option_map (TPath x) (fill (d_params d0) ts) | _, _ => None end = Some g ->
                match find_decl E x, mapM (resolve E (bind_params d (map (sub s) args)) self') fs with
                | Some d0, Some ts => option_map (TPath x) (fill (d_params d0) ts) | _, _ => None end = Some (sub s g)).
    { destruct (find_decl E x) as [e|] eqn:Fe; [|discriminate]. destruct (mapM (resolve E (bind_params d args) self) fs) as [ts|] eqn:M; [|discriminate].
      rewrite (M' _ eq_refl). destruct (fill (d_params e) ts) as [l|] eqn:Fl; [|discriminate]. intros [= <-].
      apply (fill_sub s) in Fl; [|eauto]. rewrite Fl. cbn [option_map sub]. now rewrite Ax. }
    destruct fs as [|f0 fs].
    + cbn [resolve] in *. rewrite Mx in *. unfold bind_params in *. rewrite lookup_sub.
      destruct (lookup (combine (map fst (d_params d)) args) x) as [u|]; [injection H as <-; reflexivity|]. cbn [option_map]. now apply K.
    + remember (f0 :: fs) as l eqn:El. cbn [resolve] in *. subst l. now apply K.
  - cbn [resolve avoids mentions] in *. destruct (mapM (resolve E (bind_params d args) self) fs) as [ts|] eqn:M; [|discriminate]. injection H as <-.
    replace (mapM _ fs) with (Some (map (sub s) ts)); [reflexivity|]. symmetry. apply mapM_F. apply Forall2_map_r. apply mapM_F in M. revert M. apply Forall2_imp.
    intros a b I R. rewrite Forall_forall in IH. rewrite forallb_forall in Af. apply (IH a I b (Af a I)); [|exact R].
    destruct (mentions Self_name a) eqn:Ma; [|reflexivity]. rewrite <- Mf. symmetry. apply existsb_exists. eauto.
Qed.
