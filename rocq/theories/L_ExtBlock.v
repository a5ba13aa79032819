(** Lemmas about [#[stabby::import]]. *)
From Coq Require Import String.
From Coq Require Import List Arith NArith Bool Lia.
From Verif Require M_FnItem.
From Verif Require Import M_Canary S_Canary L_Canary M_ExtBlock S_ExtBlock.
Import ListNotations.
Ltac Zify.zify_post_hook ::= idtac.

Lemma mapM_length {A B} (f : A -> option B) l r : mapM f l = Some r -> length r = length l.
Proof.
  revert r. induction l as [|a l IH]; intros r H; cbn in H; [injection H as <-; reflexivity|].
  destruct (f a), (mapM f l) as [r'|]; try discriminate. injection H as <-. cbn. f_equal. apply IH. reflexivity.
Qed.
Lemma mapM_eq {A B} (f g : A -> option B) l r : mapM f l = Some r -> (mapM g l = Some r <-> Forall (fun a => g a = f a) l).
Proof.
  revert r. induction l as [|a l IH]; intros r H; cbn [mapM] in H |- *.
  - split; [constructor|intros _; exact H].
  - destruct (f a) as [b|] eqn:E; [|discriminate]. destruct (mapM f l) as [r'|]; [|discriminate]. injection H as <-.
    specialize (IH _ eq_refl). split.
    + intros G. destruct (g a) as [b'|] eqn:E'; [|discriminate]. destruct (mapM g l) as [r''|]; [|discriminate]. injection G as -> ->.
      constructor; [congruence|]. apply IH. reflexivity.
    + intros F. inversion F as [|? ? E1 F1]; subst. rewrite E1, E. apply IH in F1. rewrite F1. reflexivity.
Qed.
Lemma mapM_in {A B} (f : A -> option B) l r a : mapM f l = Some r -> In a l -> f a <> None.
Proof.
  revert r. induction l as [|x l IH]; intros r H []; cbn in H; destruct (f x) eqn:E, (mapM f l) as [r'|]; try discriminate.
  - subst. congruence.
  - eauto.
Qed.

Section Deeper.
Variable w : world.
Variable m : list N.
Variable i : N.
Hypothesis F : fresh w m i.

Lemma deeper l : w_items w ((m ++ [i]) ++ l) = None.
Proof. rewrite <- app_assoc. apply F. Qed.
Lemma path_deeper p : resolve w m p <> None -> (resolve w (m ++ [i]) p = resolve w m p <-> path_supported w m p).
Proof.
  intros R. destruct p as [l|l|l|l|k l]; cbn [resolve path_supported] in *; try tauto.
  - rewrite deeper. destruct (w_items w (m ++ l)) as [t|]; split; intros H; auto.
    destruct H as [H|H]; [discriminate|congruence].
  - rewrite deeper. split; [congruence|intros []].
  - rewrite app_length. cbn [length]. replace (length m + 1 - S k) with (length m - k) by lia.
    rewrite firstn_app. replace (length m - k - length m) with 0 by lia. cbn [firstn]. rewrite app_nil_r.
    destruct (Nat.leb_spec (S k) (length m)) as [L|L]; [|contradiction R; reflexivity].
    destruct (Nat.leb_spec (S k) (length m + 1)) as [L'|L']; [|lia].
    destruct k as [|k]; [rewrite Nat.sub_0_r, firstn_all|]; reflexivity.
Qed.
Lemma paths_deeper l r : mapM (resolve w m) l = Some r -> (mapM (resolve w (m ++ [i])) l = Some r <-> Forall (path_supported w m) l).
Proof.
  intros H. rewrite (mapM_eq _ (resolve w (m ++ [i])) _ _ H). rewrite !Forall_forall. split; intros G p Hp; apply (path_deeper p (mapM_in _ _ _ _ H Hp)); auto.
Qed.
Lemma ty_deeper t : resolve_ty w m t <> None -> (resolve_ty w (m ++ [i]) t = resolve_ty w m t <-> Forall (path_supported w m) (t_paths t)).
Proof.
  intros R. unfold resolve_ty in *. destruct (mapM (resolve w m) (t_paths t)) as [r|] eqn:E; [|contradiction R; reflexivity].
  rewrite <- (paths_deeper _ _ E). cbn [option_map]. destruct (mapM (resolve w (m ++ [i])) (t_paths t)); cbn [option_map]; split; intros H; try discriminate; congruence.
Qed.
Definition supported_tys (l : list ty) : Prop := Forall (fun t => Forall (path_supported w m) (t_paths t)) l.
Lemma tys_deeper l r : mapM (resolve_ty w m) l = Some r -> (mapM (resolve_ty w (m ++ [i])) l = Some r <-> supported_tys l).
Proof.
  intros H. rewrite (mapM_eq _ (resolve_ty w (m ++ [i])) _ _ H). unfold supported_tys. rewrite !Forall_forall.
  split; intros G p Hp; apply (ty_deeper p (mapM_in _ _ _ _ H Hp)); auto.
Qed.
Lemma out_deeper o r : resolve_out w m o = Some r -> (resolve_out w (m ++ [i]) o = Some r <-> supported_tys (match o with Some t => [t] | None => [] end)).
Proof.
  intros H. destruct o as [t|]; cbn [resolve_out] in *; [|split; [constructor|intros _; exact H]].
  destruct (resolve_ty w m t) as [x|] eqn:E; [|discriminate]. injection H as <-.
  unfold supported_tys. rewrite Forall_cons_iff, <- ty_deeper by congruence. rewrite E.
  destruct (resolve_ty w (m ++ [i]) t); cbn [option_map]; split; [intros [= ->]; auto|intros ([= ->] & _); reflexivity|discriminate|intros (H & _); discriminate].
Qed.
End Deeper.

Lemma nodup_spec l : nodup_b l = true <-> NoDup l.
Proof.
  induction l as [|x l IH]; cbn [nodup_b]; [split; [constructor|reflexivity]|].
  rewrite andb_true_iff, negb_true_iff, IH. rewrite NoDup_cons_iff. rewrite <- exists_str.
  destruct (existsb (str_eqb x) l); intuition congruence.
Qed.

Lemma parse_some args : forall can link r, parse_args args can link = Some r -> Forall (fun r => from_str r <> None) (requests args).
Proof.
  induction args as [|[k v] args IH]; intros can link r H; cbn [parse_args] in H; [constructor|]. unfold requests. cbn [filter fst].
  destruct (str_eqb k (str "canaries")) eqn:E; [|eapply IH, H]. cbn [map snd]. destruct (from_str v) as [c|] eqn:V; [|discriminate].
  constructor; [congruence|]. eapply IH, H.
Qed.
Lemma parse_spec args : Forall (fun r => from_str r <> None) (requests args) -> forall can link,
  parse_args args can link = Some (match rev (requests args) with [] => can | r :: _ => from_str r end, link ++ link_args args).
Proof.
  induction args as [|[k v] args IH]; intros H can link; cbn [parse_args].
  - cbn. rewrite app_nil_r. reflexivity.
  - unfold requests, link_args in *. cbn [filter fst] in *. destruct (str_eqb k (str "canaries")) eqn:E; cbn [negb map snd] in *.
    + inversion H as [|? ? V R]; subst. destruct (from_str v) as [c|] eqn:Ev; [|contradiction V; reflexivity]. rewrite IH by exact R. cbn [rev].
      destruct (rev (map snd (filter _ args))) as [|r rs]; cbn [app]; rewrite ?Ev; reflexivity.
    + rewrite IH by exact H. rewrite <- app_assoc. reflexivity.
Qed.

Lemma map_XCanary_ok w m ids : forallb (ext_ok w m) (map XCanary ids) = true.
Proof. induction ids; cbn; auto. Qed.
Lemma canary_not_fn (n : list N) ids :
  existsb (fun x => match x with XFn f' => str_eqb (d_name f') n && d_cfg f' && negb (d_variadic f') | _ => false end) (map XCanary ids) = false.
Proof. induction ids; cbn; auto. Qed.
Lemma str_refl s : str_eqb s s = true.
Proof. apply str_eqb_eq. reflexivity. Qed.
Lemma suffix_ne (n a b : list N) : a <> b -> str_eqb (n ++ a) (n ++ b) = false.
Proof. intros H. destruct (str_eqb (n ++ a) (n ++ b)) eqn:E; [|reflexivity]. apply str_eqb_eq, app_inv_head in E. contradiction. Qed.

Definition grp_ok (stable : rty -> bool) (w : world) (m : list N) (a : abi) (x : group) : bool :=
  forallb (ext_ok w m) (g_ext x) && forallb (int_ok stable w m a (g_ext x)) (g_int x).
Definition tys_resolve (w : world) (m : list N) (f : fdecl) : option (list rty * option rty) :=
  match mapM (resolve_ty w m) (d_ins f), resolve_out w m (d_out f) with Some i, Some o => Some (i, o) | _, _ => None end.

Section Items.
Variable stable : rty -> bool.
Variable w : world.
Variable m : list N.
Variable i : N.
Hypothesis F : fresh w m i.
Variable e : env.
Variable a : abi.

Lemma f_deeper f r : tys_resolve w m f = Some r -> (tys_resolve w (m ++ [i]) f = Some r <-> supported_tys w m (types_of f)).
Proof.
  unfold tys_resolve. intros H. destruct (mapM (resolve_ty w m) (d_ins f)) as [x|] eqn:E; [|discriminate].
  destruct (resolve_out w m (d_out f)) as [o|] eqn:E2; [|discriminate]. injection H as <-.
  unfold types_of, supported_tys. rewrite Forall_app. rewrite <- (tys_deeper w m i F _ _ E), <- (out_deeper w m i F _ _ E2).
  destruct (mapM (resolve_ty w (m ++ [i])) (d_ins f)) as [x'|]; [|split; [discriminate|intros (? & _); discriminate]].
  destruct (resolve_out w (m ++ [i]) (d_out f)) as [o'|]; [|split; [discriminate|intros (_ & ?); discriminate]].
  split; [intros [= -> ->]; auto|intros ([= ->] & [= ->]); auto].
Qed.

Lemma canaried_item c l it d : canaries c = Some l -> present it = true -> declared1 w m true a it = Some d ->
  ((exists g, gen_canaried e c a it = Some g /\ grp_ok stable w (m ++ [i]) a g = true /\ provided w (m ++ [i]) g = Some d) <-> fn_supported stable w m true it).
Proof.
  intros C P D. destruct it as [f|n t]; [|split; [intros (g & H & _); discriminate|intros []]].
  cbn [present] in P. cbn [declared1 fn_supported gen_canaried] in *. rewrite C.
  assert (T : exists r, tys_resolve w m f = Some r /\ d = Imp (d_name f) (d_vis f) true (abi_name a) (fst r) (snd r) (d_variadic f)).
  { unfold tys_resolve. destruct (mapM (resolve_ty w m) (d_ins f)); [|discriminate]. destruct (resolve_out w m (d_out f)); [|discriminate].
    injection D as <-. eexists. split; reflexivity. }
  destruct T as (r & T & ->). clear D. pose proof (f_deeper f r T) as FD.
  cut ((grp_ok stable w (m ++ [i]) a (Group (XFn f :: map XCanary (map (fun x => d_name f ++ display e x) l))
     [NCanaries (d_name f ++ str "_canaries_fn") (map (fun x => d_name f ++ display e x) l);
      NCanaried (d_name f ++ str "_canaried") (Fty true a (d_lts f) (d_ins f) (d_out f)) (d_name f) (d_name f ++ str "_canaries_fn")]
     (Use (d_vis f) (d_name f ++ str "_canaried") (d_name f))) = true /\
     match tys_resolve w (m ++ [i]) f with Some (x, o) => Some (Imp (d_name f) (d_vis f) true (abi_name a) x o false) | None => None end =
     Some (Imp (d_name f) (d_vis f) true (abi_name a) (fst r) (snd r) (d_variadic f))) <->
     d_cfg f = true /\ d_async f = false /\ d_lts f = [] /\ d_variadic f = false /\ supported_tys w m (types_of f) /\ d_unsafe f = false).
  { intros H. unfold supported_tys in H. rewrite <- H. clear H FD. set (ids := map (fun x => d_name f ++ display e x) l).
    assert (PV : forall g u y c', provided w (m ++ [i]) (Group g [NCanaries (d_name f ++ str "_canaries_fn") ids;
      NCanaried (d_name f ++ str "_canaried") (Fty true a y (d_ins f) (d_out f)) u c'] (Use (d_vis f) (d_name f ++ str "_canaried") (d_name f))) =
      match tys_resolve w (m ++ [i]) f with Some (x, o) => Some (Imp (d_name f) (d_vis f) true (abi_name a) x o false) | None => None end).
    { intros. unfold provided, tys_resolve. cbn [find g_int g_use u_in u_as u_vis y_ins y_out y_unsafe y_abi]. rewrite str_refl.
      cbn [y_ins y_out y_unsafe y_abi]. destruct (mapM _ _); [|reflexivity]. destruct (resolve_out _ _ _); reflexivity. }
    split.
    - intros (g & [= <-] & G & H). rewrite PV in H. auto.
    - intros (G & H). eexists. split; [reflexivity|]. split; [exact G|]. rewrite PV. exact H. }
  unfold grp_ok. cbn [g_ext g_int forallb ext_ok int_ok]. rewrite map_XCanary_ok, P. cbn [negb orb existsb]. rewrite canary_not_fn, str_refl, P.
  unfold fnty_ok. cbn [y_lts y_ins y_out andb orb]. fold (tys_resolve w (m ++ [i]) f).
  assert (TR : match mapM (resolve_ty w (m ++ [i])) (d_ins f) with Some _ => match resolve_out w (m ++ [i]) (d_out f) with Some _ => true | None => false end | None => false end =
    match tys_resolve w (m ++ [i]) f with Some _ => true | None => false end).
  { unfold tys_resolve. destruct (mapM _ _); [|reflexivity]. destruct (resolve_out _ _ _); reflexivity. }
  rewrite TR. rewrite <- FD. destruct r as [x o]. cbn [fst snd].
  destruct (tys_resolve w (m ++ [i]) f) as [[x' o']|]; destruct (d_async f), (d_unsafe f), (d_variadic f), (d_lts f); cbn;
    split; intros H; repeat match goal with H : _ /\ _ |- _ => destruct H end; try discriminate; repeat split; congruence.
Qed.

Lemma fn_stable (f : fdecl) r : tys_resolve w (m ++ [i]) f = Some r -> supported_tys w m (types_of f) -> tys_resolve w m f = Some r ->
  (fnty_stable stable w (m ++ [i]) (Fty (d_unsafe f) a (d_lts f) (d_ins f) (d_out f)) && str_eqb (abi_name a) (str "C") = true <->
   abi_name a = str "C" /\ length (d_ins f) <= 15 /\ Forall (fun t => t_elided t = false /\ forall r, resolve_ty w m t = Some r -> stable r = true) (types_of f)).
Proof.
  intros T' S' T. unfold fnty_stable. cbn [y_abi y_ins y_out].
  set (st := fun t => match resolve_ty w (m ++ [i]) t with Some r => negb (r_elided r) && stable r | None => false end).
  set (P := fun t => t_elided t = false /\ forall r, resolve_ty w m t = Some r -> stable r = true).
  assert (ST : forall t, In t (types_of f) -> (st t = true <-> P t)).
  { intros t I. assert (R : resolve_ty w m t <> None).
    { unfold tys_resolve, types_of in *. apply in_app_or in I. destruct (mapM (resolve_ty w m) (d_ins f)) eqn:E; [|discriminate].
      destruct I as [I|I]; [eapply mapM_in; eassumption|]. destruct (d_out f) as [o|]; cbn in *; [|contradiction].
      destruct I as [<-|[]]. destruct (resolve_ty w m o); [congruence|discriminate]. }
    assert (E : resolve_ty w (m ++ [i]) t = resolve_ty w m t).
    { apply ty_deeper; [exact F|exact R|]. unfold supported_tys in S'. rewrite Forall_forall in S'. apply S', I. }
    unfold st, P. rewrite E. destruct (resolve_ty w m t) as [x|] eqn:X; [|contradiction R; reflexivity].
    assert (r_elided x = t_elided t) as ->.
    { unfold resolve_ty in X. destruct (mapM _ _); [|discriminate]. injection X as <-. reflexivity. }
    rewrite andb_true_iff, negb_true_iff. split; intros [A B]; split; auto; intros; congruence. }
  assert (FA : forallb st (d_ins f) && match d_out f with Some t => st t | None => true end = true <-> Forall P (types_of f)).
  { unfold types_of in *. rewrite andb_true_iff, Forall_app, forallb_forall. rewrite !Forall_forall. split.
    - intros [A B]. split; intros t I; apply ST; try (apply in_or_app; auto); auto. destruct (d_out f); [|destruct I]. destruct I as [<-|[]]. exact B.
    - intros [A B]. split; [intros t I; apply ST; [apply in_or_app|]; auto|]. destruct (d_out f) as [t|]; [|reflexivity].
      apply ST; [apply in_or_app; right; left; reflexivity|]. apply B. left. reflexivity. }
  change (match d_out f with Some t => match resolve_ty w (m ++ [i]) t with Some r => negb (r_elided r) && stable r | None => false end | None => true end)
    with (match d_out f with Some t => st t | None => true end).
  rewrite <- FA. rewrite <- (str_eqb_eq (abi_name a)). rewrite <- Nat.leb_le.
  destruct (str_eqb (abi_name a) (str "C")) eqn:E; cbn [existsb]; rewrite ?E; cbn [orb]; [|rewrite andb_false_r; split; [discriminate|intros (? & _); discriminate]].
  destruct (forallb st (d_ins f)), (match d_out f with Some t => st t | None => true end), (length (d_ins f) <=? 15); cbn; split; intros; repeat match goal with H : _ /\ _ |- _ => destruct H end; try discriminate; auto.
Qed.

Lemma checked_item it d : present it = true -> declared1 w m false a it = Some d ->
  ((exists g, gen_checked a it = Some g /\ grp_ok stable w (m ++ [i]) a g = true /\ provided w (m ++ [i]) g = Some d) <->
   abi_name a = str "C" /\ fn_supported stable w m false it).
Proof.
  intros P D. destruct it as [f|n t]; [|split; [intros (g & H & _); discriminate|intros (_ & [])]].
  cbn [present] in P. cbn [declared1 fn_supported gen_checked] in *.
  assert (T : exists r, tys_resolve w m f = Some r /\ d = Imp (d_name f) (d_vis f) (d_unsafe f) (abi_name a) (fst r) (snd r) (d_variadic f)).
  { unfold tys_resolve. destruct (mapM (resolve_ty w m) (d_ins f)); [|discriminate]. destruct (resolve_out w m (d_out f)); [|discriminate].
    injection D as <-. eexists. split; reflexivity. }
  destruct T as (r & T & ->). clear D. pose proof (f_deeper f r T) as FD.
  destruct (d_async f) eqn:AS; [split; [intros (g & H & _); discriminate|intros (_ & _ & H & _); discriminate]|].
  set (y := Fty (d_unsafe f) a (d_lts f) (d_ins f) (d_out f)).
  set (st := d_name f ++ str "_stabbied_v3").
  assert (PV : provided w (m ++ [i]) (Group [XReport (st ++ str "_report"); XStabbied st y] [NChecked (d_name f) y st (st ++ str "_report")]
      (Use (d_vis f) (d_name f) (d_name f))) =
      match tys_resolve w (m ++ [i]) f with Some (x, o) => Some (Imp (d_name f) (d_vis f) (d_unsafe f) (abi_name a) x o false) | None => None end).
  { unfold provided, tys_resolve. cbn [find g_int g_use u_in u_as u_vis]. rewrite str_refl. unfold y.
    cbn [y_ins y_out y_unsafe y_abi]. destruct (mapM _ _); [|reflexivity]. destruct (resolve_out _ _ _); reflexivity. }
  assert (FY : fnty_ok w (m ++ [i]) y = match d_lts f with [] => match tys_resolve w (m ++ [i]) f with Some _ => true | None => false end | _ => false end).
  { unfold fnty_ok, tys_resolve, y. cbn [y_lts y_ins y_out]. destruct (d_lts f); [|reflexivity]. destruct (mapM _ _); [|reflexivity].
    destruct (resolve_out _ _ _); reflexivity. }
  assert (GO : grp_ok stable w (m ++ [i]) a (Group [XReport (st ++ str "_report"); XStabbied st y] [NChecked (d_name f) y st (st ++ str "_report")]
      (Use (d_vis f) (d_name f) (d_name f))) = fnty_ok w (m ++ [i]) y && (fnty_stable stable w (m ++ [i]) y && str_eqb (abi_name a) (str "C"))).
  { unfold grp_ok. cbn [g_ext g_int forallb ext_ok int_ok]. destruct (fnty_ok _ _ y), (fnty_stable _ _ _ y), (str_eqb _ _); reflexivity. }
  split.
  - intros (g & [= <-] & G & H). fold st y in G, H. rewrite PV in H. rewrite GO, FY in G. clear PV GO FY.
    apply andb_true_iff in G. destruct G as [G1 G2].
    destruct (d_lts f) eqn:L; [|discriminate]. destruct (tys_resolve w (m ++ [i]) f) as [[x o]|] eqn:T'; [|discriminate].
    injection H as X O V. destruct r as [x0 o0]. cbn [fst snd] in *. subst x0 o0.
    pose proof (proj1 FD eq_refl) as S'. unfold y in G2. apply (fn_stable f _ T' S' T) in G2. destruct G2 as (A & B & C).
    repeat split; auto. 
  - intros (A & _ & _ & L & V & S' & B & C). eexists. split; [reflexivity|]. fold st y. rewrite PV, GO, FY, L.
    pose proof (proj2 FD S') as T'. rewrite T'. cbn [andb]. split.
    + unfold y. apply (fn_stable f _ T' S' T). auto.
    + destruct r. cbn [fst snd]. congruence.
Qed.
End Items.

(** All the items at once. *)
Lemma all_items {A B C} (dec : A -> option C) (gen : A -> option B) (ok : B -> bool) (pr : B -> option C) (Q P : A -> Prop) :
  (forall it d, Q it -> dec it = Some d -> ((exists g, gen it = Some g /\ ok g = true /\ pr g = Some d) <-> P it)) ->
  forall items ds, Forall Q items -> mapM dec items = Some ds ->
  ((exists gs, mapM gen items = Some gs /\ forallb ok gs = true /\ mapM pr gs = Some ds) <-> Forall P items).
Proof.
  intros H. induction items as [|it items IH]; intros ds Qs D; cbn [mapM] in *.
  - injection D as <-. split; [constructor|]. intros _. exists []. auto.
  - inversion Qs as [|? ? Q1 Q2]; subst. destruct (dec it) as [d|] eqn:E; [|discriminate]. destruct (mapM dec items) as [ds'|]; [|discriminate]. injection D as <-.
    specialize (IH _ Q2 eq_refl). specialize (H _ _ Q1 E). split.
    + intros (gs & G & O & R). destruct (gen it) as [g|] eqn:Eg; [|discriminate]. destruct (mapM gen items) as [gs'|]; [|discriminate].
      injection G as <-. cbn [forallb mapM] in O, R. apply andb_true_iff in O. destruct O as [O1 O2].
      destruct (pr g) as [d'|] eqn:Ep; [|discriminate]. destruct (mapM pr gs') as [r|] eqn:Er; [|discriminate]. injection R as -> ->.
      constructor; [apply H; eauto|]. apply IH. eauto.
    + intros X. inversion X as [|? ? X1 X2]; subst. apply H in X1. apply IH in X2. destruct X1 as (g & G1 & G2 & G3), X2 as (gs & G4 & G5 & G6).
      exists (g :: gs). rewrite G1, G4. cbn [forallb mapM]. rewrite G2, G3, G5, G6. auto.
Qed.

Lemma filter_all {A} (f : A -> bool) l : length (filter f l) = length l -> Forall (fun a => f a = true) l /\ filter f l = l.
Proof.
  induction l as [|a l IH]; cbn; [auto|]. assert (L : length (filter f l) <= length l) by (clear; induction l as [|x l IH]; cbn; [lia|]; destruct (f x); cbn; lia).
  destruct (f a) eqn:E; cbn; intros H; [|lia]. destruct IH as [A1 A2]; [lia|]. split; [constructor; auto|congruence].
Qed.
Lemma filter_all' {A} (f : A -> bool) l : Forall (fun a => f a = true) l -> filter f l = l.
Proof. induction 1 as [|a l E _ IH]; cbn; [reflexivity|]. rewrite E, IH. reflexivity. Qed.

Lemma values_checked a items gs : mapM (gen_checked a) items = Some gs ->
  flat_map values gs = flat_map (fun n => [n ++ str "_stabbied_v3_report"; n ++ str "_stabbied_v3"; n]) (names items).
Proof.
  revert gs. induction items as [|it items IH]; intros gs H; cbn [mapM] in H; [injection H as <-; reflexivity|].
  destruct (gen_checked a it) as [g|] eqn:E; [|discriminate]. destruct (mapM (gen_checked a) items) as [gs'|]; [|discriminate]. injection H as <-.
  cbn [flat_map names map]. fold (names items). rewrite <- (IH _ eq_refl). destruct it as [f|]; [|discriminate]. cbn [gen_checked] in E.
  destruct (d_async f); [discriminate|]. injection E as <-. unfold values. cbn [g_ext g_int flat_map map app]. rewrite <- app_assoc. reflexivity.
Qed.
Lemma values_canaried e c l a items gs : canaries c = Some l -> Forall (fun it => present it = true) items -> mapM (gen_canaried e c a) items = Some gs ->
  flat_map values gs = flat_map (fun n => n :: map (fun x => n ++ display e x) l ++ [n ++ str "_canaries_fn"; n ++ str "_canaried"]) (names items).
Proof.
  intros C P. revert gs. induction P as [|it items Pi P IH]; intros gs H; cbn [mapM] in H; [injection H as <-; reflexivity|].
  destruct (gen_canaried e c a it) as [g|] eqn:E; [|discriminate]. destruct (mapM (gen_canaried e c a) items) as [gs'|]; [|discriminate]. injection H as <-.
  cbn [flat_map names map]. fold (names items). rewrite <- (IH _ eq_refl). destruct it as [f|]; [|discriminate]. cbn [gen_canaried present] in *. rewrite C in E.
  injection E as <-. unfold values. cbn [g_ext g_int flat_map map app]. rewrite Pi. cbn [app]. do 2 f_equal.
  f_equal. generalize (map (fun x => d_name f ++ display e x) l). intros ids. induction ids as [|x ids IHi]; cbn; [reflexivity|]. f_equal. exact IHi.
Qed.

Lemma from_str_lt s c : from_str s = Some c -> (c < 64)%N.
Proof.
  intros H. destruct s as [|x s]; [injection H as <-; reflexivity|]. assert (x :: s <> []) as NE by discriminate. destruct (from_str_sound _ _ NE H) as (_ & _ & _ & _ & _ & L). exact L.
Qed.

Lemma accepted_iff stable w m g : accepted stable w m g = true <->
  (((link_ok (g_link g) = true /\ existsb (str_eqb (abi_name (g_abi g))) rust_abis = true) /\ nodup_b (flat_map values (g_groups g)) = true) /\
  forallb (grp_ok stable w m (g_abi g)) (g_groups g) = true).
Proof.
  unfold accepted. set (A := link_ok (g_link g)). set (B := existsb _ rust_abis). set (C := nodup_b _).
  unfold grp_ok. set (D := forallb _ (g_groups g)). destruct A, B, C, D; cbn; intuition congruence.
Qed.
Lemma import_exact_main e stable w m i args a items ds : fresh w m i -> declared w m (canaried args) a items = Some ds ->
  ((exists g, import e args a items = Some g /\ accepted stable w (m ++ [i]) g = true /\ mapM (provided w (m ++ [i])) (g_groups g) = Some ds) <->
   supported e stable w m args a items).
Proof.
  intros F D. unfold import, supported.
  assert (CAN : canaried args = match rev (requests args) with [] => false | _ => true end).
  { unfold canaried. destruct (requests args) as [|x l]; [reflexivity|]. cbn [rev]. destruct (rev l); reflexivity. }
  assert (RQ : Forall (fun r => from_str r <> None) (requests args) -> forall r rs, rev (requests args) = r :: rs ->
     exists c l, from_str r = Some c /\ canaries c = Some l).
  { intros V r rs E. rewrite Forall_forall in V. assert (In r (requests args)) as I by (apply in_rev; rewrite E; left; reflexivity).
    specialize (V _ I). destruct (from_str r) as [c|] eqn:Ec; [|contradiction V; reflexivity].
    destruct (canaries_exact c (from_str_lt _ _ Ec)) as (l & El & _). eauto. }
  assert (SP : forall can it, fn_supported stable w m can it -> present it = true).
  { intros can [f|]; cbn; [tauto|intros []]. }
  assert (PR : forall gs, length gs = length items -> mapM (provided w (m ++ [i])) gs = Some ds -> Forall (fun it => present it = true) items).
  { intros gs L H. apply mapM_length in H. unfold declared in D. apply mapM_length in D. apply (filter_all present). lia. }
  assert (DD : Forall (fun it => present it = true) items -> mapM (declared1 w m (canaried args) a) items = Some ds).
  { intros P. unfold declared in D. rewrite (filter_all' _ _ P) in D. exact D. }
  setoid_rewrite accepted_iff.
  split.
  - intros (g & G & (((LK & AB) & ND) & OK) & R).
    destruct (parse_args args None []) as [[can link]|] eqn:PA; [|discriminate].
    pose proof (parse_some _ _ _ _ PA) as V. rewrite (parse_spec _ V) in PA. cbn [app] in PA. injection PA as <- <-.
    set (gen := match match rev (requests args) with [] => None | r :: _ => from_str r end with Some c => gen_canaried e c a | None => gen_checked a end) in G.
    destruct (mapM gen items) as [gs|] eqn:GS; [|discriminate]. injection G as <-. cbn [g_link g_abi g_groups] in *.
    pose proof (PR gs (mapM_length _ _ _ GS) R) as P. specialize (DD P). apply nodup_spec in ND.
    unfold symbols. rewrite CAN in *. destruct (rev (requests args)) as [|r rs] eqn:RR.
    + assert (A := proj1 (all_items _ _ (grp_ok stable w (m ++ [i]) a) _ _ _ (checked_item stable w m i F a) items ds P DD)).
      unfold gen in GS.
      assert (X : Forall (fun it => abi_name a = str "C" /\ fn_supported stable w m false it) items) by (apply A; eauto).
      split; [exact V|]. split; [exact LK|]. split; [|split].
      * destruct X as [|? ? [E _] _]; [left; split; [reflexivity|apply exists_str, AB]|right; exact E].
      * eapply Forall_impl; [|exact X]. intros it [_ Y]. exact Y.
      * rewrite (values_checked _ _ _ GS) in ND. exact ND.
    + destruct (RQ V r rs eq_refl) as (c & l & Ec & El). unfold gen in GS. rewrite Ec in GS.
      assert (X : Forall (fn_supported stable w m true) items).
      { apply (all_items _ _ (grp_ok stable w (m ++ [i]) a) _ _ _ (fun it d => canaried_item stable w m i F e a c l it d El) items ds P DD). eauto. }
      split; [exact V|]. split; [exact LK|]. split; [apply exists_str, AB|]. split; [exact X|].
      rewrite Ec, El. rewrite (values_canaried _ _ _ _ _ _ El P GS) in ND. exact ND.
  - intros (V & LK & AB & X & ND). rewrite (parse_spec _ V). cbn [app].
    assert (P : Forall (fun it => present it = true) items) by (eapply Forall_impl; [|exact X]; intros; eapply SP; eassumption).
    specialize (DD P). unfold symbols in ND. rewrite CAN in *. destruct (rev (requests args)) as [|r rs] eqn:RR.
    + assert (Y : Forall (fun it => abi_name a = str "C" /\ fn_supported stable w m false it) items).
      { destruct AB as [[-> _]|E]; [constructor|]. eapply Forall_impl; [|exact X]. auto. }
      apply (all_items _ _ (grp_ok stable w (m ++ [i]) a) _ _ _ (checked_item stable w m i F a) items ds P DD) in Y.
      destruct Y as (gs & GS & OK & R). rewrite GS. eexists. split; [reflexivity|]. cbn [g_link g_abi g_groups]. split; [|exact R]. repeat split; auto.
      * apply exists_str. destruct AB as [[_ E]|E]; [exact E|]. rewrite E. left. reflexivity.
      * apply nodup_spec. rewrite (values_checked _ _ _ GS). exact ND.
    + destruct (RQ V r rs eq_refl) as (c & l & Ec & El). rewrite Ec, El in *.
      apply (all_items _ _ (grp_ok stable w (m ++ [i]) a) _ _ _ (fun it d => canaried_item stable w m i F e a c l it d El) items ds P DD) in X.
      destruct X as (gs & GS & OK & R). rewrite GS. eexists. split; [reflexivity|]. cbn [g_link g_abi g_groups]. split; [|exact R]. repeat split; auto.
      * apply exists_str. exact AB.
      * apply nodup_spec. rewrite (values_canaried _ _ _ _ _ _ El P GS). exact ND.
Qed.

Lemma checked_links e args a items g x : import e args a items = Some g -> canaried args = false -> In x (g_groups g) ->
  required x = [u_as (g_use x) ++ str "_stabbied_v3_report"; u_as (g_use x) ++ str "_stabbied_v3"] /\ In (u_as (g_use x)) (names items).
Proof.
  intros H C I. unfold import in H. destruct (parse_args args None []) as [[can link]|] eqn:PA; [|discriminate].
  pose proof (parse_some _ _ _ _ PA) as V. rewrite (parse_spec _ V) in PA. injection PA as <- _.
  unfold canaried in C. destruct (requests args); [|discriminate]. cbn [rev] in H.
  destruct (mapM (gen_checked a) items) as [gs|] eqn:GS; [|discriminate]. injection H as <-. cbn [g_groups] in I. clear V C.
  revert gs GS I. induction items as [|it items IH]; intros gs GS I; cbn [mapM] in GS; [injection GS as <-; destruct I|].
  destruct (gen_checked a it) as [y|] eqn:E; [|discriminate]. destruct (mapM (gen_checked a) items) as [gs'|]; [|discriminate]. injection GS as <-.
  destruct I as [->|I].
  - destruct it as [f|]; [|discriminate]. cbn [gen_checked] in E. destruct (d_async f); [discriminate|]. injection E as <-.
    unfold required. cbn [g_ext g_use u_as flat_map app]. rewrite <- app_assoc. split; [reflexivity|left; reflexivity].
  - destruct (IH _ eq_refl I) as [A B]. split; [exact A|right; exact B].
Qed.
Lemma canaried_links e args a items g x r rs c : import e args a items = Some g -> rev (requests args) = r :: rs -> from_str r = Some c ->
  Forall (fun it => present it = true) items -> In x (g_groups g) ->
  import_symbols e (u_as (g_use x)) c = Some (required x) /\ In (u_as (g_use x)) (names items).
Proof.
  intros H R Ec P I. unfold import in H. destruct (parse_args args None []) as [[can link]|] eqn:PA; [|discriminate].
  pose proof (parse_some _ _ _ _ PA) as V. rewrite (parse_spec _ V) in PA. injection PA as <- _.
  rewrite R, Ec in H. destruct (mapM (gen_canaried e c a) items) as [gs|] eqn:GS; [|discriminate]. injection H as <-. cbn [g_groups] in I.
  clear V R. revert gs GS I. induction P as [|it items Pi P IH]; intros gs GS I; cbn [mapM] in GS; [injection GS as <-; destruct I|].
  destruct (gen_canaried e c a it) as [y|] eqn:E; [|discriminate]. destruct (mapM (gen_canaried e c a) items) as [gs'|]; [|discriminate]. injection GS as <-.
  destruct I as [->|I].
  - destruct it as [f|]; [|discriminate]. cbn [gen_canaried] in E. unfold import_symbols. destruct (canaries c) as [l|]; [|discriminate]. injection E as <-.
    unfold required. cbn [g_ext g_use u_as flat_map]. cbn [present] in Pi. rewrite Pi. cbn [app]. split; [|left; reflexivity].
    do 2 f_equal. generalize (map (fun x => d_name f ++ display e x) l). intros ids. induction ids as [|z ids IHi]; cbn; [reflexivity|]. f_equal. exact IHi.
  - destruct (IH _ eq_refl I) as [A B]. split; [exact A|right; exact B].
Qed.
Lemma str_append a b : str (String.append a b) = str a ++ str b.
Proof. induction a as [|x a IH]; cbn; [reflexivity|]. f_equal. exact IH. Qed.
Lemma export_names f x : M_FnItem.export f = Some x ->
  str (M_FnItem.g_name (M_FnItem.x_stabbied x)) = str (M_FnItem.f_name f) ++ str "_stabbied_v3" /\
  str (M_FnItem.g_name (M_FnItem.x_report x)) = str (M_FnItem.f_name f) ++ str "_stabbied_v3_report".
Proof.
  unfold M_FnItem.export. destruct (M_FnItem.gen_fn M_FnItem.attrs0 f); [|discriminate].
  destruct (M_FnItem.gen_fn M_FnItem.attrs0 (M_FnItem.Fn false false false _ (String.append _ "_stabbied_v3") _ _ _ _ _)) as [s|] eqn:S1; [|discriminate].
  destruct (M_FnItem.gen_fn M_FnItem.attrs0 (M_FnItem.Fn false false false _ (String.append (String.append _ _) "_report") _ _ _ _ _)) as [r|] eqn:R1; [|discriminate].
  intros [= <-]. cbn [M_FnItem.x_stabbied M_FnItem.x_report M_FnItem.g_name].
  unfold M_FnItem.gen_fn in S1, R1. cbn [M_FnItem.f_ins M_FnItem.f_name] in S1, R1.
  assert (M_FnItem.g_name s = String.append (M_FnItem.f_name f) "_stabbied_v3") as -> by (injection S1 as <-; reflexivity).
  assert (M_FnItem.g_name r = String.append (String.append (M_FnItem.f_name f) "_stabbied_v3") "_report") as -> by (injection R1 as <-; reflexivity).
  rewrite !str_append, <- app_assoc. split; reflexivity.
Qed.
