(** Lemmas about loading symbols by name. *)
From Coq Require Import List Arith NArith Bool Lia String.
From Verif Require Import M_Report M_Canary L_Canary M_String M_Load S_Load.
Import ListNotations.
Local Open Scope N_scope.
Local Open Scope list_scope.

Lemma distinct_nodup : forall l, distinct l = true -> NoDup l.
Proof.
  induction l as [|n l IH]; cbn [distinct]; intros H; constructor.
  - apply andb_prop in H. destruct H as [H _]. intros C. apply exists_str in C. rewrite C in H. discriminate.
  - apply IH. now apply andb_prop in H.
Qed.
Lemma nodup_distinct : forall l, NoDup l -> distinct l = true.
Proof.
  induction 1 as [|n l H _ IH]; cbn [distinct]; [reflexivity|]. rewrite IH, andb_true_r.
  destruct (existsb (str_eqb n) l) eqn:E; [|reflexivity]. apply exists_str in E. contradiction.
Qed.

Lemma no_zero : forall s, nameable s -> existsb (N.eqb 0) s = false.
Proof.
  intros s H. destruct (existsb (N.eqb 0) s) eqn:E; [|reflexivity].
  apply existsb_exists in E. destruct E as (x & I & E). apply N.eqb_eq in E. subst x. contradiction.
Qed.
Lemma last_in : forall (s : list N) d, s <> [] -> In (last s d) s.
Proof.
  induction s as [|a s IH]; intros d H; [congruence|]. destruct s as [|b s]; [now left|].
  right. apply (IH d). discriminate.
Qed.
Lemma cname_ok : forall s, nameable s -> cname s = Some s.
Proof.
  intros s H. unfold cname.
  assert (L : last s 1 <> 0).
  { destruct s as [|a s]; [discriminate|]. intros C. apply H. rewrite <- C. apply last_in. discriminate. }
  destruct (last s 1) as [|p]; [congruence|]. now rewrite (no_zero _ H).
Qed.
Lemma cname_nul : forall s t, t <> [] -> nameable t -> In 0 s -> cname (s ++ t) = None.
Proof.
  intros s t NE H I. unfold cname.
  assert (L : last (s ++ t) 1 <> 0).
  { destruct (exists_last NE) as (u & x & E). rewrite E, app_assoc, last_last.
    intros C. apply H. rewrite E. apply in_or_app. right. now left. }
  destruct (last (s ++ t) 1) as [|p]; [congruence|].
  assert (X : existsb (N.eqb 0) (s ++ t) = true).
  { apply existsb_exists. exists 0. split; [apply in_or_app; now left | reflexivity]. }
  now rewrite X.
Qed.
Lemma cname_final : forall s, nameable s -> cname (s ++ [0]) = Some s.
Proof.
  intros s H. unfold cname. rewrite last_last, removelast_last. now rewrite (no_zero _ H).
Qed.

Lemma too_short : forall t s, (List.length s < List.length t)%nat -> ~ ends_with t s.
Proof. intros t s H (p & C). apply (f_equal (@List.length N)) in C. rewrite app_length in C. lia. Qed.

(** A check of [ends_with]. *)
Definition ends_b (t s : list N) : bool := str_eqb (skipn (List.length s - List.length t) s) t.
Lemma ends_b_with : forall t s, ends_with t s -> ends_b t s = true.
Proof.
  intros t s (p & ->). unfold ends_b. rewrite app_length.
  replace (List.length p + List.length t - List.length t)%nat with (List.length p) by lia.
  rewrite skipn_app, skipn_all, Nat.sub_diag. now apply str_eqb_eq.
Qed.
Lemma unreserved_check : forall F e (xs : list (export F)),
  forallb (fun x => forallb (fun s => negb (ends_b STABBIED_SUFFIX s) && negb (ends_b REPORT_SUFFIX s))
    (written e x)) xs = true -> unreserved e xs.
Proof.
  intros F e xs H x s Ix Is. rewrite forallb_forall in H. specialize (H x Ix).
  rewrite forallb_forall in H. specialize (H s Is). apply andb_prop in H. destruct H as [A B].
  split; intros C; apply ends_b_with in C; [rewrite C in A | rewrite C in B]; discriminate.
Qed.

Section T.
Context {F : Type}.
Implicit Types t : list (list N * entry F).

Lemma find_in : forall t n x, NoDup (map fst t) -> In (n, x) t ->
  find (fun p => str_eqb n (fst p)) t = Some (n, x).
Proof.
  induction t as [|[m y] t IH]; cbn; intros n x ND I; [contradiction|].
  inversion ND as [|? ? NI ND']; subst. destruct I as [E | I].
  - injection E as -> ->. assert (X : str_eqb n n = true) by now apply str_eqb_eq. now rewrite X.
  - destruct (str_eqb n m) eqn:E.
    + apply str_eqb_eq in E. subst m. exfalso. apply NI. apply (in_map fst) in I. exact I.
    + now apply IH.
Qed.
Lemma find_name : forall t n p, find (fun p => str_eqb n (fst p)) t = Some p -> In (n, snd p) t.
Proof.
  intros t n [m y] H. apply find_some in H. destruct H as [I E]. cbn in E. apply str_eqb_eq in E.
  now subst m.
Qed.
Lemma lib_get_in : forall t n x, NoDup (map fst t) -> nameable n ->
  (lib_get t n = Some x <-> In (n, x) t).
Proof.
  intros t n x ND H. unfold lib_get. rewrite (cname_ok _ H). split.
  - destruct (find _ t) as [p|] eqn:E; cbn; [|discriminate]. intros X. injection X as <-. now apply find_name.
  - intros I. now rewrite (find_in t n x ND I).
Qed.
Lemma link_nodup : forall e (xs : list (export F)) t, link e xs = Some t ->
  t = flat_map (symbols e) xs /\ NoDup (map fst t).
Proof.
  intros e xs t. unfold link. destruct (distinct _) eqn:E; [|discriminate]. intros X. injection X as <-.
  split; [reflexivity|]. now apply distinct_nodup.
Qed.

Lemma nameable_app : forall a b, nameable a -> nameable b -> nameable (a ++ b).
Proof. intros a b A B C. apply in_app_or in C. destruct C; auto. Qed.
Lemma nameable_s : nameable STABBIED_SUFFIX.
Proof. intros C. vm_compute in C. repeat (destruct C as [C|C]; [discriminate|]). exact C. Qed.
Lemma nameable_r : nameable REPORT_SUFFIX.
Proof. intros C. vm_compute in C. repeat (destruct C as [C|C]; [discriminate|]). exact C. Qed.
Lemma report_ident_eq : forall n, report_ident n = n ++ REPORT_SUFFIX.
Proof. intros n. unfold report_ident, stabbied_ident. now rewrite <- app_assoc. Qed.
(** The two suffixes end with different bytes. *)
Lemma suffixes_differ : forall a b, a ++ STABBIED_SUFFIX <> b ++ REPORT_SUFFIX.
Proof.
  intros a b C.
  assert (X : last (a ++ STABBIED_SUFFIX) 0 = 51).
  { change STABBIED_SUFFIX with (str "_stabbied_v" ++ [51]). now rewrite app_assoc, last_last. }
  assert (Y : last (b ++ REPORT_SUFFIX) 0 = 116).
  { change REPORT_SUFFIX with (str "_stabbied_v3_repor" ++ [116]). now rewrite app_assoc, last_last. }
  rewrite C, Y in X. discriminate.
Qed.

(** A symbol with a reserved suffix was made for a report, or is one that a user wrote. *)
Lemma symbol_stabbied : forall e (xs : list (export F)) n y, unreserved e xs ->
  In (n ++ STABBIED_SUFFIX, y) (flat_map (symbols e) xs) ->
  exists own f, y = EStabbied own f /\ In (Reported n own f) xs.
Proof.
  intros e xs n y U I. apply in_flat_map in I. destruct I as (x & Ix & I).
  assert (W : In (n ++ STABBIED_SUFFIX) (written e x) -> False).
  { intros W. destruct (U x _ Ix W) as [X _]. apply X. now exists n. }
  destruct x as [m f|m f|m own f].
  - destruct I as [I|[]]. injection I as E _. exfalso. apply W. left. exact E.
  - exfalso. apply W. unfold written, export_canaried. cbn [symbols] in I. destruct I as [I|I].
    + injection I as E _. left. exact E.
    + right. apply in_map_iff in I. destruct I as (i & E & I). injection E as E _. rewrite <- E.
      apply (in_map (fun i => m ++ display e (N.shiftl 1 i))). exact I.
  - cbn [symbols] in I. destruct I as [I|[I|[I|[]]]].
    + injection I as E _. exfalso. apply W. left. exact E.
    + injection I as E <-. apply app_inv_tail in E. subst m. exists own, f. now split.
    + injection I as E _. rewrite report_ident_eq in E. symmetry in E. now apply suffixes_differ in E.
Qed.
Lemma symbol_report : forall e (xs : list (export F)) n y, unreserved e xs ->
  In (n ++ REPORT_SUFFIX, y) (flat_map (symbols e) xs) ->
  exists own f, y = EReport own /\ In (Reported n own f) xs.
Proof.
  intros e xs n y U I. apply in_flat_map in I. destruct I as (x & Ix & I).
  assert (W : In (n ++ REPORT_SUFFIX) (written e x) -> False).
  { intros W. destruct (U x _ Ix W) as [_ X]. apply X. now exists n. }
  destruct x as [m f|m f|m own f].
  - destruct I as [I|[]]. injection I as E _. exfalso. apply W. left. exact E.
  - exfalso. apply W. unfold written, export_canaried. cbn [symbols] in I. destruct I as [I|I].
    + injection I as E _. left. exact E.
    + right. apply in_map_iff in I. destruct I as (i & E & I). injection E as E _. rewrite <- E.
      apply (in_map (fun i => m ++ display e (N.shiftl 1 i))). exact I.
  - cbn [symbols] in I. destruct I as [I|[I|[I|[]]]].
    + injection I as E _. exfalso. apply W. left. exact E.
    + injection I as E _. now apply suffixes_differ in E.
    + injection I as E <-. rewrite report_ident_eq in E. apply app_inv_tail in E. subst m.
      exists own, f. now split.
Qed.
Lemma reported_symbols : forall e (xs : list (export F)) n own f, In (Reported n own f) xs ->
  In (n, EFn f) (flat_map (symbols e) xs) /\
  In (n ++ STABBIED_SUFFIX, EStabbied own f) (flat_map (symbols e) xs) /\
  In (n ++ REPORT_SUFFIX, EReport own) (flat_map (symbols e) xs).
Proof.
  intros e xs n own f I. split; [|split]; apply in_flat_map; exists (Reported n own f); (split; [exact I|]).
  - now left.
  - right. now left.
  - right. right. left. now rewrite report_ident_eq.
Qed.

Lemma load_stabbied_given : forall e (xs : list (export F)) t n asked f,
  link e xs = Some t -> nameable n -> unreserved e xs ->
  (load_stabbied t n asked = Given f <-> offered xs n asked f).
Proof.
  intros e xs t n asked f L H U. destruct (link_nodup _ _ _ L) as [E ND].
  pose proof (nameable_app _ _ H nameable_s) as Hs. unfold load_stabbied, offered. split.
  - destruct (lib_get t (n ++ STABBIED_SUFFIX)) as [y|] eqn:G; [|discriminate].
    apply (lib_get_in _ _ _ ND Hs) in G. rewrite E in G. apply symbol_stabbied in G; [|exact U].
    destruct G as (own & g & -> & I). unfold stabbied. destruct (is_compatible own asked) eqn:C.
    + intros X. injection X as <-. exists own. now split.
    + destruct (lib_get t (n ++ REPORT_SUFFIX)) as [[]|]; discriminate.
  - intros (own & I & C). destruct (reported_symbols e xs n own f I) as (_ & J & _). rewrite <- E in J.
    apply (lib_get_in _ _ _ ND Hs) in J. rewrite J. unfold stabbied. now rewrite C.
Qed.
Lemma load_stabbied_defined : forall e (xs : list (export F)) t n asked,
  link e xs = Some t -> unreserved e xs -> nameable n -> load_stabbied t n asked <> Undefined.
Proof.
  intros e xs t n asked L U H. destruct (link_nodup _ _ _ L) as [E ND].
  pose proof (nameable_app _ _ H nameable_s) as Hs. pose proof (nameable_app _ _ H nameable_r) as Hr.
  unfold load_stabbied.
  destruct (lib_get t (n ++ STABBIED_SUFFIX)) as [y|] eqn:G; [|discriminate].
  apply (lib_get_in _ _ _ ND Hs) in G. rewrite E in G. apply symbol_stabbied in G; [|exact U].
  destruct G as (own & g & -> & I). destruct (stabbied own g asked); [discriminate|].
  destruct (lib_get t (n ++ REPORT_SUFFIX)) as [y|] eqn:R; [|discriminate].
  apply (lib_get_in _ _ _ ND Hr) in R. rewrite E in R. apply symbol_report in R; [|exact U].
  destruct R as (own' & g' & -> & _). discriminate.
Qed.
Lemma stabbied_nul_refused : forall t n asked, In 0 n -> load_stabbied t n asked = Refused.
Proof.
  intros t n asked I. unfold load_stabbied, lib_get. rewrite cname_nul; [reflexivity| |apply nameable_s|exact I].
  discriminate.
Qed.

Lemma all_canaries_iff : forall t n l, nameable n -> Forall nameable l ->
  NoDup (map fst t) ->
  all_canaries t n l = forallb (fun s => existsb (str_eqb (n ++ s)) (map fst t)) l.
Proof.
  intros t n l H Fl ND. induction Fl as [|s l Hs _ IH]; [reflexivity|]. cbn [all_canaries forallb].
  pose proof (nameable_app _ _ H Hs) as Hn. destruct (lib_get t (n ++ s)) as [x|] eqn:G.
  - apply (lib_get_in _ _ _ ND Hn) in G. apply (in_map fst) in G. apply exists_str in G. cbn in G.
    now rewrite G.
  - destruct (existsb (str_eqb (n ++ s)) (map fst t)) eqn:X; [|reflexivity].
    apply exists_str in X. apply in_map_iff in X. destruct X as ([m y] & Em & I). cbn in Em. subst m.
    apply (lib_get_in _ _ _ ND Hn) in I. congruence.
Qed.
Lemma load_canaried_given : forall e e' (xs : list (export F)) t n x,
  link e xs = Some t -> nameable n -> nameable_env e' ->
  (load_canaried e' t n = Given x <->
   In (n, x) t /\ get_canaried e' n (map fst t) = true).
Proof.
  intros e e' xs t n x L H He. destruct (link_nodup _ _ _ L) as [_ ND]. unfold load_canaried, get_canaried.
  rewrite all_canaries_iff; [|exact H| |exact ND].
  2:{ apply Forall_forall. intros s I. apply in_map_iff in I. destruct I as (c & <- & _). apply He. }
  assert (FM : forallb (fun s => existsb (str_eqb (n ++ s)) (map fst t)) (map (display e') [1; 2; 4; 16; 8]) =
    forallb (fun c => existsb (str_eqb (n ++ display e' c)) (map fst t)) [1; 2; 4; 16; 8]) by reflexivity.
  rewrite FM. clear FM. set (fb := forallb _ _). split.
  - destruct (lib_get t n) as [y|] eqn:G; [|discriminate].
    apply (lib_get_in _ _ _ ND H) in G. destruct fb.
    + intros X. injection X as <-. split; [exact G|]. rewrite andb_true_r. apply exists_str.
      apply (in_map fst) in G. exact G.
    + destruct (from_utf8 n); discriminate.
  - intros [I X]. apply (lib_get_in _ _ _ ND H) in I. rewrite I. apply andb_prop in X.
    destruct X as [_ ->]. reflexivity.
Qed.
Lemma canaried_symbols : forall e (xs : list (export F)) n f c, In (Canaried n f) xs ->
  In (n, EFn f) (flat_map (symbols e) xs) /\
  (In c [0; 1; 2; 3; 4; 5] -> In (n ++ display e (N.shiftl 1 c), ECanary) (flat_map (symbols e) xs)).
Proof.
  intros e xs n f c I. split; [|intros Ic]; apply in_flat_map; exists (Canaried n f); (split; [exact I|]).
  - now left.
  - right. apply (in_map (fun i => (n ++ display e (N.shiftl 1 i), ECanary))). exact Ic.
Qed.
Lemma load_canaried_itself : forall e (xs : list (export F)) t n f,
  link e xs = Some t -> nameable n -> nameable_env e -> In (Canaried n f) xs ->
  load_canaried e t n = Given (EFn f).
Proof.
  intros e xs t n f L H He I. apply (load_canaried_given e e xs t n _ L H He).
  destruct (link_nodup _ _ _ L) as [E _].
  assert (J : In (n, EFn f) t) by (rewrite E; apply (canaried_symbols e xs n f 0 I)).
  split; [exact J|]. unfold get_canaried. apply andb_true_intro. split.
  - apply exists_str. apply (in_map fst) in J. exact J.
  - assert (K : forall c, In c [0; 1; 2; 3; 4; 5] ->
      existsb (str_eqb (n ++ display e (N.shiftl 1 c))) (map fst t) = true).
    { intros c Ic. apply exists_str. rewrite E.
      destruct (canaried_symbols e xs n f c I) as [_ X]. apply X in Ic. apply (in_map fst) in Ic. exact Ic. }
    apply forallb_forall. intros c Ic.
    assert (X : exists i, In i [0; 1; 2; 3; 4; 5] /\ c = N.shiftl 1 i).
    { cbn in Ic. destruct Ic as [<-|[<-|[<-|[<-|[<-|[]]]]]];
        [exists 0|exists 1|exists 2|exists 4|exists 3]; (split; [cbn; tauto | reflexivity]). }
    destruct X as (i & Ii & ->). now apply K.
Qed.
Lemma load_canaried_defined : forall e t n, from_utf8 n = true -> load_canaried e t n <> Undefined.
Proof.
  intros e t n H. unfold load_canaried. destruct (lib_get t n); [|discriminate]. rewrite H.
  destruct (all_canaries _ _ _); discriminate.
Qed.
Lemma canaried_nul_not_given : forall e t n a, nameable_env e -> In 0 n -> load_canaried e t n <> Given a.
Proof.
  intros e t n a He I. unfold load_canaried. destruct (lib_get t n); [|discriminate].
  cbn [map all_canaries]. unfold lib_get at 1. rewrite cname_nul; [|discriminate|apply He|exact I].
  destruct (from_utf8 n); discriminate.
Qed.

Lemma nodup_app : forall (A : Type) (a b : list A), NoDup a -> NoDup b ->
  (forall x, In x a -> In x b -> False) -> NoDup (a ++ b).
Proof.
  induction a as [|x a IH]; cbn [app]; intros b Ha Hb D; [exact Hb|].
  inversion Ha as [|? ? NI Ha']; subst. constructor.
  - intros C. apply in_app_or in C. destruct C as [C|C]; [contradiction|]. apply (D x); [now left|exact C].
  - apply IH; [exact Ha'|exact Hb|]. intros y I J. apply (D y); [now right|exact J].
Qed.
(** A symbol of an export without canaries is its name or made of it. *)
Lemma symbol_shape : forall e (x : export F) s, uncanaried x -> In s (map fst (symbols e x)) ->
  s = export_name x \/ s = export_name x ++ STABBIED_SUFFIX \/ s = export_name x ++ REPORT_SUFFIX.
Proof.
  intros e x s NC I. destruct x as [m f|m f|m own f]; cbn [symbols map fst export_name] in *.
  - destruct I as [<-|[]]. now left.
  - contradiction.
  - destruct I as [<-|[<-|[<-|[]]]]; [now left| right; now left | right; right]. apply report_ident_eq.
Qed.
Lemma symbols_nodup : forall e (x : export F), uncanaried x -> NoDup (map fst (symbols e x)).
Proof.
  intros e x NC. destruct x as [m f|m f|m own f]; cbn [symbols map fst].
  - constructor; [intros [] | constructor].
  - contradiction.
  - assert (G : forall t : list N, t <> [] -> m ++ t <> m).
    { intros t NE C. apply NE. apply (f_equal (@List.length N)) in C. rewrite app_length in C.
      destruct t; [reflexivity|]. cbn in C. lia. }
    constructor; [|constructor; [|constructor; [intros []|constructor]]].
    + intros [C|[C|[]]]; [apply G in C; [exact C|discriminate]|].
      rewrite report_ident_eq in C. apply G in C; [exact C|discriminate].
    + intros [C|[]]. rewrite report_ident_eq in C. symmetry in C. now apply suffixes_differ in C.
Qed.
Lemma link_uncanaried : forall e (xs : list (export F)), NoDup (map export_name xs) ->
  Forall uncanaried xs -> unreserved e xs -> exists t, link e xs = Some t.
Proof.
  intros e xs ND NC U. unfold link. rewrite nodup_distinct; [eexists; reflexivity|].
  assert (NR : forall x, In x xs -> ~ ends_with STABBIED_SUFFIX (export_name x) /\
    ~ ends_with REPORT_SUFFIX (export_name x)).
  { intros x I. apply (U x _ I). destruct x; now left. }
  clear U. induction xs as [|x xs IH]; [constructor|]. cbn [flat_map]. rewrite map_app.
  inversion ND as [|? ? NI ND']; subst. inversion NC as [|? ? Hx NC']; subst.
  apply nodup_app.
  - now apply symbols_nodup.
  - apply IH; [exact ND'|exact NC'|]. intros y I. apply NR. now right.
  - intros s Is Js. apply in_map_iff in Js. destruct Js as (p & E & Js). apply in_flat_map in Js.
    destruct Js as (y & Iy & Jy). apply (in_map fst) in Jy. rewrite E in Jy.
    assert (Hy : uncanaried y) by (rewrite Forall_forall in NC'; now apply NC').
    destruct (NR x (or_introl eq_refl)) as [X1 X2]. destruct (NR y (or_intror Iy)) as [Y1 Y2].
    assert (D : export_name x <> export_name y).
    { intros C. apply NI. rewrite C. now apply in_map. }
    apply symbol_shape in Is; [|exact Hx]. apply symbol_shape in Jy; [|exact Hy].
    destruct Is as [Is|[Is|Is]], Jy as [Jy|[Jy|Jy]]; rewrite Is in Jy.
    + contradiction.
    + apply X1. now exists (export_name y).
    + apply X2. now exists (export_name y).
    + apply Y1. now exists (export_name x).
    + apply D. now apply app_inv_tail in Jy.
    + now apply suffixes_differ in Jy.
    + apply Y2. now exists (export_name x).
    + symmetry in Jy. now apply suffixes_differ in Jy.
    + apply D. now apply app_inv_tail in Jy.
Qed.
End T.
