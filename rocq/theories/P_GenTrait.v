(** C97: traits with parameters and associated types. *)
From Coq Require Import List NArith Arith Bool Permutation Lia.
From Verif Require Import M_Generics S_Generics L_Generics M_GenTrait S_GenTrait L_GenTrait.
Import ListNotations.
Local Open Scope N_scope.

(** C97, exactly where it holds: for every trait that Rust accepts, what [#[stabby::stabby]] generates is accepted, gives a
    vtable to every type that implements the trait and to its trait object, and the methods to trait objects, if and only if
    the trait has no constants as parameters, no bounds on its lifetimes and no defaults, its lifetimes, types and associated
    types are each mentioned by a method, no associated type is bounded by a lifetime or with a [?] that counts, its supertraits have no associated types, and
    its where clause says nothing that the bounds of its parameters do not say.
    Missing: names of the user that are those of the macro, attributes, generic associated types, whether bounds hold that are
    not given, and that signatures are well formed. *)
Theorem generic_trait_exact_partial : forall t, legal t -> (works t <-> supported t).
Proof. exact works_iff_supported. Qed.
Print Assumptions generic_trait_exact_partial.

Ltac cases H := repeat (destruct H as [H|H]; [try (injection H as <- <-); try subst|]); try contradiction.
Ltac legal_ := constructor; [reflexivity|reflexivity|apply distinct_NoDup; reflexivity|repeat constructor|
  repeat (constructor; [split; [eexists; split; reflexivity|repeat constructor]|]); constructor|apply distinct_NoDup; reflexivity|
  let x := fresh in let bs := fresh in let b := fresh in let H := fresh in let I := fresh in
  intros x bs b H I; cbn [In t_types] in H; cases H; cbn [In] in I; cases I; cbn; try split; try reflexivity; let y := fresh in intros y; cbn; tauto|
  let m := fresh in let H := fresh in intros m H; cbn [In t_fns] in H; cases H; cbn [m_pars m_types]; split; let y := fresh in intros y; cbn; tauto].

(** [trait Tr<'a, T: Deref> where T: Deref { type A: Into<Self::B>; type B: Clone + Eq;
      fn f(&mut self, x: T) -> Self::A;  fn g(&self, x: &'a Self::A) -> Self::B; }] *)
Definition rich : trait :=
  Trait [PLt 20 []; PTy 22 [BUser 30] None] [(XUser 22, [BUser 30])]
    [(1, [ATrait false 40 [2]]); (2, [ATrait false 42 []; ATrait false 44 []])] []
    [Method 1 true [22] [1]; Method 2 false [20] [1; 2]].
Example generic_trait_ex : legal rich /\ supported rich /\ works rich.
Proof.
  assert (legal rich) as L by legal_. assert (supported rich) as S.
  { constructor.
    - repeat constructor.
    - intros p H. cbn [In rich t_params] in H. cases H; [exists (Method 2 false [20] [1; 2])|exists (Method 1 true [22] [1])]; cbn; tauto.
    - intros x H. cbn [In map fst rich t_types] in H. cases H; exists (Method 2 false [20] [1; 2]); cbn; tauto.
    - intros x bs b H I. cbn [In rich t_types] in H. cases H; cbn [In] in I; cases I; cbn [declares];
      [exists [ATrait false 40 [2]], (ATrait false 40 [2])|exists [ATrait false 42 []; ATrait false 44 []], (ATrait false 42 [])|
       exists [ATrait false 42 []; ATrait false 44 []], (ATrait false 44 [])]; cbn; tauto.
    - reflexivity.
    - intros p b H I. cbn [In rich t_where] in H. destruct H as [<-|[]]. cbn [snd In] in I. destruct I as [<-|[]].
      exists (PTy 22 [BUser 30] None). cbn. tauto. }
  split; [exact L|]. split; [exact S|]. apply generic_trait_exact_partial; [exact L|exact S].
Qed.
(** Its vtable and what it is made of. *)
Example generic_trait_vtable_ex : exists d is, compile rich = Some (d, is) /\
  d_params d = [PLt 20 []; PTy 11 [] None; PTy 13 [] None; PTy 22 [BUser 30] None] /\
  d_where d = [(XUser 11, [BUser 40]); (XUser 13, [BUser 42]); (XUser 13, [BUser 44])] /\ accepted rich d is = true.
Proof. do 2 eexists. split; [vm_compute; reflexivity|]. vm_compute. auto. Qed.

(** What a trait with one method that mentions its parameter and its associated type becomes. *)
Definition tiny (p : param) (w : list pred) (bs : list abound) : trait := Trait [p] w [(1, bs)] [] [Method 2 false [20] [1]].
Example generic_trait_tiny_ex : exists d is, compile (tiny (PTy 20 [] None) [] []) = Some (d, is) /\ accepted (tiny (PTy 20 [] None) [] []) d is = true.
Proof. do 2 eexists. split; vm_compute; reflexivity. Qed.

(** C97: not for constants: [trait Tr<const N: usize> { .. }] becomes [impl<const N: usize, ..> Clone for StabbyVtableTr<const N: usize, ..>]. *)
Theorem generic_trait_const_refuted : exists t, legal t /\ t_params t = [PCst 20 8 None] /\ t_super t = [] /\ t_where t = [] /\ compile t = None.
Proof. exists (tiny (PCst 20 8 None) [] []). split; [legal_|]. repeat split; vm_compute; reflexivity. Qed.
Print Assumptions generic_trait_const_refuted.
(** C97: not for lifetimes with bounds: [trait Tr<'a, 'b: 'a> { .. }] becomes [impl<'a, 'b: 'a, ..> Clone for StabbyVtableTr<'a, 'b: 'a, ..>]. *)
Theorem generic_trait_lifetime_refuted : exists t, legal t /\ t_params t = [PLt 24 []; PLt 20 [BUser 24]] /\ t_types t = [] /\ t_where t = [] /\ compile t = None.
Proof. exists (Trait [PLt 24 []; PLt 20 [BUser 24]] [] [] [] [Method 2 false [20; 24] []]). split; [legal_|]. repeat split; vm_compute; reflexivity. Qed.
Print Assumptions generic_trait_lifetime_refuted.
(** C97: not for defaults: [trait Tr<T = u8> { .. }] becomes [impl<.., T = u8> Clone for StabbyVtableTr<.., T>]. *)
Theorem generic_trait_default_refuted : exists t d is, legal t /\ t_params t = [PTy 20 [] (Some 9)] /\ t_super t = [] /\ t_where t = [] /\
  compile t = Some (d, is) /\ accepted t d is = false.
Proof. exists (tiny (PTy 20 [] (Some 9)) [] []). do 2 eexists. split; [legal_|]. repeat (split; [vm_compute; reflexivity|]). vm_compute. reflexivity. Qed.
Print Assumptions generic_trait_default_refuted.
(** C97: not for where clauses: of [trait Tr<T> where T: Clone { .. }] only [trait Tr<T>] is left in [where StabbyArbitraryType: Tr<T, ..>]; with [trait Tr<T: Clone>] all is well. *)
Theorem generic_trait_where_refuted : exists n b t u d is e js, legal t /\ legal u /\
  t_params t = [PTy n [] None] /\ t_where t = [(XUser n, [b])] /\ t_params u = [PTy n [b] None] /\ t_where u = [] /\ t_types t = t_types u /\ t_fns t = t_fns u /\
  compile t = Some (d, is) /\ accepted t d is = false /\ compile u = Some (e, js) /\ accepted u e js = true.
Proof.
  exists 20, (BUser 30), (tiny (PTy 20 [] None) [(XUser 20, [BUser 30])] []), (tiny (PTy 20 [BUser 30] None) [] []). do 4 eexists.
  split; [legal_|]. split; [legal_|]. repeat (split; [vm_compute; reflexivity|]). vm_compute. reflexivity.
Qed.
Print Assumptions generic_trait_where_refuted.
(** C97: not for associated types that no method mentions: [trait Tr { type A; fn f(&self); }] gives a vtable with a parameter
    that it does not use. *)
Theorem generic_trait_unused_type_refuted : exists t d is, legal t /\ t_params t = [] /\ t_types t = [(1, [])] /\ t_super t = [] /\ length (t_fns t) = 1%nat /\
  compile t = Some (d, is) /\ vt_ok t d = false.
Proof.
  exists (Trait [] [] [(1, [])] [] [Method 2 false [] []]). do 2 eexists. split; [legal_|]. repeat (split; [vm_compute; reflexivity|]). vm_compute. reflexivity.
Qed.
Print Assumptions generic_trait_unused_type_refuted.
(** C97: not for parameters that no method mentions: [trait Tr<T> { fn f(&self); }]. *)
Theorem generic_trait_unused_param_refuted : exists t d is, legal t /\ t_params t = [PTy 20 [] None] /\ t_types t = [] /\ t_super t = [] /\ length (t_fns t) = 1%nat /\
  compile t = Some (d, is) /\ vt_ok t d = false.
Proof.
  exists (Trait [PTy 20 [] None] [] [] [] [Method 2 false [] []]). do 2 eexists. split; [legal_|]. repeat (split; [vm_compute; reflexivity|]). vm_compute. reflexivity.
Qed.
Print Assumptions generic_trait_unused_param_refuted.
(** C97: not for associated types bounded by a lifetime: [type A: 'static;] becomes [where _stabby_unselfed_0: 'static T: 'stabby_vt_lt, ..], without a comma. *)
Theorem generic_trait_outlives_refuted : exists t, legal t /\ t_params t = [PTy 20 [] None] /\ t_types t = [(1, [ALife 50])] /\ t_super t = [] /\ t_where t = [] /\ compile t = None.
Proof. exists (tiny (PTy 20 [] None) [] [ALife 50]). split; [legal_|]. repeat split; vm_compute; reflexivity. Qed.
Print Assumptions generic_trait_outlives_refuted.
(** C97: not for [type A: ?Sized;]: what is generated is accepted, but asks for [A: Sized], so that types that implement the trait with an [A]
    without size have no vtable. *)
Theorem generic_trait_unsized_refuted : exists t d is i, legal t /\ t_params t = [PTy 20 [] None] /\ t_types t = [(1, [ATrait true 50 []])] /\ t_super t = [] /\ t_where t = [] /\
  compile t = Some (d, is) /\ accepted t d is = true /\ In i is /\ g_bound i <> None /\ In (XUser (n_dyn 0), [BUser 50]) (g_where i) /\ ~ works t.
Proof.
  exists (tiny (PTy 20 [] None) [] [ATrait true 50 []]). do 3 eexists. assert (legal (tiny (PTy 20 [] None) [] [ATrait true 50 []])) as L by legal_. split; [exact L|].
  do 4 (split; [reflexivity|]). split; [vm_compute; reflexivity|]. split; [vm_compute; reflexivity|]. split; [right; left; reflexivity|].
  split; [discriminate|]. split; [left; reflexivity|]. intros W. apply generic_trait_exact_partial in W; [|exact L].
  destruct (s_bnds _ W 1 [ATrait true 50 []] (ATrait true 50 []) (or_introl eq_refl) (or_introl eq_refl)) as (bs & b & H & I & E).
  destruct H as [H|[]]. injection H as <-. destruct I as [<-|[]]. destruct E as [E _]. discriminate.
Qed.
Print Assumptions generic_trait_unsized_refuted.
(** C97: not for supertraits with associated types, whether methods mention these, as [<StabbyArbitraryType as Tr>::X], or do not, as the trait object must. *)
Theorem generic_trait_super_refuted : exists t u d is e js, legal t /\ legal u /\ t_super t <> [] /\ t_super u <> [] /\
  (exists m, In m (t_fns t) /\ incl (t_super t) (m_types m)) /\ (forall m x, In m (t_fns u) -> In x (t_super u) -> ~ In x (m_types m)) /\
  t_params t = [] /\ t_types t = [] /\ t_params u = [] /\ t_types u = [] /\
  compile t = Some (d, is) /\ accepted t d is = false /\ compile u = Some (e, js) /\ accepted u e js = false.
Proof.
  exists (Trait [] [] [] [1] [Method 2 false [] [1]]), (Trait [] [] [] [1] [Method 2 false [] []]). do 4 eexists. split; [legal_|]. split; [legal_|].
  split; [discriminate|]. split; [discriminate|]. split; [exists (Method 2 false [] [1]); split; [left; reflexivity|intros x H; exact H]|].
  split; [intros m x [<-|[]] _ []|]. repeat (split; [vm_compute; reflexivity|]). vm_compute. reflexivity.
Qed.
Print Assumptions generic_trait_super_refuted.
