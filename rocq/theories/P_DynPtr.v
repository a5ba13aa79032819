(** Property theorems for C94: the macros dynptr! and vtable!. *)
From Coq Require Import List Arith Bool Lia.
From Verif Require Import M_Dyn S_Dyn M_DynPtr S_DynPtr L_DynPtr.
Import ListNotations.

(** The types for which dynptr! gives a stabby type of the same meaning (pointer, bounds in order, lifetimes) are exactly the supported ones.
    Missing: the others, see the refuted theorems. *)
Theorem dynptr_exact_partial : forall t, objects_ok t = true ->
  (exists o, dynptr t = Some o /\ means t = Some (offers o)) <-> supported t.
Proof.
  intros t P. destruct t as [q lead pre name c2 args|l mut e|bs|t|t|n];
    try (split; [intros (o & D & _); discriminate D|intros []]).
  - destruct c2; [split; [intros (o & D & _); discriminate D|destruct q; intros []]|].
    destruct args as [|[e|l|n] [|a r]]; try (split; [intros (o & D & _); discriminate D|destruct q; intros []]).
    2: { split; [intros (o & D & _); discriminate D|]. destruct q, e; intros []. }
    destruct e as [q' lead' pre' name' c2' args'|l' mut' e'|bs|t'|t'|n'];
      try (split; [intros (o & D & _); discriminate D|destruct q; intros []]).
    unfold dynptr. rewrite (parse_path _ _ _ _ _ bs eq_refl). unfold means, found, object_life. cbn [bare split_object supported].
    destruct (lives_of bs) as [|l [|l' r]]; cbn [option_map length].
    + split.
      * intros (o & D & M). injection D as <-. cbn [offers] in M. injection M as -> _. lia.
      * destruct q; [intros []|]. intros _. eexists. split; [reflexivity|]. cbn [offers]. rewrite layers_macro. reflexivity.
    + split.
      * intros (o & D & M). injection D as <-. cbn [offers] in M. injection M as -> _. lia.
      * destruct q; [intros []|]. intros _. eexists. split; [reflexivity|]. cbn [offers]. rewrite layers_macro. reflexivity.
    + split; [intros (o & D & _); discriminate D|]. destruct q; [intros []|lia].
  - destruct e as [q' lead' pre' name' c2' args'|l' mut' e'|bs|t'|t'|n'];
      try (split; [intros (o & D & _); discriminate D|destruct l; intros []]).
    pose proof (objects_ref _ _ _ P) as L. unfold dynptr. rewrite parse_ref. unfold means, found, object_life. cbn [bare supported]. rewrite L. cbn [option_map].
    destruct l as [l|].
    + split; [trivial|]. intros _. eexists. split; [reflexivity|]. destruct mut; cbn [offers]; rewrite layers_macro; reflexivity.
    + split; [|intros []]. intros (o & D & M). injection D as <-. destruct mut; cbn [offers] in M; discriminate M.
Qed.
Print Assumptions dynptr_exact_partial.
(** dynptr!(Box<dyn T1 + T2 + Send + 'a>), dynptr!(&'a mut dyn T1). *)
Example dynptr_exact_ex :
  dynptr (TPath None false [7] 8 false [GType (TObj [TTrait (BTrait 1); TTrait (BTrait 2); TTrait BSend; TLife (Named 0)])]) =
    Some (ODyn (Named 0) false [7] 8 (VtSend (VTable 2 (VTable 1 VtDrop)))) /\
  dynptr (TRef (Some (Named 0)) true (TObj [TTrait (BTrait 1)])) = Some (ODynMut (Named 0) (Named 0) (VTable 1 VtDrop)) /\
  supported (TRef (Some (Named 0)) true (TObj [TTrait (BTrait 1)])).
Proof. split; [reflexivity|]. split; [reflexivity|exact I]. Qed.

(** vtable! takes exactly the non-empty sums of traits, and the type has them in order; the methods of the n-th trait from the right are at path n. *)
Theorem vtable_exact : forall bs,
  (forall v, vtable bs = Some v -> layers v = bounds_of bs /\ rev (heads v) = traits (bounds_of bs)) /\
  (vtable bs <> None <-> bs <> [] /\ lives_of bs = []).
Proof.
  intros bs. assert (T : forall xs, rev (heads (fold_left compound xs VtDrop)) = traits xs).
  { intros xs. induction xs as [|b xs IH] using rev_ind; [reflexivity|]. unfold traits. rewrite fold_left_app, flat_map_app. cbn [fold_left flat_map].
    rewrite app_nil_r. fold (traits xs). rewrite <- IH. destruct b; cbn [compound heads rev]; rewrite ?app_nil_r; reflexivity. }
  unfold vtable. destruct bs as [|b bs]; [split; [discriminate|]; split; [intros H; contradiction H; reflexivity|intros [H _]; contradiction H; reflexivity]|].
  destruct (lives_of (b :: bs)) as [|l r] eqn:L.
  - rewrite vtable_loop_traits by exact L. split; [|split; [intros _; split; [discriminate|reflexivity]|discriminate]].
    intros v E. injection E as <-. split; [apply layers_macro|apply T].
  - rewrite vtable_loop_life by (rewrite L; discriminate). split; [discriminate|]. split; [intros H; contradiction H; reflexivity|intros [_ H]; discriminate H].
Qed.
Print Assumptions vtable_exact.
Example vtable_ex : vtable [TTrait (BTrait 1); TTrait BSend; TTrait (BTrait 2)] = Some (VTable 2 (VtSend (VTable 1 VtDrop))) /\
  vtable [TTrait (BTrait 1); TLife Static] = None.
Proof. split; reflexivity. Qed.

(** Different pointers to objects never get the same type. *)
Theorem dynptr_injective_partial : forall t t' o, objects_ok t = true -> objects_ok t' = true -> supported t -> supported t' ->
  dynptr t = Some o -> dynptr t' = Some o -> means t = means t' /\ means t <> None.
Proof.
  intros t t' o P P' H H' D D'. apply (proj2 (dynptr_exact_partial t P)) in H as (o1 & D1 & M1). apply (proj2 (dynptr_exact_partial t' P')) in H' as (o2 & D2 & M2).
  assert (o1 = o) by congruence. assert (o2 = o) by congruence. subst. split; [congruence|]. rewrite M1. discriminate.
Qed.
Print Assumptions dynptr_injective_partial.
Example dynptr_injective_ex : let t := fun l => TPath None false [] 8 false [GType (TObj (TTrait (BTrait 1) :: l))] in
  dynptr (t []) = dynptr (t [TLife Static]) /\ means (t []) = means (t [TLife Static]) /\ dynptr (t []) <> dynptr (t [TLife (Named 0)]).
Proof. cbn zeta. split; [reflexivity|]. split; [reflexivity|discriminate]. Qed.

(** References to objects with two bounds, which must be in parentheses, are refused: &'a (dyn T1 + T2). *)
Theorem dynptr_ref_many_refuted : exists t m, objects_ok t = true /\ means t = Some m /\ m_ptr m = Shared (Named 0) /\ m_life m = Named 0 /\
  m_bounds m = [BTrait 1; BTrait 2] /\ dynptr t = None.
Proof. exists (TRef (Some (Named 0)) false (TParen (TObj [TTrait (BTrait 1); TTrait (BTrait 2)]))). eexists. repeat split. Qed.
Print Assumptions dynptr_ref_many_refuted.
(** Whatever the bounds, no reference to more than one is accepted. *)
Theorem dynptr_ref_one : forall l mut e o, objects_ok (TRef l mut e) = true -> dynptr (TRef l mut e) = Some o -> length (m_bounds (offers o)) = 1.
Proof.
  intros l mut e o P D. destruct e as [q' lead' pre' name' c2' args'|l' mut' e'|bs|t'|t'|n']; try discriminate D.
  pose proof (objects_ref _ _ _ P) as L. unfold dynptr in D. rewrite parse_ref in D. unfold found in D. rewrite L in D.
  cbn [objects_ok one_bound] in P. apply andb_true_iff in P as (P1 & P2). apply Nat.eqb_eq in P1.
  destruct bs as [|[b|x] [|? ?]]; try discriminate P1; [|discriminate P2].
  destruct l, mut; injection D as <-; cbn [offers m_bounds]; rewrite layers_macro; reflexivity.
Qed.
Print Assumptions dynptr_ref_one.
Example dynptr_ref_one_ex : exists o, dynptr (TRef (Some Static) false (TObj [TTrait (BTrait 4)])) = Some o /\ m_bounds (offers o) = [BTrait 4].
Proof. eexists. split; reflexivity. Qed.

(** An elided lifetime becomes ['static]: &dyn T1. *)
Theorem dynptr_elided_refuted : exists t m o, objects_ok t = true /\ means t = Some m /\ m_life m = Elided /\ m_ptr m = Shared Elided /\
  dynptr t = Some o /\ offers o = Meaning (Shared Static) (m_bounds m) Static.
Proof. exists (TRef None false (TObj [TTrait (BTrait 1)])). do 2 eexists. repeat split. Qed.
Print Assumptions dynptr_elided_refuted.

(** A pointer with a second parameter, such as an allocator, is refused: Box<dyn T1, Alloc>. *)
Theorem dynptr_alloc_refuted : exists t m, objects_ok t = true /\ means t = Some m /\ m_ptr m = Owner None false [] 8 [GType (TOther 3)] /\ dynptr t = None.
Proof. exists (TPath None false [] 8 false [GType (TObj [TTrait (BTrait 1)]); GType (TOther 3)]). eexists. repeat split. Qed.
Print Assumptions dynptr_alloc_refuted.

(** The type before a qualified path is dropped: <F as P>::Ptr<dyn T1> becomes P::Ptr<()>. *)
Theorem dynptr_qself_refuted : exists t m o, objects_ok t = true /\ means t = Some m /\ m_ptr m = Owner (Some (TOther 1)) false [5] 6 [] /\
  dynptr t = Some o /\ m_ptr (offers o) = Owner None false [5] 6 [].
Proof. exists (TPath (Some (TOther 1)) false [5] 6 false [GType (TObj [TTrait (BTrait 1)])]). do 2 eexists. repeat split. Qed.
Print Assumptions dynptr_qself_refuted.

(** Objects that come from a [$t:ty] of macro_rules! are refused, and so are pointers. *)
Theorem dynptr_group_refuted : exists t t' m m', objects_ok t = true /\ objects_ok t' = true /\ means t = Some m /\ means t' = Some m' /\
  dynptr (bare t') <> None /\ t' = TGroup (bare t') /\ dynptr t = None /\ dynptr t' = None.
Proof.
  exists (TPath None false [] 8 false [GType (TGroup (TObj [TTrait (BTrait 1)]))]), (TGroup (TPath None false [] 8 false [GType (TObj [TTrait (BTrait 1)])])).
  do 2 eexists. repeat split. discriminate.
Qed.
Print Assumptions dynptr_group_refuted.
