(** C92: declarations with parameters and where clauses. *)
From Coq Require Import List NArith Arith Bool Permutation Lia.
From Verif Require Import M_Generics S_Generics L_Generics.
Import ListNotations.
Local Open Scope N_scope.

(** C92, exactly where it holds: for every declaration that Rust accepts, what [#[stabby::stabby]] generates is
    accepted, keeps the type as declared and implements [IStable] for all of it, if and only if constants
    come after types, a struct with a where clause has no fields in parentheses, an enum
    with [repr(stabby)] has no defaults and a comma after its where clause, and a union or an enum
    with an explicit size has no bounds, no constants, no defaults and no where clause.
    Missing: attributes of parameters, assertions about sizes, whether bounds hold. *)
Theorem generics_exact_partial : forall d, legal d -> (works d <-> supported d).
Proof. exact works_iff. Qed.
Print Assumptions generics_exact_partial.

Ltac one := intros i j n t x m bs y Hi Hj; destruct i as [|[|[|i]]], j as [|[|[|j]]]; cbn in *; discriminate || lia || (destruct i; discriminate) || (destruct j; discriminate).
(** [struct S<'a: .., T: Clone = u8, const N: usize = 3> where T: Copy { x: &'a [T; N], y: T, z: &'a [T; N] }] *)
Definition wide : decl := Decl KStruct 1 [PLt 1 [BUser 1]; PTy 2 [BUser 2] (Some 9); PCst 3 8 (Some 7)] [(XUser 2, [BUser 3])] false (Braces [4; 5; 4]).
(** [enum E<'a, T: Clone, const N: usize> where T: Copy, { A(&'a T), B([T; N]), C(u8) }] *)
Definition tree : decl := Decl (KStabby true) 2 [PLt 1 []; PTy 2 [BUser 2] None; PCst 3 8 None] [(XUser 2, [BUser 3])] true (Braces [4; 5; 6]).
(** [union U<'a, T> { a: &'a T, b: u8 }] *)
Definition flat : decl := Decl KUnion 3 [PLt 1 []; PTy 2 [] None] [] false (Braces [4; 5]).
Example generics_ex : legal wide /\ works wide /\ legal tree /\ works tree /\ legal flat /\ works flat.
Proof.
  assert (legal wide) as A by (split; [reflexivity|intros H; contradiction H; reflexivity]).
  assert (legal tree) as B by (split; [reflexivity|intros _; eexists; reflexivity]).
  assert (legal flat) as C by (split; [reflexivity|intros _; eexists; reflexivity]).
  split; [exact A|]. split; [apply generics_exact_partial; [exact A|]|]. 2: split; [exact B|]; split; [apply generics_exact_partial; [exact B|]|].
  3: split; [exact C|]; apply generics_exact_partial; [exact C|].
  - split; [|right; discriminate]. one.
  - split; [one|].
    split; [repeat constructor|right; reflexivity].
  - split; [repeat constructor|reflexivity].
Qed.
(** C92: where all is well, [IStable] is implemented only under the bounds that make the layout stable: of every type of a field, and of every
    part of an enum with [repr(stabby)]. *)
Theorem generics_bounds_partial : forall d is, legal d -> supported d -> parse (expand d) = Some is ->
  forall ps n xs w, In (Impl ps true n xs w) is -> bounded d w.
Proof. exact supported_bounds. Qed.
Print Assumptions generics_bounds_partial.
Example generics_bounds_ex : legal tree /\ supported tree /\ exists is ps n xs w, parse (expand tree) = Some is /\ In (Impl ps true n xs w) is /\ length w = 9%nat.
Proof.
  split; [split; [reflexivity|intros _; eexists; reflexivity]|]. split; [split; [one|split; [repeat constructor|right; reflexivity]]|].
  do 5 eexists. split; [vm_compute; reflexivity|]. split; [right; right; right; now left|reflexivity].
Qed.
(** What is generated for [flat]. *)
Example generics_flat_ex : parse (expand flat) =
  Some [Def KUnion (User 3) [PLt 1 []; PTy 2 [] None] [] (Braces [4; 5]);
        Impl [PLt 1 []; PTy 2 [] None] true (User 3) [ALt 1; AVar 2] [(XUser 5, [BStable]); (XUser 4, [BStable]); (XLayout, [BStable])]].
Proof. vm_compute. reflexivity. Qed.

(** C92: not for constants before types: [struct S<const N: usize, T> { x: T }] becomes
    [impl<T:, const N: usize,> IStable for S<T, N,>]. *)
Theorem generics_order_refuted : exists d is, legal d /\ d_kind d = KStruct /\ d_where d = [] /\
  parse (expand d) = Some is /\ accepts is = false.
Proof.
  exists (Decl KStruct 1 [PCst 3 8 None; PTy 2 [] None] [] false (Braces [2])). eexists.
  split; [split; [reflexivity|intros H; contradiction H; reflexivity]|]. split; [reflexivity|]. split; [reflexivity|]. split; vm_compute; reflexivity.
Qed.
Print Assumptions generics_order_refuted.
(** C92: not for where clauses of structs with fields in parentheses: [struct S<T>(T) where T: Clone;] becomes
    [struct S<T> where T: Clone (T);]. *)
Theorem generics_tuple_refuted : exists d ts, legal d /\ d_kind d = KStruct /\ d_shape d = Parens ts /\ parse (expand d) = None.
Proof.
  exists (Decl KStruct 1 [PTy 2 [] None] [(XUser 2, [BUser 3])] false (Parens [2])). eexists.
  split; [split; [reflexivity|intros H; contradiction H; reflexivity]|]. split; [reflexivity|]. split; vm_compute; reflexivity.
Qed.
Print Assumptions generics_tuple_refuted.
(** C92: not for where clauses of enums with [repr(stabby)] that have no comma at the end, although with the comma
    all is well: [enum E<T> where T: Clone { A(T), B(u8) }] becomes
    [impl<T:,> IStable for E<T,> where .., T: Clone Result<T, u8>: IStable]. *)
Theorem generics_comma_refuted : exists n ps w s c, let d b := Decl (KStabby c) n ps w b s in
  legal (d false) /\ works (d true) /\ parse (expand (d false)) = None.
Proof.
  exists 1, [PTy 2 [] None], [(XUser 2, [BUser 3])], (Braces [2; 4]), false. cbv zeta.
  assert (forall b, legal (Decl (KStabby false) 1 [PTy 2 [] None] [(XUser 2, [BUser 3])] b (Braces [2; 4]))) as L
    by (intros b; split; [reflexivity|intros _; eexists; reflexivity]).
  split; [apply L|]. split; [|vm_compute; reflexivity]. apply generics_exact_partial; [apply L|].
  split; [one|]. split; [repeat constructor|right; reflexivity].
Qed.
Print Assumptions generics_comma_refuted.
(** C92: not for defaults of enums with [repr(stabby)]: [enum E<T = u8> { A(T), B(u8) }] has [impl<T = u8> E<T,>]. *)
Theorem generics_default_refuted : exists d c is, legal d /\ d_kind d = KStabby c /\ d_where d = [] /\ parse (expand d) = Some is /\ accepts is = false.
Proof.
  exists (Decl (KStabby false) 1 [PTy 2 [] (Some 4)] [] false (Braces [2; 4])). do 2 eexists.
  split; [split; [reflexivity|intros _; eexists; reflexivity]|]. split; [reflexivity|]. split; [reflexivity|]. split; vm_compute; reflexivity.
Qed.
Print Assumptions generics_default_refuted.
(** C92: not for bounds of unions and of enums with an explicit size: [union U<T: Copy> { x: T }] becomes
    [impl<T: Copy> IStable for U<T: Copy>]. *)
Theorem generics_bounds_refuted : forall k, k = KUnion \/ k = KEnum ->
  exists d n bs, d_kind d = k /\ d_params d = [PTy n bs None] /\ legal d /\ parse (expand d) = None.
Proof.
  intros k K. exists (Decl k 1 [PTy 2 [BUser 3] None] [] false (Braces [2])). do 2 eexists.
  split; [reflexivity|]. split; [reflexivity|]. split; [split; [reflexivity|intros _; eexists; reflexivity]|].
  destruct K as [-> | ->]; vm_compute; reflexivity.
Qed.
Print Assumptions generics_bounds_refuted.
(** C92: the where clauses of unions and of enums with an explicit size vanish: [union U<T> where T: Copy { x: T }]
    becomes [union U<T> { x: T }], which Rust accepts as a declaration among the others. *)
Theorem generics_where_refuted : forall k, k = KUnion \/ k = KEnum ->
  exists d is, d_kind d = k /\ legal d /\ d_where d <> [] /\ parse (expand d) = Some is /\ accepts is = true /\
    (forall k' n ps w s, In (Def k' n ps w s) is -> w = []) /\ ~ works d.
Proof.
  intros k K. assert (legal (Decl k 1 [PTy 2 [] None] [(XUser 2, [BUser 3])] false (Braces [2]))) as L
    by (split; [reflexivity|intros _; eexists; reflexivity]).
  exists (Decl k 1 [PTy 2 [] None] [(XUser 2, [BUser 3])] false (Braces [2])).
  exists [Def k (User 1) [PTy 2 [] None] [] (Braces [2]); Impl [PTy 2 [] None] true (User 1) [AVar 2] [(XUser 2, [BStable]); (XLayout, [BStable])]].
  split; [reflexivity|]. split; [exact L|].
  split; [discriminate|]. split; [destruct K as [-> | ->]; vm_compute; reflexivity|].
  split; [destruct K as [-> | ->]; vm_compute; reflexivity|]. split.
  - intros k' n ps w s H. destruct K as [-> | ->]; cbn [In] in H; destruct H as [H|[H|[]]]; congruence.
  - intros W. apply generics_exact_partial in W; [|exact L]. unfold supported in W. destruct K as [-> | ->]; destruct W; discriminate.
Qed.
Print Assumptions generics_where_refuted.
