(** C82, C83: types that mention themselves (stabby-macros/src/lib.rs [Unself], stabby-abi/src/istable.rs [_Self]). *)
From Coq Require Import Ascii String.
From Coq Require Import List Arith NArith Bool Lia.
From Verif Require Import M_Layout M_Report M_Decl M_SelfRep S_SelfRep L_Report L_Decl L_SelfRep L_SelfSep L_SelfMore.
Import ListNotations.

Definition u8 := TCon (CPrim PU8) [].
Definition u16 := TCon (CPrim PU16) [].
Definition ref (t : type) := TCon (CPtr KRef) [t].
Definition path (x : string) (l : list type) := TPath (lit x) l.
Arguments path _%string _.
(** [struct Pair<A, B> { a: A, b: B }] *)
Definition pair_decl := Decl (lit "Pair") (lit "app") 0 KStruct [(lit "A", None); (lit "B", None)] [(lit "a", path "A" []); (lit "b", path "B" [])].
(** [struct Node { v: Pair<u8, &Node>, next: &Self }] *)
Definition node := Decl (lit "Node") (lit "app") 0 KStruct [] [(lit "v", path "Pair" [u8; ref (path "Node" [])]); (lit "next", ref (path "Self" []))].
(** [struct Tree<T> { v: T, left: &Self, node: Pair<&Node, T> }] *)
Definition tree_decl := Decl (lit "Tree") (lit "app") 0 KStruct [(lit "T", None)]
  [(lit "v", path "T" []); (lit "left", ref (path "Self" [])); (lit "node", path "Pair" [ref (path "Node" []); path "T" []])].
Definition app := [tree_decl; node; pair_decl].
Definition app_rec (x m : ident) : bool := bytes_eqb x (lit "Node") || bytes_eqb x (lit "Tree").
Definition tree_u16 := path "Tree" [u16].
(** The same types, where the references of [Node] have been spelled in other ways. *)
Definition node' := Decl (lit "Node") (lit "app") 0 KStruct [] [(lit "v", path "Pair" [u8; ref (path "Self" [])]); (lit "next", ref (path "Node" []))].
Definition app' := [pair_decl; node'; tree_decl].

(** C82: reports tell types apart: two types, of two programs, with the same report are made of the same things, at any depth, though the report is finite.
    Missing: types that do not tell their arguments ([PhantomData], wrappers, core's [Result]), types that mention themselves given an argument that
    mentions the enclosing type, and a name with parameters used without arguments. *)
Theorem reports_identify_types_partial : forall a rec E E' n n' t t' r,
  good_decls rec E = true -> good_decls rec E' = true ->
  tame rec E n t = true -> tame rec E' n' t' = true ->
  all_telling t = true -> all_telling t' = true -> avoids self_name t = true -> avoids self_name t' = true ->
  type_report a E n t = Some r -> type_report a E' n' t' = Some r -> same_type E E' t t'.
Proof.
  intros a rec E E' n n' t t' r G G' T T' A A' V V' R R' k.
  rewrite <- (sub_avoids t t V), <- (sub_avoids t' t' V').
  apply (key a rec E E' (good_egood _ _ G) (good_egood _ _ G') k n n' t t' r t t' n n' r); auto; repeat split; assumption.
Qed.
Print Assumptions reports_identify_types_partial.
Example reports_identify_types_ex :
  good_decls app_rec app = true /\ good_decls app_rec app' = true /\ tame app_rec app 9 tree_u16 = true /\ tame app_rec app' 9 tree_u16 = true /\
  all_telling tree_u16 = true /\ avoids self_name tree_u16 = true /\
  exists r, type_report 16 app 9 tree_u16 = Some r /\ type_report 16 app' 9 tree_u16 = Some r /\ r <> Rep [] [] 0 KStruct [].
Proof.
  repeat split; try (vm_compute; reflexivity). eexists. split; [vm_compute; reflexivity|]. split; [vm_compute; reflexivity|discriminate].
Qed.

(** C82, refuted: [G<T> { y: &T }] and [G<T> { y: &Self }], used by [Foo { x: &G<Foo> }], make two [Foo]s with the same report.  *)
Definition g_arg (y : type) := Decl (lit "G") (lit "app") 0 KStruct [(lit "T", None)] [(lit "y", ref y)].
Definition foo_g := Decl (lit "Foo") (lit "app") 0 KStruct [] [(lit "x", ref (path "G" [path "Foo" []]))].
Theorem self_argument_refuted : exists E E' t,
  forallb proper E = true /\ forallb proper E' = true /\ forallb no_default_self E = true /\ forallb no_default_self E' = true /\
  all_telling t = true /\ avoids self_name t = true /\
  (exists r, type_report 16 E 9 t = Some r /\ type_report 16 E' 9 t = Some r) /\ ~ same_type E E' t t.
Proof.
  exists [foo_g; g_arg (path "T" [])], [foo_g; g_arg (path "Self" [])], (path "Foo" []).
  repeat split; try (vm_compute; reflexivity).
  - eexists. split; vm_compute; reflexivity.
  - intros S. destruct (S 5) as (T & T1 & T2). vm_compute in T1. injection T1 as <-. vm_compute in T2. discriminate.
Qed.
Print Assumptions self_argument_refuted.
(** C82, refuted: in [Foo<T = u8> { a: T, x: &Foo }], [Foo] is [Foo<u8>]; its report takes it for [Self]. *)
Definition foo_def (x : type) := Decl (lit "Foo") (lit "app") 0 KStruct [(lit "T", Some u8)] [(lit "a", path "T" []); (lit "x", ref x)].
Theorem default_argument_refuted : exists E E' t,
  forallb proper E = true /\ forallb proper E' = true /\ all_telling t = true /\ avoids self_name t = true /\
  (exists r, type_report 16 E 9 t = Some r /\ type_report 16 E' 9 t = Some r) /\ ~ same_type E E' t t.
Proof.
  exists [foo_def (path "Foo" [])], [foo_def (path "Self" [])], (path "Foo" [u16]).
  repeat split; try (vm_compute; reflexivity).
  - eexists. split; vm_compute; reflexivity.
  - intros S. destruct (S 4) as (T & T1 & T2). vm_compute in T1. injection T1 as <-. vm_compute in T2. discriminate.
Qed.
Print Assumptions default_argument_refuted.
(** C82, refuted: [Handle<T> { id: u16, of: PhantomData<T> }] has the same report, and so the same ID, for all [T]; and so has core's [Result<&u8, T>] for all [T]
    without bytes. *)
Definition handle := Decl (lit "Handle") (lit "app") 0 KStruct [(lit "T", None)] [(lit "id", u16); (lit "of", TCon CPhantom [path "T" []])].
Definition empty (x : string) := Decl (lit x) (lit "app") 0 KStruct [] [].
Arguments empty _%string.
Theorem phantom_reports_refuted : exists E t t',
  forallb proper E = true /\ forallb no_default_self E = true /\ avoids self_name t = true /\ avoids self_name t' = true /\
  (exists r, type_report 16 E 9 t = Some r /\ type_report 16 E 9 t' = Some r) /\ ~ same_type E E t t'.
Proof.
  exists [handle; empty "Door"; empty "Window"], (path "Handle" [path "Door" []]), (path "Handle" [path "Window" []]).
  repeat split; try (vm_compute; reflexivity).
  - eexists. split; vm_compute; reflexivity.
  - intros S. destruct (S 3) as (T & T1 & T2). vm_compute in T1. injection T1 as <-. vm_compute in T2. discriminate.
Qed.
Print Assumptions phantom_reports_refuted.
Theorem core_result_reports_refuted : exists E t t',
  forallb proper E = true /\ forallb no_default_self E = true /\ avoids self_name t = true /\ avoids self_name t' = true /\
  (exists r, type_report 16 E 9 t = Some r /\ type_report 16 E 9 t' = Some r) /\ ~ same_type E E t t'.
Proof.
  exists [empty "Denied"; empty "Missing"], (TCon CCoreOk [ref u8; path "Denied" []]), (TCon CCoreOk [ref u8; path "Missing" []]).
  repeat split; try (vm_compute; reflexivity).
  - eexists. split; vm_compute; reflexivity.
  - intros S. destruct (S 3) as (T & T1 & T2). vm_compute in T1. injection T1 as <-. vm_compute in T2. discriminate.
Qed.
Print Assumptions core_result_reports_refuted.

(** C82: every type has a report, if declarations can be ordered so that, [Self] and bare names of the declared type apart, each only uses earlier ones. *)
Theorem reports_exist_partial : forall a E rank t,
  forallb proper E = true -> ordered E rank = true -> fits E t = true -> exists n r, type_report a E n t = Some r.
Proof.
  intros a E rank t P O F. rewrite forallb_forall in P. refine (exist a E rank _ O t F). intros d I. apply proper_good. auto.
Qed.
Print Assumptions reports_exist_partial.
Definition app_rank (x : ident) : nat := if bytes_eqb x (lit "Tree") then 2 else if bytes_eqb x (lit "Node") then 1 else 0.
Example reports_exist_ex : forallb proper app = true /\ ordered app app_rank = true /\ fits app (path "Tree" [path "Tree" [path "Node" []]]) = true.
Proof. repeat split; vm_compute; reflexivity. Qed.
(** C82, refuted: a generic type that calls itself by its name and parameters has no report. *)
Definition tree_named := Decl (lit "Tree") (lit "app") 0 KStruct [(lit "T", None)] [(lit "v", path "T" []); (lit "left", ref (path "Tree" [path "T" []]))].
Theorem generic_recursion_refuted : exists E t, forallb proper E = true /\ fits E t = true /\ (forall n, exists T, unroll E n t = Some T) /\
  forall n, type_report 16 E n t = None.
Proof.
  exists [tree_named], (path "Tree" [u8]). repeat split; try (vm_compute; reflexivity).
  - assert (U : forall n, exists T, unroll [tree_named] n u8 = Some T) by (intros [|n]; eexists; reflexivity).
    induction n as [n IH] using lt_wf_ind. destruct n as [|n]; [eexists; reflexivity|].
    change (unroll [tree_named] (S n) (path "Tree" [u8])) with
      (option_map (Declared (lit "Tree") (lit "app") 0 KStruct)
        (match option_map (pair (lit "v")) (unroll [tree_named] n u8),
               match option_map (pair (lit "left")) (unroll [tree_named] n (ref (path "Tree" [u8]))) with Some y => Some [y] | None => None end with
         | Some y, Some ys => Some (y :: ys) | _, _ => None end)).
    destruct (U n) as [T1 ->]. destruct n as [|n]; [eexists; reflexivity|].
    change (unroll [tree_named] (S n) (ref (path "Tree" [u8]))) with
      (option_map (Built (CPtr KRef)) (match unroll [tree_named] n (path "Tree" [u8]) with Some y => Some [y] | None => None end)).
    destruct (IH n ltac:(lia)) as [T2 ->]. eexists. reflexivity.
  - induction n as [n IH] using lt_wf_ind. destruct n as [|n]; [reflexivity|].
    change (type_report 16 [tree_named] (S n) (path "Tree" [u8])) with
      (option_map (macro_report (lit "Tree") (lit "app") 0 KStruct)
        (match option_map (pair (lit "v")) (type_report 16 [tree_named] n u8),
               match option_map (pair (lit "left")) (type_report 16 [tree_named] n (ref (path "Tree" [u8]))) with Some y => Some [y] | None => None end with
         | Some y, Some ys => Some (y :: ys) | _, _ => None end)).
    assert (X : type_report 16 [tree_named] n (ref (path "Tree" [u8])) = None).
    { destruct n as [|n]; [reflexivity|].
      change (type_report 16 [tree_named] (S n) (ref (path "Tree" [u8]))) with
        (match match type_report 16 [tree_named] n (path "Tree" [u8]) with Some y => Some [y] | None => None end with
         | Some rs => con_report 16 (CPtr KRef) rs | None => None end).
      rewrite IH by lia. reflexivity. }
    rewrite X. cbn [option_map]. destruct (option_map (pair (lit "v")) (type_report 16 [tree_named] n u8)); reflexivity.
Qed.
Print Assumptions generic_recursion_refuted.

(** C83: the layout that the macro computes with placeholders is that of the type, whenever it has one: whatever layouts are and however those of declared and
    built-in types are computed.  [find_decl]: no name is declared twice. *)
Theorem recursive_layouts : forall (L : Type) (combined : decl -> list L -> L) (built : con -> list L -> L) (thin : con -> L) E n t l,
  forallb proper E = true -> forallb no_default_self E = true -> (forall d, In d E -> find_decl E (d_name d) = Some d) ->
  true_layout combined built thin E n t = Some l -> macro_layout combined built thin E n t = Some l.
Proof.
  intros L combined built thin E n t l P D F T. rewrite forallb_forall in P, D.
  refine (layouts combined built thin E _ _ F n t t l (matches_refl _ t) T).
  - intros d I. apply proper_good. auto.
  - intros d I NP f If. specialize (D d I). unfold no_default_self in D. destruct (d_params d); [contradiction|]. rewrite forallb_forall in D.
    apply D in If. now apply negb_true_iff.
Qed.
Print Assumptions recursive_layouts.
(** With stabby's layouts on 64-bit machines. *)
Definition con_ty (c : con) (l : list ty) : ty := match c, l with CPrim p, _ => prim_ty (Tgt 8 8) 16 p | CPtr k, _ => ptr_ty (Tgt 8 8) k | _, [x] => x | _, _ => TUnit end.
Example recursive_layouts_ex : forallb proper app = true /\ forallb no_default_self app = true /\
  (forall d, In d app -> find_decl app (d_name d) = Some d) /\
  option_map (fun t => option_map dsize (layout t)) (true_layout (fun _ => struct_ty) con_ty (fun c => con_ty c []) app 9 tree_u16) = Some (Some 32) /\
  option_map (fun t => option_map dsize (layout t)) (true_layout (fun _ => struct_ty) con_ty (fun c => con_ty c []) app 9 (path "Node" [])) = Some (Some 24).
Proof. repeat split; try (vm_compute; reflexivity). intros d [<-|[<-|[<-|[]]]]; vm_compute; reflexivity. Qed.
