(** C95: [#[stabby::import]] gives what the block says. *)
From Coq Require Import String.
From Coq Require Import List Arith NArith Bool.
From Verif Require M_FnItem P_FnItem.
From Verif Require Import M_Canary S_Canary L_Canary P_Canary M_ExtBlock S_ExtBlock L_ExtBlock.
Import ListNotations.
Local Open Scope list_scope.

(** C95: for blocks whose types are in scope in module [m]: the attribute does not panic, Rust accepts the module that it generates, and the names that it gives to the user
    are functions with the visibility, safety, convention and types of the block, in its order, if and only if the block is one of those described by [supported].
    Missing: the other blocks, see the refuted theorems. *)
Theorem import_exact_partial : forall e stable w m i args a items ds, fresh w m i -> declared w m (canaried args) a items = Some ds ->
  ((exists g, import e args a items = Some g /\ accepted stable w (m ++ [i]) g = true /\ mapM (provided w (m ++ [i])) (g_groups g) = Some ds) <->
   supported e stable w m args a items).
Proof. exact import_exact_main. Qed.
Print Assumptions import_exact_partial.

(** A crate with module [7], in it type [1]; [u32] is [50], [String] of the prelude [51]; module [7] also has a [use] of another [String]; the root has another type [1]. *)
Definition ex_world : world :=
  World (fun l => option_map snd (find (fun kv => str_eqb l (fst kv)) [([7; 1], 100); ([7; 51], 101); ([1], 102)]%N))
        (fun l => option_map snd (find (fun kv => str_eqb l (fst kv)) [([50], 1); ([51], 2)]%N))
        (fun _ => None).
Example ex_fresh : fresh ex_world [7%N] 9%N.
Proof. intros l. reflexivity. Qed.
Definition T (p : path) : ty := Ty 0 [p] false.
Definition Fn0 (ins : list ty) (out : option ty) : fdecl := FDecl 1 true false false (str "f") [] ins out false.
Definition u32 : ty := T (PName [50%N]).
Definition ok_args : list (list N * list N) := [(str "name", str "lib")].
Definition can_args : list (list N * list N) := [(str "name", str "lib"); (str "canaries", str "")].

Definition ex_items : list fitem := [IFn (Fn0 [T (PCrate [7; 1]%N); u32] (Some u32)); IFn (FDecl 0 true true false (str "g") [] [] None false)].
Example import_exact_ex : supported env1 (fun _ => true) ex_world [7%N] ok_args None ex_items /\
  declared ex_world [7%N] false None ex_items =
    Some [Imp (str "f") 1 false (str "C") [RTy 0 [100%N] false; RTy 0 [1%N] false] (Some (RTy 0 [1%N] false)) false; Imp (str "g") 0 true (str "C") [] None false].
Proof.
  split; [|reflexivity]. assert (D : declared ex_world [7%N] (canaried ok_args) None ex_items <> None) by discriminate.
  destruct (declared ex_world [7%N] (canaried ok_args) None ex_items) as [ds|] eqn:E; [|contradiction D; reflexivity].
  apply (import_exact_partial env1 (fun _ => true) ex_world [7%N] 9%N ok_args None ex_items ds ex_fresh E).
  eexists. split; [reflexivity|]. split; [vm_compute; reflexivity|]. vm_compute in E. injection E as <-. vm_compute. reflexivity.
Qed.
Definition ex_items2 : list fitem := [IFn (Fn0 [T (PCrate [7; 1]%N); u32] (Some u32)); IFn (FDecl 0 true false false (str "g") [] [] None false)].
Example import_exact_canaried_ex : exists g, import env1 can_args (Some (str "system")) ex_items2 = Some g /\
  accepted (fun _ => false) ex_world [7; 9]%N g = true /\
  mapM (provided ex_world [7; 9]%N) (g_groups g) = declared ex_world [7%N] true (Some (str "system")) ex_items2 /\ declared ex_world [7%N] true (Some (str "system")) ex_items2 <> None.
Proof. eexists. split; [reflexivity|]. split; [vm_compute; reflexivity|]. split; [vm_compute; reflexivity|]. vm_compute. discriminate. Qed.

(** C95: without canaries, what the module asks of the linker for a function is what [#[stabby::export]] defines for a function of that name. *)
Theorem import_export_symbols : forall e args a items g x f y, import e args a items = Some g -> canaried args = false -> In x (g_groups g) ->
  M_FnItem.export f = Some y -> str (M_FnItem.f_name f) = u_as (g_use x) ->
  required x = [str (M_FnItem.g_name (M_FnItem.x_report y)); str (M_FnItem.g_name (M_FnItem.x_stabbied y))].
Proof.
  intros e args a items g x f y H C I E N. destruct (checked_links _ _ _ _ _ _ H C I) as [R _]. destruct (export_names _ _ E) as [A B].
  rewrite R, A, B, N. reflexivity.
Qed.
Print Assumptions import_export_symbols.
Example import_export_symbols_ex : exists g x y, import env1 ok_args None ex_items = Some g /\ g_groups g = [x; y] /\
  required x = [str "f_stabbied_v3_report"; str "f_stabbied_v3"] /\
  exists z, M_FnItem.export (M_FnItem.Fn false false false M_FnItem.AExtern "f" [] [] [] None []) = Some z /\
    str (M_FnItem.g_name (M_FnItem.x_stabbied z)) = str "f_stabbied_v3".
Proof. do 3 eexists. split; [reflexivity|]. split; [reflexivity|]. split; [reflexivity|]. eexists. split; reflexivity. Qed.

(** C95: with canaries, the block links against [#[stabby::export(canaries)]] functions of the same names if and only if both crates agree on each canary that is asked for. *)
Theorem import_canaries_link : forall e e' args a items g x r rs c, good_env e -> good_env e' ->
  import e' args a items = Some g -> rev (requests args) = r :: rs -> from_str r = Some c ->
  Forall (fun it => present it = true) items -> In x (g_groups g) ->
  (links (required x) (export_canaried e (u_as (g_use x))) = true <-> forall k, selects c k -> same_payload e e' k).
Proof.
  intros e e' args a items g x r rs c G G' H R Ec P I. destruct (canaried_links _ _ _ _ _ _ _ _ _ H R Ec P I) as [A _].
  apply (canary_link_exact_partial e e' _ c _ G G' (from_str_lt _ _ Ec) A).
Qed.
Print Assumptions import_canaries_link.
Example import_canaries_link_ex : exists g x y, import env1 can_args None ex_items2 = Some g /\ g_groups g = [x; y] /\ length (required x) = 7 /\
  links (required x) (export_canaried env1 (str "f")) = true /\ links (required x) (export_canaried env2 (str "f")) = false.
Proof. do 3 eexists. split; [reflexivity|]. split; [reflexivity|]. repeat split; vm_compute; reflexivity. Qed.

Definition one (d : fdecl) : list fitem := [IFn d].
(** What the user's module says, and what becomes of it. *)
Definition refused e stable w m i args a items : Prop :=
  fresh w m i /\ declared w m (canaried args) a items <> None /\
  match import e args a items with Some g => accepted stable w (m ++ [i]) g = false | None => True end.
Definition differs e stable w m i args a items : Prop :=
  fresh w m i /\ exists g ds, declared w m (canaried args) a items = Some ds /\ import e args a items = Some g /\ accepted stable w (m ++ [i]) g = true /\
  exists ds', mapM (provided w (m ++ [i])) (g_groups g) = Some ds' /\ ds' <> ds.
Ltac refuse := split; [exact ex_fresh|]; split; [vm_compute; discriminate|vm_compute; (reflexivity || exact I)].

(** C95 for types of the user's module by name: they are out of scope in the generated one. *)
Theorem import_scope_refuted : exists e stable w m i, refused e stable w m i ok_args None (one (Fn0 [T (PName [1%N])] None)).
Proof. exists env1, (fun _ => true), ex_world, [7%N], 9%N. refuse. Qed.
Print Assumptions import_scope_refuted.
(** C95 for types that hide one of the prelude: the generated module has that of the prelude. *)
Theorem import_shadow_refuted : exists e stable w m i, differs e stable w m i ok_args None (one (Fn0 [T (PName [51%N])] None)).
Proof.
  exists env1, (fun _ => true), ex_world, [7%N], 9%N. split; [exact ex_fresh|]. do 2 eexists. split; [reflexivity|]. split; [reflexivity|].
  split; [vm_compute; reflexivity|]. eexists. split; [reflexivity|]. discriminate.
Qed.
Print Assumptions import_shadow_refuted.
(** C95 for [super::..]: it is the user's module instead of its parent. *)
Theorem import_super_refuted : exists e stable w m i, differs e stable w m i ok_args None (one (Fn0 [T (PSuper 0 [1%N])] None)).
Proof.
  exists env1, (fun _ => true), ex_world, [7%N], 9%N. split; [exact ex_fresh|]. do 2 eexists. split; [reflexivity|]. split; [reflexivity|].
  split; [vm_compute; reflexivity|]. eexists. split; [reflexivity|]. discriminate.
Qed.
Print Assumptions import_super_refuted.
(** C95 without the name of a library: the attribute that is generated for the linker is not complete. *)
Theorem import_link_refuted : exists e stable w m i, refused e stable w m i [] None (one (Fn0 [u32] None)).
Proof. exists env1, (fun _ => true), ex_world, [7%N], 9%N. refuse. Qed.
Print Assumptions import_link_refuted.
(** C95 for [extern "C-unwind"] blocks without canaries: [CheckedImport::new] takes functions in convention C. *)
Theorem import_unwind_refuted : exists e stable w m i, refused e stable w m i ok_args (Some (str "C-unwind")) (one (Fn0 [u32] None)).
Proof. exists env1, (fun _ => true), ex_world, [7%N], 9%N. refuse. Qed.
Print Assumptions import_unwind_refuted.
(** C95 for statics: the attribute panics. *)
Theorem import_static_refuted : exists e w m, declared w m false None [IStatic (str "s") u32] <> None /\ import e ok_args None [IStatic (str "s") u32] = None.
Proof. exists env1, ex_world, [7%N]. split; [vm_compute; discriminate|reflexivity]. Qed.
Print Assumptions import_static_refuted.
(** C95 for functions with lifetimes: they are written where types have none. *)
Theorem import_lifetimes_refuted : exists e stable w m i, refused e stable w m i ok_args None (one (FDecl 1 true false false (str "f") [0%N] [u32] None false)).
Proof. exists env1, (fun _ => true), ex_world, [7%N], 9%N. refuse. Qed.
Print Assumptions import_lifetimes_refuted.
(** C95 for functions whose [#[cfg(..)]] does not hold: without canaries they are imported, with canaries the module is refused. *)
Theorem import_cfg_refuted : exists e stable w m i,
  differs e stable w m i ok_args None (one (FDecl 1 false false false (str "f") [] [u32] None false)) /\
  refused e stable w m i can_args None (one (FDecl 1 false false false (str "f") [] [u32] None false)).
Proof.
  exists env1, (fun _ => true), ex_world, [7%N], 9%N. split; [|refuse]. split; [exact ex_fresh|]. do 2 eexists. split; [reflexivity|]. split; [reflexivity|].
  split; [vm_compute; reflexivity|]. eexists. split; [reflexivity|]. discriminate.
Qed.
Print Assumptions import_cfg_refuted.
(** C95 for [...]: without canaries it is forgotten. *)
Theorem import_variadic_refuted : exists e stable w m i, differs e stable w m i ok_args None (one (FDecl 1 true false false (str "f") [] [u32] None true)).
Proof.
  exists env1, (fun _ => true), ex_world, [7%N], 9%N. split; [exact ex_fresh|]. do 2 eexists. split; [reflexivity|]. split; [reflexivity|].
  split; [vm_compute; reflexivity|]. eexists. split; [reflexivity|]. discriminate.
Qed.
Print Assumptions import_variadic_refuted.
