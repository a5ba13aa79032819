(** C110: trait objects find their vtables on every toolchain, and where the user chose. *)
From Coq Require Import String.
From Coq Require Import NArith List Bool Lia.
From Verif Require Import M_BuildRs M_VtCfg S_VtCfg L_VtCfg.
Import ListNotations.
Local Open Scope string_scope.
Local Open Scope N_scope.
Local Open Scope list_scope.

(** The full claim: [forall t ch given c a, supported t -> default_allocator given c = Some a ->
    promised t ch (enabled a) (compile t (options ch) given c)]. It holds of the choices [Unset] and [BTree] ... *)
Theorem vt_config_partial : forall t ch given c a,
  supported t -> default_allocator given c = Some a -> ch = Unset \/ ch = BTree ->
  promised t ch (enabled a) (compile t (options ch) given c).
Proof.
  intros t ch given c a Sp D Hc. split; intro A.
  - exact (unaffected_compile t _ given c a Sp A D).
  - rewrite (affected_compile t _ given c a A D). destruct Hc as [-> | ->]; destruct (enabled a); reflexivity.
Qed.
Print Assumptions vt_config_partial.

(** ... and of no other on the toolchains that are affected: the choice of a vector does not compile at all,
    and the refusal to allocate is not heard. ([cfg(not(stabby_vtables))] holds whatever value is given.) *)
Theorem vt_config_refuted : exists t ch given c a,
  supported t /\ default_allocator given c = Some a /\ ~ promised t ch (enabled a) (compile t (options ch) given c).
Proof.
  exists (Tool Stable 78 0 false), Vector, None, (Config true false false), RustAlloc.
  split; [intro H; discriminate H | ]. split; [vm_compute; reflexivity | ].
  intros [_ H]. assert (A : affected (Tool Stable 78 0 false)) by (split; [discriminate | vm_compute; discriminate]).
  specialize (H A). vm_compute in H. discriminate H.
Qed.
Print Assumptions vt_config_refuted.
Theorem vt_vector_broken : forall t given c a,
  affected t -> default_allocator given c = Some a -> enabled a = true -> compile t (options Vector) given c = Broken.
Proof. intros t given c a A D E. rewrite (affected_compile t _ given c a A D), E. reflexivity. Qed.
Print Assumptions vt_vector_broken.
Theorem vt_no_alloc_unheard : forall t given c a,
  affected t -> default_allocator given c = Some a ->
  compile t (options NoAlloc) given c = if enabled a then Built InTree else Refused.
Proof. intros t given c a A D. rewrite (affected_compile t _ given c a A D). destruct (enabled a); reflexivity. Qed.
Print Assumptions vt_no_alloc_unheard.

(** A vector is had, and the refusal heard, by giving the name without a value as well. *)
Theorem vt_bare_name : forall t given c a,
  affected t -> default_allocator given c = Some a ->
  compile t [None; Some "vec"] given c = (if enabled a then Built InVec else Refused) /\
  compile t [None] given c = Refused.
Proof.
  intros t given c a A D. rewrite !(affected_compile t _ given c a A D). destruct (enabled a); split; reflexivity.
Qed.
Print Assumptions vt_bare_name.

(** Without allocator, an affected toolchain refuses the crate whatever was chosen; the others are not concerned by any choice. *)
Theorem vt_disabled : forall t cf given c,
  affected t -> default_allocator given c = Some Disabled -> compile t cf given c = Refused.
Proof. intros t cf given c A D. rewrite (affected_compile t cf given c _ A D). reflexivity. Qed.
Print Assumptions vt_disabled.
Theorem vt_in_place : forall t cf given c a,
  supported t -> ~ affected t -> default_allocator given c = Some a -> compile t cf given c = Built InPlace.
Proof. intros t cf given c a Sp A D. exact (unaffected_compile t cf given c a Sp A D). Qed.
Print Assumptions vt_in_place.

(** Nightly toolchains before 1.78 define the trait twice. *)
Theorem vt_old_nightly : forall t cf given c, t_chan t = Nightly -> t_minor t < 78 -> compile t cf given c = Broken.
Proof.
  intros t cf given c Ni M. unfold compile. destruct (default_allocator given c); [ | reflexivity]. cbv zeta.
  assert (Si : since 78 0 t = false) by (rewrite since_78; apply N.leb_gt; exact M).
  apply is_nightly_spec in Ni. unfold ctors. rewrite Ni, Si. cbn [negb app].
  destruct (statics t cf (alloc_on given c)) as [ | ? [ | ? ?]]; reflexivity.
Qed.
Print Assumptions vt_old_nightly.

(** Whatever compiles, on any toolchain with any options, shows the functions of the vtable in their order. *)
Theorem vt_shows_functions : forall t cf given c p v,
  compile t cf given c = Built p -> vtable_shows t cf given c v = Some (functions v).
Proof. exact built_shows. Qed.
Print Assumptions vt_shows_functions.

(** A vtable of two traits in four configurations. *)
Example vt_config_cases :
  let c := Config true false false in
  let v := VSend (VTab (VFns [4]) (VTab (VFns [2; 3]) (VFns [1]))) in
  compile (Tool Stable 77 2 false) (options Vector) None c = Built InPlace /\
  compile (Tool Nightly 85 0 true) (options BTree) None c = Built InPlace /\
  compile (Tool Stable 78 0 false) (options Unset) None c = Built InTree /\
  compile (Tool Beta 90 0 false) (options BTree) (Some ["LibcAlloc"]) (Config false true false) = Built InTree /\
  compile (Tool Stable 90 0 false) (options Unset) None (Config false false false) = Refused /\
  compile (Tool Stable 90 0 false) (options Vector) None c = Broken /\
  compile (Tool Nightly 77 0 false) (options Unset) None c = Broken /\
  vtable_shows (Tool Stable 77 2 false) [] None c v = Some [1; 2; 3; 4] /\
  vtable_shows (Tool Nightly 85 0 true) [] None c v = Some [1; 2; 3; 4] /\
  vtable_shows (Tool Stable 90 0 false) [] None c v = Some [1; 2; 3; 4].
Proof. vm_compute. repeat (split; [reflexivity | ]). reflexivity. Qed.
(** The hypotheses of the theorems are met. *)
Example vt_config_hypotheses :
  affected (Tool Beta 80 1 false) /\ ~ affected (Tool Nightly 80 0 true) /\ supported (Tool Nightly 80 0 true) /\
  default_allocator None (Config false true false) = Some LibcAlloc /\
  default_allocator None (Config false false true) = Some Disabled.
Proof.
  split; [split; [discriminate | vm_compute; discriminate] | ].
  split; [intros [H _]; apply H; reflexivity | ].
  split; [intros _; split; [vm_compute; discriminate | reflexivity] | ].
  split; vm_compute; reflexivity.
Qed.
