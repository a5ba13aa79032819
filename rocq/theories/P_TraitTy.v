(** C96: the types of a trait's signatures come through [#[stabby::stabby]] unchanged. *)
From Coq Require Import List NArith.
From Verif Require M_Trait.
From Verif Require Import M_TraitTy S_TraitTy L_TraitTy.
Import ListNotations.
Local Open Scope N_scope.

(** C96: a type that is written in a signature is taken, and what is printed for it is parsed as a type with the same meaning, if and only if it is one of those described by [supported].
    Missing: the other types, see the refuted theorems. *)
Theorem trait_types_exact_partial : forall t, (exists T t', from t = Some T /\ parses (print T) t' /\ meaning t' = meaning t) <-> supported t.
Proof. exact exact_main. Qed.
Print Assumptions trait_types_exact_partial.

Definition name (i : N) : sty := SPath false (PCons i ANone PNil).
(** [&'a mut ::core::option::Option<Self::Item<'b>>], [<T as Tr<U>>::Out], [for<..> fn( *const T, [U; 4]) -> !], [fn()], and nested. *)
Definition ex_ref : sty :=
  SRef (Some 3) true (SPath true (PCons 10 ANone (PCons 11 ANone (PCons 12 (AAngle false (GTy (SPath false (PCons SELF ANone (PCons 13 (AAngle false (GLt 4 GNil)) PNil))) GNil)) PNil)))).
Definition ex_qual : sty := SQual (name 14) false (PCons 15 (AAngle false (GTy (name 16) GNil)) PNil) (PCons 17 ANone PNil).
Definition ex_fn : sty := SFn 5 (TCons (SPtr false ex_qual) (TCons (SGroup (SArr ex_ref 4)) TNil)) false (OTy SNever).
Example trait_types_ex : supported ex_fn /\ supported (SFn 1 TNil false ONone) /\
  exists T, from ex_fn = Some T /\ parses (print T) (clean ex_fn) /\ length (print T) = 4%nat /\ clean ex_fn <> ex_fn.
Proof.
  split; [|split].
  - apply trait_types_exact_partial. exists (match from ex_fn with Some T => T | None => Never end), (clean ex_fn). split; [reflexivity|]. split; [apply comes_back; reflexivity|reflexivity].
  - cbn. auto.
  - eexists. split; [reflexivity|]. split; [apply comes_back; reflexivity|]. split; [reflexivity|]. vm_compute. discriminate.
Qed.

(** C96: two types of signatures have the same tokens only if they are the same to the macro, so that comparing the tokens (traits.rs:45-48) never takes one for the other; in particular,
    the comparison of [M_Trait] is that of the tokens. *)
Theorem trait_types_tokens : forall t t' T T', from t = Some T -> from t' = Some T' -> print T = print T' -> T = T'.
Proof. exact print_inj. Qed.
Print Assumptions trait_types_tokens.
Theorem trait_types_same : forall t t' T T', from t = Some T -> from t' = Some T' -> plain T -> plain T' -> (M_Trait.same (emb T) (emb T') = true <-> print T = print T').
Proof. exact same_print. Qed.
Print Assumptions trait_types_same.
Example trait_types_same_ex : exists T T', from ex_fn = Some T /\ from (clean ex_fn) = Some T' /\ plain T /\ plain T' /\ print T = print T' /\
  exists U, from ex_ref = Some U /\ plain U /\ print T <> print U.
Proof.
  do 2 eexists. split; [reflexivity|]. split; [reflexivity|]. split; [cbn; repeat split; discriminate|]. split; [cbn; repeat split; discriminate|]. split; [reflexivity|].
  eexists. split; [reflexivity|]. split; [cbn; repeat split; discriminate|]. discriminate.
Qed.

(** C96 for [<T as ::krate::Trait>::A]: the [::] is lost, and the tokens mean the trait of the module [krate] of the scope. *)
Theorem trait_types_colon_refuted : exists T t',
  from (SQual (name 14) true (PCons 10 ANone (PCons 15 ANone PNil)) (PCons 17 ANone PNil)) = Some T /\ parses (print T) t' /\
  t' = SQual (name 14) false (PCons 10 ANone (PCons 15 ANone PNil)) (PCons 17 ANone PNil).
Proof. do 2 eexists. split; [reflexivity|]. split; [apply (comes_back (SQual (name 14) true (PCons 10 ANone (PCons 15 ANone PNil)) (PCons 17 ANone PNil))); reflexivity|reflexivity]. Qed.
Print Assumptions trait_types_colon_refuted.
(** C96 for types in parentheses: of two types that mean the same, one is taken and the other not. *)
Theorem trait_types_paren_refuted : exists t t', meaning t = meaning t' /\ supported t /\ from t' = None.
Proof. exists (SRef None false (name 14)), (SRef None false (SParen (name 14))). split; [reflexivity|]. split; [cbn; right; repeat split; auto; discriminate|reflexivity]. Qed.
Print Assumptions trait_types_paren_refuted.
(** C96 for [<Self as Tr>::A] and [<T>::A], whichever the names are: the macro panics on types that the compiler parses. *)
Theorem trait_types_qself_refuted : exists t u, (forall i j, exists l, from (t i j) = None /\ parses l (t i j)) /\ (forall i j, exists l, from (u i j) = None /\ parses l (u i j)) /\
  t = (fun i j => SQual (name SELF) false (PCons i ANone PNil) (PCons j ANone PNil)) /\ u = (fun i j => SQual (name i) false PNil (PCons j ANone PNil)).
Proof.
  do 2 eexists. split; [|split; [|split; reflexivity]]; intros i j.
  - exists [KLess; KId SELF; KAs; KId i; KGreater; KColon2; KId j]. split; [reflexivity|]. exists 5%nat. intros k Hk. do 5 (destruct k as [|k]; [exfalso; do 5 (apply le_S_n in Hk || inversion Hk)|]).
    reflexivity.
  - exists [KLess; KId i; KGreater; KColon2; KId j]. split; [cbn; destruct (i =? SELF); reflexivity|]. exists 5%nat. intros k Hk.
    do 5 (destruct k as [|k]; [exfalso; do 5 (apply le_S_n in Hk || inversion Hk)|]). reflexivity.
Qed.
Print Assumptions trait_types_qself_refuted.
