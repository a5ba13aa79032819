(** Property C58: accesses to a shared value happen before its destruction. *)
From Coq Require Import List Arith Lia.
From Verif Require Import M_Import M_ArcOrder S_ArcOrder L_ArcOrder.
Import ListNotations.

(** C58, for programs where Arcs never leave the thread that created them. *)
Theorem arc_order_partial : forall ops, (forall t u, ~ In (Give t u) ops) -> race_free (orun code_order ops).
Proof. intros ops H. exact (o1_f _ (orun_inv1 ops H)). Qed.
Print Assumptions arc_order_partial.
Example arc_order_ex :
  let ops := [OClone 0; Access 0; ODrop 0; Access 0; OGetMut 0; ODrop 0] in
  (forall t u, ~ In (Give t u) ops) /\ length (excl (orun code_order ops)) = 2.
Proof. split; [intros t u H; cbn in H; intuition discriminate|reflexivity]. Qed.

(** C58 is false with the orderings of the code: a thread accesses the value and drops its Arc; another
    thread drops the last Arc, and destroys the value without the access having happened before. *)
Theorem arc_order_refuted : exists ops, ~ race_free (orun code_order ops).
Proof.
  exists [OClone 0; Give 0 1; Access 1; ODrop 1; ODrop 0]. intros H.
  specialize (H _ _ (or_introl eq_refl) 1). vm_compute in H. lia.
Qed.
Print Assumptions arc_order_refuted.
(** The same, for mutable access granted by get_mut. *)
Theorem arc_order_get_mut_refuted : exists ops, (forall t, In (ODrop t) ops -> t = 1) /\
  ~ race_free (orun code_order ops).
Proof.
  exists [OClone 0; Give 0 1; Access 1; ODrop 1; OGetMut 0]. split.
  - intros t H. cbn in H. intuition congruence.
  - intros H. specialize (H _ _ (or_introl eq_refl) 1). vm_compute in H. lia.
Qed.
Print Assumptions arc_order_get_mut_refuted.
(** With acquire-release decrements and acquire loads (as in std), C58 holds for all programs: the
    orderings are all that is missing. *)
Theorem arc_order_acqrel : forall ops, race_free (orun AcqRel ops).
Proof. intros ops. exact (o_free _ (orun_inv ops)). Qed.
Print Assumptions arc_order_acqrel.
Example arc_order_acqrel_ex :
  length (excl (orun AcqRel [OClone 0; Give 0 1; Access 1; ODrop 1; OGetMut 0; Access 0; ODrop 0])) = 2.
Proof. reflexivity. Qed.
