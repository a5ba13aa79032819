(** Property C64: what is written through a mutable view has the type of the elements. *)
From Coq Require Import Arith Bool.
From Verif Require Import M_Variance.

Definition sub_equal t : forall u, sub false t u = true -> u = t.
Proof.
  induction t; intros u; destruct u; cbn; try discriminate; auto; intros H; try (apply andb_prop in H; destruct H as (A & B));
    repeat match goal with
    | H : (_ =? _) = true |- _ => apply Nat.eqb_eq in H; subst
    | IH : forall u, sub false ?t u = true -> u = ?t, H : sub false ?t ?u = true |- _ => apply IH in H; subst
    end; reflexivity.
Qed.
Definition sub_refl t : forall le, sub le t t = true.
Proof.
  induction t; intros [|]; cbn [sub]; rewrite ?Nat.leb_refl, ?Nat.eqb_refl; auto; rewrite andb_true_iff; auto.
Qed.

(** For &mut, whatever type a view is coerced to, the values of the new element type are values of the old one; so for &mut [T], and Drain. *)
Theorem mut_write_partial : forall (F : nat -> lty -> lty), F = MutL \/ F = (fun a t => MutL a (Seq t)) \/ F = DrainL ->
  forall a b t u, sub true (F a t) (F b u) = true -> sub true u t = true.
Proof.
  intros F [->|[->| ->]] a b t u H; cbn in H; apply andb_prop in H; destruct H as (_ & H); apply sub_equal in H; subst; apply sub_refl.
Qed.
Print Assumptions mut_write_partial.
Example mut_write_ex : sub true (MutL 5 (RefL 9 U8)) (MutL 3 (RefL 9 U8)) = true /\ sub true (MutL 5 (RefL 9 U8)) (MutL 3 (RefL 2 U8)) = false /\
  sub true (RefL 5 (RefL 9 U8)) (RefL 3 (RefL 2 U8)) = true.
Proof. vm_compute. auto. Qed.
(** SliceMut<'a, T> is covariant in T: a SliceMut over long-lived references is a SliceMut over short-lived ones, which can be written through it. *)
Theorem slice_mut_write_refuted : exists a t u, sub true (SliceMutL a t) (SliceMutL a u) = true /\ sub true u t = false.
Proof. exists 3, (RefL 9 U8), (RefL 2 U8). vm_compute. auto. Qed.
Print Assumptions slice_mut_write_refuted.
