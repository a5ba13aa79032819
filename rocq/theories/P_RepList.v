(** C109: a report lists the fields of its type. *)
From Coq Require Import List Arith NArith Bool Lia.
From Verif Require Import M_Report L_Report M_RepList S_RepList L_RepList.
Import ListNotations.
Local Open Scope nat_scope.

(** [u8], and a [struct] named 80 of module 77 with fields 120 and 121. *)
Definition u8_rep : trep := TRep [117; 56]%N [77]%N 0 KStruct LNone.
Definition u16_rep : trep := TRep [117; 49; 54]%N [77]%N 0 KStruct LNone.
Definition xy : list (list N * trep) := [([120], u8_rep); ([121], u16_rep)]%N.
Definition point : trep := build (declared [80]%N [77]%N 1 KStruct xy).

(** The fields that were added are all listed, once each, the last one first; then the iterator stays at its end. *)
Theorem report_lists_fields : forall n m v k fs,
  yields next (fields (build (declared n m v k fs))) (rev fs) /\
  yields next_const (fields (build (declared n m v k fs))) (rev fs).
Proof.
  intros n m v k fs. assert (Y : yields next (fields (build (declared n m v k fs))) (rev fs)).
  { rewrite declared_eq. unfold build. cbn [fields b_fields]. rewrite <- link_fields_flat. apply yields_flat. }
  split; [exact Y|]. intros i. rewrite (answers_ext next_const next next_const_eq). apply Y.
Qed.
Print Assumptions report_lists_fields.
Example report_lists_ex : answers next 4 (fields point) = [Some ([121]%N, u16_rep); Some ([120]%N, u8_rep); None; None].
Proof. vm_compute. reflexivity. Qed.

(** Reading a report with the iterator ends, with one result. *)
Theorem report_reads : forall a, exists r, reads_as a r /\ forall r', reads_as a r' -> r' = r.
Proof. intros a. exists (tree a). split; [apply reads_tree|]. intros r'. apply reads_unique. Qed.
Print Assumptions report_reads.
Example report_reads_ex : reads_as point
  (Rep [80] [77] 1 KStruct [([121], Rep [117; 49; 54] [77] 0 KStruct []); ([120], Rep [117; 56] [77] 0 KStruct [])])%N.
Proof. change (reads_as point (tree point)). apply reads_tree. Qed.

(** What the macro builds reads as its fields. *)
Theorem report_built : forall n m v k fs rs, reads_fields fs rs ->
  reads_as (build (declared n m v k fs)) (macro_report n m v k rs).
Proof.
  intros n m v k fs rs H. rewrite declared_eq. unfold macro_report, build. cbn [b_name b_module b_version b_kind b_fields].
  apply reads_fields_eq in H. subst rs. rewrite <- trees_of_rev, <- link_fields_flat, <- trees_flat.
  exact (reads_tree (TRep n m v k (link_fields fs))).
Qed.
Print Assumptions report_built.
Example report_built_ex : reads_fields xy [([120], Rep [117; 56] [77] 0 KStruct []); ([121], Rep [117; 49; 54] [77] 0 KStruct [])]%N.
Proof. unfold xy. constructor; [exact (reads_tree u8_rep)|]. constructor; [exact (reads_tree u16_rep)|]. constructor. Qed.

(** Two reports are found compatible exactly if what is read of them is. *)
Theorem report_compatible : forall a b r s, reads_as a r -> reads_as b s -> linked_compatible a b = is_compatible r s.
Proof.
  intros a b r s H H'. apply reads_unique in H. apply reads_unique in H'. subst. apply compatible_both.
Qed.
Print Assumptions report_compatible.
Example report_compatible_ex : linked_compatible point point = true /\
  linked_compatible point (build (declared [80]%N [77]%N 1 KStruct (rev xy))) = false.
Proof. vm_compute. auto. Qed.

(** The bytes hashed for the identifier are those of what is read. *)
Theorem report_hashed : forall a r h, reads_as a r -> linked_hash h a = hash_report h r.
Proof. intros a r h H. apply reads_unique in H. subst. apply hash_both. Qed.
Print Assumptions report_hashed.
Example report_hashed_ex : linked_hash [] point = [77; 80; 0; 121; 77; 117; 49; 54; 0; 120; 77; 117; 56; 0]%N.
Proof. vm_compute. reflexivity. Qed.

(** [==] of reports holds exactly if they read the same; they are compatible then. *)
Theorem report_equal : forall a b, linked_eq a b = true <-> exists r, reads_as a r /\ reads_as b r.
Proof.
  intros a b. rewrite (proj1 eq_both). split.
  - intros <-. exists (tree a). split; apply reads_tree.
  - intros [r [H H']]. apply reads_unique in H. apply reads_unique in H'. apply (proj1 tree_inj_both). congruence.
Qed.
Print Assumptions report_equal.
Theorem report_equal_compatible : forall a b, linked_eq a b = true -> linked_compatible a b = true.
Proof. intros a b E. apply (proj1 eq_both) in E. subst. rewrite (proj1 compatible_both). apply compat_refl. Qed.
Print Assumptions report_equal_compatible.
Example report_equal_ex : linked_eq point point = true /\
  linked_eq point (build (declared [80]%N [77]%N 1 KStruct (tl xy))) = false.
Proof. vm_compute. auto. Qed.
