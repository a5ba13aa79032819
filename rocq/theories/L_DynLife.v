(** Lemma behind P_DynLife. *)
From Verif Require Import M_Variance M_DynLife S_DynLife.

Lemma tree_shape t u : report_tree t = report_tree u <-> same_shape t u.
Proof.
  split.
  - revert u. induction t; intros u E; destruct u; cbn in E; try discriminate; try injection E as E; constructor; auto.
  - induction 1; cbn; congruence.
Qed.

