(** Property theorems for C13: the layout of sum types is the published one. *)
From Coq Require Import List Arith NArith Bool Lia.
From Verif Require Import M_Layout M_Result S_Layout S_Repr L_LayoutApi L_Repr.
Import ListNotations.

(** The determinant, the shifts and the remaining unused bits are those of the algorithm of
    repr-stabby.md, with two errata (see [S_Repr.doc_loop]).  Missing: mismatched payloads, and an empty payload
    facing a type whose forbidden values [SelectOne] does not see. *)
Theorem determinant_follows_specification_partial : forall a b da db,
  wf (TResult a b) -> layout a = Some da -> layout b = Some db ->
  (dsize db = 0 -> visible_fv da) -> (dsize da = 0 -> visible_fv db) ->
  exists p, provider_of da db = Some p /\
    same_choice (union_size da db) p (doc_determinant true (doc_of da) (doc_of db)).
Proof. exact wf_provider_same. Qed.
Print Assumptions determinant_follows_specification_partial.
Example determinant_ex : exists da db p,
  layout (struct_ty [TPlain 4 4; TBool; TPlain 2 2]) = Some da /\ layout (struct_ty [TPlain 2 2; TNonZero 2 2]) = Some db /\
  wf (TResult (struct_ty [TPlain 4 4; TBool; TPlain 2 2]) (struct_ty [TPlain 2 2; TNonZero 2 2])) /\
  provider_of da db = Some p /\ r_det (doc_determinant true (doc_of da) (doc_of db)) = DocValueIsErr [(4, 2%N)] /\
  fp_det p = DVal 4 2 DEnd.
Proof. do 3 eexists. split; [vm_compute; reflexivity|]. split; [vm_compute; reflexivity|]. split; [vm_compute; reflexivity|]. split; [vm_compute; reflexivity|]. split; vm_compute; reflexivity. Qed.

(** As published, the algorithm is not the one implemented: it gives the value
    taken by [Ok] instead of [Err] (here for [Result<(u16, u8), (u8, u8, u8, bool)>]). *)
Theorem determinant_literal_specification_refuted : exists a b da db p,
  wf (TResult a b) /\ layout a = Some da /\ layout b = Some db /\ provider_of da db = Some p /\
  fp_det p <> det_of_doc (r_det (doc_determinant false (doc_of da) (doc_of db))).
Proof.
  exists (struct_ty [TPlain 2 2; TPlain 1 1]), (struct_ty [TPlain 1 1; TPlain 1 1; TPlain 1 1; TBool]). do 3 eexists.
  split; [vm_compute; reflexivity|]. split; [vm_compute; reflexivity|]. split; [vm_compute; reflexivity|]. split; [vm_compute; reflexivity|]. vm_compute. discriminate.
Qed.
Print Assumptions determinant_literal_specification_refuted.

(** With an empty [Err], forbidden values behind a field without any are missed:
    [Result<(u8, bool), ()>] has an external discriminant where the specification uses the [bool]. *)
Theorem determinant_empty_err_refuted : exists a b da db p,
  wf (TResult a b) /\ layout a = Some da /\ layout b = Some db /\ provider_of da db = Some p /\
  fp_det p = DBit /\ r_det (doc_determinant true (doc_of da) (doc_of db)) = DocValueIsErr [(1, 2%N)].
Proof.
  exists (struct_ty [TPlain 1 1; TBool]), TUnit. do 3 eexists.
  split; [vm_compute; reflexivity|]. split; [vm_compute; reflexivity|]. split; [vm_compute; reflexivity|]. split; [vm_compute; reflexivity|]. split; vm_compute; reflexivity.
Qed.
Print Assumptions determinant_empty_err_refuted.
