(** Property C35, continued: downcasts and lifetimes. *)
From Coq Require Import List Arith Bool Lia.
From Verif Require Import M_Variance M_Dyn S_Dyn L_Dyn P_Dyn M_DynLife S_DynLife L_DynLife.
Import ListNotations.

(** C35: stable_downcast succeeds exactly for the types that differ from the value's by their lifetimes at most, if distinct reports are compared as distinct and
    identifiers too ([code], [hash]).  Missing: the lifetimes: see [stable_downcast_lifetime_refuted]. *)
Theorem stable_downcast_shape_partial : forall pg reg mem any answer code hash (ty : nat -> lty) o t p n t', built pg reg mem true o t p -> dkind o <> KRef ->
  nth_error (heads (vtype o)) n = Some any -> arity pg any = 2 ->
  answer (method pg any t 0) = code (report_tree (ty t)) -> answer (method pg any t 1) = hash (report_tree (ty t)) ->
  (forall u, code (report_tree (ty u)) = code (report_tree (ty t)) -> report_tree (ty u) = report_tree (ty t)) ->
  (same_shape (ty t') (ty t) -> stable_downcast pg mem answer (fun u => code (report_tree (ty u))) (fun u => hash (report_tree (ty u))) o n t' = Some p) /\
  (~ same_shape (ty t') (ty t) -> stable_downcast pg mem answer (fun u => code (report_tree (ty u))) (fun u => hash (report_tree (ty u))) o n t' = None).
Proof.
  intros pg reg mem any answer code hash ty o t p n t' B NK Hn Ha An0 An1 I.
  destruct (receiver_partial _ _ _ _ _ _ B) as (_ & C & _). destruct (built_ptr _ _ _ _ _ _ _ B eq_refl) as (P & K).
  unfold stable_downcast. rewrite (C n any 0 Hn), (C n any 1 Hn) by lia. rewrite An0, An1. split; intros H.
  - apply tree_shape in H. rewrite H, !Nat.eqb_refl. unfold as_ref. destruct (dkind o); cbn; congruence.
  - destruct (code (report_tree (ty t)) =? code (report_tree (ty t'))) eqn:E; [|rewrite andb_false_r; reflexivity].
    exfalso. apply H, tree_shape. apply Nat.eqb_eq in E. apply I. congruence.
Qed.
Print Assumptions stable_downcast_shape_partial.

(** Type 5 is a reference that lives for 1, type 6 a reference that lives for 9 (say, 'static), the others bytes. *)
Definition life_ty (u : nat) : lty := match u with 5 => RefL 1 U8 | 6 => RefL 9 U8 | _ => U8 end.
Definition life_code (t : lty) : nat := match t with RefL 0 U8 => 1 | _ => 0 end.
Definition life_answer (f : nat) : nat := if f <? 450 then 0 else if f <? 470 then 1 else 0.
Example stable_downcast_shape_ex : let o := from pg0 reg0 77 KBox v0 5 3 in
  built pg0 reg0 mem0 true o 5 3 /\ nth_error (heads (vtype o)) 0 = Some 4 /\ arity pg0 4 = 2 /\ same_shape (life_ty 6) (life_ty 5) /\ ~ same_shape (life_ty 4) (life_ty 5) /\
  life_answer (method pg0 4 5 0) = life_code (report_tree (life_ty 5)) /\ life_answer (method pg0 4 5 1) = life_code (report_tree (life_ty 5)) /\
  (forall u, life_code (report_tree (life_ty u)) = life_code (report_tree (life_ty 5)) -> report_tree (life_ty u) = report_tree (life_ty 5)).
Proof.
  cbv zeta. split; [apply (built_from pg0 reg0 mem0 77 KBox), pg0_registered|]. split; [reflexivity|]. split; [reflexivity|]. split; [repeat constructor|]. split; [intros X; inversion X|].
  split; [reflexivity|]. split; [reflexivity|]. intros u; do 7 (destruct u as [|u]; [vm_compute; congruence|]); vm_compute; congruence.
Qed.

(** C35: safe code can downcast a [Dyn<Box<()>, _>] made of a value that lives for 1 to a type that lives for 9: nothing asks that the value be 'static, as core's Any does. *)
Theorem stable_downcast_lifetime_refuted : exists o, built pg0 reg0 mem0 true o 5 3 /\ dkind o = KBox /\
  let answer f := if f =? method pg0 4 5 0 then life_code (report_tree (life_ty 5)) else if f =? method pg0 4 5 1 then life_code (report_tree (life_ty 5)) else 0 in
  let report u := life_code (report_tree (life_ty u)) in
  nth_error (heads (vtype o)) 0 = Some 4 /\ answer (method pg0 4 5 0) = report 5 /\ answer (method pg0 4 5 1) = report 5 /\
  stable_downcast pg0 mem0 answer report report o 0 6 = Some 3 /\ sub true (life_ty 5) (life_ty 6) = false.
Proof.
  exists (from pg0 reg0 77 KBox v0 5 3). split; [apply (built_from pg0 reg0 mem0 77 KBox), pg0_registered|]. vm_compute. auto 7.
Qed.
Print Assumptions stable_downcast_lifetime_refuted.
