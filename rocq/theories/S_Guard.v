(** Specification of temporary conversions. *)
From Coq Require Import List Arith NArith Bool Permutation.
From Verif Require Import M_Guard.
Import ListNotations.

(** The blocks that are not released. *)
Definition live (h : heap) : list nat := filter (fun b => match nth_error h b with Some (Some _) => true | _ => false end) (seq 0 (length h)).
(** Each live block has one owner among these values, and their blocks are live: nothing is leaked, released early, or owned twice. *)
Definition balanced (h : heap) (vs : list value) : Prop := Permutation (live h) (flat_map owns vs).
(** A conversion, or the use of a target by its owner, keeps balance whatever else there is. *)
Definition keeps_balance (c : conversion) (others : list value) : Prop :=
  forall h v h' v', balanced h (v :: others) -> c h v = Some (h', v') -> balanced h' (v' :: others).
(** The text of a string: what its block, if any, holds. *)
Definition text (h : heap) (v : value) : option (list N) := option_map (@concat N) (reads h (owns v)).
