(** Specification for reports. *)
From Coq Require Import List Arith NArith Bool.
From Verif Require Import M_Report.
Import ListNotations.

(** Two reports have the same number of fields, at every depth. *)
Inductive same_arity : report -> report -> Prop :=
| same_arity_intro n m v k fs n' m' v' k' fs' :
    Forall2 (fun x y => same_arity (snd x) (snd y)) fs fs' ->
    same_arity (Rep n m v k fs) (Rep n' m' v' k' fs').
(** Two reports agree on the fields that both have. *)
Inductive agree : report -> report -> Prop :=
| agree_intro n m v k fs fs' :
    (forall i x y, nth_error fs i = Some x -> nth_error fs' i = Some y ->
       fst x = fst y /\ agree (snd x) (snd y)) ->
    agree (Rep n m v k fs) (Rep n m v k fs').
(** Equality but for the versions. *)
Inductive same_but_version : report -> report -> Prop :=
| sbv_intro n m v v' k fs fs' :
    Forall2 (fun x y => fst x = fst y /\ same_but_version (snd x) (snd y)) fs fs' ->
    same_but_version (Rep n m v k fs) (Rep n m v' k fs').
(** The strings have the same lengths and enums have a textual representation name. *)
Definition named (k : tyty) : Prop :=
  match k with KEnum s => s <> [0%N] /\ s <> [1%N] | _ => True end.
(** See [named]; same lengths everywhere. *)
Inductive same_lengths : report -> report -> Prop :=
| same_lengths_intro n m v k fs n' m' v' k' fs' :
    length n = length n' -> length m = length m' ->
    named k -> named k' -> length (tyty_bytes k) = length (tyty_bytes k') ->
    Forall2 (fun x y => length (fst x) = length (fst y) /\ same_lengths (snd x) (snd y)) fs fs' ->
    same_lengths (Rep n m v k fs) (Rep n' m' v' k' fs').
(** A byte string. *)
Definition bytes (l : list N) : Prop := Forall (fun b => (b < 256)%N) l.
