(** What users of shared slices rely on, over handles (S_Arc) and lists of elements. *)
From Coq Require Import List NArith Bool Arith.
From Verif Require Import M_Arc S_Arc.
Import ListNotations.

(** Programs on slices: the operations of S_Arc, but for those that slices do not have. *)
Definition slice_ops (ops : list op) : Prop := ~ In ODynWeakDrop ops /\ ~ In (OUnique MakeMut) ops.

(** Slices of [Copy] elements can also be revived from a Weak ([None]): one more Arc, and the elements are back. *)
Definition copy_effect (f : option op) (o : owners) : owners :=
  match f with
  | Some p => fst (effect p o)
  | None => if n_weak o =? 0 then o else Owners (S (n_arc o)) (n_weak o) Held
  end.
(** A history. *)
Definition copy_owners_after (ops : list (option op)) : owners :=
  fold_left (fun o f => copy_effect f o) ops (Owners 1 0 Held).
(** Programs on slices of [Copy] elements. *)
Definition copy_slice_ops (ops : list (option op)) : Prop :=
  ~ In (Some ODynWeakDrop) ops /\ ~ In (Some (OUnique MakeMut)) ops.
