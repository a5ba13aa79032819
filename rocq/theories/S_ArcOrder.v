(** Freedom from data races of what [Arc] does to the shared value. *)
From Coq Require Import List.
From Verif Require Import M_ArcOrder.

(** Each destruction and each exclusive access happens after all accesses made before it. *)
Definition race_free (s : oblock) : Prop :=
  forall a k, In (a, k) (excl s) -> forall t, a t <= k t.
