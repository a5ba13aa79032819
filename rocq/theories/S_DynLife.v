(** What downcasts can tell of types with lifetimes. *)
From Verif Require Import M_Variance.

(** Two types are the same if lifetimes are not looked at. *)
Inductive same_shape : lty -> lty -> Prop :=
| sh_u8 : same_shape U8 U8
| sh_ref a b t u : same_shape t u -> same_shape (RefL a t) (RefL b u)
| sh_mut a b t u : same_shape t u -> same_shape (MutL a t) (MutL b u)
| sh_nonnull t u : same_shape t u -> same_shape (NonNull t) (NonNull u)
| sh_phref a b : same_shape (PhRef a) (PhRef b)
| sh_phmut a b : same_shape (PhMut a) (PhMut b)
| sh_seq t u : same_shape t u -> same_shape (Seq t) (Seq u)
| sh_vec t u : same_shape t u -> same_shape (VecL t) (VecL u)
| sh_slice a b t u : same_shape t u -> same_shape (SliceL a t) (SliceL b u)
| sh_slicemut a b t u : same_shape t u -> same_shape (SliceMutL a t) (SliceMutL b u)
| sh_drain a b t u : same_shape t u -> same_shape (DrainL a t) (DrainL b u).
