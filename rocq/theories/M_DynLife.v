(** Model of the reports of types with lifetimes, for the downcasts of fatptr.rs. *)
From Coq Require Import Arith.
From Verif Require Import M_Variance.

(** The report of a type, as the type without its lifetimes: reports are constants made of names and of the reports of components (stable_impls/mod.rs:664-674 for
    references; stabby-macros/src/structs.rs:124-161, 241 for Slice, SliceMut, Vec, which have no field for lifetimes); so is the identifier, computed from the report
    (structs.rs:244-250). *)
Fixpoint report_tree (t : lty) : lty :=
  match t with
  | U8 => U8
  | RefL _ t => RefL 0 (report_tree t)
  | MutL _ t => MutL 0 (report_tree t)
  | NonNull t => NonNull (report_tree t)
  | PhRef _ => PhRef 0
  | PhMut _ => PhMut 0
  | Seq t => Seq (report_tree t)
  | VecL t => VecL (report_tree t)
  | SliceL _ t => SliceL 0 (report_tree t)
  | SliceMutL _ t => SliceMutL 0 (report_tree t)
  | DrainL _ t => DrainL 0 (report_tree t)
  end.
