(** What owners of values in [Arc]s expect, trait objects included. *)
From Coq Require Import List NArith Bool Arith.
From Verif Require Import M_Erase.
Import ListNotations.

(** The pointer exists, and points to the allocation [a] (sync.rs:31-35). *)
Definition here {A} (at_ : A -> nat) (a : nat) (o : option A) : bool := match o with Some x => at_ x =? a | None => false end.
(** How many pointers of a list do (sync.rs:31-35). *)
Definition pointing {A} (at_ : A -> nat) (l : list (option A)) (a : nat) : nat := length (filter (here at_ a) l).
(** The [Arc]s and [Dyn]s of an allocation (sync.rs:31-35). *)
Definition owners (m : mem) (a : nat) : nat := pointing h_at (hs m) a.
(** Its [Weak]s (sync.rs:314-318). *)
Definition watchers (m : mem) (a : nat) : nat := pointing w_at (ws m) a.
(** The type as which a value ended (sync.rs:264, 295, 753). *)
Definition ended_as (e : ending) : nat := match e with Dropped u | Moved u => u end.

(** Nothing was used after its end or released twice; a value has ended, once, exactly when it has no owner; its memory was released, once, exactly when it has neither
    owner nor watcher (sync.rs:285-299, 382-396). *)
Definition well_owned (m : mem) : Prop := forall a c, nth_error (cells m) a = Some c ->
  c_bad c = false /\ length (c_ends c) = (if owners m a =? 0 then 1 else 0) /\
  c_frees c = (if (owners m a =? 0) && (watchers m a =? 0) then 1 else 0).
(** No value ended as another type than its own (sync.rs:285-299, 743-757). *)
Definition ended_as_own (m : mem) : Prop := forall a c e, nth_error (cells m) a = Some c -> In e (c_ends c) -> ended_as e = c_ty c.
(** Steps that make no [Dyn<Weak>] (sync.rs:793-815). *)
Definition no_dyn_weak (o : step) : Prop := match o with DynDowngrade _ | WIntoDyn _ => False | _ => True end.
(** Steps that do not exchange pointers of trait objects (fatptr.rs:216-220). *)
Definition no_swap (o : step) : Prop := match o with Swap _ _ => False | _ => True end.
(** Steps that take no pointer out of a trait object (fatptr.rs:211-220). *)
Definition no_ptr (o : step) : Prop := match o with Ptr _ | PtrDowngrade _ | Swap _ _ => False | _ => True end.
