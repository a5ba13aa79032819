(** Specification of the markers Send and Sync. *)
From Coq Require Import List Arith Bool.
From Verif Require Import M_Dyn M_Auto.
Import ListNotations.

(** Trait objects that can exist for a pointee of type [t]: made from a pointer, upcast, borrowed ([as_ref], [as_mut], fatptr.rs:226-254), or for Weak
    upgraded and Arc downgraded (sync.rs:805-828). *)
Inductive hides (env : auto -> nat -> bool) (t : ty) : ptrk -> vty -> Prop :=
| hides_from k v : constructible env v t = true -> hides env t k v
| hides_super k v v' : hides env t k v -> super v v' -> hides env t k v'
| hides_as_ref k v : hides env t k v -> k <> PWeak -> hides env t PRef v
| hides_as_mut k v : hides env t k v -> k <> PWeak -> k <> PRef -> hides env t PMut v
| hides_weak v : hides env t PArc v -> hides env t PWeak v
| hides_upgrade v : hides env t PWeak v -> hides env t PArc v.
(** The markers come after all traits, as in [dyn A + B + Send + Sync]. *)
Fixpoint no_marker (v : vty) : bool := match v with VtDrop => true | VTable _ tl => no_marker tl | _ => false end.
Fixpoint markers_last (v : vty) : bool := match v with VtSend v | VtSync v => markers_last v | v => no_marker v end.
(** Pointers that share their pointee. *)
Definition shares (k : ptrk) : bool := match k with PRef | PArc | PWeak => true | _ => false end.
(** Pointers that share the ownership of their pointee. *)
Definition shares_ownership (k : ptrk) : bool := match k with PArc | PWeak => true | _ => false end.

(** What a thread can do with a value of type [i], that it reaches from a container: to own it (move or destroy it), or to share it with other threads. *)
Inductive mode := Own | Shr.
(** From a container that it owns, or shares with other threads, a thread reaches values by safe functions. *)
Inductive reaches : mode -> ty -> mode -> nat -> Prop :=
| r_val m i : reaches m (Val i) m i
| r_ref m t m' i : reaches Shr t m' i -> reaches m (Ref t) m' i
| r_mut m t m' i : reaches m t m' i -> reaches m (Mut t) m' i                        (* owned: core::mem::replace *)
| r_box m t a m' i : reaches m t m' i -> reaches m (Boxed t a) m' i                  (* Deref, boxed.rs:214; into_inner *)
| r_box_alloc m t a m' i : reaches m a m' i -> reaches m (Boxed t a) m' i            (* shared: Clone clones the allocator, boxed.rs:206-213 *)
| r_slice_box m t a m' i : reaches m t m' i -> reaches m (BoxedSlice t a) m' i       (* boxed.rs:346; owned: conversion to Vec *)
| r_slice_box_alloc t a m' i : reaches Own a m' i -> reaches Own (BoxedSlice t a) m' i
| r_vec m t a m' i : reaches m t m' i -> reaches m (Vec t a) m' i                    (* vec.rs:513; owned: pop *)
| r_vec_alloc m t a m' i : reaches m a m' i -> reaches m (Vec t a) m' i              (* vec.rs:444-452 *)
| r_arc m n t a m' i : reaches n t m' i -> reaches m (Arc t a) m' i                  (* Clone, sync.rs:300; Deref, 308; try_into_inner, 260; allocator, 281 *)
| r_arc_alloc m n t a m' i : reaches n a m' i -> reaches m (Arc t a) m' i
| r_weak m t a m' i : reaches Own (Arc t a) m' i -> reaches m (Weak t a) m' i        (* upgrade, sync.rs:358 *)
| r_arc_slice m n t a m' i : reaches n t m' i -> reaches m (ArcSlice t a) m' i       (* sync.rs:470, 476; conversion to Vec, 540 *)
| r_arc_slice_alloc m t a m' i : reaches Own a m' i -> reaches m (ArcSlice t a) m' i
| r_weak_slice m t a m' i : reaches Own (ArcSlice t a) m' i -> reaches m (WeakSlice t a) m' i   (* sync.rs:651 *)
| r_atomic_arc m t a m' i : reaches Own (Arc t a) m' i -> reaches m (AtomicArc t a) m' i        (* load, sync.rs:867 *)
| r_atomic_set m n t m' i : reaches n t m' i -> reaches m (AtomicSet t) m' i         (* get, arc_btree.rs:66-72; edit gives clones and destroys, 34-63 *)
| r_slice m t m' i : reaches Shr t m' i -> reaches m (Slice t) m' i                  (* slice.rs:75 *)
| r_slice_mut m t m' i : reaches m t m' i -> reaches m (SliceMut t) m' i             (* slice.rs:129-139 *)
| r_canaried m f m' i : reaches m f m' i -> reaches m (Canaried f) m' i              (* checked_import.rs:42-50 *)
| r_ok m a b m' i : reaches m a m' i -> reaches m (Res a b) m' i                     (* as_ref, result.rs:266; owned: map, 416 *)
| r_err m a b m' i : reaches m b m' i -> reaches m (Res a b) m' i.
(** The marker is sound: what another thread reaches may be done there. *)
Definition sound (env : auto -> nat -> bool) (tr : auto) (t : ty) : Prop :=
  forall m i, reaches (match tr with Send => Own | Sync => Shr end) t m i -> env (match m with Own => Send | Shr => Sync end) i = true.
(** The exceptions: containers whose markers do not depend on their content, and Boxes whose allocator is not Sync; trait objects are the object of C34. *)
Fixpoint careful (env : auto -> nat -> bool) (t : ty) : bool :=
  match t with
  | Val _ | Unit => true
  | Ref t | Mut t | Slice t | SliceMut t => careful env t
  | Boxed t a => careful env t && careful env a && impls env Sync a
  | BoxedSlice t a | Vec t a | Arc t a | Weak t a | ArcSlice t a | WeakSlice t a | AtomicArc t a => careful env t && careful env a
  | AtomicSet _ | Canaried _ | Res _ _ | DynT _ _ | DynRefT _ => false
  end.
