(** Model of the markers Send and Sync: which types have them, by the impls of stabby-abi (and, for references, of core). *)
From Coq Require Import List Arith Bool.
From Verif Require Import M_Dyn.
Import ListNotations.

(** The markers, sync.rs:37-39. *)
Inductive auto := Send | Sync.
(** Types: arbitrary ones ([Val], whose markers are given), and those of stabby: Box and BoxedSlice (boxed.rs:24-28, 281), Vec (vec.rs:42-45), Arc and Weak
    (sync.rs:31-35, 316-320), ArcSlice and WeakSlice (sync.rs:396-405), AtomicArc (sync.rs:830-835), AtomicArcBTreeSet (arc_btree.rs:8-13), Slice and SliceMut
    (slice.rs:20-29, 115-124), CanariedImport (checked_import.rs:20-25), Result (result.rs:30-36), Dyn and DynRef (fatptr.rs:96-103, 153-159).  The last parameter of containers is the
    type of the allocator; that of AtomicArcBTreeSet is the default one, which has both markers, as have integers and (). *)
Inductive ty :=
| Val (i : nat) | Unit | Ref (t : ty) | Mut (t : ty)
| Boxed (t a : ty) | BoxedSlice (t a : ty) | Vec (t a : ty) | Arc (t a : ty) | Weak (t a : ty) | ArcSlice (t a : ty) | WeakSlice (t a : ty)
| AtomicArc (t a : ty) | AtomicSet (t : ty) | Slice (t : ty) | SliceMut (t : ty) | Canaried (f : ty) | Res (a b : ty)
| DynT (p : ty) (v : vty) | DynRefT (v : vty).

(** HasSyncVt, vtable/mod.rs:341-344. *)
Fixpoint has_sync (v : vty) : bool :=
  match v with VtDrop => false | VtSync _ => true | VtSend v => has_sync v | VTable _ tl => has_sync tl end.
(** HasSendVt, vtable/mod.rs:336-339; note that for VTable it asks the tail for HasSyncVt. *)
Fixpoint has_send (v : vty) : bool :=
  match v with VtDrop => false | VtSend _ => true | VtSync v => has_send v | VTable _ tl => has_sync tl end.

Section Env.
(** The markers of the arbitrary types. *)
Variable env : auto -> nat -> bool.
(** Whether a type has a marker. *)
Fixpoint impls (tr : auto) (t : ty) : bool :=
  match t with
  | Val i => env tr i
  | Unit => true
  | Ref t => impls Sync t                                                 (* core: &T is Send, and Sync, if T is Sync *)
  | Mut t => impls tr t                                                   (* core: &mut T is Send if T is, Sync if T is *)
  | Boxed t a | BoxedSlice t a =>
      match tr with Send => impls Send t && impls Send a | Sync => impls Sync t end            (* boxed.rs:30, 32, 34, 36 *)
  | Vec t a => impls tr t && impls tr a                                   (* vec.rs:31-40, and BoxedSlice *)
  | Arc t a | Weak t a | ArcSlice t a | WeakSlice t a | AtomicArc t a =>
      impls Send t && impls Sync t && impls Send a && impls Sync a        (* sync.rs:37, 39, 321, 323, 406-412, 837, 839 *)
  | AtomicSet t => true                                                   (* arc_btree.rs:9-13: derived from AtomicPtr, which always has both *)
  | Slice t => impls Sync t                                               (* slice.rs:31, 33 *)
  | SliceMut t => impls tr t                                              (* slice.rs:126, 128 *)
  | Canaried f => true                                                    (* checked_import.rs:27, 29 *)
  | Res _ _ => true                                                       (* result.rs:35, 82-89: derived from an array of integers, unsigned.rs:556, 574-600 *)
  | DynT p v => impls tr p && match tr with Send => has_send v | Sync => has_sync v end        (* fatptr.rs:380, 382 *)
  | DynRefT v => match tr with Send => has_send v | Sync => has_sync v end                     (* fatptr.rs:375, 377 *)
  end.
(** IConstConstructor<T>: the vtable can be made for values of type [t]; the impls of traits are assumed, vtable/mod.rs:276-290, 377-389, 409-414, 423-428. *)
Fixpoint constructible (v : vty) (t : ty) : bool :=
  match v with VtDrop => true | VtSend v => impls Send t && constructible v t | VtSync v => impls Sync t && constructible v t | VTable _ tl => constructible tl t end.
End Env.

(** Pointers that make trait objects: &T, &mut T, Box<T>, Arc<T>, Weak<T> (fatptr.rs:81-94, 362-372, boxed.rs:257-268, sync.rs:759-769, 793-803). *)
Inductive ptrk := PRef | PMut | PBox | PArc | PWeak.
(** The pointer, with allocator [a] (same impls as fatptr.rs:81-94, boxed.rs:257-268, sync.rs:759-803). *)
Definition pointer (k : ptrk) (t a : ty) : ty :=
  match k with PRef => Ref t | PMut => Mut t | PBox => Boxed t a | PArc => Arc t a | PWeak => Weak t a end.
(** The type of its trait object: IntoDyn (fatptr.rs:81-94, boxed.rs:257-268, sync.rs:759-769, 793-803), From (fatptr.rs:337-352, 362-372). *)
Definition object (k : ptrk) (a : ty) (v : vty) : ty :=
  match k with PRef => DynRefT v | _ => DynT (pointer k Unit a) v end.
