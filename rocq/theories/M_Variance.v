(** Model of subtyping between types with lifetimes, for the borrowed views of stabby-abi.  Lifetimes are numbers, [a] outlives [b] if [b <= a]; structures are subtypes
    when their fields are (the variance that rustc infers is the most general for which this holds). *)
From Coq Require Import Arith Bool.

(** u8; &'a T; &'a mut T; NonNull<T>; PhantomData<&'a ()> and PhantomData<&'a mut ()>; [T]; Vec<T> (vec.rs:24-29, 42-45: by NonNull<T>);
    Slice (slice.rs:20-29), SliceMut (slice.rs:115-124), Drain (vec.rs:676-682), whose other fields are numbers. *)
Inductive lty :=
| U8 | RefL (a : nat) (t : lty) | MutL (a : nat) (t : lty) | NonNull (t : lty) | PhRef (a : nat) | PhMut (a : nat) | Seq (t : lty) | VecL (t : lty)
| SliceL (a : nat) (t : lty) | SliceMutL (a : nat) (t : lty) | DrainL (a : nat) (t : lty).

(** [sub true t u]: t is a subtype of u; [sub false t u]: they are equal. *)
Fixpoint sub (le : bool) (t u : lty) : bool :=
  let outlives a b := if le then b <=? a else a =? b in
  match t, u with
  | U8, U8 => true
  | RefL a t, RefL b u => outlives a b && sub le t u            (* core: covariant *)
  | MutL a t, MutL b u => outlives a b && sub false t u         (* core: invariant in T *)
  | NonNull t, NonNull u => sub le t u                          (* core: covariant *)
  | PhRef a, PhRef b | PhMut a, PhMut b => outlives a b
  | Seq t, Seq u => sub le t u
  | VecL t, VecL u => sub le t u                                (* vec.rs:25-27: NonNull<T> *)
  | SliceL a t, SliceL b u => sub le t u && outlives a b        (* slice.rs:24-28: start: NonNull<T>, marker: PhantomData<&'a ()> *)
  | SliceMutL a t, SliceMutL b u => sub le t u && outlives a b  (* slice.rs:119-123: start: NonNull<T>, marker: PhantomData<&'a mut ()> *)
  | DrainL a t, DrainL b u => outlives a b && sub false t u     (* vec.rs:677: vec: &'a mut Vec<T> *)
  | _, _ => false
  end.
