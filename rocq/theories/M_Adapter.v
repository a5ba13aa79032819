(** Model of the adapters of iterators (stabby-abi/src/iter.rs) and of futures (stabby-abi/src/future.rs:176-321): implementations of stabby's traits for the core
    traits, and of the core traits for trait objects.  An iterator may be a trait object around another one, to any depth; objects are known by their type and
    address (see [M_Dyn]), items by their bytes (see [M_Result]).  [None]: a function is called on an object of another type, or outside the bytes of one. *)
From Coq Require Import List Arith NArith Bool.
From Verif Require Import M_Layout M_Result M_Enum M_Dyn M_Waker.
Import ListNotations.

(** What implements [core::iter::Iterator]: the base one, of type [t] at address [a], in some state; or a [Dyn], iter.rs:28-42, of type [t], around [i]. *)
Inductive iter (S : Type) := Base (t a : nat) (st : S) | Layer (t : nat) (o : dyn) (i : iter S).
Arguments Base {S}. Arguments Layer {S}.
(** Type and address of the object (the types Self of iter.rs:17-42). *)
Definition type_of {S} (i : iter S) : nat := match i with Base t _ _ => t | Layer t _ _ => t end.
(** Likewise, the receivers [self] of iter.rs:19, 32. *)
Definition addr_of {S} (i : iter S) : nat := match i with Base _ a _ => a | Layer _ o _ => here o end.

(** The call of the method [j] of trait [h] (the head of the vtable, iter.rs:34, 38; future.rs:213, 233, 256, 281, 306) of [o] does what it should:
    it calls the function of the type of [i] on [i]. *)
Definition right_call {S} (pg : program) (mem : nat -> nat) (h : nat) (o : dyn) (i : iter S) (j : nat) : bool :=
  match call pg mem o 0 j with Some (f, r) => (f =? method pg h (type_of i) j) && (r =? addr_of i) | None => false end.
(** iter.rs:19-21 then 32-35: the item becomes a stabby [Option], option.rs:36-50, and a core [Option] again, option.rs:51-58.  [T]: the type of items. *)
Definition through (T : ty) (r : option (list N)) : option (option (list N)) :=
  match layout T with
  | Some d => match provider_of d unit_d with
              | Some p => match option_from_core d p r with Some s => option_into_core d p s | None => None end
              | None => None
              end
  | None => None
  end.

Section Iter.
Variables (S : Type) (pg : program) (mem : nat -> nat) (h : nat) (T : ty).
(** [next] of the base iterator. *)
Variable base_next : S -> option (list N) * S.
(** [size_hint] of the base iterator: two [usize]s as bytes. *)
Variable base_hint : S -> list N * option (list N).
(** [next]: iter.rs:32-35, which calls 19-21 on the inner iterator. *)
Fixpoint next (i : iter S) : option (option (list N) * iter S) :=
  match i with
  | Base t a st => let (r, st) := base_next st in Some (r, Base t a st)
  | Layer t o i =>
      if right_call pg mem h o i 0 then
        match next i with
        | Some (r, i) => match through T r with Some r => Some (r, Layer t o i) | None => None end
        | None => None
        end
      else None
  end.
(** [size_hint]: iter.rs:36-40, which calls 22-25 on the inner iterator; the fields of [Tuple] are taken out as they were put in. *)
Fixpoint size_hint (i : iter S) : option (list N * option (list N)) :=
  match i with
  | Base t a st => Some (base_hint st)
  | Layer t o i =>
      if right_call pg mem h o i 1 then
        match size_hint i with
        | Some (lo, hi) => match through (TPlain 8 8) hi with Some hi => Some (lo, hi) | None => None end
        | None => None
        end
      else None
  end.
(** [n] calls of [next], iter.rs:32. *)
Fixpoint nexts (n : nat) (i : iter S) : option (list (option (list N)) * iter S) :=
  match n with
  | O => Some ([], i)
  | Datatypes.S n => match next i with Some (r, i) => match nexts n i with Some (l, i) => Some (r :: l, i) | None => None end | None => None end
  end.

(** [poll] of the base future, given a waker. *)
Variable base_poll : S -> waker -> option (list N) * S.
(** [poll]: future.rs:207-216 (and 227-239, 250-262, 275-287, 300-312), which gives the waker of the context as a [StableWaker] to [poll] of the inner future, lines 190-201,
    which makes a waker of it ([with_waker]).  The result is a stabby [Option] (lines 196-197), then a [Poll] again (line 214). *)
Fixpoint poll (i : iter S) (w : waker) : option (option (list N) * iter S) :=
  match i with
  | Base t a st => let (r, st) := base_poll st w in Some (r, Base t a st)
  | Layer t o i =>
      if right_call pg mem h o i 0 then
        match poll i (Borrowed 0 w) with
        | Some (r, i) => match through T r with Some r => Some (r, Layer t o i) | None => None end
        | None => None
        end
      else None
  end.
(** Successive calls of [poll], future.rs:207, with these wakers. *)
Fixpoint polls (ws : list waker) (i : iter S) : option (list (option (list N)) * iter S) :=
  match ws with
  | [] => Some ([], i)
  | w :: ws => match poll i w with Some (r, i) => match polls ws i with Some (l, i) => Some (r :: l, i) | None => None end | None => None end
  end.
End Iter.
