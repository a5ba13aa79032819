(** Model of the temporary conversions [ref_as] and [mut_as], stabby-abi/src/as_mut.rs:52-113, and of the conversions they go through.
    A value is its words and the heap blocks it owns; a block is the list of its words, and is released once.  [None]: use of a released block.
    Not modelled: panics of the conversions and of the code that holds the guard. *)
From Coq Require Import List Arith NArith Bool.
Import ListNotations.

(** Memory behind IAlloc, stabby-abi/src/alloc/mod.rs:116-147: blocks by number; [None]: released. *)
Definition heap := list (option (list N)).
(** A value of the types [T] and [As] of as_mut.rs:63: its own words, and the blocks it owns. *)
Record value := Value { data : list N; owns : list nat }.
(** [Into::into], as in as_mut.rs:72, 97, 108: it consumes its argument. *)
Definition conversion := heap -> value -> option (heap * value).

(** stabby-abi/src/alloc/mod.rs:120, allocation of a block that is then filled with [l].  It does not fail here. *)
Definition alloc (h : heap) (l : list N) : heap * nat := (h ++ [Some l], length h).
(** stabby-abi/src/alloc/mod.rs:125, release of a block. *)
Fixpoint free (h : heap) (b : nat) : option heap :=
  match h, b with
  | Some _ :: h, O => Some (None :: h)
  | x :: h, S b => option_map (cons x) (free h b)
  | _, _ => None
  end.
(** Release of the blocks of a value, as destructors do (stabby-abi/src/alloc/vec.rs:539), through alloc/mod.rs:395. *)
Fixpoint free_all (h : heap) (l : list nat) : option heap :=
  match l with [] => Some h | b :: l => match free h b with Some h => free_all h l | None => None end end.
(** What can be read through the blocks of a value, by [Deref] on the target, as_mut.rs:57-62, or on the source. *)
Fixpoint reads (h : heap) (l : list nat) : option (list (list N)) :=
  match l with
  | [] => Some []
  | b :: l => match nth_error h b, reads h l with Some (Some x), Some r => Some (x :: r) | _, _ => None end
  end.

(** Conversions that move the value, with its blocks, and rearrange its words with [f]: option.rs:36-58, result.rs:161-181, alloc/boxed.rs:379-426,
    alloc/string.rs:302-315, slice.rs:55-74, str.rs:40-54. *)
Definition moving (f : list N -> list N) : conversion := fun h v => Some (h, Value (f (data v)) (owns v)).
(** alloc/string.rs:358-367 [String] to [std::string::String] and back: the contents are copied to a new block, none if they are empty, and the argument is dropped.
    A string has at most one block; its words (address, length, capacity) are not modelled.  Other values are refused. *)
Definition string_copy : conversion := fun h v =>
  match owns v with
  | [] => Some (h, Value [] [])
  | [b] =>
      match nth_error h b with
      | Some (Some []) => match free h b with Some h => Some (h, Value [] []) | None => None end
      | Some (Some x) => let (h, c) := alloc h x in match free h b with Some h => Some (h, Value [] [c]) | None => None end
      | _ => None
      end
  | _ => None
  end.
(** alloc/single_or_vec.rs:566-584 [SingleOrVec<T>] to [Vec<T>], for a [T] without resources: a single value (the words) is pushed to a new vector. *)
Definition single_to_vec : conversion := fun h v =>
  match data v with
  | [] => Some (h, v)
  | x => let (h, c) := alloc h x in Some (h, Value [] (c :: owns v))
  end.
(** alloc/single_or_vec.rs:551-564 [Vec<T>] to [SingleOrVec<T>]: the vector is moved. *)
Definition vec_to_single : conversion := moving (fun l => l).

(** as_mut.rs:69-74 [ref_as]: a copy of the words of [v] is converted; [v] stays.  The result is the target in the guard. *)
Definition ref_as (c : conversion) (h : heap) (v : value) : option (heap * value) := c h v.
(** End of the guard of [ref_as], as_mut.rs:53-56: the target is in a [ManuallyDrop], nothing happens. *)
Definition ref_end (h : heap) : heap := h.
(** as_mut.rs:106-111 [mut_as]: as [ref_as], and the guard keeps the address of the source. *)
Definition mut_as (c : conversion) (h : heap) (v : value) : option (heap * value) := c h v.
(** as_mut.rs:95-99 [MutAs::drop]: the target is converted back and written over the source, which is not dropped.  The result is the new source. *)
Definition mut_end (c : conversion) (h : heap) (target : value) : option (heap * value) := c h target.
