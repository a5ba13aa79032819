(** Model of stabby-abi/src/alloc/vec.rs ([Vec], its iterators and drains) and of the
    boxed slices of stabby-abi/src/alloc/boxed.rs:278-446.

    A vector is its memory (one slot per element for which bytes were really allocated),
    its length and its capacity; pointers are counted in elements from [start]. Elements
    are moved by copying bits, as in Rust, so reading a slot leaves it as it was. Element
    size [s] is not 0 (with a zero-sized [T], [FIRST_CAPACITY], vec.rs:181, divides by 0 at
    compile time). [usize] wraps at [2^64] (no overflow checks). Panics of element
    destructors and of [T::clone] are not modelled. *)
From Coq Require Import NArith List Bool.
From Verif Require Import M_Alloc.
Import ListNotations.

(** vec.rs:24-29 [VecInner]. [vcap] is [capacity - start], [vlen] is [end - start]. *)
Record vec (E : Type) := Vec { slots : list (option E); vlen : nat; vcap : N }.
Arguments Vec {E}. Arguments slots {E}. Arguments vlen {E}. Arguments vcap {E}.

(** Results: values given back to the caller, values dropped, the vector; a panic is caught
    with the same data; [UB]: memory outside the allocation or not initialised is used (calls of vec.rs:75-571). *)
Inductive out (E : Type) :=
| Done (v : vec E) (ret dropped : list E)
| Panicked (v : vec E) (ret dropped : list E)
| UB.
Arguments Done {E}. Arguments Panicked {E}. Arguments UB {E}.

(** vec.rs:75-88 [new_in]. *)
Definition v_new {E} : vec E := Vec [] 0 0%N.

(** vec.rs:178-180 [remaining_capacity] (49-57 [ptr_diff], cast to [usize]). *)
Definition v_remaining {E} (v : vec E) : N := ((vcap v + 2 ^ 64 - N.of_nat (vlen v)) mod 2 ^ 64)%N.

(** The memory after alloc/mod.rs:360-391 obtained room for [n] elements of size [s]:
    [s * n] bytes computed with wrap-around. *)
Definition v_resize {E} (s n : N) (m : list (option E)) : list (option E) :=
  let k := N.to_nat (usz (s * n) / s) in firstn k m ++ repeat None (k - length m).

(** vec.rs:213-242 [try_reserve]; [ok n]: does the allocator provide for capacity [n]? *)
Definition v_try_reserve {E} (s : N) (ok : N -> bool) (additional : N) (v : vec E) : bool * vec E :=
  if (v_remaining v <? additional)%N then
    let nc := usz (N.of_nat (vlen v) + additional) in
    if ok nc then (true, Vec (v_resize s nc (slots v)) (vlen v) nc) else (false, v)
  else (true, v).

(** vec.rs:181-185 [FIRST_CAPACITY]. *)
Definition first_capacity (s : N) : N :=
  let q := (1024 / s)%N in if N.eqb q 0 then 1%N else if (q <=? 8)%N then q else 8%N.

(** vec.rs:189-196 [try_grow]. *)
Definition v_try_grow {E} (s : N) (ok : N -> bool) (v : vec E) : bool * vec E :=
  if N.eqb (vcap v) 0 then v_try_reserve s ok (first_capacity s) v
  else v_try_reserve s ok (N.max (N.div2 (vcap v)) 1) v.

(** core [ptr.write] of slot [i]: [None] outside the memory (called at vec.rs:155, 169, 458, 562). *)
Fixpoint set_slot {E} (i : nat) (x : option E) (m : list (option E)) : option (list (option E)) :=
  match m, i with
  | [], _ => None
  | _ :: r, O => Some (x :: r)
  | y :: r, S j => match set_slot j x r with None => None | Some r' => Some (y :: r') end
  end.

(** core [ptr.read] of slot [i]: [None] outside the memory or if not initialised (called at vec.rs:393, 427, 655, 712, 758, 767). *)
Definition get_slot {E} (i : nat) (m : list (option E)) : option E :=
  match nth_error m i with Some (Some e) => Some e | _ => None end.

(** Reads of consecutive slots (vec.rs:258-262, 540-545). *)
Fixpoint get_slots {E} (i n : nat) (m : list (option E)) : option (list E) :=
  match n with
  | O => Some []
  | S k => match get_slot i m, get_slots (S i) k m with
           | Some e, Some r => Some (e :: r)
           | _, _ => None
           end
  end.

(** core [ptr::copy] of [n] slots from [src] to [dst] (overlapping allowed): [None] outside (called at vec.rs:394, 731, 786). *)
Definition copy_slots {E} (src dst n : nat) (m : list (option E)) : option (list (option E)) :=
  if (Nat.leb (src + n) (length m) && Nat.leb (dst + n) (length m))%bool
  then Some (firstn dst m ++ firstn n (skipn src m) ++ skipn (dst + n) m)
  else None.

(** vec.rs:144-146 [set_len]. *)
Definition v_set_len {E} (v : vec E) (n : nat) : vec E := Vec (slots v) n (vcap v).

(** vec.rs:155-156, 169-170: write at [end] and advance. *)
Definition v_write_end {E} (v : vec E) (e : E) : option (vec E) :=
  match set_slot (vlen v) (Some e) (slots v) with
  | None => None
  | Some m => Some (Vec m (S (vlen v)) (vcap v))
  end.

(** vec.rs:151-157 [push]: the value is dropped when growing panics. *)
Definition v_push {E} (s : N) (ok : N -> bool) (e : E) (v : vec E) : out E :=
  let '(g, v1) := if N.eqb (N.of_nat (vlen v)) (vcap v) then v_try_grow s ok v else (true, v) in
  if g then match v_write_end v1 e with Some v2 => Done v2 [] [] | None => UB end
  else Panicked v1 [] [e].

(** vec.rs:165-172 [try_push]: [Err] gives the value back; the flag says which. *)
Definition v_try_push {E} (s : N) (ok : N -> bool) (e : E) (v : vec E) : bool * out E :=
  let '(g, v1) := if N.eqb (N.of_nat (vlen v)) (vcap v) then v_try_grow s ok v else (true, v) in
  if g then (true, match v_write_end v1 e with Some v2 => Done v2 [] [] | None => UB end)
  else (false, Done v1 [e] []).

(** vec.rs:203-205 [reserve]. *)
Definition v_reserve {E} (s : N) (ok : N -> bool) (n : N) (v : vec E) : out E :=
  let '(g, v1) := v_try_reserve s ok n v in if g then Done v1 [] [] else Panicked v1 [] [].

(** vec.rs:258-262 [as_slice]: the elements. *)
Definition v_as_slice {E} (v : vec E) : option (list E) := get_slots 0 (vlen v) (slots v).

(** vec.rs:247-255 [truncate]. *)
Definition v_truncate {E} (n : nat) (v : vec E) : out E :=
  if Nat.leb (vlen v) n then Done v [] []
  else match get_slots n (vlen v - n) (slots v) with
       | Some d => Done (v_set_len v n) [] d
       | None => UB
       end.

(** Writes of consecutive slots (core [copy_nonoverlapping] from outside, called at vec.rs:308). *)
Fixpoint set_slots {E} (i : nat) (es : list E) (m : list (option E)) : option (list (option E)) :=
  match es with
  | [] => Some m
  | e :: r => match set_slot i (Some e) m with None => None | Some m' => set_slots (S i) r m' end
  end.

(** vec.rs:299-312 [try_copy_extend]; the flag is [Ok]. *)
Definition v_try_copy_extend {E} (s : N) (ok : N -> bool) (es : list E) (v : vec E) : bool * out E :=
  match es with
  | [] => (true, Done v [] [])
  | _ => let '(g, v1) := v_try_reserve s ok (N.of_nat (length es)) v in
         if g then
           (true, match set_slots (vlen v1) es (slots v1) with
                  | Some m => Done (Vec m (vlen v1 + length es) (vcap v1)) [] []
                  | None => UB
                  end)
         else (false, Done v1 [] [])
  end.

(** vec.rs:289-294 [copy_extend]. *)
Definition v_copy_extend {E} (s : N) (ok : N -> bool) (es : list E) (v : vec E) : out E :=
  match v_try_copy_extend s ok es v with
  | (true, r) => r
  | (false, Done v1 _ _) => Panicked v1 [] []
  | (false, r) => r
  end.

(** vec.rs:390-405 [remove]; [Some] result is the singleton list. *)
Definition v_remove {E} (i : nat) (v : vec E) : out E :=
  if Nat.ltb i (vlen v) then
    match get_slot i (slots v), copy_slots (S i) i (vlen v - S i) (slots v) with
    | Some e, Some m => Done (Vec m (vlen v - 1) (vcap v)) [e] []
    | _, _ => UB
    end
  else Done v [] [].

(** core [ptr::swap] (called at vec.rs:414). *)
Definition swap_slots {E} (a b : nat) (m : list (option E)) : option (list (option E)) :=
  match nth_error m a, nth_error m b with
  | Some x, Some y => match set_slot a y m with
                      | Some m' => set_slot b x m'
                      | None => None
                      end
  | _, _ => None
  end.

(** vec.rs:410-419 [swap]. *)
Definition v_swap {E} (a b : nat) (v : vec E) : out E :=
  if (Nat.ltb a (vlen v) && Nat.ltb b (vlen v))%bool then
    match swap_slots a b (slots v) with
    | Some m => Done (Vec m (vlen v) (vcap v)) [] []
    | None => UB
    end
  else Panicked v [] [].

(** vec.rs:422-432 [pop]. *)
Definition v_pop {E} (v : vec E) : out E :=
  match vlen v with
  | O => Done v [] []
  | S n => match get_slot n (slots v) with
           | Some e => Done (v_set_len v n) [e] []
           | None => UB
           end
  end.

(** vec.rs:436-442 [swap_remove]. *)
Definition v_swap_remove {E} (i : nat) (v : vec E) : out E :=
  if Nat.leb (vlen v) i then Done v [] []
  else match v_swap i (vlen v - 1) v with
       | Done v1 _ _ => v_pop v1
       | r => r
       end.

(** vec.rs:561-564: writes without checking the capacity. *)
Fixpoint v_write_all {E} (es : list E) (v : vec E) : option (vec E) :=
  match es with
  | [] => Some v
  | e :: r => match v_write_end v e with None => None | Some v1 => v_write_all r v1 end
  end.

(** vec.rs:568: pushing each item; when one panics, it and the rest are dropped. *)
Fixpoint v_push_all {E} (s : N) (ok : N -> bool) (es : list E) (v : vec E) : out E :=
  match es with
  | [] => Done v [] []
  | e :: r => match v_push s ok e v with
              | Done v1 _ _ => v_push_all s ok r v1
              | Panicked v1 _ d => Panicked v1 [] (d ++ r)
              | UB => UB
              end
  end.

(** vec.rs:555-571 [extend] with an iterator of items [es] whose [size_hint] is
    [(lo, hi)]. *)
Definition v_extend {E} (s : N) (ok : N -> bool) (es : list E) (lo : N) (hi : option N) (v : vec E) : out E :=
  match hi with
  | Some mx =>
      match v_reserve s ok mx v with
      | Done v1 _ _ => match v_write_all es v1 with Some v2 => Done v2 [] [] | None => UB end
      | Panicked v1 _ _ => Panicked v1 [] es
      | UB => UB
      end
  | None =>
      match v_reserve s ok lo v with
      | Done v1 _ _ => v_push_all s ok es v1
      | Panicked v1 _ _ => Panicked v1 [] es
      | UB => UB
      end
  end.

(** vec.rs:455-462 [clone] for a [T] whose clone is [f]: the clone and the source's elements. *)
Definition v_clone {E} (s : N) (ok : N -> bool) (f : E -> E) (v : vec E) : out E :=
  match v_reserve s ok (N.of_nat (vlen v)) v_new with
  | Done v1 _ _ =>
      match v_as_slice v with
      | Some es => match set_slots 0 (map f es) (slots v1) with
                   | Some m => Done (Vec m (vlen v) (vcap v1)) [] []
                   | None => UB
                   end
      | None => UB
      end
  | r => r
  end.

(** vec.rs:540-545 [drop]: the elements dropped, and whether the memory is freed. *)
Definition v_drop {E} (v : vec E) : option (list E * bool) :=
  match v_as_slice v with
  | Some es => Some (es, negb (N.eqb (vcap v) 0))
  | None => None
  end.

(** vec.rs:647-650 [IntoIter]. *)
Record into_iter (E : Type) := II { ii_vec : vec E; ii_index : nat }.
Arguments II {E}. Arguments ii_vec {E}. Arguments ii_index {E}.
(** vec.rs:653-659 [next]. [None]: undefined behaviour. *)
Definition ii_next {E} (it : into_iter E) : option (option E * into_iter E) :=
  if Nat.ltb (ii_index it) (vlen (ii_vec it)) then
    match get_slot (ii_index it) (slots (ii_vec it)) with
    | Some e => Some (Some e, II (ii_vec it) (S (ii_index it)))
    | None => None
    end
  else Some (None, it).
(** vec.rs:662-667 [drop], followed by that of the vector. *)
Definition ii_drop {E} (it : into_iter E) : option (list E * bool) :=
  match get_slots (ii_index it) (vlen (ii_vec it) - ii_index it) (slots (ii_vec it)) with
  | Some d => match v_drop (v_set_len (ii_vec it) 0) with
              | Some (d', f) => Some (d ++ d', f)
              | None => None
              end
  | None => None
  end.

(** ** Drains *)

(** core [Bound] (matched at vec.rs:333-342, 366-375). *)
Inductive bound := Included (i : N) | Excluded (i : N) | Unbounded.
(** vec.rs:333-337 the start of the range. *)
Definition bound_from (b : bound) : N :=
  match b with Included i => i | Excluded i => usz (i + 1) | Unbounded => 0%N end.
(** vec.rs:338-342 its end. *)
Definition bound_to (len : nat) (b : bound) : N :=
  match b with Included i => usz (i + 1) | Excluded i => i | Unbounded => N.of_nat len end.

(** vec.rs:676-682 [Drain]. *)
Record drain (E : Type) := Drain { d_vec : vec E; d_from : nat; d_to : nat; d_index : nat; d_orig : nat }.
Arguments Drain {E}. Arguments d_vec {E}. Arguments d_from {E}. Arguments d_to {E}.
Arguments d_index {E}. Arguments d_orig {E}.

(** vec.rs:331-353 [drain]: [None] is the panic of an assertion. *)
Definition v_drain {E} (b1 b2 : bound) (v : vec E) : option (drain E) :=
  let from := bound_from b1 in
  let to := bound_to (vlen v) b2 in
  if ((from <=? to)%N && (to <=? N.of_nat (vlen v))%N)%bool then
    Some (Drain (v_set_len v (N.to_nat from)) (N.to_nat from) (N.to_nat to) (N.to_nat from) (vlen v))
  else None.

(** vec.rs:361-387 [try_drain], with the test as written at 376. *)
Definition v_try_drain {E} (b1 b2 : bound) (v : vec E) : option (drain E) :=
  let from := bound_from b1 in
  let to := bound_to (vlen v) b2 in
  if ((from <=? to)%N || (to <=? N.of_nat (vlen v))%N)%bool then None
  else Some (Drain (v_set_len v (N.to_nat from)) (N.to_nat from) (N.to_nat to) (N.to_nat from) (vlen v)).

(** vec.rs:710-716 [Drain::next]; [None]: undefined behaviour. *)
Definition d_next {E} (d : drain E) : option (option E * drain E) :=
  if Nat.ltb (d_index d) (d_to d) then
    match get_slot (d_index d) (slots (d_vec d)) with
    | Some e => Some (Some e, Drain (d_vec d) (d_from d) (d_to d) (S (d_index d)) (d_orig d))
    | None => None
    end
  else Some (None, d).

(** vec.rs:706-709 [size_hint] and 719-721 [len]. *)
Definition d_len {E} (d : drain E) : nat := d_to d - d_index d.

(** vec.rs:724-738 and 779-793 [drop] of both kinds of drain: drops slots [l..r), moves the
    tail at [to] to [from]. [None]: undefined behaviour. *)
Definition drop_range {E} (v : vec E) (from to l r orig : nat) : option (vec E * list E) :=
  match get_slots l (r - l) (slots v), copy_slots to from (orig - to) (slots v) with
  | Some dr, Some m => Some (Vec m (orig - to + from) (vcap v), dr)
  | _, _ => None
  end.
(** vec.rs:724-738. *)
Definition d_drop {E} (d : drain E) : option (vec E * list E) :=
  drop_range (d_vec d) (d_from d) (d_to d) (d_index d) (d_to d) (d_orig d).
(** vec.rs:686-688 [stop]: [self.to = self.index], then [self] is dropped. *)
Definition d_stop {E} (d : drain E) : option (vec E * list E) :=
  d_drop (Drain (d_vec d) (d_from d) (d_index d) (d_index d) (d_orig d)).

(** vec.rs:742-749 [DoubleEndedDrain]. *)
Record ddrain (E : Type) := DDrain { dd_vec : vec E; dd_from : nat; dd_to : nat; dd_orig : nat; dd_l : nat; dd_r : nat }.
Arguments DDrain {E}. Arguments dd_vec {E}. Arguments dd_from {E}. Arguments dd_to {E}.
Arguments dd_orig {E}. Arguments dd_l {E}. Arguments dd_r {E}.
(** vec.rs:691-702 [double_ended]. *)
Definition d_double_ended {E} (d : drain E) : ddrain E :=
  DDrain (d_vec d) (d_from d) (d_to d) (d_orig d) (d_index d) (d_to d).
(** vec.rs:756-762 [next]. *)
Definition dd_next {E} (d : ddrain E) : option (option E * ddrain E) :=
  if Nat.ltb (dd_l d) (dd_r d) then
    match get_slot (dd_l d) (slots (dd_vec d)) with
    | Some e => Some (Some e, DDrain (dd_vec d) (dd_from d) (dd_to d) (dd_orig d) (S (dd_l d)) (dd_r d))
    | None => None
    end
  else Some (None, d).
(** vec.rs:765-771 [next_back]: reads the slot at [rindex]. *)
Definition dd_next_back {E} (d : ddrain E) : option (option E * ddrain E) :=
  if Nat.ltb (dd_l d) (dd_r d) then
    match get_slot (dd_r d) (slots (dd_vec d)) with
    | Some e => Some (Some e, DDrain (dd_vec d) (dd_from d) (dd_to d) (dd_orig d) (dd_l d) (dd_r d - 1))
    | None => None
    end
  else Some (None, d).
(** vec.rs:752-755 [size_hint]. *)
Definition dd_size_hint {E} (d : ddrain E) : nat := dd_to d - dd_l d.
(** vec.rs:774-776 [len]. *)
Definition dd_len {E} (d : ddrain E) : nat := dd_r d - dd_l d.
(** vec.rs:779-793 [drop]. *)
Definition dd_drop {E} (d : ddrain E) : option (vec E * list E) :=
  drop_range (dd_vec d) (dd_from d) (dd_to d) (dd_l d) (dd_r d) (dd_orig d).

(** ** Boxed slices, boxed.rs:278-446 *)

(** boxed.rs:278-281: start, end, and what the allocation prefix stores as capacity
    ([None]: the pointer dangles, there is no prefix). *)
Record bslice (E : Type) := BS { bs_slots : list (option E); bs_len : nat; bs_prefix : option N }.
Arguments BS {E}. Arguments bs_slots {E}. Arguments bs_len {E}. Arguments bs_prefix {E}.

(** boxed.rs:379-398 [From<Vec>] (with vec.rs:270-284 [into_raw_components]). *)
Definition bs_of_vec {E} (v : vec E) : bslice E :=
  BS (slots v) (vlen v) (if N.eqb (vcap v) 0 then None else Some (vcap v)).

(** boxed.rs:326-345 [into_raw_components]: the capacity; outer [None]: undefined behaviour. *)
Definition bs_capacity {E} (b : bslice E) : option N :=
  match bs_len b with O => Some 0%N | _ => bs_prefix b end.

(** boxed.rs:399-428 [From<BoxedSlice> for Vec]: capacity 0 makes the vector unallocated:
    its memory is no longer reachable. *)
Definition vec_of_bs {E} (b : bslice E) : option (vec E) :=
  match bs_capacity b with
  | None => None
  | Some c => Some (Vec (bs_slots b) (bs_len b) c)
  end.

(** boxed.rs:310-325 [try_push]; the flag is [Ok]. [None]: the prefix of a dangling pointer
    is read, or memory outside is written. *)
Definition bs_try_push {E} (e : E) (b : bslice E) : option (bool * bslice E) :=
  match bs_prefix b with
  | None => None
  | Some c =>
      if (c <=? N.of_nat (bs_len b))%N then Some (false, b)
      else match set_slot (bs_len b) (Some e) (bs_slots b) with
           | Some m => Some (true, BS m (S (bs_len b)) (bs_prefix b))
           | None => None
           end
  end.

(** boxed.rs:439-446 [drop]: elements dropped, and whether memory is freed. *)
Definition bs_drop {E} (b : bslice E) : option (list E * bool) :=
  match get_slots 0 (bs_len b) (bs_slots b) with
  | Some es => Some (es, negb (Nat.eqb (bs_len b) 0))
  | None => None
  end.
