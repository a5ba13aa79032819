(** Model of stabby-abi/src/alloc/vec.rs and boxed.rs:278-446 for zero-sized elements, which
    [M_Vec] leaves out.  Pointers are addresses (numbers below 2^64; provenance is left out:
    [offset_from] is a difference).  Elements are [tt].  [a] is their alignment.  [dbg]: are
    debug assertions on?  Elements have no destructors that panic. *)
From Coq Require Import NArith List Bool.
From Verif Require Import M_Alloc M_Vec.
Import ListNotations.
Local Open Scope N_scope.

(** What a computation does (vec.rs:49-57): a value, a panic, or undefined behaviour. *)
Inductive zr (A : Type) := Val (x : A) | Pan | Ub.
Arguments Val {A}. Arguments Pan {A}. Arguments Ub {A}.
(** Sequencing (vec.rs:213-242). *)
Definition zbind {A B} (x : zr A) (f : A -> zr B) : zr B :=
  match x with Val a => f a | Pan => Pan | Ub => Ub end.

(** vec.rs:24-29 [VecInner], without the allocator. *)
Record zvec := Z { zstart : N; zend : N; zcap : N }.

(** vec.rs:49-57 [ptr_diff] with its [debug_assert]: the difference is an [isize]. *)
Definition ptr_diff (dbg : bool) (l r : N) : zr N :=
  let d := usz (l + 2 ^ 64 - r) in
  if dbg && (2 ^ 63 <=? d) then Pan else Val d.
(** vec.rs:58-64 [ptr_add]: in bytes. *)
Definition ptr_add (p n : N) : N := usz (p + n).

(** vec.rs:75-88 [new_in]: [dangling] is the alignment; the capacity is the last address. *)
Definition z_new (a : N) : zvec := Z a a (2 ^ 64 - 1).
(** vec.rs:133-135 [len]. *)
Definition z_len (dbg : bool) (v : zvec) : zr N := ptr_diff dbg (zend v) (zstart v).
(** vec.rs:174-176 [capacity]. *)
Definition z_capacity (dbg : bool) (v : zvec) : zr N := ptr_diff dbg (zcap v) (zstart v).
(** vec.rs:178-180 [remaining_capacity]. *)
Definition z_remaining (dbg : bool) (v : zvec) : zr N := ptr_diff dbg (zcap v) (zend v).
(** vec.rs:144-146 [set_len]. *)
Definition z_set_len (v : zvec) (n : N) : zvec := Z (zstart v) (ptr_add (zstart v) n) (zcap v).

(** vec.rs:213-242 [try_reserve]: more room than there is makes it reallocate [start], which
    dangles (alloc/mod.rs:366-391 reads the prefix before it).  ([capacity] is 0, line 218, only
    if [start] is the last address, which no alignment is.) *)
Definition z_try_reserve (dbg : bool) (n : N) (v : zvec) : zr zvec :=
  zbind (z_remaining dbg v) (fun rem => if rem <? n then Ub else zbind (z_capacity dbg v) (fun _ => Val v)).

(** Is a pointer good for reads and writes of zero bytes (core::ptr)?  Used at vec.rs:309, 427. *)
Definition aligned (a p : N) : bool := p mod a =? 0.
(** [n] elements (vec.rs:289-295). *)
Definition units (n : N) : list unit := repeat tt (N.to_nat n).

(** What a call leaves (vec.rs:75-571): the vector, what is returned, what is dropped. *)
Definition zout := (zvec * list unit * list unit)%type.
(** A call that returns and drops nothing (vec.rs:212). *)
Definition zquiet (v : zvec) : zout := (v, [], []).

(** vec.rs:289-314 [copy_extend], [try_copy_extend]: [copy_nonoverlapping] to [end]. *)
Definition z_copy_extend (dbg : bool) (a n : N) (v : zvec) : zr zout :=
  if n =? 0 then Val (zquiet v)
  else zbind (z_try_reserve dbg n v) (fun v =>
       if aligned a (zend v) then
         zbind (z_len dbg v) (fun len => Val (zquiet (z_set_len v (usz (len + n)))))
       else Ub).
(** vec.rs:422-432 [pop]: [end.sub(1)] is [end]. *)
Definition z_pop (dbg : bool) (a : N) (v : zvec) : zr zout :=
  zbind (z_len dbg v) (fun len =>
  if len =? 0 then Val (zquiet v)
  else if aligned a (zend v) then Val (z_set_len v (len - 1), [tt], []) else Ub).
(** vec.rs:390-405 [remove]: reads and moves at [start]. *)
Definition z_remove (dbg : bool) (a i : N) (v : zvec) : zr zout :=
  zbind (z_len dbg v) (fun len =>
  if i <? len then if aligned a (zstart v) then Val (z_set_len v (len - 1), [tt], []) else Ub
  else Val (zquiet v)).
(** vec.rs:410-419 [swap]: swaps [start] with itself. *)
Definition z_swap (dbg : bool) (a i j : N) (v : zvec) : zr zout :=
  zbind (z_len dbg v) (fun len =>
  if (i <? len) && (j <? len) then if aligned a (zstart v) then Val (zquiet v) else Ub else Pan).
(** vec.rs:436-442 [swap_remove]. *)
Definition z_swap_remove (dbg : bool) (a i : N) (v : zvec) : zr zout :=
  zbind (z_len dbg v) (fun len =>
  if len <=? i then Val (zquiet v)
  else zbind (z_swap dbg a i (len - 1) v) (fun o => z_pop dbg a (fst (fst o)))).
(** vec.rs:247-255 [truncate]. *)
Definition z_truncate (dbg : bool) (n : N) (v : zvec) : zr zout :=
  zbind (z_len dbg v) (fun len =>
  if len <=? n then Val (zquiet v) else Val (z_set_len v n, [], units (len - n))).
(** vec.rs:454-463 [clone] of the vector, which is then dropped (540-545) and replaced: writes at [start]. *)
Definition z_clone (dbg : bool) (a : N) (v : zvec) : zr zout :=
  zbind (z_len dbg v) (fun len =>
  zbind (z_try_reserve dbg len (z_new a)) (fun w =>
  if aligned a (zstart w) then Val (z_set_len w len, [], units len) else Ub)).
(** vec.rs:331-353 [drain], [k] calls of [next] (710-716) and [drop] (724-738). *)
Definition z_drain (dbg : bool) (a : N) (b1 b2 : bound) (k : N) (v : zvec) : zr zout :=
  zbind (z_len dbg v) (fun len =>
  let from := bound_from b1 in
  let to := match b2 with Unbounded => len | b => bound_to 0 b end in
  if (from <=? to) && (to <=? len) then
    let n := N.min k (to - from) in
    if aligned a (zstart v) then Val (z_set_len (z_set_len v from) (len - to + from), units n, units (to - from - n))
    else Ub
  else Pan).
(** vec.rs:636-667 [into_iter], [k] calls of [next], [drop]; the vector is replaced by a new one. *)
Definition z_iter (dbg : bool) (a k : N) (v : zvec) : zr zout :=
  zbind (z_len dbg v) (fun len =>
  let n := N.min k len in
  if aligned a (zstart v) then Val (z_new a, units n, units (len - n)) else Ub).
(** boxed.rs:379-428: to a boxed slice and back; [into_raw_components] (vec.rs:270-284,
    boxed.rs:326-345) says 0, so that the capacity becomes the last address again. *)
Definition z_rebox (v : zvec) : zvec := Z (zstart v) (zend v) (2 ^ 64 - 1).
(** boxed.rs:310-325 [try_push] on the vector as a boxed slice: reads the prefix of [start],
    which dangles. *)
Definition z_box_push (v : zvec) : zr zout := Ub.

(** vec.rs:181-185 [FIRST_CAPACITY], of elements of size [s]: a division at compile time; [None]: refused. *)
Definition first_capacity_const (s : N) : option N :=
  if s =? 0 then None
  else Some (let q := 1024 / s in if q =? 0 then 1 else if q <=? 8 then q else 8).
