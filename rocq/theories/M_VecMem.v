(** Model of [Vec] and [BoxedSlice] in the memory they occupy: stabby-abi/src/alloc/vec.rs,
    alloc/boxed.rs and alloc/mod.rs at the level of addresses and bytes, many vectors sharing
    one heap.  The elements have a type of [s > 0] bytes (those of zero bytes are in [M_Zst])
    and are lists of bytes; a byte of memory may be uninitialised.  Every access is checked
    against the live blocks: [None] is undefined behaviour.  The allocator is any [IAlloc]
    that keeps its contract; what it answers is an argument of each operation.
    Panics of destructors and of [Clone] are not here (C75), clones copy the bytes. *)
From Coq Require Import NArith List Bool.
From Verif Require Import M_Alloc M_Vec.
Import ListNotations.
Local Open Scope N_scope.

(** The live blocks (start and size) an allocator gave out, and the bytes in memory
    (alloc/mod.rs:116-145). *)
Record heap := Heap { blocks : list (N * N); mem : N -> option N }.

(** Are the [n] bytes at [p] inside a live block? (the safety conditions of core's [ptr]
    functions, called at vec.rs:155, 258-262, 308, 393, 414, 427, 458, 562, 731). *)
Definition in_block (h : heap) (p n : N) : bool :=
  N.eqb n 0 || existsb (fun b => (fst b <=? p) && (p + n <=? fst b + snd b)) (blocks h).

(** [k] initialised bytes at [p] (core [ptr::read], called at vec.rs:393, 427). *)
Fixpoint load (m : N -> option N) (p : N) (k : nat) : option (list N) :=
  match k with
  | O => Some []
  | S k' => match m p, load m (p + 1) k' with Some b, Some r => Some (b :: r) | _, _ => None end
  end.

(** Memory after storing [bs] at [p] (core [ptr::write], called at vec.rs:155, alloc/mod.rs:344). *)
Definition store (m : N -> option N) (p : N) (bs : list (option N)) : N -> option N :=
  fun x => if (p <=? x) && (x <? p + N.of_nat (length bs)) then nth (N.to_nat (x - p)) bs None else m x.

(** Memory after moving [n] bytes from [src] to [dst] (core [ptr::copy], called at vec.rs:394-398, 731-735). *)
Definition moved (m : N -> option N) (src dst n : N) : N -> option N :=
  fun x => if (dst <=? x) && (x <? dst + n) then m (x - dst + src) else m x.

(** Checked [load] (as above; vec.rs:393, 427, 655, 712). *)
Definition h_read (h : heap) (p : N) (k : nat) : option (list N) :=
  if in_block h p (N.of_nat k) then load (mem h) p k else None.
(** Checked [store] (as above; vec.rs:155, 458, 562). *)
Definition h_write (h : heap) (p : N) (bs : list (option N)) : option heap :=
  if in_block h p (N.of_nat (length bs)) then Some (Heap (blocks h) (store (mem h) p bs)) else None.
(** Checked [moved] (as above; vec.rs:394-398, 731-735). *)
Definition h_move (h : heap) (src dst n : N) : option heap :=
  if in_block h src n && in_block h dst n then Some (Heap (blocks h) (moved (mem h) src dst n)) else None.

(** The block that starts at [p], and the others (alloc/mod.rs:122-134). *)
Fixpoint take_block (p : N) (bs : list (N * N)) : option (N * list (N * N)) :=
  match bs with
  | [] => None
  | b :: r => if N.eqb (fst b) p then Some (snd b, r)
              else match take_block p r with Some (n, r') => Some (n, b :: r') | None => None end
  end.

(** May an allocator answer [ans] when asked for [n] bytes aligned to [al], the blocks [bs]
    being live? Otherwise the answer stands for null (alloc/mod.rs:116-120, 127-131; that no
    block is larger than [isize::MAX] or ends the address space is Rust's rule for any
    allocation). *)
Definition grants (bs : list (N * N)) (n al ans : N) : bool :=
  (0 <? ans) && (0 <? n) && N.eqb (ans mod al) 0 && (n <? 2 ^ 63) && (ans + n <? 2 ^ 64) &&
  forallb (fun b => (ans + n <=? fst b) || (fst b + snd b <=? ans)) bs.

(** alloc/mod.rs:116-121 [IAlloc::alloc], as documented: null, or a fresh block. *)
Definition h_alloc (h : heap) (l : lay) (ans : N) : N * heap :=
  if grants (blocks h) (lsize l) (lalign l) ans
  then (ans, Heap ((ans, lsize l) :: blocks h)
             (fun x => if (ans <=? x) && (x <? ans + lsize l) then None else mem h x))
  else (0, h).

(** alloc/mod.rs:122-126 [IAlloc::free], whose argument must be a live block. *)
Definition h_free (h : heap) (p : N) : option heap :=
  match take_block p (blocks h) with Some (_, r) => Some (Heap r (mem h)) | None => None end.

(** alloc/mod.rs:127-145 [IAlloc::realloc], as documented: the argument must be a live block
    of the layout given; null and nothing happened, or a block with what the old one held. *)
Definition h_realloc (h : heap) (p : N) (l : lay) (n ans : N) : option (N * heap) :=
  match take_block p (blocks h) with
  | None => None
  | Some (old, r) =>
      if negb (N.eqb old (lsize l)) then None
      else if grants r n (lalign l) ans
      then Some (ans, Heap ((ans, n) :: r)
                 (fun x => if (ans <=? x) && (x <? ans + n)
                           then if x - ans <? N.min old n then mem h (x - ans + p) else None
                           else mem h x))
      else Some (0, h)
  end.

(** A word of [k] bytes, little endian (the fields of alloc/mod.rs:227-239). *)
Fixpoint enc (k : nat) (x : N) : list N :=
  match k with O => [] | S k' => x mod 256 :: enc k' (x / 256) end.
(** Its value (fields of alloc/mod.rs:227-239). *)
Fixpoint dec (bs : list N) : N := match bs with [] => 0 | b :: r => b + 256 * dec r end.

(** alloc/mod.rs:344-350: the bytes of an [AllocPrefix] of [psz] bytes: four words, and an
    uninitialised slot for the allocator. *)
Definition prefix_bytes (psz : N) (p : prefix) : list (option N) :=
  map Some (enc 8 (p_strong p) ++ enc 8 (p_weak p) ++ enc 8 (p_capacity p) ++ enc 8 (p_origin p))
  ++ repeat None (N.to_nat (psz - 32)).

(** vec.rs:24-29 [VecInner]: [start], [end] and [capacity] as addresses. *)
Record mvec := MV { vs : N; ve : N; vc : N }.
(** boxed.rs:275-281 [BoxedSlice]: an [AllocSlice], alloc/mod.rs:402-408. *)
Record mbox := MB { bs_ : N; be : N }.
(** What a program owns: vectors (vec.rs:43-47) and boxed slices (boxed.rs:275-281). *)
Inductive obj := OV (v : mvec) | OB (b : mbox).
(** A value of the type of the elements, as its bytes (the [T] of vec.rs:43-47). *)
Definition elem := list N.

Section Mem.
  (** [s], [a]: size and alignment of [T]; [psz], [pal]: of [AllocPrefix<Alloc>]. *)
  Context (s : nat) (a psz pal : N).

  (** vec.rs:58-64 [ptr_add]. *)
  Definition ptr_add (p n : N) : N := usz (p + n * N.of_nat s).
  (** vec.rs:49-57 [ptr_diff], for differences below [2^63]. *)
  Definition ptr_diff (l r : N) : N := usz (l + 2 ^ 64 - r) / N.of_nat s.

  (** alloc/mod.rs:330-352 [init]. *)
  Definition m_init (h : heap) (p n : N) : option (option N * heap) :=
    let '(d, pf) := ptr_init psz a p n in
    match h_write h (prefix_ptr psz d) (prefix_bytes psz pf) with
    | Some h' => Some (Some d, h')
    | None => None
    end.
  (** alloc/mod.rs:360-365 [alloc_array]. *)
  Definition m_alloc (h : heap) (n ans : N) : option (option N * heap) :=
    let '(p, h1) := h_alloc h (array_layout psz pal (N.of_nat s) a n) ans in
    if N.eqb p 0 then Some (None, h1) else m_init h1 p n.
  (** alloc/mod.rs:372-391 [realloc]. *)
  Definition m_realloc (h : heap) (d prev new ans : N) : option (option N * heap) :=
    let '(p, l, n) := ptr_realloc_args psz pal (N.of_nat s) a prev new d in
    match h_realloc h p l n ans with
    | None => None
    | Some (q, h1) => if N.eqb q 0 then Some (None, h1) else m_init h1 q new
    end.
  (** alloc/mod.rs:395-397 [free]: the origin is read in the prefix. *)
  Definition m_free (h : heap) (d : N) : option heap :=
    match h_read h (prefix_ptr psz d + 24) 8 with
    | Some w => h_free h (dec w)
    | None => None
    end.

  (** vec.rs:75-88 [new_in], [NonNull::dangling] being the alignment. *)
  Definition m_new : mvec := MV a a a.
  (** vec.rs:133-135 [len]. *)
  Definition m_len (v : mvec) : N := ptr_diff (ve v) (vs v).
  (** vec.rs:174-176 [capacity]. *)
  Definition m_cap (v : mvec) : N := ptr_diff (vc v) (vs v).
  (** vec.rs:178-180 [remaining_capacity]. *)
  Definition m_remaining (v : mvec) : N := ptr_diff (vc v) (ve v).
  (** vec.rs:144-146 [set_len]. *)
  Definition m_set_len (v : mvec) (n : N) : mvec := MV (vs v) (ptr_add (vs v) n) (vc v).

  (** vec.rs:213-242 [try_reserve]. *)
  Definition m_reserve (h : heap) (v : mvec) (add ans : N) : option (bool * mvec * heap) :=
    if m_remaining v <? add then
      let n := usz (m_len v + add) in
      let r := if negb (N.eqb (m_cap v) 0) then m_realloc h (vs v) (m_cap v) n ans else m_alloc h n ans in
      match r with
      | None => None
      | Some (None, h') => Some (false, v, h')
      | Some (Some d, h') => Some (true, MV d (ptr_add d (m_len v)) (ptr_add d n), h')
      end
    else Some (true, v, h).
  (** vec.rs:189-196 [try_grow]. *)
  Definition m_grow (h : heap) (v : mvec) (ans : N) : option (bool * mvec * heap) :=
    if N.eqb (m_cap v) 0 then m_reserve h v (first_capacity (N.of_nat s)) ans
    else m_reserve h v (N.max (N.div2 (m_cap v)) 1) ans.

  (** vec.rs:165-172 [try_push]; [push], vec.rs:151-157, panics where this is [Err]. *)
  Definition m_push (h : heap) (v : mvec) (e : elem) (ans : N) : option (bool * mvec * heap) :=
    match (if N.eqb (ve v) (vc v) then m_grow h v ans else Some (true, v, h)) with
    | None => None
    | Some (false, v', h') => Some (false, v', h')
    | Some (true, v', h') =>
        match h_write h' (ve v') (map Some e) with
        | None => None
        | Some h2 => Some (true, MV (vs v') (ptr_add (ve v') 1) (vc v'), h2)
        end
    end.

  (** vec.rs:422-432 [pop]. *)
  Definition m_pop (h : heap) (v : mvec) : option (list elem * mvec * heap) :=
    if N.eqb (m_len v) 0 then Some ([], v, h)
    else match h_read h (ve v - N.of_nat s) s with
         | None => None
         | Some e => Some ([e], m_set_len v (m_len v - 1), h)
         end.

  (** The address of slot [i] (vec.rs:393-396, 415-416, 458, 655). *)
  Definition slot (p i : N) : N := p + i * N.of_nat s.

  (** vec.rs:390-405 [remove]. *)
  Definition m_remove (h : heap) (v : mvec) (i : N) : option (list elem * mvec * heap) :=
    if i <? m_len v then
      match h_read h (slot (vs v) i) s with
      | None => None
      | Some e =>
          match h_move h (slot (vs v) (i + 1)) (slot (vs v) i) ((m_len v - (i + 1)) * N.of_nat s) with
          | None => None
          | Some h' => Some ([e], m_set_len v (m_len v - 1), h')
          end
      end
    else Some ([], v, h).

  (** vec.rs:410-419 [swap] ([false]: an assertion panics). *)
  Definition m_swap (h : heap) (v : mvec) (i j : N) : option (bool * heap) :=
    if (i <? m_len v) && (j <? m_len v) then
      match h_read h (slot (vs v) i) s, h_read h (slot (vs v) j) s with
      | Some x, Some y =>
          match h_write h (slot (vs v) i) (map Some y) with
          | None => None
          | Some h1 => match h_write h1 (slot (vs v) j) (map Some x) with
                       | None => None
                       | Some h2 => Some (true, h2)
                       end
          end
      | _, _ => None
      end
    else Some (false, h).

  (** vec.rs:436-442 [swap_remove]. *)
  Definition m_swap_remove (h : heap) (v : mvec) (i : N) : option (list elem * mvec * heap) :=
    if m_len v <=? i then Some ([], v, h)
    else match m_swap h v i (m_len v - 1) with
         | Some (true, h') => m_pop h' v
         | _ => None
         end.

  (** [n] elements at [p] (a slice of vec.rs:258-262 that is read, or dropped in place). *)
  Fixpoint load_all (m : N -> option N) (p : N) (n : nat) : option (list elem) :=
    match n with
    | O => Some []
    | S n' => match load m p s, load_all m (p + N.of_nat s) n' with
              | Some e, Some r => Some (e :: r)
              | _, _ => None
              end
    end.
  (** vec.rs:258-262 [as_slice] (and boxed.rs:297-300), from slot [i] on, read or dropped. *)
  Definition m_slice (h : heap) (p n : N) : option (list elem) :=
    if in_block h p (n * N.of_nat s) then load_all (mem h) p (N.to_nat n) else None.

  (** vec.rs:247-255 [truncate]: the elements dropped. *)
  Definition m_truncate (h : heap) (v : mvec) (n : N) : option (list elem * mvec) :=
    if m_len v <=? n then Some ([], v)
    else match m_slice h (slot (vs v) n) (m_len v - n) with
         | None => None
         | Some d => Some (d, m_set_len v n)
         end.

  (** vec.rs:299-312 [try_copy_extend]. *)
  Definition m_copy_extend (h : heap) (v : mvec) (es : list elem) (ans : N) : option (bool * mvec * heap) :=
    match es with
    | [] => Some (true, v, h)
    | _ => match m_reserve h v (N.of_nat (length es)) ans with
           | None => None
           | Some (false, v', h') => Some (false, v', h')
           | Some (true, v', h') =>
               match h_write h' (ve v') (map Some (List.concat es)) with
               | None => None
               | Some h2 => Some (true, m_set_len v' (m_len v' + N.of_nat (length es)), h2)
               end
           end
    end.

  (** vec.rs:562-564: writes at [end] without looking at [capacity]. *)
  Fixpoint m_write_all (h : heap) (v : mvec) (es : list elem) : option (mvec * heap) :=
    match es with
    | [] => Some (v, h)
    | e :: r => match h_write h (ve v) (map Some e) with
                | None => None
                | Some h' => m_write_all h' (MV (vs v) (ptr_add (ve v) 1) (vc v)) r
                end
    end.
  (** vec.rs:555-567 [extend] with an iterator that yields [es] and whose [size_hint] has the
      upper bound [hi]; without an upper bound (568-569) it is [m_reserve] and [m_push]es. *)
  Definition m_extend (h : heap) (v : mvec) (es : list elem) (hi ans : N) : option (bool * mvec * heap) :=
    match m_reserve h v hi ans with
    | None => None
    | Some (false, v', h') => Some (false, v', h')
    | Some (true, v', h') =>
        match m_write_all h' v' es with
        | None => None
        | Some (v2, h2) => Some (true, v2, h2)
        end
    end.

  (** vec.rs:457-459: the elements of a slice are cloned one by one to [d]. *)
  Fixpoint m_clone_all (h : heap) (p d : N) (n : nat) : option heap :=
    match n with
    | O => Some h
    | S n' => match h_read h p s with
              | None => None
              | Some e => match h_write h d (map Some e) with
                          | None => None
                          | Some h' => m_clone_all h' (p + N.of_nat s) (d + N.of_nat s) n'
                          end
              end
    end.
  (** vec.rs:455-463 [clone] ([None] inside: [with_capacity_in] panics). *)
  Definition m_clone (h : heap) (v : mvec) (ans : N) : option (option mvec * heap) :=
    match m_reserve h m_new (m_len v) ans with
    | None => None
    | Some (false, _, h') => Some (None, h')
    | Some (true, r, h') =>
        match m_clone_all h' (vs v) (vs r) (N.to_nat (m_len v)) with
        | None => None
        | Some h2 => Some (Some (m_set_len r (m_len v)), h2)
        end
    end.

  (** [as_slice()[i]], or the write through [as_slice_mut()[i]] (vec.rs:258-270, 478-493);
      [None] inside: the index panics. *)
  Definition m_get (h : heap) (v : mvec) (i : N) : option (option elem) :=
    if i <? m_len v then option_map Some (h_read h (slot (vs v) i) s) else Some None.
  (** As above, writing (vec.rs:265-270, 484-488). *)
  Definition m_set (h : heap) (v : mvec) (i : N) (e : elem) : option (bool * heap) :=
    if i <? m_len v then
      match h_write h (slot (vs v) i) (map Some e) with None => None | Some h' => Some (true, h') end
    else Some (false, h).

  (** vec.rs:331-353 [drain(from..to)], of which [k] elements are taken (710-716) before it
      is dropped (724-738): the elements taken, those dropped ([None] inside: panic). *)
  Definition m_drain (h : heap) (v : mvec) (from to k : N)
    : option (option (list elem * list elem) * mvec * heap) :=
    if (from <=? to) && (to <=? m_len v) then
      let i := N.min (from + k) to in
      match m_slice h (slot (vs v) from) (i - from), m_slice h (slot (vs v) i) (to - i) with
      | Some t, Some d =>
          match h_move h (slot (vs v) to) (slot (vs v) from) ((m_len v - to) * N.of_nat s) with
          | None => None
          | Some h' => Some (Some (t, d), m_set_len v (m_len v - to + from), h')
          end
      | _, _ => None
      end
    else Some (None, v, h).

  (** vec.rs:540-547 [Drop]: the elements dropped. *)
  Definition m_drop (h : heap) (v : mvec) : option (list elem * heap) :=
    match m_slice h (vs v) (m_len v) with
    | None => None
    | Some d => if negb (N.eqb (m_cap v) 0)
                then match m_free h (vs v) with None => None | Some h' => Some (d, h') end
                else Some (d, h)
    end.

  (** boxed.rs:379-398 [From<Vec>] for [BoxedSlice]: the capacity goes to the prefix. *)
  Definition m_into_boxed (h : heap) (v : mvec) : option (mbox * heap) :=
    if negb (N.eqb (m_cap v) 0) then
      match h_write h (prefix_ptr psz (vs v) + 16) (map Some (enc 8 (m_cap v))) with
      | None => None
      | Some h' => Some (MB (vs v) (ve v), h')
      end
    else Some (MB (vs v) (ve v), h).
  (** boxed.rs:288-290 [BoxedSlice::len]. *)
  Definition b_len (b : mbox) : N := ptr_diff (be b) (bs_ b).
  (** The capacity kept in the prefix (boxed.rs:311-316, 331-342). *)
  Definition b_cap (h : heap) (b : mbox) : option N :=
    option_map dec (h_read h (prefix_ptr psz (bs_ b) + 16) 8).
  (** boxed.rs:399-424 [From<BoxedSlice>] for [Vec], with 326-343 [into_raw_components]. *)
  Definition m_into_vec (h : heap) (b : mbox) : option mvec :=
    match (if N.eqb (b_len b) 0 then Some 0 else b_cap h b) with
    | None => None
    | Some c => if negb (N.eqb c 0) then Some (MV (bs_ b) (be b) (ptr_add (bs_ b) c))
                else Some (MV (bs_ b) (be b) (bs_ b))
    end.
  (** boxed.rs:310-325 [BoxedSlice::try_push]. *)
  Definition b_push (h : heap) (b : mbox) (e : elem) : option (bool * mbox * heap) :=
    match b_cap h b with
    | None => None
    | Some c => if c <=? b_len b then Some (false, b, h)
                else match h_write h (be b) (map Some e) with
                     | None => None
                     | Some h' => Some (true, MB (bs_ b) (be b + N.of_nat s), h')
                     end
    end.
  (** boxed.rs:438-445 [Drop] of a [BoxedSlice]. *)
  Definition b_drop (h : heap) (b : mbox) : option (list elem * heap) :=
    match m_slice h (bs_ b) (b_len b) with
    | None => None
    | Some d => if negb (N.eqb (b_len b) 0)
                then match m_free h (bs_ b) with None => None | Some h' => Some (d, h') end
                else Some (d, h)
    end.

  (** What a program does with the [i]-th object it made; [ans]: the allocator's answer,
      should it be called (the functions above, from vec.rs:75-793 and boxed.rs:275-445). *)
  Inductive op :=
  | New
  | Reserve (i : nat) (n ans : N)
  | Push (i : nat) (e : elem) (ans : N)
  | Pop (i : nat)
  | Remove (i : nat) (k : N)
  | Swap (i : nat) (j k : N)
  | SwapRemove (i : nat) (k : N)
  | Truncate (i : nat) (n : N)
  | CopyExtend (i : nat) (es : list elem) (ans : N)
  | Extend (i : nat) (es : list elem) (hi ans : N)
  | CloneV (i : nat) (ans : N)
  | Get (i : nat) (k : N)
  | SetAt (i : nat) (k : N) (e : elem)
  | Read (i : nat)
  | DrainV (i : nat) (from to k : N)
  | IntoBoxed (i : nat)
  | IntoVec (i : nat)
  | DropO (i : nat).

  (** What the program sees (results of the functions above, vec.rs:75-793): success, the
      values it is given, the values that are dropped. *)
  Record obs := Obs { o_ok : bool; o_got : list elem; o_dropped : list elem }.
  (** The objects of the program ([None]: moved or dropped), and the heap (alloc/mod.rs:116-145). *)
  Definition state : Type := list (option obj) * heap.

  (** Replacing the [i]-th object (the [&mut self] of vec.rs:151-440). *)
  Fixpoint upd {A} (i : nat) (x : A) (l : list A) : list A :=
    match l, i with
    | [], _ => []
    | _ :: r, O => x :: r
    | y :: r, S i' => y :: upd i' x r
    end.

  (** An operation on the vector [v] at [i] (vec.rs:75-793, boxed.rs:379-398). The program
      checks [is_empty] before it makes a boxed slice. *)
  Definition step_vec (i : nat) (v : mvec) (o : op) (w : list (option obj)) (h : heap) : option (obs * state) :=
    let keep b v' h' := Some (Obs b [] [], (upd i (Some (OV v')) w, h')) in
    let give r := match r with
                  | None => None
                  | Some (g, v', h') => Some (Obs (match g with [] => false | _ => true end) g [],
                                              (upd i (Some (OV v')) w, h'))
                  end in
    match o with
    | Reserve _ n ans => match m_reserve h v n ans with None => None | Some (b, v', h') => keep b v' h' end
    | Push _ e ans => match m_push h v e ans with None => None | Some (b, v', h') => keep b v' h' end
    | Pop _ => give (m_pop h v)
    | Remove _ k => give (m_remove h v k)
    | Swap _ j k => match m_swap h v j k with None => None | Some (b, h') => keep b v h' end
    | SwapRemove _ k => give (m_swap_remove h v k)
    | Truncate _ n => match m_truncate h v n with
                      | None => None
                      | Some (d, v') => Some (Obs true [] d, (upd i (Some (OV v')) w, h))
                      end
    | CopyExtend _ es ans =>
        match m_copy_extend h v es ans with None => None | Some (b, v', h') => keep b v' h' end
    | Extend _ es hi ans =>
        match m_extend h v es hi ans with None => None | Some (b, v', h') => keep b v' h' end
    | CloneV _ ans => match m_clone h v ans with
                      | None => None
                      | Some (None, h') => Some (Obs false [] [], (w, h'))
                      | Some (Some r, h') => Some (Obs true [] [], (w ++ [Some (OV r)], h'))
                      end
    | Get _ k => match m_get h v k with
                 | None => None
                 | Some None => Some (Obs false [] [], (w, h))
                 | Some (Some e) => Some (Obs true [e] [], (w, h))
                 end
    | SetAt _ k e => match m_set h v k e with None => None | Some (b, h') => keep b v h' end
    | Read _ => match m_slice h (vs v) (m_len v) with
                | None => None
                | Some l => Some (Obs true l [], (w, h))
                end
    | DrainV _ from to k => match m_drain h v from to k with
                            | None => None
                            | Some (None, v', h') => keep false v' h'
                            | Some (Some (t, d), v', h') => Some (Obs true t d, (upd i (Some (OV v')) w, h'))
                            end
    | IntoBoxed _ => if N.eqb (m_len v) 0 then Some (Obs false [] [], (w, h))
                     else match m_into_boxed h v with
                          | None => None
                          | Some (b, h') => Some (Obs true [] [], (upd i (Some (OB b)) w, h'))
                          end
    | DropO _ => match m_drop h v with
                 | None => None
                 | Some (d, h') => Some (Obs true [] d, (upd i None w, h'))
                 end
    | New | IntoVec _ => Some (Obs false [] [], (w, h))
    end.

  (** An operation on the boxed slice [b] at [i] (boxed.rs:288-325, 399-445). *)
  Definition step_box (i : nat) (b : mbox) (o : op) (w : list (option obj)) (h : heap) : option (obs * state) :=
    match o with
    | Push _ e _ => match b_push h b e with
                    | None => None
                    | Some (ok, b', h') => Some (Obs ok [] [], (upd i (Some (OB b')) w, h'))
                    end
    | Read _ => match m_slice h (bs_ b) (b_len b) with
                | None => None
                | Some l => Some (Obs true l [], (w, h))
                end
    | IntoVec _ => match m_into_vec h b with
                   | None => None
                   | Some v => Some (Obs true [] [], (upd i (Some (OV v)) w, h))
                   end
    | DropO _ => match b_drop h b with
                 | None => None
                 | Some (d, h') => Some (Obs true [] d, (upd i None w, h'))
                 end
    | _ => Some (Obs false [] [], (w, h))
    end.

  (** The object an operation is about (the receiver of the methods of vec.rs:75-793). *)
  Definition target (o : op) : option nat :=
    match o with
    | New => None
    | Reserve i _ _ | Push i _ _ | Pop i | Remove i _ | Swap i _ _ | SwapRemove i _ | Truncate i _
    | CopyExtend i _ _ | Extend i _ _ _ | CloneV i _ | Get i _ | SetAt i _ _ | Read i
    | DrainV i _ _ _ | IntoBoxed i | IntoVec i | DropO i => Some i
    end.

  (** One operation (vec.rs:75-793, boxed.rs:275-445); one on an object that is not there, or
      that the object does not have, is not a program: nothing happens. *)
  Definition step (o : op) (st : state) : option (obs * state) :=
    let '(w, h) := st in
    match target o with
    | None => Some (Obs true [] [], (w ++ [Some (OV m_new)], h))
    | Some i => match nth_error w i with
                | Some (Some (OV v)) => step_vec i v o w h
                | Some (Some (OB b)) => step_box i b o w h
                | _ => Some (Obs false [] [], (w, h))
                end
    end.

  (** A program (calls of vec.rs:75-793 and boxed.rs:275-445 in any order). *)
  Fixpoint run (os : list op) (st : state) : option (list obs * state) :=
    match os with
    | [] => Some ([], st)
    | o :: r => match step o st with
                | None => None
                | Some (b, st') => match run r st' with
                                   | None => None
                                   | Some (l, st2) => Some (b :: l, st2)
                                   end
                end
    end.
End Mem.
