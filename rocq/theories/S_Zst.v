(** Specification for vectors of zero-sized elements (C80): operations on lists. *)
From Coq Require Import NArith List Bool.
From Verif Require Import M_Alloc M_Vec S_Vec M_Zst.
Import ListNotations.
Local Open Scope N_scope.

(** Operations: those of [S_Vec], drains, clones, iterators, and boxed slices. *)
Inductive zop :=
| ZV (o : vop unit) | ZDrain (b1 b2 : bound) (k : N) | ZClone | ZIter (k : N) | ZRebox | ZBoxPush.

(** What they do to lists; the allocator is never asked. *)
Inductive zspec : zop -> list unit -> list unit -> list unit -> list unit -> bool -> Prop :=
| zs_v o l l' r d p : lstep (fun _ => true) o l l' r d p -> zspec (ZV o) l l' r d p
| zs_drain b1 b2 k l from to : from = N.to_nat (lower b1) -> to = N.to_nat (upper (length l) b2) ->
    (from <= to)%nat -> (to <= length l)%nat ->
    zspec (ZDrain b1 b2 k) l (firstn from l ++ skipn to l)
      (firstn (N.to_nat k) (range l from to)) (skipn (N.to_nat k) (range l from to)) false
| zs_drain_panic b1 b2 k l : ~ (lower b1 <= upper (length l) b2 <= N.of_nat (length l)) ->
    zspec (ZDrain b1 b2 k) l l [] [] true
| zs_clone l : zspec ZClone l l [] l false
| zs_iter k l : zspec (ZIter k) l [] (firstn (N.to_nat k) l) (skipn (N.to_nat k) l) false
| zs_rebox l : zspec ZRebox l l [] [] false
| zs_box_push l : zspec ZBoxPush l (l ++ [tt]) [] [] false.

(** The model's operations; [None]: this does not compile ([push] and what calls it, vec.rs:153,
    165, 566, need [FIRST_CAPACITY]). *)
Definition zstep (dbg : bool) (a : N) (o : zop) (v : zvec) : option (zr zout) :=
  match o with
  | ZV (Push _) | ZV (TryPush _) | ZV (Extend _ _ _) =>
      match first_capacity_const 0 with None => None | Some _ => Some Ub end
  | ZV Pop => Some (z_pop dbg a v)
  | ZV (Remove i) => Some (z_remove dbg a (N.of_nat i) v)
  | ZV (Swap i j) => Some (z_swap dbg a (N.of_nat i) (N.of_nat j) v)
  | ZV (SwapRemove i) => Some (z_swap_remove dbg a (N.of_nat i) v)
  | ZV (Truncate n) => Some (z_truncate dbg (N.of_nat n) v)
  | ZV (Reserve n) | ZV (TryReserve n) => Some (zbind (z_try_reserve dbg n v) (fun v => Val (zquiet v)))
  | ZV (CopyExtend es) | ZV (TryCopyExtend es) => Some (z_copy_extend dbg a (N.of_nat (length es)) v)
  | ZDrain b1 b2 k => Some (z_drain dbg a b1 b2 k v)
  | ZClone => Some (z_clone dbg a v)
  | ZIter k => Some (z_iter dbg a k v)
  | ZRebox => Some (Val (zquiet (z_rebox v)))
  | ZBoxPush => Some (z_box_push v)
  end.

(** A history; a panic is caught, leaves the vector as it was, and the history goes on.
    [None]: undefined behaviour, or no code. *)
Fixpoint zrun (dbg : bool) (a : N) (h : list zop) (v : zvec) : option zout :=
  match h with
  | [] => Some (zquiet v)
  | o :: r =>
      match zstep dbg a o v with
      | Some (Val (v1, x, y)) =>
          match zrun dbg a r v1 with Some (v2, x', y') => Some (v2, x ++ x', y ++ y') | None => None end
      | Some Pan => zrun dbg a r v
      | _ => None
      end
  end.
(** The same history on lists. *)
Inductive zlrun : list zop -> list unit -> list unit -> list unit -> list unit -> Prop :=
| zl_nil l : zlrun [] l l [] []
| zl_cons o h l l1 l2 x y p x' y' : zspec o l l1 x y p -> zlrun h l1 l2 x' y' ->
    zlrun (o :: h) l l2 (x ++ x') (y ++ y').

(** The operations there is code for, and that do not read a prefix. *)
Definition usable (o : zop) : Prop :=
  match o with
  | ZV (Push _) | ZV (TryPush _) | ZV (Extend _ _ _) | ZBoxPush => False
  | ZDrain b1 b2 _ => small_bound b1 /\ small_bound b2
  | _ => True
  end.
(** How many elements an operation may add or reserve. *)
Definition zweight (o : zop) : N := match o with ZV o => weight o | _ => 0 end.
(** The total over a history. *)
Fixpoint zweights (h : list zop) : N := match h with [] => 0 | o :: r => zweight o + zweights r end.

(** Operations that use the end of the vector as a pointer to an element. *)
Definition touches_end (o : zop) (len : N) : Prop :=
  match o with
  | ZV Pop => 0 < len
  | ZV (SwapRemove i) => N.of_nat i < len
  | ZV (CopyExtend es) | ZV (TryCopyExtend es) => es <> []
  | _ => False
  end.
(** Operations that ask for more than there can be. *)
Definition too_much (o : zop) (a len : N) : Prop :=
  match o with
  | ZV (Reserve n) | ZV (TryReserve n) => 2 ^ 64 - 1 - a - len < n
  | ZV (CopyExtend es) | ZV (TryCopyExtend es) => 2 ^ 64 - 1 - a - len < N.of_nat (length es)
  | _ => False
  end.
(** The vector that holds [l]. *)
Definition zholds (a : N) (v : zvec) (l : list unit) : Prop :=
  v = Z a (a + N.of_nat (length l)) (2 ^ 64 - 1) /\ a + N.of_nat (length l) <= 2 ^ 64 - 1.
