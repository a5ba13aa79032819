(** Model of [SingleOrVec] (stabby-abi/src/alloc/single_or_vec.rs) on top of [M_Vec].
    The [Result<Single, Vec>] inside is its variant; what the [OkGuard]s of [match_mut] do
    to it when they are dropped depends on the determinant [d] of that result. *)
From Coq Require Import NArith List Bool.
From Verif Require Import M_Alloc M_Layout M_Vec.
Import ListNotations.

(** single_or_vec.rs:20-27. [Corrupt]: the storage contains a [Vec] but the determinant says
    [Single]. *)
Inductive sov (E : Type) := Single (e : E) | Many (v : vec E) | Corrupt.
Arguments Single {E}. Arguments Many {E}. Arguments Corrupt {E}.

(** Results, as [M_Vec.out] (calls of single_or_vec.rs:59-584). *)
Inductive sout (E : Type) :=
| SDone (s : sov E) (ret dropped : list E)
| SPanic (s : sov E) (ret dropped : list E)
| SUB.
Arguments SDone {E}. Arguments SPanic {E}. Arguments SUB {E}.

(** Does [Determinant::ok] (run by result.rs:509-519 [OkGuard::drop]) write to the storage?
    enums/mod.rs:65-67,77-79,124-126,162-169,204-206; see [sov_guard_bytes] in P_Sov.v. *)
Definition reasserts (d : det) : bool :=
  match d with DNot (DVal _ _ _) | DBitErr _ _ => true | _ => false end.

(** result.rs:509-519 run after [*inner] was overwritten with [Err(v)] (single_or_vec.rs:215,
    241). *)
Definition after_ok_guard {E} (d : det) (v : vec E) : sov E := if reasserts d then Corrupt else Many v.

(** The result of a [Vec] operation on the vector inside (single_or_vec.rs:128-245, the [Err] cases). *)
Definition on_vec {E} (o : out E) : sout E :=
  match o with
  | Done v a b => SDone (Many v) a b
  | Panicked v a b => SPanic (Many v) a b
  | UB => SUB
  end.

(** single_or_vec.rs:59-63 [new_in]. *)
Definition s_new {E} : sov E := Many v_new.

(** vec.rs:114-120 [try_with_capacity_in]. *)
Definition v_try_with_capacity {E} (s : N) (ok : N -> bool) (n : N) : option (vec E) :=
  let '(g, v) := v_try_reserve s ok n v_new in if g then Some v else None.

(** single_or_vec.rs:128-177 [try_push]; the flag is [Ok]. *)
Definition s_try_push {E} (s : N) (ok : N -> bool) (item : E) (st : sov E) : bool * sout E :=
  match st with
  | Single value =>
      match v_try_with_capacity s ok 8 with
      | Some vec =>
          (true, match v_push s ok value vec with
                 | Done v1 _ _ => on_vec (v_push s ok item v1)
                 | r => on_vec r
                 end)
      | None => (false, SDone (Single value) [item] [])
      end
  | Many v =>
      if N.eqb (vcap v) 0 then (true, SDone (Single item) [] [])
      else let '(g, r) := v_try_push s ok item v in (g, on_vec r)
  | Corrupt => (false, SUB)
  end.
(** single_or_vec.rs:116-120 [push]: the item given back is dropped by the panic. *)
Definition s_push {E} (s : N) (ok : N -> bool) (item : E) (st : sov E) : sout E :=
  match s_try_push s ok item st with
  | (true, r) => r
  | (false, SDone st1 ret _) => SPanic st1 [] ret
  | (false, r) => r
  end.

(** single_or_vec.rs:203-227 [try_reserve]; the flag is [Ok]. Line 222 drops the value that
    [*self] still owns; line 209 wraps. *)
Definition s_try_reserve {E} (d : det) (s : N) (ok : N -> bool) (additional : N) (st : sov E) : bool * sout E :=
  match st with
  | Single value =>
      let nc := usz (1 + additional) in
      match v_try_with_capacity s ok nc with
      | Some vec =>
          match v_push s ok value vec with
          | Done v1 _ _ => (negb (N.eqb nc (2 ^ 64 - 1)), SDone (after_ok_guard d v1) [] [])
          | Panicked _ _ dr => (false, SPanic (Single value) [] dr)
          | UB => (false, SUB)
          end
      | None => (false, SDone (Single value) [] [value])
      end
  | Many v => let '(g, v1) := v_try_reserve s ok additional v in (g, SDone (Many v1) [] [])
  | Corrupt => (false, SUB)
  end.
(** single_or_vec.rs:193-195 [reserve]. *)
Definition s_reserve {E} (d : det) (s : N) (ok : N -> bool) (n : N) (st : sov E) : sout E :=
  match s_try_reserve d s ok n st with
  | (true, r) => r
  | (false, SDone st1 a b) => SPanic st1 a b
  | (false, r) => r
  end.

(** single_or_vec.rs:231-245 [truncate]. *)
Definition s_truncate {E} (d : det) (n : nat) (st : sov E) : sout E :=
  match st with
  | Single value => match n with
                    | O => SDone (after_ok_guard d v_new) [] [value]
                    | _ => SDone (Single value) [] []
                    end
  | Many v => on_vec (v_truncate n v)
  | Corrupt => SUB
  end.

(** single_or_vec.rs:247-252 [as_slice] and 104-106 [len]. *)
Definition s_as_slice {E} (st : sov E) : option (list E) :=
  match st with Single e => Some [e] | Many v => v_as_slice v | Corrupt => None end.
(** single_or_vec.rs:180-182 [capacity]. *)
Definition s_capacity {E} (st : sov E) : option N :=
  match st with Single _ => Some 1%N | Many v => Some (vcap v) | Corrupt => None end.

(** single_or_vec.rs:419-421: pushing each item; when one panics the rest is dropped. *)
Fixpoint s_push_all {E} (s : N) (ok : N -> bool) (es : list E) (st : sov E) : sout E :=
  match es with
  | [] => SDone st [] []
  | e :: r => match s_push s ok e st with
              | SDone st1 _ _ => s_push_all s ok r st1
              | SPanic st1 _ dr => SPanic st1 [] (dr ++ r)
              | SUB => SUB
              end
  end.
(** single_or_vec.rs:415-422 [extend] with items [es] and lower size hint [lo]. *)
Definition s_extend {E} (d : det) (s : N) (ok : N -> bool) (es : list E) (lo : N) (st : sov E) : sout E :=
  match s_reserve d s ok lo st with
  | SDone st1 _ _ => s_push_all s ok es st1
  | SPanic st1 a b => SPanic st1 a (b ++ es)
  | SUB => SUB
  end.

(** single_or_vec.rs:323-335 [clone]. *)
Definition s_clone {E} (s : N) (ok : N -> bool) (f : E -> E) (st : sov E) : sout E :=
  match st with
  | Single e => SDone (Single (f e)) [] []
  | Many v => on_vec (v_clone s ok f v)
  | Corrupt => SUB
  end.
(** single_or_vec.rs:566-584 [From<SingleOrVec> for Vec]. *)
Definition s_into_vec {E} (s : N) (ok : N -> bool) (st : sov E) : out E :=
  match st with Single e => v_push s ok e v_new | Many v => Done v [] [] | Corrupt => UB end.
(** result.rs:182-195 with vec.rs:540-545: dropping; elements dropped, memory freed? *)
Definition s_drop {E} (st : sov E) : option (list E * bool) :=
  match st with Single e => Some ([e], false) | Many v => v_drop v | Corrupt => None end.

(** ** [IterMut], single_or_vec.rs:458-549: positions only. *)
(** single_or_vec.rs:459-470. *)
Record iter_mut := IM { im_start : N; im_end : N }.
(** single_or_vec.rs:480-490 [next]. *)
Definition im_next (i : iter_mut) : option N * iter_mut :=
  if (im_start i <? im_end i)%N then (Some (im_start i), IM (im_start i + 1)%N (im_end i)) else (None, i).
(** single_or_vec.rs:510-513 [nth]. *)
Definition im_nth (n : N) (i : iter_mut) : option N * iter_mut := im_next (IM (usz (im_start i + n)) (im_end i)).
(** single_or_vec.rs:523-533 [next_back]. *)
Definition im_next_back (i : iter_mut) : option N * iter_mut :=
  if (im_start i <? im_end i)%N then (Some (im_end i - 1)%N, IM (im_start i) (im_end i - 1)%N) else (None, i).
(** single_or_vec.rs:534-537 [nth_back]. *)
Definition im_nth_back (n : N) (i : iter_mut) : option N * iter_mut := im_next_back (IM (im_start i) (im_end i - n)%N).
(** single_or_vec.rs:546-548 [len]; also 491-494 [size_hint] and 496-501 [count]. *)
Definition im_len (i : iter_mut) : N := (im_end i - im_start i)%N.
