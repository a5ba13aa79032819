(** Specifications for vectors (C18-C22): operations on mathematical lists. *)
From Coq Require Import NArith List.
From Verif Require Import M_Vec.
Import ListNotations.

(** The memory of [v] holds exactly the list [l] in its first slots, has as many slots as
    the capacity says, and all byte counts fit in [usize]. *)
Definition holds {E} (s : N) (v : vec E) (l : list E) : Prop :=
  exists rest, slots v = map Some l ++ rest /\ vlen v = length l /\
    N.of_nat (length (slots v)) = vcap v /\ (s * vcap v < 2 ^ 64)%N.

(** Operations. *)
Inductive vop (E : Type) :=
| Push (e : E) | TryPush (e : E) | Pop | Remove (i : nat) | Swap (a b : nat) | SwapRemove (i : nat)
| Truncate (n : nat) | Reserve (n : N) | TryReserve (n : N)
| CopyExtend (es : list E) | TryCopyExtend (es : list E)
| Extend (es : list E) (lo : N) (hi : option N).
Arguments Push {E}. Arguments TryPush {E}. Arguments Pop {E}. Arguments Remove {E}. Arguments Swap {E}.
Arguments SwapRemove {E}. Arguments Truncate {E}. Arguments Reserve {E}. Arguments TryReserve {E}.
Arguments CopyExtend {E}. Arguments TryCopyExtend {E}. Arguments Extend {E}.

(** [l'] is [l] with positions [a] and [b] exchanged. *)
Definition exchanged {E} (a b : nat) (l l' : list E) : Prop :=
  length l' = length l /\ nth_error l' a = nth_error l b /\ nth_error l' b = nth_error l a /\
  forall k, k <> a -> k <> b -> nth_error l' k = nth_error l k.

(** What an operation does to a list: new list, values returned, values dropped, panicked?
    Failures happen only if the allocator may refuse. *)
Inductive lstep {E} (ok : N -> bool) : vop E -> list E -> list E -> list E -> list E -> bool -> Prop :=
| ls_push e l : lstep ok (Push e) l (l ++ [e]) [] [] false
| ls_push_fail e l n : ok n = false -> lstep ok (Push e) l l [] [e] true
| ls_try_push e l : lstep ok (TryPush e) l (l ++ [e]) [] [] false
| ls_try_push_fail e l n : ok n = false -> lstep ok (TryPush e) l l [e] [] false
| ls_pop_none : lstep ok Pop [] [] [] [] false
| ls_pop l e : lstep ok Pop (l ++ [e]) l [e] [] false
| ls_remove a e b : lstep ok (Remove (length a)) (a ++ e :: b) (a ++ b) [e] [] false
| ls_remove_none i l : length l <= i -> lstep ok (Remove i) l l [] [] false
| ls_swap a b l l' : a < length l -> b < length l -> exchanged a b l l' ->
    lstep ok (Swap a b) l l' [] [] false
| ls_swap_panic a b l : (length l <= a \/ length l <= b) -> lstep ok (Swap a b) l l [] [] true
| ls_swap_remove a e b z : lstep ok (SwapRemove (length a)) (a ++ e :: b ++ [z]) (a ++ z :: b) [e] [] false
| ls_swap_remove_last a e : lstep ok (SwapRemove (length a)) (a ++ [e]) a [e] [] false
| ls_swap_remove_none i l : length l <= i -> lstep ok (SwapRemove i) l l [] [] false
| ls_truncate n l : lstep ok (Truncate n) l (firstn n l) [] (skipn n l) false
| ls_reserve n l : lstep ok (Reserve n) l l [] [] false
| ls_reserve_fail n l k : ok k = false -> lstep ok (Reserve n) l l [] [] true
| ls_try_reserve n l : lstep ok (TryReserve n) l l [] [] false
| ls_copy_extend es l : lstep ok (CopyExtend es) l (l ++ es) [] [] false
| ls_copy_extend_fail es l n : ok n = false -> lstep ok (CopyExtend es) l l [] [] true
| ls_try_copy_extend es l : lstep ok (TryCopyExtend es) l (l ++ es) [] [] false
| ls_try_copy_extend_fail es l n : ok n = false -> lstep ok (TryCopyExtend es) l l [] [] false
| ls_extend es lo hi l : lstep ok (Extend es lo hi) l (l ++ es) [] [] false
| ls_extend_fail es1 es2 lo hi l n : ok n = false ->
    lstep ok (Extend (es1 ++ es2) lo hi) l (l ++ es1) [] es2 true.

(** The model's operations. *)
Definition v_run1 {E} (s : N) (ok : N -> bool) (o : vop E) (v : vec E) : out E :=
  match o with
  | Push e => v_push s ok e v
  | TryPush e => snd (v_try_push s ok e v)
  | Pop => v_pop v
  | Remove i => v_remove i v
  | Swap a b => v_swap a b v
  | SwapRemove i => v_swap_remove i v
  | Truncate n => v_truncate n v
  | Reserve n => v_reserve s ok n v
  | TryReserve n => Done (snd (v_try_reserve s ok n v)) [] []
  | CopyExtend es => v_copy_extend s ok es v
  | TryCopyExtend es => snd (v_try_copy_extend s ok es v)
  | Extend es lo hi => v_extend s ok es lo hi v
  end.

(** Iterators whose size hint is right. *)
Definition honest {E} (o : vop E) : Prop :=
  match o with
  | Extend es lo hi => (lo <= N.of_nat (length es))%N /\
                       match hi with Some h => (N.of_nat (length es) <= h)%N | None => True end
  | _ => True
  end.

(** How many elements an operation may add or reserve. *)
Definition weight {E} (o : vop E) : N :=
  match o with
  | Push _ | TryPush _ => 1
  | Reserve n | TryReserve n => n
  | CopyExtend es | TryCopyExtend es => N.of_nat (length es)
  | Extend es lo None => N.of_nat (length es)
  | Extend es lo (Some h) => h
  | _ => 0
  end%N.

(** The total over a history, each operation with the allocator's behaviour during it. *)
Fixpoint weights {E} (h : list (vop E * (N -> bool))) : N :=
  match h with [] => 0 | (o, _) :: r => weight o + weights r end%N.

(** Byte counts of [n] elements of size [s], doubled and more, fit in [usize]. *)
Definition fits (s n : N) : Prop := (s * (2 * n + 8) < 2 ^ 64)%N.

(** The elements handed to an operation. *)
Definition given {E} (o : vop E) : list E :=
  match o with
  | Push e | TryPush e => [e]
  | Extend es _ _ | CopyExtend es | TryCopyExtend es => es
  | _ => []
  end.
(** Operations that move elements (the others copy them and need [T: Copy]). *)
Definition moving {E} (o : vop E) : Prop :=
  match o with CopyExtend _ | TryCopyExtend _ => False | _ => True end.

(** A history on the model: final vector, values returned and dropped; [None]: undefined
    behaviour. A panic is caught and the history goes on. *)
Fixpoint v_run {E} (s : N) (h : list (vop E * (N -> bool))) (v : vec E) : option (vec E * list E * list E) :=
  match h with
  | [] => Some (v, [], [])
  | (o, ok) :: r =>
      match v_run1 s ok o v with
      | Done v1 a b | Panicked v1 a b =>
          match v_run s r v1 with
          | Some (v2, c, d) => Some (v2, a ++ c, b ++ d)
          | None => None
          end
      | UB => None
      end
  end.

(** The same history on lists. *)
Inductive lrun {E} : list (vop E * (N -> bool)) -> list E -> list E -> list E -> list E -> Prop :=
| lr_nil l : lrun [] l l [] []
| lr_cons o ok h l l1 l2 a b p c d : lstep ok o l l1 a b p -> lrun h l1 l2 c d ->
    lrun ((o, ok) :: h) l l2 (a ++ c) (b ++ d).

(** All elements given during a history. *)
Definition givens {E} (h : list (vop E * (N -> bool))) : list E := flat_map (fun x => given (fst x)) h.

(** Elements [from..to) of a list. *)
Definition range {E} (l : list E) (from to : nat) : list E := firstn (to - from) (skipn from l).

(** [k] calls to [next]; the values obtained. *)
Fixpoint d_takes {E} (k : nat) (d : drain E) : option (list E * drain E) :=
  match k with
  | O => Some ([], d)
  | S j => match d_next d with
           | None => None
           | Some (x, d1) =>
               match d_takes j d1 with
               | None => None
               | Some (r, d2) => Some (match x with Some e => e :: r | None => r end, d2)
               end
           end
  end.
Fixpoint dd_takes {E} (k : nat) (d : ddrain E) : option (list E * ddrain E) :=
  match k with
  | O => Some ([], d)
  | S j => match dd_next d with
           | None => None
           | Some (x, d1) =>
               match dd_takes j d1 with
               | None => None
               | Some (r, d2) => Some (match x with Some e => e :: r | None => r end, d2)
               end
           end
  end.
Fixpoint ii_takes {E} (k : nat) (d : into_iter E) : option (list E * into_iter E) :=
  match k with
  | O => Some ([], d)
  | S j => match ii_next d with
           | None => None
           | Some (x, d1) =>
               match ii_takes j d1 with
               | None => None
               | Some (r, d2) => Some (match x with Some e => e :: r | None => r end, d2)
               end
           end
  end.

(** The range that two bounds denote on a sequence of [n] elements. *)
Definition lower (b : bound) : N := match b with Included i => i | Excluded i => i + 1 | Unbounded => 0 end%N.
Definition upper (n : nat) (b : bound) : N :=
  match b with Included i => i + 1 | Excluded i => i | Unbounded => N.of_nat n end%N.
(** Bounds that can be incremented. *)
Definition small_bound (b : bound) : Prop :=
  match b with Included i | Excluded i => (i < 2 ^ 64 - 1)%N | Unbounded => True end.

(** [try_push] of several values on a boxed slice: those refused. *)
Fixpoint bs_pushes {E} (es : list E) (b : bslice E) : option (list E * bslice E) :=
  match es with
  | [] => Some ([], b)
  | e :: r => match bs_try_push e b with
              | None => None
              | Some (okk, b1) =>
                  match bs_pushes r b1 with
                  | None => None
                  | Some (refused, b2) => Some ((if okk then refused else e :: refused), b2)
                  end
              end
  end.
