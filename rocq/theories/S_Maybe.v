(** What a future that may already be resolved should do, in terms of values. *)
From Coq Require Import List Arith NArith Bool.
From Verif Require Import M_Layout M_Result M_Enum M_Maybe.
Import ListNotations.

Inductive state := Resolved (v : val) | Empty | Pending (x : val).
(** A future in terms of values: the output if it is ready, and its state afterwards. *)
Definition vfuture := val -> option val * val.
(** One poll: the output, the state afterwards, the future destroyed. *)
Definition step (g : vfuture) (st : state) : option val * state * option val :=
  match st with
  | Resolved v => (Some v, Empty, None)
  | Empty => (None, Empty, None)
  | Pending x => match g x with
                 | (Some v, x') => (Some v, Empty, Some x')
                 | (None, x') => (None, Pending x', None)
                 end
  end.
Fixpoint steps (g : vfuture) (n : nat) (st : state) : list (option val * option val) * state :=
  match n with
  | O => ([], st)
  | S n => let '(r, st', d) := step g st in let '(l, st'') := steps g n st' in ((r, d) :: l, st'')
  end.

(** The bytes [s] hold the state [st]. *)
Definition value_of (st : state) : val := match st with Resolved v => VOk v | Empty => VErr (VOk VUnit) | Pending x => VErr (VErr x) end.
Definition holds (T F : ty) (s : list N) (st : state) : Prop := decode (maybe_ty T F) s = Some (value_of st).
Definition same_output (T : ty) (r : option (list N)) (r' : option val) : Prop :=
  match r, r' with Some v, Some y => decode T v = Some y | None, None => True | _, _ => False end.
(** What is destroyed by a poll is the future [x] (variant 2), or nothing. *)
Definition same_drop (F : ty) (d : option (nat * list N)) (d' : option val) : Prop :=
  match d, d' with Some (i, f), Some x => i = 2 /\ decode F f = Some x | None, None => True | _, _ => False end.
(** The future [fut] behaves as [g]. *)
Definition behaves (T F : ty) (fut : future) (g : vfuture) : Prop :=
  forall f x, decode F f = Some x -> same_output T (fst (fut f)) (fst (g x)) /\ decode F (snd (fut f)) = Some (snd (g x)).
(** Where the bytes of the future are. *)
Definition future_at (T F : ty) (k : nat) : Prop :=
  exists a b c p q, layout T = Some a /\ layout F = Some b /\ layout (TResult TUnit F) = Some c /\ provider_of a c = Some p /\ provider_of unit_d b = Some q /\
    k = err_offset a c p + err_offset unit_d b q.
(** When it is ready, the future has not touched the bits of the tag of the object, which may be among its unused bits:
    its new bytes written in place, the object is still in its variant 2. *)
Definition keeps_tag (T F : ty) (fut : future) : Prop :=
  forall s f k v f', maybe_drop T F s = Some (2, f) -> future_at T F k -> fut f = (Some v, f') -> length f' = length f ->
    maybe_drop T F (firstn k s ++ f' ++ skipn (k + length f) s) = Some (2, f').

(** Determinants that [Ok] (resp. [Err]) guards leave alone: the tag is a byte of its own, or being [Ok] is not having some value. *)
Fixpoint not_set (ok : bool) (d : det) : bool :=
  match d with
  | DBit | DEnd => true
  | DVal _ _ t => ok && not_set ok t
  | DBitErr _ _ => false
  | DNot d => not_set (negb ok) d
  end.
(** The determinants of [MaybeResolved<T, F>]: the outer one tells [Resolved], the inner one [Empty] from [Pending]. *)
Definition outer_det (T F : ty) (d : det) : Prop :=
  exists a b p, layout T = Some a /\ layout (TResult TUnit F) = Some b /\ provider_of a b = Some p /\ d = fp_det p.
Definition inner_det (F : ty) (d : det) : Prop := exists b p, layout F = Some b /\ provider_of unit_d b = Some p /\ d = fp_det p.

(** Number of outputs of a trace; number of variants [i] destroyed by it, and by the final drop. *)
Fixpoint outputs {A B} (l : list (option A * B)) : nat := match l with [] => 0 | (Some _, _) :: l => S (outputs l) | _ :: l => outputs l end.
Fixpoint destroyed {A B} (i : nat) (l : list (A * option (nat * B))) (final : option (nat * B)) : nat :=
  match l with
  | [] => match final with Some (j, _) => if j =? i then 1 else 0 | None => 0 end
  | (_, Some (j, _)) :: l => (if j =? i then 1 else 0) + destroyed i l final
  | _ :: l => destroyed i l final
  end.
