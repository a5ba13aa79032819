(** Specification: the same uses of a variable of core's [Result], whose payloads are values. *)
From Coq Require Import List Arith NArith Bool Permutation.
From Verif Require Import M_Layout M_Result M_ResApi.
Import ListNotations.

Definition payload (x : val + val) : bool * val := match x with inl v => (true, v) | inr v => (false, v) end.
(** What core's Result does. *)
Definition core_step (cur : option (val + val)) (u : use val) : option (val + val) * list (event val) :=
  let gone (x : val + val) := Destroys (fst (payload x)) (snd (payload x)) in
  let given (x : val + val) := Moves (fst (payload x)) (snd (payload x)) in
  let put y := (Some y, match cur with Some x => [gone x] | None => [] end) in
  match u, cur with
  | SetOk v, _ => put (inl v) | SetErr v, _ => put (inr v) | FromCore y, _ => put y
  | _, None => (None, [])
  | MutOk v, Some (inl x) => (Some (inl v), [gone (inl x)])
  | MutErr v, Some (inr x) => (Some (inr v), [gone (inr x)])
  | MutOk _, Some x | MutErr _, Some x => (Some x, [])
  | CloneSelf f, Some (inl x) => put (inl (f true))
  | CloneSelf f, Some (inr x) => put (inr (f false))
  | IntoOk, Some x => (None, [match x with inl _ => given x | inr _ => gone x end])
  | IntoErr, Some x => (None, [match x with inl _ => gone x | inr _ => given x end])
  | IntoCore, Some x | UnwrapOrElse, Some x | UnwrapErrOrElse, Some x => (None, [given x])
  | Unwrap, Some x => (None, match x with inl _ => [given x] | inr _ => [gone x; Panics] end)
  | UnwrapErr, Some x => (None, match x with inl _ => [gone x; Panics] | inr _ => [given x] end)
  | MapOk v, Some (inl x) => (Some (inl v), [given (inl x)])
  | AndThen y, Some (inl x) => (Some y, [given (inl x)])
  | MapOk _, Some x | AndThen _, Some x => (Some x, [])
  | DropIt, Some x => (None, [gone x])
  end.
Fixpoint core_run (cur : option (val + val)) (us : list (use val)) : option (val + val) * list (event val) :=
  match us with
  | [] => (cur, [])
  | u :: us => let '(cur', ev) := core_step cur u in let '(c, ev') := core_run cur' us in (c, ev' ++ ev)
  end.
(** Bytes that are those of a value, of the type of the variant. *)
Definition is_payload (a b : ty) (ok : bool) (v : list N) (x : val) : Prop := decode (if ok then a else b) v = Some x.
Inductive same_use (a b : ty) : use (list N) -> use val -> Prop :=
| su_set_ok v x : is_payload a b true v x -> same_use a b (SetOk v) (SetOk x)
| su_set_err v x : is_payload a b false v x -> same_use a b (SetErr v) (SetErr x)
| su_from_ok v x : is_payload a b true v x -> same_use a b (FromCore (inl v)) (FromCore (inl x))
| su_from_err v x : is_payload a b false v x -> same_use a b (FromCore (inr v)) (FromCore (inr x))
| su_mut_ok v x : is_payload a b true v x -> same_use a b (MutOk v) (MutOk x)
| su_mut_err v x : is_payload a b false v x -> same_use a b (MutErr v) (MutErr x)
| su_clone f g : (forall ok, is_payload a b ok (f ok) (g ok)) -> same_use a b (CloneSelf f) (CloneSelf g)
| su_into_ok : same_use a b IntoOk IntoOk | su_into_err : same_use a b IntoErr IntoErr | su_into_core : same_use a b IntoCore IntoCore
| su_unwrap_or_else : same_use a b UnwrapOrElse UnwrapOrElse | su_unwrap_err_or_else : same_use a b UnwrapErrOrElse UnwrapErrOrElse
| su_unwrap : same_use a b Unwrap Unwrap | su_unwrap_err : same_use a b UnwrapErr UnwrapErr
| su_map v x : is_payload a b true v x -> same_use a b (MapOk v) (MapOk x)
| su_and_then_ok v x : is_payload a b true v x -> same_use a b (AndThen (inl v)) (AndThen (inl x))
| su_and_then_err v x : is_payload a b false v x -> same_use a b (AndThen (inr v)) (AndThen (inr x))
| su_drop : same_use a b DropIt DropIt.
Inductive same_event (a b : ty) : event (list N) -> event val -> Prop :=
| se_moves ok v x : is_payload a b ok v x -> same_event a b (Moves ok v) (Moves ok x)
| se_destroys ok v x : is_payload a b ok v x -> same_event a b (Destroys ok v) (Destroys ok x)
| se_panics : same_event a b Panics Panics.
(** The bytes of a variable of type [Result<a, b>]. *)
Definition same_var (a b : ty) (s : option (list N)) (x : option (val + val)) : Prop :=
  match s, x with
  | None, None => True
  | Some s, Some x => decode (TResult a b) s = Some (match x with inl v => VOk v | inr v => VErr v end)
  | _, _ => False
  end.
(** The payloads that a history brings in, given what the variable holds. *)
Definition brings (cur : option (val + val)) (u : use val) : list (bool * val) :=
  match u, cur with
  | SetOk v, _ => [(true, v)] | SetErr v, _ => [(false, v)] | FromCore y, _ => [payload y]
  | MutOk v, Some (inl _) | MapOk v, Some (inl _) => [(true, v)]
  | MutErr v, Some (inr _) => [(false, v)]
  | CloneSelf f, Some (inl _) => [(true, f true)] | CloneSelf f, Some (inr _) => [(false, f false)]
  | AndThen y, Some (inl _) => [payload y]
  | _, _ => []
  end.
Fixpoint brought (cur : option (val + val)) (us : list (use val)) : list (bool * val) :=
  match us with [] => [] | u :: us => brings cur u ++ brought (fst (core_step cur u)) us end.
(** The payloads moved or destroyed. *)
Definition leaves (e : event val) : list (bool * val) := match e with Moves ok v | Destroys ok v => [(ok, v)] | Panics => [] end.
