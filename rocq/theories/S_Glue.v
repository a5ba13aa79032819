(** What the adapters of [M_Glue] are to do. *)
From Coq Require Import List NArith Bool.
From Verif Require Import M_Layout M_Result M_Alloc M_Glue.
Import ListNotations.

(** What a writer holds after calls which succeeded or not. *)
Fixpoint written (bs : list bool) (bufs : list (list N)) : list N :=
  match bs, bufs with
  | b :: bs', x :: r => (if b then x else []) ++ written bs' r
  | _, _ => []
  end.
Fixpoint total (bufs : list (list N)) : nat := match bufs with [] => 0 | x :: r => length x + total r end.

(** A [Cow]: a reference or a value. *)
Inductive cow := Borrowed (r : val) | Owned (v : val).
(** [dup] and [f] are the same [ToOwned] implementation, on bytes and on values. *)
Definition implements (a b : ty) (dup : list N -> list N) (f : val -> val) : Prop :=
  forall w x, decode a w = Some x -> decode b (dup w) = Some (f x).

(** A map as a function. *)
Definition amap := N -> option val.
Definition put (k : N) (x : val) (m : amap) : amap := fun k' => if N.eqb k' k then Some x else m k'.
(** What a call answers, and what it changes; [dec] reads values. *)
Definition acall_spec (dec : list N -> option val) (c : mcall) (m : amap) : option val * amap :=
  match c with
  | Get k _ => (m k, m)
  | GetMut k _ v => (m k, match m k, dec v with Some _, Some x => put k x m | _, _ => m end)
  | Insert k v => (m k, match dec v with Some x => put k x m | None => m end)
  end.
Fixpoint run_spec (dec : list N -> option val) (cs : list mcall) (m : amap) : list (option val) :=
  match cs with [] => [] | c :: r => let '(x, m') := acall_spec dec c m in x :: run_spec dec r m' end.
(** Values are values of the type, addresses are not null. *)
Definition call_ok (t : ty) (c : mcall) : Prop :=
  match c with
  | Get _ a => decode (TRef 8) a <> None
  | GetMut _ a v => decode (TRef 8) a <> None /\ decode t v <> None
  | Insert _ v => decode t v <> None
  end.
(** The same answers, in bytes and as values. *)
Definition same (t : ty) (x : option (list N)) (y : option val) : Prop :=
  match x, y with Some w, Some v => decode t w = Some v | None, None => True | _, _ => False end.
