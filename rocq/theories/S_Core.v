(** Vocabulary for unions, tagged enums, standard enums, indirections. *)
From Coq Require Import List Arith NArith Bool.
From Verif Require Import M_Layout M_Core S_Layout.
Import ListNotations.

(** A C union of members given as (size, align). *)
Definition c_union (ms : list (nat * nat)) (size al : nat) : Prop :=
  al = fold_left Nat.max (map snd ms) 1 /\ first_multiple (fold_left Nat.max (map fst ms) 0) al size.

(** [#[repr(C, uN)]] (Rust reference): a C struct of the tag and the C union of the
    variants' structs.  [vs]: (size, align) of the variants. *)
Definition repr_c_enum (w : nat) (vs : list (nat * nat)) (payload size al : nat) : Prop :=
  exists usize ual, c_union vs usize ual /\ c_struct 1 [(w, w); (usize, ual)] [0; payload] size al.

(** [#[repr(uN)]] (Rust reference): the C union of the C structs (tag, field). [o]: the offset of
    the field in each variant. *)
Definition repr_u_enum (w : nat) (vs : list (nat * nat)) (os : list nat) (size al : nat) : Prop :=
  exists ss, Forall2 (fun v_o s => c_struct 1 [(w, w); fst v_o] [0; snd v_o] (fst s) (snd s))
               (combine vs os) ss /\ length vs = length os /\ c_union ss size al.

(** The type contains a pointer. *)
Fixpoint has_pointer (t : ty) : bool :=
  match t with
  | TRawPtr _ | TRef _ => true
  | TFP a b | TUnion a b | TResult a b => has_pointer a || has_pointer b
  | TStruct t | TAligned t _ | TArr t _ | TMaybeUninit t => has_pointer t
  | _ => false
  end.

(** [p] holds of every type occurring in [t]. *)
Fixpoint everywhere (p : ty -> bool) (t : ty) : bool :=
  p t && match t with
  | TFP a b | TUnion a b | TResult a b => everywhere p a && everywhere p b
  | TStruct t | TAligned t _ | TArr t _ | TMaybeUninit t => everywhere p t
  | _ => true
  end.
Definition not_ordering (t : ty) : bool := match t with TOrdering => false | _ => true end.
Definition not_result (t : ty) : bool := match t with TResult _ _ | TPadByte => false | _ => true end.
