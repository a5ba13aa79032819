(** When [StableLike] tells the truth. *)
From Coq Require Import List NArith Bool.
From Verif Require Import M_Layout M_Result M_Like S_Core.
Import ListNotations.

(** Every value of [t] is a value of [a], and bytes that are the same value of [a] are the same value of [t]. *)
Definition truthful (t a : ty) : Prop :=
  forall w x, decode t w = Some x -> exists y, decode a w = Some y /\ forall w', decode a w' = Some y -> decode t w' = Some x.
(** All the [StableLike]s of a type that can be made tell the truth. *)
Fixpoint honest (l : lty) : Prop :=
  match l with
  | LOf _ => True
  | LLike t a => like_check t a = true -> truthful t a
  | LPair a b | LResult a b => honest a /\ honest b
  | LStruct t | LArr t _ => honest t
  end.
(** All the [StableLike]s of a type are described by [NoNiches], as the documentation advises. *)
Fixpoint advised (l : lty) : Prop :=
  match l with
  | LOf _ => True
  | LLike _ a => exists s al, a = no_niches s al
  | LPair a b | LResult a b => advised a /\ advised b
  | LStruct t | LArr t _ => advised t
  end.

(** What is really there holds a pointer. *)
Fixpoint lpointer (l : lty) : bool :=
  match l with
  | LOf t => has_pointer t
  | LLike t _ => has_pointer t
  | LPair a b | LResult a b => lpointer a || lpointer b
  | LStruct t | LArr t _ => lpointer t
  end.
(** The [StableLike]s of a type do not hide pointers. *)
Fixpoint open_about_pointers (l : lty) : Prop :=
  match l with
  | LOf _ => True
  | LLike t a => has_pointer t = true -> has_pointer a = true
  | LPair a b | LResult a b => open_about_pointers a /\ open_about_pointers b
  | LStruct t | LArr t _ => open_about_pointers t
  end.
