(** What a user expects of [#[stabby::stabby]] on a declaration with parameters (for C92): that the type stays as
    declared, and that [IStable] is implemented for all of it. Of [M_Generics], what Rust makes of tokens ([parse],
    [accepts]) and the syntax of items are used. *)
From Coq Require Import List NArith Bool Permutation.
From Verif Require Import M_Generics.
Import ListNotations.

(** Rust accepts the declaration itself; unions and enums have braces. *)
Definition legal (d : decl) : Prop :=
  item_ok [] (Def (d_kind d) (User (d_name d)) (d_params d) (d_where d) (d_shape d)) = true /\
  (d_kind d <> KStruct -> exists ts, d_shape d = Braces ts).

(** The type is there with its parameters, its where clause holds, and its fields (those of an enum with [repr(stabby)]
    become those of a struct). *)
Definition defined (d : decl) (is : list item) : Prop :=
  exists w, incl (d_where d) w /\
    match d_kind d, d_shape d with
    | KStabby _, Braces ts => In (Def KStruct (User (d_name d)) (d_params d) w (Parens ts)) is
    | k, s => In (Def k (User (d_name d)) (d_params d) w s) is
    end.
(** A parameter as an argument. *)
Definition as_arg (p : param) : arg := match p with PLt n _ => ALt n | PTy n _ _ => AVar n | PCst n _ _ => AVar n end.
(** A parameter without its default. *)
Definition strip (p : param) : param :=
  match p with PLt n bs => PLt n bs | PTy n bs _ => PTy n bs None | PCst n t _ => PCst n t None end.
(** [IStable] is implemented for the type at its own parameters, with their bounds. *)
Definition implemented (d : decl) (is : list item) : Prop :=
  exists ps w, In (Impl ps true (User (d_name d)) (map as_arg (d_params d)) w) is /\
    Permutation ps (map strip (d_params d)) /\ incl (d_where d) w.
(** All is well. *)
Definition works (d : decl) : Prop :=
  exists is, parse (expand d) = Some is /\ accepts is = true /\ defined d is /\ implemented d is.

(** Constants come after types. *)
Definition in_order (ps : list param) : Prop :=
  forall i j n t x m bs y, nth_error ps i = Some (PCst n t x) -> nth_error ps j = Some (PTy m bs y) -> j < i.
(** A lifetime or a type, without bounds. *)
Definition plain (p : param) : Prop := match p with PLt _ [] | PTy _ [] None => True | _ => False end.
Definition without_default (p : param) : Prop := strip p = p.
(** The declarations for which all is well. *)
Definition supported (d : decl) : Prop :=
  match d_kind d with
  | KStruct => in_order (d_params d) /\ (d_where d = [] \/ forall ts, d_shape d <> Parens ts)
  | KStabby _ => in_order (d_params d) /\ Forall without_default (d_params d) /\ (d_where d = [] \/ d_comma d = true)
  | KUnion | KEnum => Forall plain (d_params d) /\ d_where d = []
  end.

(** The types of the fields or variants. *)
Definition field_types (s : shape) : list N := match s with Braces ts => ts | Parens ts => ts | Nothing => [] end.
(** The bounds under which [IStable] is implemented: one for each type of a field, and, for an enum with [repr(stabby)], two for each of the
    [Result]s it is a tree of, one less than there are variants. *)
Definition bounded (d : decl) (w : list pred) : Prop :=
  In (XLayout, [BStable]) w /\
  (forall t, In t (field_types (d_shape d)) -> In (XUser t, [BStable]) w) /\
  match d_kind d with
  | KStabby _ => forall i, 0 < i < length (field_types (d_shape d)) -> In (XPart i, [BDet]) w /\ In (XPart i, [BStable]) w
  | _ => True
  end.
