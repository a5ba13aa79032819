(** Specification for the lifetimes in what is generated for a trait. *)
From Coq Require Import List Arith NArith Bool.
From Verif Require Import M_Trait.
Import ListNotations.

(** The lifetimes of a type, in order, but for those bound by a function pointer in it ([binds]
    tells the named ones that are bound by [for<..>]; omitted ones always are): whether they are
    in a function pointer, and their name unless omitted.  [Self::x] has none (associated types
    with lifetimes are refused, traits.rs:349). *)
Fixpoint gather (binds : N -> N -> bool) (t : ty) : list (bool * option N) :=
  match t with
  | TNever | TUnit | TSelf _ => []
  | TArb _ t | TPtr _ t | TArr t _ | TColon t => gather binds t
  | TRef l _ t => (false, l) :: gather binds t
  | TFn c i o =>
      map (fun x => (true, snd x))
        (filter (fun x => match snd x with Some l => negb (binds c l) | None => false end)
          (gather_args binds i ++ gather binds o))
  | TPath _ a n => gather_args binds a ++ gather_next binds n
  | TQual a b c => gather binds a ++ gather binds b ++ gather binds c
  end
with gather_args (binds : N -> N -> bool) (a : args) : list (bool * option N) :=
  match a with
  | ANil => []
  | ALt l r => (false, Some l) :: gather_args binds r
  | ATy t r => gather binds t ++ gather_args binds r
  | AConst _ r => gather_args binds r
  end
with gather_next (binds : N -> N -> bool) (n : onext) : list (bool * option N) :=
  match n with NNone => [] | NSome t => gather binds t end.

(** The lifetimes of types may be omitted in the output of a function pointer if those of the
    inputs (the receiver has [recv]) are one; [None]: omitted in the receiver, so that it is
    different from all others.  In methods, the receiver alone is decisive. *)
Definition legal_pointer (binds : N -> N -> bool) (recv : N -> option N) (s : sig) : Prop :=
  (exists o, s_output s = Some o /\ In (false, None) (gather binds o)) ->
  forall t x, In t (s_inputs s) -> In x (gather binds t) -> exists l, recv (s_copied s) = Some l /\ snd x = Some l.
(** In the types of fields, outside of function pointers, only ['static] is in scope (the
    method's lifetimes are not, the trait's are not told from them), and nothing can be
    omitted. *)
Fixpoint legal_cond (binds : N -> N -> bool) (c : cond) : Prop :=
  match c with
  | CUnit => True
  | CTy t => forall x, In x (gather binds t) -> snd x = Some static
  | CUnion c t => legal_cond binds c /\ forall x, In x (gather binds t) -> snd x = Some static
  end.
(** A field with legal lifetimes. *)
Definition legal_field binds recv (f : field) : Prop :=
  legal_pointer binds recv (f_sig f) /\ match f_if f with Some c => legal_cond binds c | None => True end.

(** A declared type whose references have their lifetimes written, and whose function pointers
    use no lifetimes but their own. *)
Definition explicit binds (t : ty) : Prop :=
  forall i x, In (i, x) (gather binds t) -> if i then x = Some static else x <> None.
