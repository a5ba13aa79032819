(** Specification for the vtables of traits. *)
From Coq Require Import List Arith NArith Bool.
From Verif Require Import M_Report M_Trait.
Import ListNotations.

(** What the names of a trait's declaration stand for, for a given implementor: [Self::x], and
    the generated parameters; and what becomes of lifetimes. *)
Record env := Env { e_self : ty -> ty; e_gen : nat -> ty; e_lt : N -> N }.
(** The type that a written type stands for. *)
Fixpoint denote (e : env) (t : ty) : ty :=
  match t with
  | TNever => TNever
  | TUnit => TUnit
  | TArb _ x | TSelf x => e_self e x
  | TRef l m t => TRef (option_map (e_lt e) l) m (denote e t)
  | TPtr m t => TPtr m (denote e t)
  | TArr t n => TArr (denote e t) n
  | TFn c i o => TFn c (denote_args e i) (denote e o)
  | TPath (Gen n) _ _ => e_gen e n
  | TPath s a n => TPath s (denote_args e a) (denote_next e n)
  | TColon t => TColon (denote e t)
  | TQual a b c => TQual (denote e a) (denote e b) (denote e c)
  end
with denote_args (e : env) (a : args) : args :=
  match a with
  | ANil => ANil
  | ALt l r => ALt (e_lt e l) (denote_args e r)
  | ATy t r => ATy (denote e t) (denote_args e r)
  | AConst c r => AConst c (denote_args e r)
  end
with denote_next (e : env) (n : onext) : onext :=
  match n with NNone => NNone | NSome t => NSome (denote e t) end.

(** The environment of the vtable of an implementor: the n-th generated parameter is bound to
    the n-th type that depends on [Self] (the where clause at traits.rs:650-658,727-731). *)
Definition venv (assoc : ty -> ty) (lt : N -> N) (l : list ty) : env :=
  Env assoc (fun n => assoc (nth n l TUnit)) lt.

(** A type as users write them: without generated parts. *)
Fixpoint written (t : ty) : bool :=
  match t with
  | TNever | TUnit => true
  | TArb _ _ => false
  | TSelf t | TRef _ _ t | TPtr _ t | TArr t _ | TColon t => written t
  | TFn _ i o => written_args i && written o
  | TPath s a n => match s with User _ => true | Gen _ => false end && written_args a && written_next n
  | TQual a b c => written a && written b && written c
  end
with written_args (a : args) : bool :=
  match a with
  | ANil => true
  | ALt _ r | AConst _ r => written_args r
  | ATy t r => written t && written_args r
  end
with written_next (n : onext) : bool :=
  match n with NNone => true | NSome t => written t end.

(** The methods of a declaration, in order. *)
Definition methods (d : decl) : list method :=
  flat_map (fun i => match i with IFn m => [m] | IType _ => [] end) (d_items d).
(** The methods in the order of the vtable: those that take [&self], then those that take
    [&mut self]. *)
Definition vt_methods (d : decl) : list method :=
  filter (fun m => negb (m_mut m)) (methods d) ++ filter m_mut (methods d).
(** The types a method exchanges. *)
Definition types (m : method) : list ty :=
  match m_output m with Some t => [t] | None => [] end ++ m_inputs m.
(** All types of the declaration are as users write them. *)
Definition proper (d : decl) : Prop :=
  forall m t, In m (methods d) -> In t (types m) -> written t = true.

(** A signature in which all names are replaced by what they stand for. *)
Definition denote_sig (e : env) (s : sig) : sig :=
  Sig (s_copied s) (s_mut s) (s_unit s) (map (denote e) (s_inputs s))
      (option_map (denote e) (s_output s)).
(** The signature of a method, as declared, but for its receiver. *)
Definition declared_sig (unit_receiver : bool) (m : method) : sig :=
  Sig (m_copied m) (m_mut m) unit_receiver (m_inputs m) (m_output m).

(** Types without arrays, function pointers and [Self::x], except in the arguments of a path. *)
Fixpoint plain (t : ty) : bool :=
  match t with
  | TNever | TUnit => true
  | TSelf _ | TArr _ _ | TFn _ _ _ => false
  | TArb _ t | TRef _ _ t | TPtr _ t | TColon t => plain t
  | TPath _ _ n => match n with NNone => true | NSome t => plain t end
  | TQual a b c => plain a && plain b && plain c
  end.

(** The types that are ABI-stable when the named ones of [named] are: references, pointers and
    arrays of stable types, functions that exchange stable types, named types whose arguments
    are. *)
Fixpoint stable (named : N -> bool) (t : ty) : bool :=
  match t with
  | TUnit => true
  | TRef _ _ t | TPtr _ t | TArr t _ | TColon t => stable named t
  | TFn _ i o => stable_args named i && stable named o
  | TPath (User n) a NNone => named n && stable_args named a
  | TPath (User _) _ (NSome t) => stable named t
  | _ => false
  end
with stable_args (named : N -> bool) (a : args) : bool :=
  match a with
  | ANil => true
  | ALt _ r | AConst _ r => stable_args named r
  | ATy t r => stable named t && stable_args named r
  end.

(** What a call needs to know of a trait's methods: their names, in the vtable's order, and what
    they exchange. *)
Definition interface (d : decl) : list (list N * sig) :=
  map (fun m => (m_name m, declared_sig true m)) (vt_methods d).
