(** Specification of trait objects. *)
From Coq Require Import List Arith Bool.
From Verif Require Import M_Dyn.
Import ListNotations.

(** The traits of a vtable, the last of the [dyn] first. *)
Fixpoint heads (v : vty) : list nat :=
  match v with VtDrop => [] | VtSend v | VtSync v => heads v | VTable h tl => h :: heads tl end.
(** The traits among bounds. *)
Definition traits (bs : list bound) : list nat := flat_map (fun b => match b with BTrait h => [h] | _ => [] end) bs.

Section Spec.
Variable pg : program.
Variable reg : list nat -> nat.
Variable mem : nat -> nat.
(** A vtable is in memory, where the registry says. *)
Definition registered (v : vty) (t : nat) : Prop := forall i w, nth_error (vtable_const pg v t) i = Some w -> mem (reg (vtable_const pg v t) + i) = w.
(** The trait objects that a program can have for a value of type [t] at [p]; [b]: without a step through [&mut]. *)
Inductive built : bool -> dyn -> nat -> nat -> Prop :=
| built_from at_ k v t p : registered v t -> built (match k with KMut => false | _ => true end) (from pg reg at_ k v t p) t p
| built_move b o t p at_ : built b o t p -> built b (move o at_) t p
| built_super b o t p v : built b o t p -> super (vtype o) v -> built b (into_super o v) t p
| built_borrow b o t p at_ : built b o t p -> dkind o <> KRef -> built b (borrow o at_) t p
| built_borrow_mut b o t p at_ o' : built b o t p -> borrow_mut o at_ = Some o' -> built false o' t p.

(** Method [j] of trait [h], at path [n], is that of type [t]. *)
Definition answers_as (o : dyn) (t : nat) : Prop :=
  forall n h j, nth_error (heads (vtype o)) n = Some h -> j < arity pg h -> option_map fst (call pg mem o n j) = Some (method pg h t j).
(** The destructor in the vtable. *)
Definition destructor_of (o : dyn) : nat := mem (drop_vt (vtype o) (vt o)).
End Spec.

(** Histories of owned objects: they are created, upcast, dropped.  The log has the calls of destructors: function and address. *)
Inductive owner_op := ONew (at_ : nat) (v : vty) (t p : nat) | OSuper (i : nat) (v : vty) | ODrop (i : nat).
(** The values created, each by its destructor and its address. *)
Fixpoint created (pg : program) (ops : list owner_op) : list (nat * nat) :=
  match ops with [] => [] | ONew _ _ t p :: ops => (destructor pg t, p) :: created pg ops | _ :: ops => created pg ops end.
(** Execution of a history, from no variables; an upcast that is not supported does not compile. *)
Definition owner_step (pg : program) (reg : list nat -> nat) (mem : nat -> nat) (st : vars * list (nat * nat)) (op : owner_op) : vars * list (nat * nat) :=
  match op with
  | ONew at_ v t p => (fst st ++ [Some (from pg reg at_ KBox v t p)], snd st)
  | OSuper i v => (super_var (fst st) i v, snd st)
  | ODrop i => drop_var mem (fst st) i (snd st)
  end.
Definition owner_run (pg : program) (reg : list nat -> nat) (mem : nat -> nat) (ops : list owner_op) : vars * list (nat * nat) :=
  fold_left (owner_step pg reg mem) ops ([], []).
(** The upcasts of a history are supported. *)
Definition supported (pg : program) (reg : list nat -> nat) (mem : nat -> nat) (ops : list owner_op) : Prop :=
  forall k i v o, nth_error ops k = Some (OSuper i v) -> nth_error (fst (owner_run pg reg mem (firstn k ops))) i = Some (Some o) -> super (vtype o) v.
(** The values owned by variables, each by the destructor in its vtable and its address. *)
Definition owned (mem : nat -> nat) (xs : vars) : list (nat * nat) :=
  flat_map (fun x => match x with Some o => [(destructor_of mem o, ptr o)] | None => [] end) xs.
