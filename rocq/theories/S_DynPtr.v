(** Specification of dynptr!: what a pointer to a trait object means in Rust, and what the stabby types are. *)
From Coq Require Import List Arith Bool.
From Verif Require Import M_Dyn M_DynPtr.
Import ListNotations.

(** What is pointed with: a type with one parameter, named as written; a reference. *)
Inductive pointer := Owner (qself : option ty) (lead : bool) (pre : list nat) (name : nat) (others : list garg) | Shared (l : life) | Exclusive (l : life).
(** A pointer, the bounds of the object in order, and the lifetime of the object. *)
Record meaning := Meaning { m_ptr : pointer; m_bounds : list bound; m_life : life }.

(** Parentheses and the groups of macros mean nothing. *)
Fixpoint bare (t : ty) : ty := match t with TParen t | TGroup t => bare t | t => t end.
(** The traits and the lifetimes among the bounds of a [dyn]. *)
Definition bounds_of (bs : list tbound) : list bound := flat_map (fun b => match b with TTrait b => [b] | TLife _ => [] end) bs.
Definition lives_of (bs : list tbound) : list life := flat_map (fun b => match b with TTrait _ => [] | TLife l => [l] end) bs.
(** The lifetime of an object whose default is [d]; two are an error. *)
Definition object_life (d : life) (bs : list tbound) : option life :=
  match lives_of bs with [] => Some d | [l] => Some l | _ => None end.
(** The argument that is an object; there must be one. *)
Fixpoint split_object (args : list garg) : option (list garg * list tbound) :=
  match args with
  | [] => None
  | GType t :: r => match bare t with
                    | TObj bs => Some (r, bs)
                    | _ => option_map (fun x => (GType t :: fst x, snd x)) (split_object r)
                    end
  | a :: r => option_map (fun x => (a :: fst x, snd x)) (split_object r)
  end.
(** The meaning of the types of pointers to objects; the default lifetime of the object is that of the reference, and ['static] otherwise; the lifetime of a
    reference that has none is elided. *)
Definition means (t : ty) : option meaning :=
  match bare t with
  | TPath q lead pre name _ args =>
      match split_object args with
      | Some (others, bs) => option_map (Meaning (Owner q lead pre name others) (bounds_of bs)) (object_life Static bs)
      | None => None
      end
  | TRef l mut e =>
      let l := match l with Some l => l | None => Elided end in
      match bare e with
      | TObj bs => option_map (Meaning (if mut then Exclusive l else Shared l) (bounds_of bs)) (object_life l bs)
      | _ => None
      end
  | _ => None
  end.

(** The bounds of a vtable: VtDrop is none, each layer adds one, the last. *)
Fixpoint layers (v : vty) : list bound :=
  match v with VtDrop => [] | VtSend v => layers v ++ [BSend] | VtSync v => layers v ++ [BSync] | VTable h v => layers v ++ [BTrait h] end.
(** What the types of stabby mean: DynRef has one lifetime for two. *)
Definition offers (o : out) : meaning :=
  match o with
  | ODyn l lead pre name vt => Meaning (Owner None lead pre name []) (layers vt) l
  | ODynMut l l' vt => Meaning (Exclusive l') (layers vt) l
  | ODynRef l vt => Meaning (Shared l) (layers vt) l
  end.

(** What the parser of types gives: a [dyn] names a trait, and the one of a reference has a single bound, for [&dyn A + B] is not a type. *)
Definition one_bound (e : ty) : bool := match e with TObj bs => length bs =? 1 | _ => true end.
Fixpoint objects_ok (t : ty) : bool :=
  match t with
  | TObj bs => match bounds_of bs with [] => false | _ => true end
  | TRef _ _ e => one_bound e && objects_ok e
  | TParen t | TGroup t => objects_ok t
  | TPath _ _ _ _ _ args => forallb (fun a => match a with GType t => objects_ok t | _ => true end) args
  | TOther _ => true
  end.

(** The types that the macro is for. *)
Definition supported (t : ty) : Prop :=
  match t with
  | TPath None _ _ _ false [GType (TObj bs)] => length (lives_of bs) <= 1
  | TRef (Some l) _ (TObj _) => True
  | _ => False
  end.
