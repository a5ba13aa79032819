(** Model of the macro dynptr! (stabby-macros/src/lib.rs:127-237): the type of a pointer to a trait object, as the parser of types (syn 1) gives it, becomes the
    stabby type of the same object.  Names, segments of paths before the last and traits are numbers; a trait is a bound of [M_Dyn], with its generics and associated
    types.  Attributes of bounds ([?Trait]) and anonymous structure of the types that the macro only refuses are left out. *)
From Coq Require Import List Arith Bool.
From Verif Require Import M_Dyn.
Import ListNotations.

(** Lifetimes, lib.rs:132-136, 230: named, ['static], and ['_], which is also what the compiler puts where a reference has none. *)
Inductive life := Static | Elided | Named (n : nat).
(** TypeParamBound, lib.rs:198-209: a trait, or a lifetime. *)
Inductive tbound := TTrait (b : bound) | TLife (l : life).
(** Types, the argument of the macro, lib.rs:139-194: paths with the [<T as ..>] before them, the leading [::], the segments before the last, the last one, whether its
    arguments come after [::] and the arguments; references; trait objects; types in parentheses; types in the invisible group that macro_rules! puts around [$t:ty];
    others. *)
Inductive ty :=
| TPath (qself : option ty) (lead : bool) (pre : list nat) (name : nat) (colon2 : bool) (args : list garg)
| TRef (l : option life) (mut : bool) (elem : ty)
| TObj (bs : list tbound)
| TParen (t : ty)
| TGroup (t : ty)
| TOther (n : nat)
(** Arguments of a path, lib.rs:151-166; [GOther]: constants, bindings. *)
with garg := GType (t : ty) | GLife (l : life) | GOther (n : nat).

(** PtrType, lib.rs:127-131. *)
Inductive ptr_type := PPath (lead : bool) (pre : list nat) (name : nat) | PRef | PRefMut.
(** DynPtr, lib.rs:132-136. *)
Record dynptr_ := DynPtr { dp_ptr : ptr_type; dp_bounds : list bound; dp_life : option life }.

(** The pointer and the type it points to, lib.rs:139-194; [None] is a panic.  The [..] of lib.rs:146 drops what was before the path. *)
Definition pointer_of (t : ty) : option (ptr_type * option life * ty) :=
  match t with
  | TPath _ lead pre name false [GType e] => Some (PPath lead pre name, None, e)
  | TRef l mut e => Some (if mut then PRefMut else PRef, l, e)
  | _ => None
  end.
(** The loop over the bounds, lib.rs:198-209; [None]: a second lifetime. *)
Fixpoint bounds_loop (bs : list tbound) (this : dynptr_) : option dynptr_ :=
  match bs with
  | [] => Some this
  | TTrait b :: bs => bounds_loop bs (DynPtr (dp_ptr this) (dp_bounds this ++ [b]) (dp_life this))
  | TLife l :: bs => match dp_life this with
                     | Some _ => None
                     | None => bounds_loop bs (DynPtr (dp_ptr this) (dp_bounds this) (Some l))
                     end
  end.
(** Parse for DynPtr, lib.rs:137-212. *)
Definition parse (t : ty) : option dynptr_ :=
  match pointer_of t with
  | Some (p, l, TObj bs) => bounds_loop bs (DynPtr p [] l)
  | _ => None
  end.

(** The types that come out, lib.rs:232-234: Dyn<'l, P<()>, Vt>, Dyn<'l, &'l mut (), Vt>, DynRef<'l, Vt>. *)
Inductive out := ODyn (l : life) (lead : bool) (pre : list nat) (name : nat) (vt : vty) | ODynMut (l l' : life) (vt : vty) | ODynRef (l : life) (vt : vty).
(** dynptr!, lib.rs:219-237; [None] is a panic, an error of compilation.  The loop of lib.rs:226-229 is [vtable_macro]. *)
Definition dynptr (t : ty) : option out :=
  match parse t with
  | None => None
  | Some (DynPtr p bs l) =>
      let vt := vtable_macro bs in
      let l := match l with Some l => l | None => Static end in
      Some match p with
           | PPath lead pre name => ODyn l lead pre name vt
           | PRefMut => ODynMut l l vt
           | PRef => ODynRef l vt
           end
  end.
(** vtable!, lib.rs:106-125: a lifetime is a panic, and there is at least one bound. *)
Fixpoint vtable_loop (bs : list tbound) (vt : vty) : option vty :=
  match bs with
  | [] => Some vt
  | TTrait b :: bs => vtable_loop bs (compound vt b)
  | TLife _ :: _ => None
  end.
(** vtable!, lib.rs:111-125. *)
Definition vtable (bs : list tbound) : option vty := match bs with [] => None | _ => vtable_loop bs VtDrop end.
