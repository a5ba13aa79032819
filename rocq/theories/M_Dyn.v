(** Model of trait objects: compound vtables (stabby-abi/src/vtable/mod.rs:247-467, stabby-macros/src/lib.rs:111-125), their construction, their
    upcasts, downcasts, the calls of their methods and of their destructor (stabby-abi/src/fatptr.rs, stabby-macros/src/traits.rs:674-893).
    Memory is an array of words; pointers are indices in it, functions are numbers.  Traits are numbers, with a number of methods; concrete types are
    numbers too, with an implementation of each trait.  Generic traits and associated types are left out: each instance of a trait is a trait. *)
From Coq Require Import List Arith Bool.
Import ListNotations.

(** Types of vtables: VtDrop (vtable/mod.rs:347-353), VtSend (vtable/mod.rs:392-395), VtSync (vtable/mod.rs:416-419),
    VTable<Head, Tail> (vtable/mod.rs:256-268), where the head is the vtable of a trait (traits.rs:678-686). *)
Inductive vty := VtDrop | VtSend (v : vty) | VtSync (v : vty) | VTable (head : nat) (tail : vty).
(** One bound of a [dyn]: a trait, or a marker: [CompoundVt], vtable/mod.rs:270-274, 396-398, 420-422, traits.rs:749-759. *)
Inductive bound := BTrait (h : nat) | BSend | BSync.
(** One step of the loop of vtable! and of dynptr!, stabby-macros/src/lib.rs:118-123, 228-230. *)
Definition compound (vt : vty) (b : bound) : vty := match b with BTrait h => VTable h vt | BSend => VtSend vt | BSync => VtSync vt end.
(** vtable!(b1 + b2 + ...), stabby-macros/src/lib.rs:111-125. *)
Definition vtable_macro (bs : list bound) : vty := fold_left compound bs VtDrop.

(** The program: numbers of methods of traits, implementations (the function of a method, traits.rs:737, 743), and the function [drop::<T>]
    (vtable/mod.rs:372-374) of types. *)
Record program := Prog { arity : nat -> nat; method : nat -> nat -> nat -> nat; destructor : nat -> nat }.

Section Dyn.
Variable pg : program.

(** Sizes in words: fields of VTable in order, [tail] first (vtable/mod.rs:262-267); VtSend and VtSync have one field (vtable/mod.rs:395, 419);
    one function per method (traits.rs:680-685).  All have the alignment of a word (or are empty), so there is no padding. *)
Fixpoint size (v : vty) : nat :=
  match v with VtDrop => 1 | VtSend v | VtSync v => size v | VTable h tl => size tl + arity pg h end.
(** The constant VTABLE for concrete type [t]: vtable/mod.rs:384-388 (VtDrop), 286-289 (VTable), 412, 426 (markers), traits.rs:740-745 (a trait). *)
Fixpoint vtable_const (v : vty) (t : nat) : list nat :=
  match v with
  | VtDrop => [destructor pg t]
  | VtSend v | VtSync v => vtable_const v t
  | VTable h tl => vtable_const tl t ++ map (method pg h t) (seq 0 (arity pg h))
  end.

(** [TransitiveDeref<Vt, N>] with N = T<T<...H>>, [n] times T: vtable/mod.rs:298-307, 399-403, 429-433.  The address of the vtable of a trait, and which trait
    that is. *)
Fixpoint tderef (v : vty) (n : nat) (a : nat) : option (nat * nat) :=
  match v, n with
  | VtDrop, _ => None
  | VtSend v, _ | VtSync v, _ => tderef v n a
  | VTable h tl, 0 => Some (h, a + size tl)
  | VTable h tl, S n => tderef tl n a
  end.
(** HasDropVt::drop_vt, vtable/mod.rs:310-333: the address of the VtDrop. *)
Fixpoint drop_vt (v : vty) (a : nat) : nat :=
  match v with VtDrop => a | VtSend v | VtSync v => drop_vt v a | VTable _ tl => drop_vt tl a end.

(** Pointers: &T (for DynRef), &mut T, Box<T>, Arc<T> (fatptr.rs:53-94, boxed.rs:257-268, sync.rs:759-769). *)
Inductive kind := KRef | KMut | KBox | KArc.
(** DynRef (fatptr.rs:96-103) and Dyn (fatptr.rs:153-159), at address [here] in memory: [ptr] is the pointer word, [vt] the address of the vtable;
    [vtype] is the parameter Vt. *)
Record dyn := Dyn { here : nat; dkind : kind; ptr : nat; vt : nat; vtype : vty }.

(** From<P> for Dyn (fatptr.rs:337-352), From<&T> for DynRef (fatptr.rs:362-372), for a value at [p]; anonimize is a transmute (fatptr.rs:81-94,
    boxed.rs:257-268, sync.rs:759-769).  [reg] is the function [insert_typed] of the registry of vtables (vtable/mod.rs:80-99). *)
Definition from (reg : list nat -> nat) (at_ : nat) (k : kind) (v : vty) (t p : nat) : dyn := Dyn at_ k p (reg (vtable_const v t)) v.
(** The object is moved (fatptr.rs:96-103, 153-159). *)
Definition move (o : dyn) (at_ : nat) : dyn := Dyn at_ (dkind o) (ptr o) (vt o) (vtype o).

(** The supported upcasts, impl_super!, fatptr.rs:185-199, in order. *)
Inductive super : vty -> vty -> Prop :=
| s1 h tl : super (VTable h tl) tl
| s2 v : super (VtSend v) v
| s3 v : super (VtSync v) v
| s4 v : super (VtSync (VtSend v)) v
| s5 v : super (VtSend (VtSync v)) v
| s6 v : super (VtSync (VtSend v)) (VtSync v)
| s7 v : super (VtSend (VtSync v)) (VtSend v)
| s8 h tl : super (VtSend (VTable h tl)) tl
| s9 h tl : super (VtSync (VTable h tl)) tl
| s10 h tl : super (VtSync (VtSend (VTable h tl))) tl
| s11 h tl : super (VtSend (VtSync (VTable h tl))) tl
| s12 h tl : super (VtSend (VTable h tl)) (VtSend tl)
| s13 h tl : super (VtSync (VTable h tl)) (VtSync tl)
| s14 h tl : super (VtSync (VtSend (VTable h tl))) (VtSync (VtSend tl))
| s15 h tl : super (VtSend (VtSync (VTable h tl))) (VtSend (VtSync tl)).
(** into_super: the words of the object are read at the other type, fatptr.rs:170-174, 178-181. *)
Definition into_super (o : dyn) (v : vty) : dyn := Dyn (here o) (dkind o) (ptr o) (vt o) v.

(** IPtr::as_ref and IPtrMut::as_mut: for a reference (fatptr.rs:53-67) the reference *to the reference* is transmuted; for Box (boxed.rs:226-235) and Arc
    (sync.rs:727-731) the pointer is read.  [slot] is where the pointer is. *)
Definition as_ref (k : kind) (slot p : nat) : nat := match k with KRef | KMut => slot | KBox | KArc => p end.
(** The address passed to a method: DynRef passes [self.ptr()], a copy of the pointer (traits.rs:805, fatptr.rs:106-108); Dyn passes
    [self.ptr().as_ref()] or [self.ptr_mut().as_mut()] (traits.rs:837, 887, fatptr.rs:211-220).  The pointer is the first field. *)
Definition receiver (o : dyn) : nat := match dkind o with KRef => ptr o | k => as_ref k (here o) (ptr o) end.
(** A call of method [j] of the trait at path [n]: the function, and the receiver, traits.rs:805, 837, 887. *)
Definition call (mem : nat -> nat) (o : dyn) (n j : nat) : option (nat * nat) :=
  match tderef (vtype o) n (vt o) with
  | Some (_, a) => Some (mem (a + j), receiver o)
  | None => None
  end.
(** Drop for Dyn, fatptr.rs:354-360: the destructor called and its argument; nothing for references (fatptr.rs:68-70).  Box: boxed.rs:236-246, the argument is
    the pointee; Arc: sync.rs:743-757, when the count was 1. *)
Definition drop_call (mem : nat -> nat) (o : dyn) : option (nat * nat) :=
  match dkind o with
  | KRef | KMut => None
  | KBox | KArc => Some (mem (drop_vt (vtype o) (vt o)), ptr o)
  end.
(** Dyn::as_ref (fatptr.rs:226-232), a DynRef at address [at_]. *)
Definition borrow (o : dyn) (at_ : nat) : dyn := Dyn at_ KRef (as_ref (dkind o) (here o) (ptr o)) (vt o) (vtype o).
(** Dyn::as_mut (fatptr.rs:234-243), for Box and &mut, and try_as_mut (fatptr.rs:245-254) for an unshared Arc: IPtrTryAsMut (fatptr.rs:36-40,
    sync.rs:738-742). *)
Definition borrow_mut (o : dyn) (at_ : nat) : option dyn :=
  match dkind o with
  | KRef => None
  | k => Some (Dyn at_ KMut (as_ref k (here o) (ptr o)) (vt o) (vtype o))
  end.

(** == of vtables: derived for VTable (vtable/mod.rs:260), VtSend (394) and VtSync (418), fields in order; VtDrop compares the addresses of the two fields
    (vtable/mod.rs:364-371); a trait compares its functions (traits.rs:702-706). *)
Fixpoint vt_eq (mem : nat -> nat) (v : vty) (a b : nat) : bool :=
  match v with
  | VtDrop => a =? b
  | VtSend v | VtSync v => vt_eq mem v a b
  | VTable h tl => vt_eq mem tl a b && forallb (fun j => mem (a + size tl + j) =? mem (b + size tl + j)) (seq 0 (arity pg h))
  end.
(** downcast (fatptr.rs:139-144), downcast_ref (fatptr.rs:287-292), downcast_mut (fatptr.rs:320-326) to type [t]: the address returned.  Note that DynRef goes
    through [IPtr for &T]. *)
Definition downcast (reg : list nat -> nat) (mem : nat -> nat) (o : dyn) (t : nat) : option nat :=
  if vt_eq mem (vtype o) (vt o) (reg (vtable_const (vtype o) t)) then Some (as_ref (dkind o) (here o) (ptr o)) else None.
(** stable_downcast (fatptr.rs:146-151), stable_downcast_ref (fatptr.rs:294-299), stable_downcast_mut (fatptr.rs:328-334).  [n] is the path to the trait [Any]
    (vtable/mod.rs:452-459), whose methods are [report] (0) and [id] (1); [answer f] is the value returned by function [f]; [report t] and [id t] are those
    of type [t] (vtable/mod.rs:460-467).  Reports are compared by value. *)
Definition stable_downcast (mem : nat -> nat) (answer report id : nat -> nat) (o : dyn) (n t : nat) : option nat :=
  match call mem o n 0, call mem o n 1 with
  | Some (r, _), Some (i, _) =>
      if (match dkind o with KRef => true | _ => answer i =? id t end) && (answer r =? report t) then Some (as_ref (dkind o) (here o) (ptr o)) else None
  | _, _ => None
  end.

(** Variables of a program holding Dyn<Box<()>, Vt>; a variable is emptied when its object is moved away (fatptr.rs:153-159). *)
Definition vars := list (option dyn).
(** Drop glue of variable [i]: Drop for Dyn, if it was not moved away (fatptr.rs:354-360). *)
Definition drop_var (mem : nat -> nat) (xs : vars) (i : nat) (log : list (nat * nat)) : vars * list (nat * nat) :=
  match nth_error xs i with
  | Some (Some o) => (firstn i xs ++ None :: skipn (S i) xs, match drop_call mem o with Some c => c :: log | None => log end)
  | _ => (xs, log)
  end.
(** into_super of variable [i]: [this] is moved in and forgotten, the copy of its words is a new variable, fatptr.rs:170-174. *)
Definition super_var (xs : vars) (i : nat) (v : vty) : vars :=
  match nth_error xs i with
  | Some (Some o) => firstn i xs ++ None :: skipn (S i) xs ++ [Some (into_super o v)]
  | _ => xs
  end.
(** mem::swap of the [&mut P] that the public, safe [Dyn::ptr_mut] returns for two objects (fatptr.rs:216-220): P is Box<()>, Arc<()> or &mut () for any type of
    value, the vtables stay where they are.  [None]: the two P differ, the program does not compile. *)
Definition swap_ptr (o o' : dyn) : option (dyn * dyn) :=
  match dkind o, dkind o' with
  | KMut, KMut | KBox, KBox | KArc, KArc =>
      Some (Dyn (here o) (dkind o) (ptr o') (vt o) (vtype o), Dyn (here o') (dkind o') (ptr o) (vt o') (vtype o'))
  | _, _ => None
  end.
End Dyn.
