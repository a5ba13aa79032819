(** Model of what [#[stabby::stabby]] does with the [repr] attributes of structs, unions and enums (stabby-macros/src/structs.rs, unions.rs, enums.rs). *)
From Coq Require Import List Arith Bool.
From Verif Require Import M_Layout.
Import ListNotations.

(** enums.rs:22-36 [Repr], without [Stabby] and [C]. *)
Inductive tag := U8 | U16 | U32 | U64 | Usize | I8 | I16 | I32 | I64 | Isize.
(** What can stand in [repr(..)] (structs.rs:65-85, enums.rs:37-57); [Packed] without argument is [Packed 1]; [Other]: [u128], [simd], [Rust], misspellings. *)
Inductive item := C | Transparent | Packed (n : nat) | Align (n : nat) | Int (t : tag) | Stabby | Other.
(** [#[repr(i1, i2, ..)]], with or without a trailing comma (structs.rs:118-124). *)
Record attr := Attr { items : list item; trailing : bool }.

(** structs.rs:59-63 [AllowedRepr]. *)
Inductive allowed := AC | ATransparent | AAlign (n : nat).
(** structs.rs:64-86: only the first item is parsed, and anything left in the parentheses is an error. *)
Definition parse_allowed (a : attr) : option allowed :=
  match items a, trailing a with
  | [C], false => Some AC
  | [Transparent], false => Some ATransparent
  | [Align n], false => Some (AAlign n)
  | _, _ => None
  end.
(** structs.rs:118-124: the first attribute that parses; errors are dropped. *)
Fixpoint find_repr (l : list attr) : option allowed :=
  match l with
  | [] => None
  | a :: r => match parse_allowed a with Some x => Some x | None => find_repr r end
  end.
(** structs.rs:125, 146-148, 165-167, 171-173: the attributes of the struct that is generated: the written ones, with [#[repr(C)]] if none was understood. *)
Definition struct_attrs (l : list attr) : list attr :=
  l ++ match find_repr l with None => [Attr [C] false] | Some _ => [] end.
(** structs.rs:180-185: the loop that makes a type-level alignment, doubling it while [n] can be halved; [fuel] bounds the number of turns. *)
Fixpoint align_loop (fuel n acc : nat) : nat :=
  match fuel with
  | 0 => acc
  | S f => if 1 <? n then align_loop f (n / 2) (2 * acc) else acc
  end.
(** structs.rs:177-191: the type whose layout the struct is declared to have. *)
Definition struct_declared (l : list attr) (fs : list ty) : ty :=
  match find_repr l with
  | Some (AAlign n) => aligned_struct_ty fs (align_loop n n 1)
  | _ => struct_ty fs
  end.
(** structs.rs:239-246: the checks made when [ID] is evaluated, on the size and alignment that the compiler gives. *)
Definition id_check (d : desc) (size al : nat) : bool := (size =? dsize d) && (al =? dalign d).

(** unions.rs:81-85: unions keep their attributes and get [#[repr(C)]]; nothing is checked. *)
Definition union_attrs (l : list attr) : list attr := l ++ [Attr [C] false].

(** enums.rs:78-82 [FullRepr], [None] in the first place: no determinant was given. *)
Record full := Full { f_tag : option (option tag); f_c : bool }.
(** Derived equality of representations (enums.rs:22). *)
Definition tag_eqb (a b : tag) : bool :=
  match a, b with
  | U8, U8 | U16, U16 | U32, U32 | U64, U64 | Usize, Usize | I8, I8 | I16, I16 | I32, I32 | I64, I64 | Isize, Isize => true
  | _, _ => false
  end.
(** The same for an optional determinant, [None] being [Repr::Stabby] (enums.rs:22). *)
Definition det_eqb (a b : option tag) : bool :=
  match a, b with None, None => true | Some x, Some y => tag_eqb x y | _, _ => false end.
(** enums.rs:83-105: the items are read one by one, each followed by a comma or the end. *)
Fixpoint parse_full (l : list item) (this : full) : option full :=
  let det r rest := match f_tag this with
                    | None => parse_full rest (Full (Some r) (f_c this))
                    | Some r' => if det_eqb r r' then parse_full rest this else None
                    end in
  match l with
  | [] => Some this
  | C :: rest => parse_full rest (Full (f_tag this) true)
  | Int t :: rest => det (Some t) rest
  | Stabby :: rest => det None rest
  | _ => None
  end.
(** What an enum becomes: the newtype of a [Result] (enums.rs:236-250, [checked]: its size is compared with that of [repr(u8)]), or an enum with the
    attribute [repr(tag)] or [repr(C, tag)] (enums.rs:251-272). *)
Inductive enum_repr := EStabby (checked : bool) | ETagged (t : tag) (c : bool).
(** enums.rs:150-176, 233-272; [None]: the macro panics. *)
Definition enum_repr_of (l : list attr) : option enum_repr :=
  match l with
  | [] => Some (EStabby true)
  | [a] =>
      match parse_full (items a) (Full None false) with
      | None => None
      | Some (Full (Some None) true) => None
      | Some (Full (Some None) false) | Some (Full None false) => Some (EStabby false)
      | Some (Full (Some (Some t)) c) => Some (ETagged t c)
      | Some (Full None true) => Some (ETagged U8 true)
      end
  | _ => None
  end.
