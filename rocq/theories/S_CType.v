(** Vocabulary for C types: the memory a declared type takes by the rules of Rust and C. *)
From Coq Require Import List Arith Bool.
From Verif Require Import M_Layout M_CType S_Layout S_Core.
Import ListNotations.

(** [occupies g t size align]: primitives as their declaration says, structs, unions and [repr(C, uN)] enums by the C rules
    ([c_struct], [c_union]), arrays as a multiple of their element, wrappers as what they wrap, a [Result] as the array
    of integers it is stored in. *)
Inductive occupies (g : tgt) : src -> nat -> nat -> Prop :=
| o_unit : occupies g XUnit 0 1
| o_int s a : occupies g (XInt s a) s a
| o_usize w : occupies g (XUsize w) w w
| o_rawptr w : occupies g (XRawPtr w) w w
| o_nonzero w a : occupies g (XNonZero w a) w a
| o_ref w : occupies g (XRef w) w w
| o_bool : occupies g XBool 1 1
| o_ordering : occupies g XOrdering 1 1
| o_padbyte : occupies g XPadByte 1 1
| o_like s a : occupies g (XLike s a) s a
| o_wrap t s a : occupies g t s a -> occupies g (XWrap t) s a
| o_struct fs l os s a : occupy g fs l -> c_struct 1 l os s a -> occupies g (XStruct fs) s a
| o_aligned fs al l os s a : occupy g fs l -> c_struct al l os s a -> occupies g (XAligned fs al) s a
| o_union fs l s a : occupy g fs l -> c_union l s a -> occupies g (XUnion fs) s a
| o_enum w wa vs l us ua os s a : occupy_variants g vs l -> c_union l us ua ->
    c_struct 1 [(w, wa); (us, ua)] os s a -> occupies g (XEnum w wa vs) s a
| o_array t n s a : occupies g t s a -> occupies g (XArr t n) (n * s) a
| o_result a b d st s al : layout (TResult (lower a) (lower b)) = Some d -> uint_array g d = Some st ->
    occupies g (XStruct [st]) s al -> occupies g (XResult a b) s al
(** The fields, in order. *)
with occupy (g : tgt) : list src -> list (nat * nat) -> Prop :=
| o_nil : occupy g [] []
| o_cons t ts s a l : occupies g t s a -> occupy g ts l -> occupy g (t :: ts) ((s, a) :: l)
(** The variants: nothing, a field, or a struct of fields. *)
with occupy_variants (g : tgt) : list (bool * list src) -> list (nat * nat) -> Prop :=
| v_nil : occupy_variants g [] []
| v_none vs l : occupy_variants g vs l -> occupy_variants g ((false, []) :: vs) ((0, 1) :: l)
| v_one t vs s a l : occupies g t s a -> occupy_variants g vs l -> occupy_variants g ((false, [t]) :: vs) ((s, a) :: l)
| v_many fs k os vs s a l : occupy g fs k -> c_struct 1 k os s a -> occupy_variants g vs l ->
    occupy_variants g ((true, fs) :: vs) ((s, a) :: l).

(** The target has an integer of that size and alignment, or stabby makes one. *)
Definition unit_align (g : tgt) (a : nat) : bool :=
  existsb (Nat.eqb a) [1; 2; 4] || (Nat.eqb a 8 && Nat.eqb (al64 g) 8) || (Nat.eqb a 16 && Nat.eqb (al128 g) 16) || large a.
(** A size in whole units of the alignment, and not 0 unless the alignment is 1. *)
Definition in_units (d : desc) : bool :=
  Nat.eqb (dsize d mod dalign d) 0 && (Nat.ltb 0 (dsize d) || Nat.eqb (dalign d) 1).
(** The same of a type, if it has a layout. *)
Definition ty_in_units (t : ty) : bool := match layout t with Some d => in_units d | None => true end.

(** Types whose integers are aligned to their size; that emulate no other type with [NoNiches]; whose unions, enum
    payloads and results are a whole number of units. *)
Fixpoint regular (g : tgt) (t : src) : bool :=
  match t with
  | XUnit | XBool | XOrdering | XPadByte => true
  | XInt s a | XNonZero s a => Nat.eqb s a && unit_align g a
  | XUsize w | XRawPtr w | XRef w => unit_align g w
  | XLike _ _ => false
  | XWrap t => regular g t
  | XStruct fs => forallb (regular g) fs
  | XAligned fs al => negb (Nat.eqb (length fs) 0) && forallb (regular g) fs && unit_align g al
  | XUnion fs => forallb (regular g) fs && ty_in_units (union_ty (map lower fs))
  | XEnum w a vs =>
      Nat.eqb w a && Nat.leb w 8 && unit_align g a &&
      forallb (fun v : bool * list src => let (named, fs) := v in forallb (regular g) fs && (named || Nat.leb (length fs) 1)) vs &&
      ty_in_units (variants_layout (map (fun v => (fst v, map lower (snd v))) vs))
  | XArr t _ => regular g t
  | XResult a b => regular g a && regular g b && ty_in_units (TResult (lower a) (lower b))
  end.

(** No [repr(align)] struct in the type. *)
Fixpoint no_align (t : src) : bool :=
  match t with
  | XAligned _ _ => false
  | XWrap t | XArr t _ => no_align t
  | XStruct fs | XUnion fs => forallb no_align fs
  | XEnum _ _ vs => forallb (fun v : bool * list src => forallb no_align (snd v)) vs
  | XResult a b => no_align a && no_align b
  | _ => true
  end.
