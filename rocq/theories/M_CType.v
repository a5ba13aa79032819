(** Model of [IStable::CType] (feature [experimental-ctypes], stabby-abi/src/istable.rs:45-49): the plain type
    given to C for each type, built impl by impl and by the macros (stabby-macros/src/lib.rs:379-418). *)
From Coq Require Import List Arith NArith PArith Bool.
From Verif Require Import M_Layout.
Import ListNotations.

(** The alignments of [u64] and [u128], which depend on the target (stable_impls/mod.rs:379,406: taken from [align_of]). *)
Record tgt := { al64 : nat; al128 : nat }.

(** Types as they are declared; each has an [IStable] impl with a [CType] (stable_impls/mod.rs:244-996, result.rs:45-81,
    istable.rs:524-538, stabby-macros/src/structs.rs:105-240, enums.rs:139-331, unions.rs:55-97).  [XInt s a]: integers, floats
    and atomics of [s] bytes aligned to [a]; [XLike s a]: [StableLike<T, NoNiches<s, a>>] for a type of that size and
    alignment (lib.rs:260-306); [XWrap]: [ManuallyDrop], [MaybeUninit], [UnsafeCell], [NotPod], [StableLike] of a type,
    [core::option::Option] of a type with one niche, i.e. the types whose [CType] is that of another one; [XEnum w a vs]:
    an enum with a tag of [w] bytes aligned to [a], its variants being [(false, [])] without data, [(false, [t])] with
    one field and [(true, fs)] with a list of fields. *)
Inductive src :=
| XUnit
| XInt (s a : nat)
| XUsize (w : nat)
| XRawPtr (w : nat)
| XNonZero (w a : nat)
| XRef (w : nat)
| XBool
| XOrdering
| XPadByte
| XLike (s a : nat)
| XWrap (t : src)
| XStruct (fs : list src)
| XAligned (fs : list src) (al : nat)
| XUnion (fs : list src)
| XEnum (w a : nat) (vs : list (bool * list src))
| XArr (t : src) (n : nat)
| XResult (ok err : src).

(** enums.rs:190-231: the data a variant adds to the union, if it has any. *)
Definition variant_data (v : bool * list ty) : option ty :=
  match v with
  | (true, fs) => Some (TStruct (fold_left TFP fs TUnit))
  | (false, []) => None
  | (false, t :: _) => Some t
  end.
(** enums.rs:181-231: the union of the variants that have data. *)
Definition variants_layout (vs : list (bool * list ty)) : ty :=
  fold_left (fun acc v => match variant_data v with None => acc | Some t => TUnion acc t end) vs TUnit.

(** The layout each declaration is given: structs.rs:123-191, unions.rs:70-75, enums.rs:181-273, else the impl of the
    type (stable_impls/mod.rs:244-996).  Of [XLike], only the size and alignment matter here. *)
Fixpoint lower (t : src) : ty :=
  match t with
  | XUnit => TUnit
  | XInt s a => TPlain s a
  | XUsize w => TPlain w w
  | XRawPtr w => TRawPtr w
  | XNonZero w a => TNonZero w a
  | XRef w => TRef w
  | XBool => TBool
  | XOrdering => TOrdering
  | XPadByte => TPadByte
  | XLike s a => TPlain s a
  | XWrap t => TMaybeUninit (lower t)
  | XStruct fs => struct_ty (map lower fs)
  | XAligned fs al => aligned_struct_ty (map lower fs) al
  | XUnion fs => union_ty (map lower fs)
  | XEnum w a vs => TStruct (TFP (TPlain w a) (variants_layout (map (fun v => (fst v, map lower (snd v))) vs)))
  | XArr t n => TArr (lower t) n
  | XResult a b => TResult (lower a) (lower b)
  end.

(** unsigned.rs:613-625: the alignments above 16 that have a type. *)
Definition large (al : nat) : bool := existsb (fun k => Nat.eqb al (2 ^ k)) (seq 5 12).
(** unsigned.rs:579-625 [Alignment::AsUint]; the bytes inside [Align32] to [Align65536] are nested arrays of [u8] in the
    source, one array here. [None]: not an [Alignment]. *)
Definition as_uint (g : tgt) (al : nat) : option src :=
  match al with
  | 1 => Some (XInt 1 1)
  | 2 => Some (XInt 2 2)
  | 4 => Some (XInt 4 4)
  | 8 => Some (XInt 8 (al64 g))
  | 16 => Some (XInt 16 (al128 g))
  | _ => if large al then Some (XAligned [XArr (XInt 1 1) al] al) else None
  end.

(** [<T as IStable>::Size] is [UTerm], as tested at unsigned.rs:548. *)
Definition empty (t : src) : bool :=
  match layout (lower t) with Some d => Nat.eqb (dsize d) 0 | None => false end.
(** unsigned.rs:284,417,546-555 [_AddToArray]; [Tuple] is [Tuple2] (lib.rs:47), a struct (build.rs:72-80). *)
Fixpoint add_to_array (n : positive) (lsb stack : src) : src :=
  let more := if empty lsb then stack else XStruct [stack; lsb] in
  match n with
  | xH => more
  | xO m => add_to_array m lsb (XStruct [stack; stack])
  | xI m => add_to_array m more (XStruct [stack; stack])
  end.
(** unsigned.rs:418,556 [IUnsignedBase::Array]. *)
Definition tuple_array (n : nat) (t : src) : src :=
  match N.of_nat n with N0 => XUnit | Npos p => add_to_array p XUnit t end.
(** istable.rs:535-537 and result.rs:86-88: as many [AsUint]s of the alignment as [Divide] (rounding down) finds
    in the size. *)
Definition uint_array (g : tgt) (d : desc) : option src :=
  option_map (tuple_array (dsize d / dalign d)) (as_uint g (dalign d)).

(** [map] of a partial function; the fields of [crepr], stabby-macros/src/lib.rs:391-395. *)
Definition omap {A B : Type} (f : A -> option B) : list A -> option (list B) :=
  fix go l :=
  match l with
  | [] => Some []
  | x :: l => match f x, go l with Some y, Some r => Some (y :: r) | _, _ => None end
  end.

(** The [CType] of the types [uint_array] is made of: integers (stable_impls/mod.rs:294-429), tuples
    (stabby-macros/src/lib.rs:391-399), arrays (stable_impls/mod.rs:961), [repr(align)] structs (structs.rs:216-218). *)
Fixpoint ctype_plain (g : tgt) (t : src) : option src :=
  match t with
  | XUnit => Some XUnit
  | XInt _ a => as_uint g a
  | XStruct fs => option_map XStruct (omap (ctype_plain g) fs)
  | XAligned fs al => Some (XAligned fs al)
  | XArr t n => option_map (fun c => XArr c n) (ctype_plain g t)
  | _ => None
  end.

(** stabby-macros/src/lib.rs:400-409, [crepr] of the variants of an enum: nested [Union]s, the last variant outermost. *)
Definition crepr_union (ts : list ty) : ty := fold_left (fun acc t => TUnion t acc) ts TUnit.
(** istable.rs:534-537 [<Union<A, B> as IStable>::CType]; [()] for [TUnit] (stable_impls/mod.rs:252). *)
Definition union_ctype (g : tgt) (u : ty) : option src :=
  match u with
  | TUnit => Some XUnit
  | _ => match layout u with Some d => uint_array g d | None => None end
  end.

(** [<T as IStable>::CType]: stable_impls/mod.rs:252-443 (units, integers, [usize], [bool]), :554-570 (pointers),
    :664-680 (references), :715 ([Option]), :961 (arrays), :993 ([Ordering]), unsigned.rs:54 ([PadByte]), lib.rs:270,304
    ([StableLike], [NoNiches]), structs.rs:215-221 with stabby-macros/src/lib.rs:391-399 (structs), unions.rs:78-80, enums.rs:276-279 with
    stabby-macros/src/lib.rs:410-418 (enums with a tag), result.rs:64,85-89 ([Result], and through enums.rs:563-565 the
    [repr(stabby)] enums). *)
Fixpoint ctype (g : tgt) (t : src) : option src :=
  match t with
  | XUnit => Some XUnit
  | XInt _ a => as_uint g a
  | XUsize w => Some (XUsize w)
  | XRawPtr w => Some (XUsize w)
  | XNonZero _ a => as_uint g a
  | XRef w => as_uint g w
  | XBool => as_uint g 1
  | XOrdering => Some (XInt 1 1)
  | XPadByte => Some (XInt 1 1)
  | XLike _ _ => Some XUnit
  | XWrap t => ctype g t
  | XStruct fs => option_map XStruct (omap (ctype g) fs)
  | XAligned fs al => Some (XAligned fs al)
  | XUnion fs => union_ctype g (union_ty (map lower fs))
  | XEnum w a vs =>
      match omap (fun v : bool * list src =>
              let (named, fs) := v in
              if named then option_map (fun cs => struct_ty (map lower cs)) (omap (ctype g) fs)
              else Some (match fs with [] => TUnit | t :: _ => lower t end)) vs with
      | Some ts => option_map (fun u => XStruct [XInt w a; u]) (union_ctype g (crepr_union ts))
      | None => None
      end
  | XArr t n => option_map (fun c => XArr c n) (ctype g t)
  | XResult a b =>
      match layout (TResult (lower a) (lower b)) with
      | Some d =>
          match uint_array g d with
          | Some s => option_map (fun c => XStruct [c]) (ctype_plain g s)
          | None => None
          end
      | None => None
      end
  end.

(** structs.rs:222-226, enums.rs:289-293 [ctype_assert]: whether the generated [ID] does not panic; sizes and alignments
    as declared, which the assertions beside compare with the real ones (structs.rs:240-252). *)
Definition ctype_assert (g : tgt) (t : src) : option bool :=
  match ctype g t with
  | Some c =>
      match layout (lower t), layout (lower c) with
      | Some d, Some e => Some (Nat.eqb (dsize d) (dsize e) && Nat.eqb (dalign d) (dalign e))
      | _, _ => None
      end
  | None => None
  end.
