(** Model of stabby's layout computation: stabby-abi/src/istable.rs,
    stabby-abi/src/stable_impls/mod.rs and stabby-abi/src/enums/.
    Type-level numbers are plain numbers here: P_Typenum proves that every
    type-level operation is the arithmetic one.  Sizes and offsets are [nat],
    bytes and byte masks are [N]. *)
From Coq Require Import List Arith NArith Bool.
Import ListNotations.

(** ** Bit masks *)

(** istable.rs:214-272: an [IBitMask] is [End] or [Array<Offset, T, Rest>]. *)
Definition mask := list (nat * N).

(** istable.rs:239,251 [ByteAt]. *)
Fixpoint byte_at (m : mask) (o : nat) : N :=
  match m with
  | [] => 0%N
  | (o', v) :: r => if Nat.eqb o' o then v else byte_at r o
  end.
(** istable.rs:240,261 [BitOr]. *)
Definition bit_or (a b : mask) : mask := a ++ b.
(** istable.rs:241,262 [Shift]. *)
Definition mshift (k : nat) (m : mask) : mask := map (fun e => (fst e + k, snd e)) m.
(** istable.rs:242,252-260 [BitAnd]. *)
Fixpoint bit_and (m other : mask) : mask :=
  match m with
  | [] => []
  | (o, v) :: r =>
      let b := N.land v (byte_at other o) in
      if N.eqb b 0 then bit_and r other else (o, b) :: bit_and r other
  end.
(** istable.rs:243,263-264 [HasFreeByteAt]. *)
Fixpoint has_free_byte_at (m : mask) (o : nat) : bool :=
  match m with
  | [] => false
  | (o', v) :: r => (Nat.eqb o o' && N.eqb v 255) || has_free_byte_at r o
  end.
(** unsigned.rs:536 [TruncateAtRightmostOne] on numbers
    (see [typenum_rightmost_one]); the value at 0 is never used: masks are [NonZero]. *)
Fixpoint rightmost_one_pos (p : positive) : positive :=
  match p with xO q => xO (rightmost_one_pos q) | _ => xH end.
(** unsigned.rs:536, on [N]. *)
Definition rightmost_one (v : N) : N :=
  match v with N0 => N0 | Npos p => Npos (rightmost_one_pos p) end.
(** istable.rs:244,265-269 [ExtractBit]. *)
Definition extract_bit (m : mask) : mask :=
  match m with
  | [] => []
  | (o, v) :: r =>
      let v' := (v - rightmost_one v)%N in
      if N.ltb 0 v' then (o, v') :: r else r
  end.

(** ** Forbidden values *)

(** istable.rs:300-369: the types implementing [IForbiddenValues]. *)
Inductive fv :=
| FEnd
| FArr (o : nat) (v : N) (rest : fv)
| FOr (a b : fv)
| FRange (lo hi : N) (o : nat).
(** istable.rs:309-328: the types implementing [ISingleForbiddenValue]. *)
Inductive sfv :=
| SSat
| SEnd
| SArr (o : nat) (v : N) (rest : sfv).

(** istable.rs:301,332,344,360 [IForbiddenValues::Shift]. *)
Fixpoint fshift (k : nat) (f : fv) : fv :=
  match f with
  | FEnd => FEnd
  | FArr o v r => FArr (o + k) v (fshift k r)
  | FOr a b => FOr (fshift k a) (fshift k b)
  | FRange lo hi o => FRange lo hi (o + k)
  end.
(** istable.rs:310,316,324 [Push]. *)
Definition spush (s : sfv) (o : nat) (v : N) : sfv :=
  match s with SSat => SSat | _ => SArr o v s end.
(** istable.rs:311,317,325 [Or]. *)
Definition sor (a b : sfv) : sfv :=
  match a with SArr _ _ _ => a | _ => b end.
(** istable.rs:312,318,326 [And]. *)
Definition sand (a b : sfv) : sfv :=
  match a with SSat => SSat | _ => b end.
(** istable.rs:313,319,327 [Resolve]. *)
Definition sresolve (a : sfv) : sfv :=
  match a with SSat => SEnd | _ => a end.
(** istable.rs:304,338,348,364 [SelectOne]. *)
Fixpoint select_one (f : fv) : sfv :=
  match f with
  | FEnd => SEnd
  | FArr o v r => SArr o v (select_one r)
  | FOr a _ => select_one a
  | FRange lo _ o => SArr o lo SEnd
  end.
(** istable.rs:303,334-337,346-347,362-363 [SelectFrom]; [AsForbiddenValue] is
    [End] for [B1] and [Saturator] for [B0] (unsigned.rs:117,137). *)
Fixpoint select_from (f : fv) (m : mask) : sfv :=
  match f with
  | FEnd => SEnd
  | FArr o v r =>
      sand (if has_free_byte_at m o then SEnd else SSat) (spush (select_from r m) o v)
  | FOr a b => sor (select_from a m) (select_from b m)
  | FRange lo hi o => if has_free_byte_at m o then SArr o lo SEnd else SEnd
  end.
(** istable.rs:305-307,339-341,349-351,365-368 [is_invalid]. [None]: read past the end. *)
Fixpoint fv_is_invalid (f : fv) (bs : list N) : option bool :=
  match f with
  | FEnd => Some false
  | FArr o v r =>
      match nth_error bs o with
      | Some b => if N.eqb b v then fv_is_invalid r bs else Some false
      | None => None
      end
  | FOr a b =>
      match fv_is_invalid a bs with
      | Some true => Some true
      | Some false => fv_is_invalid b bs
      | None => None
      end
  | FRange lo hi o =>
      match nth_error bs o with
      | Some b => Some (N.leb lo b && N.leb b hi)
      | None => None
      end
  end.

(** ** Saturating niche count *)

(** istable.rs:414-436 [ISaturatingAdd]: [B0], [B1], [Saturator]. *)
Inductive sadd := A0 | A1 | AMany.
(** istable.rs:422-436 [SaturatingAdd]. *)
Definition sat_add (a b : sadd) : sadd :=
  match a with
  | A0 => b
  | A1 => match b with A0 => A1 | _ => AMany end
  | AMany => AMany
  end.

(** ** Layout descriptors *)

(** istable.rs:30-53: the associated types of [IStable]. *)
Record desc := Desc {
  dsize : nat;
  dalign : nat;
  dfv : fv;
  dub : mask;
  dniche : sadd;
  dind : bool }.

(** unsigned.rs:388-389 [NextMultipleOf] on numbers (see [typenum_next_multiple_of]). *)
Definition nmo (a p : nat) : nat :=
  if Nat.eqb (a mod p) 0 then a else a + (p - a mod p).

(** unsigned.rs:541-545 [PaddingBitMask] on numbers (see [typenum_padding_bit_mask]). *)
Fixpoint padding_bit_mask (n : nat) : mask :=
  match n with
  | O => []
  | S n' => (0, 255%N) :: mshift 1 (padding_bit_mask n')
  end.

(** istable.rs:545-558 [AlignedAfter<T, Start>]. [AbsSub] is a subtraction here
    since [NextMultipleOf] never decreases. *)
Definition aligned_after (d : desc) (start : nat) : desc :=
  let at_ := nmo start (dalign d) in
  {| dsize := dsize d + at_;
     dalign := dalign d;
     dfv := fshift at_ (dfv d);
     dub := bit_or (mshift start (padding_bit_mask (at_ - start))) (mshift at_ (dub d));
     dniche := dniche d;
     dind := dind d |}.

(** istable.rs:385-403 [FieldPair<A, B>]. *)
Definition field_pair (a b : desc) : desc :=
  let b' := aligned_after b (dsize a) in
  {| dsize := dsize b';
     dalign := Nat.max (dalign a) (dalign b);
     dfv := FOr (dfv a) (dfv b');
     dub := bit_or (dub a) (dub b');
     dniche := if Nat.eqb (dsize b') (dsize a + dsize b)
               then sat_add (dniche a) (dniche b') else AMany;
     dind := dind a || dind b |}.

(** istable.rs:561-575 [Struct<T>]. *)
Definition struct_ (d : desc) : desc :=
  let sz := nmo (dsize d) (dalign d) in
  {| dsize := sz;
     dalign := dalign d;
     dfv := dfv d;
     dub := bit_or (dub d) (mshift (dsize d) (padding_bit_mask (sz - dsize d)));
     dniche := if Nat.eqb (dsize d) sz then dniche d else AMany;
     dind := dind d |}.

(** istable.rs:578-592 [AlignedStruct<T, Align>]: the padding mask only covers
    the bytes up to [T]'s own alignment. *)
Definition aligned_struct (d : desc) (al : nat) : desc :=
  let al' := Nat.max al (dalign d) in
  let sz := nmo (dsize d) al' in
  {| dsize := sz;
     dalign := al';
     dfv := dfv d;
     dub := bit_or (dub d)
              (mshift (dsize d) (padding_bit_mask (nmo (dsize d) (dalign d) - dsize d)));
     dniche := if Nat.eqb (dsize d) sz then dniche d else AMany;
     dind := dind d |}.

(** istable.rs:527-539 [Union<A, B>]. *)
Definition union_ (a b : desc) : desc :=
  let al := Nat.max (dalign a) (dalign b) in
  {| dsize := nmo (Nat.max (dsize a) (dsize b)) al;
     dalign := al;
     dfv := FEnd;
     dub := [];
     dniche := A0;
     dind := dind a || dind b |}.

(** stable_impls/mod.rs:947-969 [[T; N]]. *)
Definition array_ (d : desc) (n : nat) : desc :=
  {| dsize := dsize d * n;
     dalign := dalign d;
     dfv := if Nat.eqb n 1 then dfv d else FEnd;
     dub := if Nat.eqb n 1 then dub d else [];
     dniche := if Nat.eqb n 0 then A0 else if Nat.eqb n 1 then dniche d else AMany;
     dind := dind d |}.

(** stable_impls/mod.rs:244-254 [()]; also [PhantomData] 256-266, [PhantomPinned] 268-278. *)
Definition unit_d : desc :=
  {| dsize := 0; dalign := 1; dfv := FEnd; dub := []; dniche := A0; dind := false |}.
(** stable_impls/mod.rs:300-310 and its siblings [u8]..[u128], [i8]..[i128],
    [f32], [f64], atomics; lib.rs:279-297 [NoNiches<Size, Align>]. *)
Definition plain_d (s a : nat) : desc :=
  {| dsize := s; dalign := a; dfv := FEnd; dub := []; dniche := A0; dind := false |}.
(** stable_impls/mod.rs:554-564 raw pointers, as [usize] on a [w]-byte target. *)
Definition rawptr_d (w : nat) : desc :=
  {| dsize := w; dalign := w; dfv := FEnd; dub := []; dniche := A0; dind := true |}.
(** stable_impls/mod.rs:235-242 [nz_holes!]: bytes [i..i+n). *)
Fixpoint nz_holes (i n : nat) : fv :=
  match n with
  | O => FEnd
  | S n' => FArr i 0 (nz_holes (S i) n')
  end.
(** stable_impls/mod.rs:313-431 [NonZeroU8]..[NonZeroU128]; num.rs:74-84,155-165
    [NonMax*], [NonX*]. *)
Definition nonzero_d (w a : nat) : desc :=
  {| dsize := w; dalign := a; dfv := nz_holes 0 w; dub := []; dniche := A1; dind := false |}.
(** stable_impls/mod.rs:566-570,664-674,849-910: [NonNull], references, function pointers. *)
Definition ref_d (w : nat) : desc :=
  {| dsize := w; dalign := w; dfv := nz_holes 0 w; dub := []; dniche := A1; dind := true |}.
(** stable_impls/mod.rs:286-296 [bool]; also [AtomicBool] 578-582. *)
Definition bool_d : desc :=
  {| dsize := 1; dalign := 1; dfv := FRange 2 255 0; dub := []; dniche := AMany; dind := false |}.
(** stable_impls/mod.rs:985-995 [core::cmp::Ordering]. *)
Definition ordering_d : desc :=
  {| dsize := 1; dalign := 1; dfv := FRange 2 254 0; dub := []; dniche := A0; dind := false |}.
(** unsigned.rs:41-56 [PadByte]. *)
Definition padbyte_d : desc :=
  {| dsize := 1; dalign := 1; dfv := FEnd; dub := [(0, 255%N)]; dniche := A0; dind := false |}.

(** ** Determinants *)

(** enums/mod.rs:45 [BitDeterminant]; 76 [End]; 92 [ValueIsErr]; 154 [BitIsErr]; 186 [Not]. *)
Inductive det :=
| DBit
| DEnd
| DVal (o : nat) (v : N) (tail : det)
| DBitErr (o : nat) (m : N)
| DNot (d : det).

(** enums/mod.rs:52-62 [BitDeterminant]'s layout; the unit layout for [End] and
    [BitIsErr] (istable.rs:202-204, enums/mod.rs:152-154: [#[stabby]] structs without
    sized fields); enums/mod.rs:95-105 and 189-199 forward to the inner one. *)
Fixpoint det_d (d : det) : desc :=
  match d with
  | DBit => {| dsize := 1; dalign := 1; dfv := FEnd; dub := [(0, 254%N)];
               dniche := AMany; dind := false |}
  | DEnd | DBitErr _ _ => unit_d
  | DVal _ _ t => det_d t
  | DNot d => det_d d
  end.
(** enums/mod.rs:74,86,136,182,213 [IsNicheTrick]. *)
Fixpoint is_niche_trick (d : det) : bool :=
  match d with
  | DBit => false
  | DEnd => false
  | DVal _ _ _ => true
  | DBitErr _ _ => true
  | DNot d => is_niche_trick d
  end.
(** enums/mod.rs:139-150 [IntoValueIsErr]; [None]: no impl. *)
Fixpoint into_value_is_err (s : sfv) : option det :=
  match s with
  | SSat => None
  | SEnd => Some DEnd
  | SArr o v r =>
      match into_value_is_err r with Some t => Some (DVal o v t) | None => None end
  end.

(** enums/mod.rs:236-240 [IDeterminantProviderInner]; the [NicheExporter] always
    has [End] as forbidden values (err_size_0.rs:44,57,64; err_non_empty.rs:165,197,232),
    so only its unused bits are kept. *)
Record provider := Prov {
  p_err_shift : nat;
  p_det : det;
  p_ub : mask }.

(** err_size_0.rs:30-66 [DeterminantProviderWithUnit]. [None]: no impl applies. *)
Definition provider_with_unit (f : sfv) (ub : mask) : option provider :=
  match f with
  | SArr _ _ _ =>
      match into_value_is_err f with
      | Some d => Some (Prov 0 d ub)
      | None => None
      end
  | SEnd =>
      match ub with
      | (o, v) :: _ => Some (Prov 0 (DBitErr o (rightmost_one v)) (extract_bit ub))
      | [] => Some (Prov 0 DBit [])
      end
  | SSat => None
  end.

(** unsigned.rs:38-56,488-512 [Padding::UnusedBits]: [UTerm]'s padding is [()]
    (unsigned.rs:437) and [UInt<Msb, Bit>]'s is [Tuple3<P, P, Bit::_Padding>]
    for [P] the padding of [Msb] (unsigned.rs:534). *)
Fixpoint padding_pos_d (p : positive) : desc :=
  match p with
  | xH => struct_ (field_pair (field_pair unit_d unit_d) padbyte_d)
  | xO q => struct_ (field_pair (field_pair (padding_pos_d q) (padding_pos_d q)) unit_d)
  | xI q => struct_ (field_pair (field_pair (padding_pos_d q) (padding_pos_d q)) padbyte_d)
  end.
(** unsigned.rs:386 [Padding]. *)
Definition padding_ub (n : nat) : mask :=
  match N.of_nat n with N0 => [] | Npos p => dub (padding_pos_d p) end.

(** enums/mod.rs:245 [UnionAlign]. *)
Definition union_align (ok err : desc) : nat := Nat.max (dalign ok) (dalign err).
(** enums/mod.rs:247-250 [UnionSize] with both shifts 0. *)
Definition union_size (ok err : desc) : nat :=
  nmo (Nat.max (dsize ok) (dsize err)) (union_align ok err).
(** enums/mod.rs:257-265 [UnionMemberUnusedBits<Ok, Err, U0>]. *)
Definition union_member_ub (ok err : desc) : mask :=
  bit_or (bit_or [] (mshift 0 (dub ok)))
         (mshift (dsize ok) (padding_ub (union_size ok err - dsize ok))).

(** err_non_empty.rs:100 [UnusedBits]. *)
Definition shifted_unused_bits (usize : nat) (eub : mask) (esize eoff : nat) : mask :=
  bit_or (padding_ub eoff)
    (bit_or (mshift eoff eub)
            (mshift (esize + eoff) (padding_ub (usize - (esize + eoff))))).

(** err_non_empty.rs:85-324: the loop on [Layout<UnionSize, Budget, ...>].
    [budget] counts the [T<_>] layers. *)
Fixpoint provider_loop (budget usize : nat) (okfv : fv) (okub : mask)
    (efv : fv) (eub : mask) (esize ealign eoff : nat) : option provider :=
  match budget with
  | O => provider_with_unit SEnd []
  | S budget' =>
      let eub' := shifted_unused_bits usize eub esize eoff in
      let inter := bit_and okub eub' in
      match sresolve (select_from (fshift eoff efv) okub) with
      | SArr o v t =>
          match into_value_is_err (SArr o v t) with
          | Some d => Some (Prov eoff (DNot d) inter)
          | None => None
          end
      | _ =>
          match sresolve (select_from okfv eub') with
          | SArr o v t =>
              match into_value_is_err (SArr o v t) with
              | Some d => Some (Prov eoff d inter)
              | None => None
              end
          | _ =>
              match inter with
              | (o, v) :: _ =>
                  Some (Prov eoff (DBitErr o (rightmost_one v)) (extract_bit inter))
              | [] =>
                  if Nat.leb ((esize + ealign) + eoff) usize
                  then provider_loop budget' usize okfv okub efv eub esize ealign
                         (ealign + eoff)
                  else provider_with_unit SEnd []
              end
          end
      end
  end.

(** err_size_0.rs:17-28 ([Err::Size = UTerm]) and err_non_empty.rs:52-82
    (budget of 8): [IDeterminantProviderInner for (Ok, Err, Err::Size)]. *)
Definition provider_inner (ok err : desc) : option provider :=
  if Nat.eqb (dsize err) 0
  then provider_with_unit (select_one (dfv ok)) (dub ok)
  else provider_loop 8 (union_size ok err) (dfv ok) (union_member_ub ok err)
         (dfv err) (dub err) (dsize err) (dalign err) 0.

(** enums/mod.rs:218-227 [IDeterminantProvider]. *)
Record fprovider := FProv {
  fp_ok_shift : nat;
  fp_err_shift : nat;
  fp_det : det;
  fp_ub : mask }.
(** enums/mod.rs:283-311: the larger payload is never shifted. *)
Definition provider_of (ok err : desc) : option fprovider :=
  if Nat.leb (dsize err) (dsize ok) then
    match provider_inner ok err with
    | Some p => Some (FProv 0 (p_err_shift p) (p_det p) (p_ub p))
    | None => None
    end
  else
    match provider_inner err ok with
    | Some p => Some (FProv (p_err_shift p) 0 (DNot (p_det p)) (p_ub p))
    | None => None
    end.

(** ** [Result] *)

(** unsigned.rs:574-600 [Alignment::AsUint]: the unsigned integer of that size,
    on a target where the integers up to 16 bytes are aligned to their size. *)
Definition as_uint_d (al : nat) : desc := plain_d al al.
(** build.rs:72-80 [Tuple2<A, B>] is a [#[stabby]] struct of two fields. *)
Definition tuple2_d (a b : desc) : desc := struct_ (field_pair a b).

(** result.rs:45-81 [IStable for Result<Ok, Err>]. *)
Definition result_d (ok err : desc) (p : fprovider) : desc :=
  let al := Nat.max (dalign ok) (dalign err) in
  let detsz := nmo (dsize (det_d (fp_det p))) al in
  {| dsize := detsz + Nat.max (dsize ok) (dsize err);
     dalign := al;
     dfv := FEnd;
     dub := bit_or (dub (tuple2_d (det_d (fp_det p)) (as_uint_d al)))
                   (mshift detsz (fp_ub p));
     dniche := A0;
     dind := dind ok || dind err |}.

(** ** Types *)

(** The types whose layout is modelled.  [TFP] is the helper [FieldPair] that the
    macros build from the fields of a struct; it only appears below
    [TStruct]/[TAligned] or on the left of another [TFP] (stable_impls/mod.rs:243-1000, istable.rs:385-592, result.rs:45-81). *)
Inductive ty :=
| TUnit
| TPlain (s a : nat)
| TRawPtr (w : nat)
| TNonZero (w a : nat)
| TRef (w : nat)
| TBool
| TOrdering
| TPadByte
| TFP (a b : ty)
| TStruct (t : ty)
| TAligned (t : ty) (al : nat)
| TUnion (a b : ty)
| TArr (t : ty) (n : nat)
| TResult (ok err : ty)
| TMaybeUninit (t : ty).

(** Layout of a type; [TMaybeUninit]: stable_impls/mod.rs:535-551
    ([ManuallyDrop], [MaybeUninit] and [UnsafeCell] reuse [T]'s layout).
    [None]: the type has no [IStable] implementation. *)
Fixpoint layout (t : ty) : option desc :=
  match t with
  | TUnit => Some unit_d
  | TPlain s a => Some (plain_d s a)
  | TRawPtr w => Some (rawptr_d w)
  | TNonZero w a => Some (nonzero_d w a)
  | TRef w => Some (ref_d w)
  | TBool => Some bool_d
  | TOrdering => Some ordering_d
  | TPadByte => Some padbyte_d
  | TFP a b =>
      match layout a, layout b with
      | Some da, Some db => Some (field_pair da db)
      | _, _ => None
      end
  | TStruct t => option_map struct_ (layout t)
  | TAligned t al => option_map (fun d => aligned_struct d al) (layout t)
  | TUnion a b =>
      match layout a, layout b with
      | Some da, Some db => Some (union_ da db)
      | _, _ => None
      end
  | TArr t n => option_map (fun d => array_ d n) (layout t)
  | TResult a b =>
      match layout a, layout b with
      | Some da, Some db =>
          match provider_of da db with
          | Some p => Some (result_d da db p)
          | None => None
          end
      | _, _ => None
      end
  | TMaybeUninit t => layout t
  end.

(** structs.rs:123-145,153-161: the fields are paired left to right. *)
Definition fields_ty (f : ty) (fs : list ty) : ty := fold_left TFP fs f.
(** structs.rs:177-191: the layout of a struct, [()] if it has no field. *)
Definition struct_ty (fs : list ty) : ty :=
  match fs with [] => TUnit | f :: fs => TStruct (fields_ty f fs) end.
(** structs.rs:180-186: same with [#[repr(align(n))]]. *)
Definition aligned_struct_ty (fs : list ty) (al : nat) : ty :=
  match fs with [] => TUnit | f :: fs => TAligned (fields_ty f fs) al end.
(** unions.rs:70-75: unions start from [()]. *)
Definition union_ty (fs : list ty) : ty := fold_left TUnion fs TUnit.
(** option.rs:22-26 [Option<T>]: a struct with a single [Result<T, ()>] field. *)
Definition option_ty (t : ty) : ty := TStruct (TResult t TUnit).
