(** Model of the implementations of [PartialEq], [Ord] and [Hash] in stabby-abi.
    A hasher is seen through the bytes it is fed: the methods [write_u8], [write_usize], ... of core's
    [Hasher] default to [write] of the bytes of the integer (little-endian, 64-bit target). *)
From Coq Require Import List Arith NArith ZArith Bool.
From Verif Require Import M_Num M_String M_Report.
Import ListNotations.
Local Open Scope N_scope.

(** The string types: [Str] (str.rs:22-26), [str], [String] (string.rs:10-13), [ArcStr] (string.rs:146-149),
    [BoxedStr] (string.rs:266-269). *)
Inductive strk := SView | SStd | SString | SArc | SBoxed.
(** The sequence types: [Slice] (slice.rs:22-30), [SliceMut] (slice.rs:116-124), [Vec] (vec.rs:464-479), [SingleOrVec]
    (single_or_vec.rs:337-380), [ArcSlice] (sync.rs:564-583), [BoxedSlice] (boxed.rs:358-378). *)
Inductive seqk := QView | QViewMut | QVec | QSingle | QArc | QBoxed.

(** Types with these traits.  [QPair a b] is a [struct] with the traits derived, as [VTable] (vtable/mod.rs:260-267), [VtSend]
    (vtable/mod.rs:394-395), [StableLike] (lib.rs:172-176, of which the [PhantomData] adds nothing).
    Integers of the language: [QUInt], [QSInt] ([n] bytes); function pointers other than in [VtDrop] are 8-byte integers.
    [NonX] is modelled at unsigned types only (num.rs:100-154). *)
Inductive kty :=
| QUInt (n : nat) | QSInt (n : nat) | QBool | QUnit
| QNonMax (n : nat) | QNonX (n : nat) (f : N)
| QText (s : strk)
| QSeq (s : seqk) (t : kty)
| QResult (a b : kty) | QOption (a : kty)
| QPair (a b : kty)
| QDrop.

(** Values.  [VFn p f]: a [VtDrop] (vtable/mod.rs:348-353) at address [p], holding the function at address [f].
    [NonMax], [NonX]: the stored [inner] (num.rs:23-25, 104-106).  Results and options are given by their variant
    (result.rs:138-152; reading it back is C06). *)
Inductive val :=
| VN (n : N) | VZ (z : Z) | VB (b : bool) | VUnit
| VText (l : list N) | VList (l : list val)
| VOk (v : val) | VErr (v : val) | VPair (a b : val)
| VFn (p f : N).

(** core: the little-endian bytes of an integer of [n] bytes (the [write_uN] of the hash functions called at num.rs:71, result.rs:129). *)
Fixpoint le (n : nat) (v : N) : list N :=
  match n with O => [] | S n' => v mod 256 :: le n' (v / 256) end.
(** core: [==] of slices (slice.rs:87, sync.rs:567, boxed.rs:361, vec.rs:466, single_or_vec.rs:346). *)
Fixpoint eqs {A} (f : A -> A -> bool) (l m : list A) : bool :=
  match l, m with
  | [], [] => true
  | a :: l, b :: m => f a b && eqs f l m
  | _, _ => false
  end.
(** core: [<[T] as Hash>::hash]: the length as a [usize], then each element (slice.rs:111, sync.rs:582, boxed.rs:376). *)
Definition feeds {A} (f : A -> list N) (l : list A) : list N := le 8 (N.of_nat (length l)) ++ flat_map f l.

(** [PartialEq::eq]: derived at num.rs:19,100 (on [inner]), str.rs:23 (on the slice of bytes), option.rs:23, vtable/mod.rs:260;
    string.rs:119, 221, 319 (on [str]); slice.rs:86-88, 145-147; vec.rs:465-467; single_or_vec.rs:345-347; sync.rs:566-568;
    boxed.rs:360-362; result.rs:145-151; vtable/mod.rs:364-371, which compares the addresses of the two fields. *)
Fixpoint eqv (k : kty) (x y : val) : bool :=
  match k, x, y with
  | QUInt _, VN a, VN b => a =? b
  | QSInt _, VZ a, VZ b => Z.eqb a b
  | QBool, VB a, VB b => Bool.eqb a b
  | QUnit, VUnit, VUnit => true
  | QNonMax _, VN a, VN b => nonmax_eq a b
  | QNonX _ _, VN a, VN b => nonmax_eq a b
  | QText _, VText l, VText m => eqs N.eqb l m
  | QSeq _ t, VList l, VList m => eqs (eqv t) l m
  | QResult a b, VOk x, VOk y => eqv a x y
  | QResult a b, VErr x, VErr y => eqv b x y
  | QOption a, VOk x, VOk y => eqv a x y
  | QOption a, VErr _, VErr _ => true
  | QPair a b, VPair x x', VPair y y' => eqv a x y && eqv b x' y'
  | QDrop, VFn p _, VFn q _ => p =? q
  | _, _, _ => false
  end.

(** [Ord::cmp] (or [partial_cmp] where there is no [Ord]: str.rs:76-80): num.rs:65-67,146-148 (on the value); string.rs:129-131, 225-227,
    323-325; vec.rs:476-478; single_or_vec.rs:378-380; sync.rs:571-573; boxed.rs:365-367; derived at lib.rs:172.
    Sequences: core's [cmp] of slices, lexicographic.  [None]: the type has no order (slices, results, options, [VtDrop]). *)
Fixpoint cmpv (k : kty) (x y : val) : option comparison :=
  match k, x, y with
  | QUInt _, VN a, VN b => Some (a ?= b)
  | QSInt _, VZ a, VZ b => Some (a ?= b)%Z
  | QBool, VB a, VB b => Some (N.b2n a ?= N.b2n b)
  | QUnit, VUnit, VUnit => Some Eq
  | QNonMax n, VN a, VN b => Some (nonmax_cmp (8 * N.of_nat n) a b)
  | QNonX n f, VN a, VN b => Some (nonxu_cmp (8 * N.of_nat n) f a b)
  | QText _, VText l, VText m => Some (cmp l m)
  | QSeq QVec t, VList l, VList m | QSeq QSingle t, VList l, VList m
  | QSeq QArc t, VList l, VList m | QSeq QBoxed t, VList l, VList m =>
      (fix go (l m : list val) : option comparison :=
         match l, m with
         | [], [] => Some Eq
         | [], _ :: _ => Some Lt
         | _ :: _, [] => Some Gt
         | a :: l, b :: m => match cmpv t a b with Some Eq => go l m | c => c end
         end) l m
  | QPair a b, VPair x x', VPair y y' => match cmpv a x y with Some Eq => cmpv b x' y' | c => c end
  | _, _, _ => None
  end.

(** core: [<str as Hash>::hash], [write_str]: the bytes, then 0xff (string.rs:114, 236, 334). *)
Definition feed_str (l : list N) : list N := l ++ [255].

(** [Hash::hash]: the bytes fed to the hasher.  num.rs:70-72,151-153 (of the value); str.rs:23 derived: that of the slice of bytes;
    string.rs:113-115, 235-237, 333-335; slice.rs:110-112, 169-171; sync.rs:581-583; boxed.rs:375-377; result.rs:128-136; option.rs:23;
    vtable/mod.rs:359-363 (the function pointer, as an integer).  [None]: no [Hash] ([Vec], [SingleOrVec]). *)
Fixpoint feed (k : kty) (x : val) : option (list N) :=
  match k, x with
  | QUInt n, VN a => Some (le n a)
  | QSInt n, VZ a => Some (le n (Z.to_N (a mod 2 ^ (8 * Z.of_nat n))))
  | QBool, VB a => Some [N.b2n a]
  | QUnit, VUnit => Some []
  | QNonMax n, VN a => Some (le n (nonmax_get (8 * N.of_nat n) a))
  | QNonX n f, VN a => Some (le n (nonxu_get (8 * N.of_nat n) f a))
  | QText SView, VText l => Some (feeds (fun b => le 1 b) l)
  | QText _, VText l => Some (feed_str l)
  | QSeq QView t, VList l | QSeq QViewMut t, VList l | QSeq QArc t, VList l | QSeq QBoxed t, VList l =>
      option_map (fun s => le 8 (N.of_nat (length l)) ++ s)
        ((fix go (l : list val) : option (list N) :=
            match l with
            | [] => Some []
            | a :: l => match feed t a, go l with Some u, Some v => Some (u ++ v) | _, _ => None end
            end) l)
  | QResult a b, VOk x => option_map (fun s => 1 :: s) (feed a x)
  | QResult a b, VErr x => option_map (fun s => 0 :: s) (feed b x)
  | QOption a, VOk x => option_map (fun s => 1 :: s) (feed a x)
  | QOption a, VErr _ => Some [0]
  | QPair a b, VPair x y => match feed a x, feed b y with Some u, Some v => Some (u ++ v) | _, _ => None end
  | QDrop, VFn _ f => Some (le 8 f)
  | _, _ => None
  end.

(** report.rs:23,94 [#[derive(PartialEq)]] of [TypeReport] and [FieldReport]: in the order of the fields; references and the list of
    fields are followed. *)
Fixpoint rep_eq (a b : report) : bool :=
  match a, b with
  | Rep n m v k fs, Rep n' m' v' k' fs' =>
      bytes_eqb n n' && bytes_eqb m m' &&
      (fix go (l l' : list (list N * report)) : bool :=
         match l, l' with
         | [], [] => true
         | (fn, r) :: t, (fn', r') :: t' => bytes_eqb fn fn' && rep_eq r r' && go t t'
         | _, _ => false
         end) fs fs' && tyty_eqb k k' && N.eqb v v'
  end.
(** A [Str] as hashed (str.rs:23, slice.rs:110-112). *)
Definition feed_view (l : list N) : list N := feeds (fun b => le 1 b) l.
(** report.rs:82 [#[derive(Hash)]] of the [repr(u8)] [TyTy]: the discriminant, of one byte, then the payload. *)
Definition tyty_feed (k : tyty) : list N :=
  match k with KStruct => [0] | KEnum s => 1 :: feed_view s | KUnion => [2] end.
(** report.rs:53-63 [TypeReport::hash] and 103-108 [FieldReport::hash]. *)
Fixpoint rep_feed (r : report) : list N :=
  match r with
  | Rep n m v k fs =>
      feed_view n ++ feed_view m ++
      (fix go (l : list (list N * report)) : list N :=
         match l with [] => [] | (fn, r') :: t => feed_view fn ++ rep_feed r' ++ go t end) fs ++
      le 4 v ++ tyty_feed k
  end.
