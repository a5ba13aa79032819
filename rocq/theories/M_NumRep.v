(** Model of what a library makes of restricted integers it is given by another: their memory and their reports
    (stabby-abi/src/num.rs:14-193, stable_impls/mod.rs:298-533). A pattern is the integer stored, read as unsigned. *)
From Coq Require Import List Arith NArith ZArith Bool String.
From Verif Require Import M_Report M_Decl M_Num.
Import ListNotations.

(** The widths of integers (stable_impls/mod.rs:298-533). *)
Inductive width := W8 | W16 | W32 | W64 | W128 | WSize.
(** Integers that cross libraries: primitive ones and [NonZero] ones (stable_impls/mod.rs:298-533; [true]: signed), [NonMax] (num.rs:175-180), [NonX] (num.rs:182-193). *)
Inductive rint := RInt (s : bool) (w : width) | RNonZero (s : bool) (w : width) | RNonMax (w : width) | RNonX (s : bool) (w : width) (f : Z).
(** These and structs of these (stabby-macros/src/lib.rs:423-459). *)
Inductive rty := RI (r : rint) | RS (name module : list N) (version : N) (fields : list (list N * rty)).

(** Bits; [pw] is the width of a pointer (stable_impls/mod.rs:298-533). *)
Definition bits (pw : N) (w : width) : N := match w with W8 => 8 | W16 => 16 | W32 => 32 | W64 => 64 | W128 => 128 | WSize => pw end.
(** The ends of the names of num.rs:175-193. *)
Definition suffix (s : bool) (w : width) : list N :=
  (if s then lit "I" else lit "U") ++ match w with W8 => lit "8" | W16 => lit "16" | W32 => lit "32" | W64 => lit "64" | W128 => lit "128" | WSize => lit "size" end.
(** stable_impls/mod.rs:298-533: which primitive type. *)
Definition prim_of (s : bool) (w : width) : prim :=
  match s, w with
  | false, W8 => PU8 | false, W16 => PU16 | false, W32 => PU32 | false, W64 => PU64 | false, W128 => PU128 | false, WSize => PUsize
  | true, W8 => PI8 | true, W16 => PI16 | true, W32 => PI32 | true, W64 => PI64 | true, W128 => PI128 | true, WSize => PIsize
  end.
(** stable_impls/mod.rs:313-533: which [NonZero] type. *)
Definition nonzero_of (s : bool) (w : width) : prim :=
  match s, w with
  | false, W8 => PNzU8 | false, W16 => PNzU16 | false, W32 => PNzU32 | false, W64 => PNzU64 | false, W128 => PNzU128 | false, WSize => PNzUsize
  | true, W8 => PNzI8 | true, W16 => PNzI16 | true, W32 => PNzI32 | true, W64 => PNzI64 | true, W128 => PNzI128 | true, WSize => PNzIsize
  end.
(** core::module_path!() of num.rs (num.rs:86, 167). *)
Definition nums : list N := lit "stabby_abi::num".
(** [REPORT]: stable_impls/mod.rs:298-533 as in [M_Decl]; num.rs:84-90 [NonMax]; num.rs:165-171 [NonX], where FORBIDDEN is not part of the name. *)
Definition rint_report (a128 : nat) (r : rint) : report :=
  match r with
  | RInt s w => Rep (prim_name a128 (prim_of s w)) impls 0 KStruct []
  | RNonZero s w => Rep (prim_name a128 (nonzero_of s w)) impls 0 KStruct []
  | RNonMax w => Rep (lit "NonMax" ++ suffix false w) nums 0 KStruct []
  | RNonX s w _ => Rep (lit "NonX" ++ suffix s w) nums 0 KStruct []
  end.
(** [REPORT] of structs: stabby-macros/src/lib.rs:423-459. *)
Fixpoint rty_report (a128 : nat) (t : rty) : report :=
  match t with
  | RI r => rint_report a128 r
  | RS n m v fs => Rep n m v KStruct (map (fun f => (fst f, rty_report a128 (snd f))) fs)
  end.

(** Is [v] an integer of [n] bits (a value of the Rust type, for num.rs:28, 109)? *)
Definition in_range (s : bool) (n : N) (v : Z) : bool :=
  if s then (- 2 ^ (Z.of_N n - 1) <=? v)%Z && (v <? 2 ^ (Z.of_N n - 1))%Z else (0 <=? v)%Z && (v <? 2 ^ Z.of_N n)%Z.
(** Two's complement, the memory of the fields at num.rs:24, 105. *)
Definition pattern (n : N) (v : Z) : N := Z.to_N (v mod 2 ^ Z.of_N n).
(** The integer of a pattern, read by num.rs:44-46, 125-127. *)
Definition number (s : bool) (n : N) (x : N) : Z := if s then wrap (Z.of_N n) (Z.of_N x) else Z.of_N x.
(** What [new] stores: num.rs:28-33 [NonMax], num.rs:109-114 [NonX]; [None]: not a value of the type. *)
Definition rint_store (pw : N) (r : rint) (v : Z) : option N :=
  match r with
  | RInt s w => if in_range s (bits pw w) v then Some (pattern (bits pw w) v) else None
  | RNonZero s w => if in_range s (bits pw w) v && negb (v =? 0)%Z then Some (pattern (bits pw w) v) else None
  | RNonMax w => if in_range false (bits pw w) v then nonmax_new (bits pw w) (Z.to_N v) else None
  | RNonX false w f => if in_range false (bits pw w) v then nonxu_new (bits pw w) (Z.to_N f) (Z.to_N v) else None
  | RNonX true w f => if in_range true (bits pw w) v then option_map (pattern (bits pw w)) (nonxi_new (Z.of_N (bits pw w)) f v) else None
  end.
(** What [get] reads: num.rs:44-46, 125-127; [None]: the pattern is not one of the type. *)
Definition rint_load (pw : N) (r : rint) (x : N) : option Z :=
  match r with
  | RInt s w => Some (number s (bits pw w) x)
  | RNonZero s w => if N.eqb x 0 then None else Some (number s (bits pw w) x)
  | RNonMax w => if N.eqb x 0 then None else Some (Z.of_N (nonmax_get (bits pw w) x))
  | RNonX false w f => if N.eqb x 0 then None else Some (Z.of_N (nonxu_get (bits pw w) (Z.to_N f) x))
  | RNonX true w f => if N.eqb x 0 then None else Some (nonxi_get (Z.of_N (bits pw w)) f (number true (bits pw w) x))
  end.

(** Values and memories of structs, field by field: where they are is C02 (stabby-macros/src/lib.rs:423-459). *)
Inductive rval := VI (v : Z) | VS (l : list rval).
(** As above (stabby-macros/src/lib.rs:423-459). *)
Inductive rmem := MI (x : N) | MS (l : list rmem).
(** Writing a struct, field by field (num.rs:28-33, 109-114). *)
Fixpoint rty_store (pw : N) (t : rty) (v : rval) : option rmem :=
  match t, v with
  | RI r, VI z => option_map MI (rint_store pw r z)
  | RS _ _ _ fs, VS vs =>
      option_map MS ((fix go (fs : list (list N * rty)) (vs : list rval) : option (list rmem) :=
         match fs, vs with
         | [], [] => Some []
         | f :: fs', x :: vs' => match rty_store pw (snd f) x, go fs' vs' with Some m, Some ms => Some (m :: ms) | _, _ => None end
         | _, _ => None
         end) fs vs)
  | _, _ => None
  end.
(** Reading a struct, field by field (num.rs:44-46, 125-127). *)
Fixpoint rty_load (pw : N) (t : rty) (m : rmem) : option rval :=
  match t, m with
  | RI r, MI x => option_map VI (rint_load pw r x)
  | RS _ _ _ fs, MS ms =>
      option_map VS ((fix go (fs : list (list N * rty)) (ms : list rmem) : option (list rval) :=
         match fs, ms with
         | [], [] => Some []
         | f :: fs', x :: ms' => match rty_load pw (snd f) x, go fs' ms' with Some v, Some vs => Some (v :: vs) | _, _ => None end
         | _, _ => None
         end) fs ms)
  | _, _ => None
  end.
