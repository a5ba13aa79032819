(** Declared types with both their layout and their report: stabby-abi/src/stable_impls/mod.rs,
    stabby-abi/src/result.rs and the [#[stabby::stabby]] attribute (stabby-macros/src/structs.rs,
    unions.rs, lib.rs). *)
From Coq Require Import List Arith NArith Bool Ascii String.
From Verif Require Import M_Layout M_Report.
Import ListNotations.

(** String literals of the source (those of stable_impls/mod.rs:243-1000). *)
Definition lit (s : string) : list N := map N_of_ascii (list_ascii_of_string s).
Arguments lit _%string.

(** Types without parameters, stable_impls/mod.rs:243-533,577-671,681-692,986-1000. *)
Inductive prim :=
| PUnit | PPhantom | PPinned | PVoid | PBool | POrdering
| PU8 | PU16 | PU32 | PU64 | PU128 | PUsize | PI8 | PI16 | PI32 | PI64 | PI128 | PIsize
| PNzU8 | PNzU16 | PNzU32 | PNzU64 | PNzU128 | PNzUsize
| PNzI8 | PNzI16 | PNzI32 | PNzI64 | PNzI128 | PNzIsize | PF32 | PF64
| PABool | PAI8 | PAI16 | PAI32 | PAI64 | PAIsize | PAU8 | PAU16 | PAU32 | PAU64 | PAUsize.
(** Their names in the reports; [a128] is the alignment of u128 for the compiler in use
    (stable_impls/mod.rs:411-415). *)
Definition prim_name (a128 : nat) (p : prim) : list N :=
  match p with
  | PUnit => lit "()" | PPhantom => lit "core::marker::PhantomData"
  | PPinned => lit "core::marker::PhantomPinned" | PVoid => lit "core::ffi::c_void"
  | PBool => lit "bool" | POrdering => lit "core::cmp::Ordering"
  | PU8 => lit "u8" | PU16 => lit "u16" | PU32 => lit "u32" | PU64 => lit "u64"
  | PU128 => if Nat.eqb a128 8 then lit "u128(8)" else lit "u128(16)"
  | PUsize => lit "usize" | PI8 => lit "i8" | PI16 => lit "i16" | PI32 => lit "i32"
  | PI64 => lit "i64" | PI128 => lit "i128" | PIsize => lit "isize"
  | PNzU8 => lit "core::num::NonZeroU8" | PNzU16 => lit "core::num::NonZeroU16"
  | PNzU32 => lit "core::num::NonZeroU32" | PNzU64 => lit "core::num::NonZeroU64"
  | PNzU128 => lit "core::num::NonZeroU128" | PNzUsize => lit "core::num::NonZeroUsize"
  | PNzI8 => lit "core::num::NonZeroI8" | PNzI16 => lit "core::num::NonZeroI16"
  | PNzI32 => lit "core::num::NonZeroI32" | PNzI64 => lit "core::num::NonZeroI64"
  | PNzI128 => lit "core::num::NonZeroI128" | PNzIsize => lit "core::num::NonZeroIsize"
  | PF32 => lit "f32" | PF64 => lit "f64"
  | PABool => lit "core::sync::atomic::AtomicBool"
  | PAI8 => lit "core::sync::atomic::AtomicI8" | PAI16 => lit "core::sync::atomic::AtomicI16"
  | PAI32 => lit "core::sync::atomic::AtomicI32" | PAI64 => lit "core::sync::atomic::AtomicI64"
  | PAIsize => lit "core::sync::atomic::AtomicIsize"
  | PAU8 => lit "core::sync::atomic::AtomicU8" | PAU16 => lit "core::sync::atomic::AtomicU16"
  | PAU32 => lit "core::sync::atomic::AtomicU32" | PAU64 => lit "core::sync::atomic::AtomicU64"
  | PAUsize => lit "core::sync::atomic::AtomicUsize"
  end.
(** What the declarations ask of the compiler: the width of a pointer, the alignment of u64
    ([align_of::<Self>()], stable_impls/mod.rs:378,391,436-437).  The alignment of 64-bit atomics
    (line 608) is 8 on all targets. *)
Record target := Tgt { t_ptr : nat; t_u64 : nat }.
(** Their layouts (stable_impls/mod.rs:243-533,577-671,681-692,986-1000); [expr_to_type!]
    (lines 40-53) is the identity on the alignments of the targets considered. *)
Definition prim_ty (w : target) (a128 : nat) (p : prim) : ty :=
  match p with
  | PUnit | PPhantom | PPinned | PVoid => TUnit
  | PBool | PABool => TBool | POrdering => TOrdering
  | PU8 | PI8 | PAI8 | PAU8 => TPlain 1 1 | PU16 | PI16 | PAI16 | PAU16 => TPlain 2 2
  | PU32 | PI32 | PF32 | PAI32 | PAU32 => TPlain 4 4 | PU64 | PI64 | PF64 => TPlain 8 (t_u64 w)
  | PAI64 | PAU64 => TPlain 8 8
  | PU128 | PI128 => TPlain 16 a128
  | PUsize | PIsize | PAIsize | PAUsize => TPlain (t_ptr w) (t_ptr w)
  | PNzU8 | PNzI8 => TNonZero 1 1 | PNzU16 | PNzI16 => TNonZero 2 2
  | PNzU32 | PNzI32 => TNonZero 4 4 | PNzU64 | PNzI64 => TNonZero 8 (t_u64 w)
  | PNzU128 | PNzI128 => TNonZero 16 a128
  | PNzUsize | PNzIsize => (* same as NonZeroU64, NonZeroU32 or NonZeroU16, lines 449-457 *)
      TNonZero (t_ptr w) (if Nat.eqb (t_ptr w) 8 then t_u64 w else t_ptr w)
  end.

(** Pointers, stable_impls/mod.rs:553-576,652-674. *)
Inductive ptr := KConst | KMut | KNonNull | KAtomic | KRef | KRefMut.
(** Names of the pointers in the reports (same lines) (stable_impls/mod.rs:553-576,652-674). *)
Definition ptr_name (p : ptr) : list N :=
  match p with
  | KConst => lit "*const" | KMut => lit "*mut" | KNonNull => lit "core::ptr::NonNull"
  | KAtomic => lit "core::sync::atomic::AtomicPtr" | KRef => lit "&" | KRefMut => lit "&mut"
  end.
(** Layouts of the pointers (same lines) (stable_impls/mod.rs:553-576,652-674). *)
Definition ptr_ty (w : target) (p : ptr) : ty :=
  match p with
  | KConst | KMut | KAtomic => TRawPtr (t_ptr w) | KNonNull | KRef | KRefMut => TRef (t_ptr w)
  end.

(** Decimal digits, for the names of array types (stable_impls/mod.rs:925-946). *)
Definition digit (n : nat) : N := (48 + N.of_nat n)%N.
(** stable_impls/mod.rs:930-946 [ARRAY_NAME]: arrays have at most 128 elements. *)
Definition array_name (n : nat) : list N :=
  lit "[T;" ++
  (if Nat.ltb n 10 then [digit n]
   else if Nat.ltb n 100 then [digit (n / 10); digit (n mod 10)]
   else [digit (n / 100); digit (n / 10 mod 10); digit (n mod 10)])
  ++ lit "]".

(** Declared types.  [DWrap]: ManuallyDrop, MaybeUninit and UnsafeCell
    (stable_impls/mod.rs:535-551); [DStruct], [DUnion]: structs (with an optional [repr(align)])
    and unions with the attribute (structs.rs:102-190, unions.rs:57-104). *)
Inductive dty :=
| DPrim (p : prim)
| DPtr (k : ptr) (t : dty)
| DPin (t : dty)
| DArr (t : dty) (n : nat)
| DWrap (t : dty)
| DResult (ok err : dty)
| DStruct (name module : list N) (version : N) (align : option nat) (fields : list (list N * dty))
| DUnion (name module : list N) (version : N) (fields : list (list N * dty)).

(** The layout of a declared type (same lines) (as for [dty], stable_impls/mod.rs:553-946). *)
Fixpoint dty_ty (w : target) (a128 : nat) (d : dty) : ty :=
  match d with
  | DPrim p => prim_ty w a128 p
  | DPtr k _ => ptr_ty w k
  | DPin t => dty_ty w a128 t
  | DArr t n => TArr (dty_ty w a128 t) n
  | DWrap t => TMaybeUninit (dty_ty w a128 t)
  | DResult a b => TResult (dty_ty w a128 a) (dty_ty w a128 b)
  | DStruct _ _ _ al fs =>
      let tys := map (fun f => dty_ty w a128 (snd f)) fs in
      match al with None => struct_ty tys | Some n => aligned_struct_ty tys n end
  | DUnion _ _ _ fs => union_ty (map (fun f => dty_ty w a128 (snd f)) fs)
  end.

(** The name of a report (report.rs:21-35), for stable_impls/mod.rs:535-551. *)
Definition report_name (r : report) : list N := match r with Rep n _ _ _ _ => n end.
(** core::module_path!() of stable_impls/mod.rs (lib.rs:55,68). *)
Definition impls : list N := lit "stabby_abi::stable_impls".
(** lib.rs:51-65 [primitive_report!(name, T)]. *)
Definition inner_report (name : list N) (r : report) : report :=
  Rep name impls 0 KStruct [(lit "inner", r)].
(** The report of a declared type: lib.rs:51-77, stable_impls/mod.rs (lines above),
    result.rs:65-79, stabby-macros/src/lib.rs:423-459 (the alignment of a struct is not part of its
    report). *)
Fixpoint dty_report (a128 : nat) (d : dty) : report :=
  match d with
  | DPrim p => Rep (prim_name a128 p) impls 0 KStruct []
  | DPtr k t => inner_report (ptr_name k) (dty_report a128 t)
  | DPin t => inner_report (lit "core::pin::Pin") (dty_report a128 t)
  | DArr t n => inner_report (array_name n) (dty_report a128 t)
  | DWrap t => Rep (report_name (dty_report a128 t)) impls 0 KStruct []
  | DResult a b =>
      Rep (lit "Result") (lit "stabby_abi::result") 1 (KEnum (lit "stabby"))
        [(lit "Ok", dty_report a128 a); (lit "Err", dty_report a128 b)]
  | DStruct n m v _ fs => macro_report n m v KStruct (map (fun f => (fst f, dty_report a128 (snd f))) fs)
  | DUnion n m v fs => macro_report n m v KUnion (map (fun f => (fst f, dty_report a128 (snd f))) fs)
  end.
