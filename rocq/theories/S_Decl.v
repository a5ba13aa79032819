(** Declared types whose report says everything about their layout. *)
From Coq Require Import String List Arith NArith Bool.
From Verif Require Import M_Layout M_Report M_Decl S_Layout.
Import ListNotations.

(** Modules of user crates. *)
Definition user_module (m : list N) : Prop := m <> impls /\ m <> lit "stabby_abi::result".
(** These 128-bit integers have the alignment of u128 but a name without it. *)
Definition sized_name (p : prim) : Prop := p <> PI128 /\ p <> PNzU128 /\ p <> PNzI128.
(** No [repr(align)], no MaybeUninit-like wrapper, no [i128], arrays of at most 128 elements. *)
Inductive self_described : dty -> Prop :=
| SdPrim p : sized_name p -> self_described (DPrim p)
| SdPtr k t : self_described t -> self_described (DPtr k t)
| SdPin t : self_described t -> self_described (DPin t)
| SdArr t n : self_described t -> n <= 128 -> self_described (DArr t n)
| SdResult a b : self_described a -> self_described b -> self_described (DResult a b)
| SdStruct n m v fs : user_module m -> Forall (fun f => self_described (snd f)) fs ->
    self_described (DStruct n m v None fs)
| SdUnion n m v fs : user_module m -> Forall (fun f => self_described (snd f)) fs ->
    self_described (DUnion n m v fs).
(** Alignments of u128 that compilers have used. *)
Definition u128_align (a : nat) : Prop := a = 8 \/ a = 16.

(** ** What the Rust reference says of the primitive types *)

(** Targets on which integers up to 32 bits and pointers are aligned to their size, u64 to 4 or 8
    (8 if pointers have 8 bytes), u128 to 4, 8 or 16. *)
Definition target_ok (w : target) (a128 : nat) : Prop :=
  In (t_ptr w) [2; 4; 8] /\ In (t_u64 w) [4; 8] /\ (t_ptr w = 8 -> t_u64 w = 8) /\
  In a128 [4; 8; 16].
(** Kinds of primitive types. *)
Inductive kind := KindUnit | KindVoid | KindBool | KindOrdering | KindNum | KindNonZero | KindAtomic.
(** The kind of each, and its number of bits (0: that of a pointer). *)
Definition prim_kind (p : prim) : kind * nat :=
  match p with
  | PUnit | PPhantom | PPinned => (KindUnit, 0)
  | PVoid => (KindVoid, 0) | PBool | PABool => (KindBool, 8) | POrdering => (KindOrdering, 8)
  | PU8 | PI8 => (KindNum, 8) | PU16 | PI16 => (KindNum, 16)
  | PU32 | PI32 | PF32 => (KindNum, 32) | PU64 | PI64 | PF64 => (KindNum, 64)
  | PU128 | PI128 => (KindNum, 128) | PUsize | PIsize => (KindNum, 0)
  | PNzU8 | PNzI8 => (KindNonZero, 8) | PNzU16 | PNzI16 => (KindNonZero, 16)
  | PNzU32 | PNzI32 => (KindNonZero, 32) | PNzU64 | PNzI64 => (KindNonZero, 64)
  | PNzU128 | PNzI128 => (KindNonZero, 128) | PNzUsize | PNzIsize => (KindNonZero, 0)
  | PAI8 | PAU8 => (KindAtomic, 8) | PAI16 | PAU16 => (KindAtomic, 16)
  | PAI32 | PAU32 => (KindAtomic, 32) | PAI64 | PAU64 => (KindAtomic, 64)
  | PAIsize | PAUsize => (KindAtomic, 0)
  end.
(** size_of *)
Definition rust_size (w : target) (p : prim) : nat :=
  match prim_kind p with
  | (KindUnit, _) => 0 | (KindVoid, _) => 1
  | (_, 0) => t_ptr w | (_, b) => b / 8
  end.
(** align_of: the size, up to the limits of the target, which atomics do not have. *)
Definition rust_align (w : target) (a128 : nat) (p : prim) : nat :=
  match prim_kind p with
  | (KindUnit, _) | (KindVoid, _) => 1
  | (KindAtomic, _) => rust_size w p
  | (_, 64) => t_u64 w | (_, 128) => a128 | _ => rust_size w p
  end.
(** The byte strings that are values of the type. *)
Definition rust_valid (p : prim) (s : list N) : Prop :=
  match fst (prim_kind p) with
  | KindBool => s = [0%N] \/ s = [1%N]
  | KindOrdering => s = [255%N] \/ s = [0%N] \/ s = [1%N]
  | KindNonZero => exists b, In b s /\ b <> 0%N
  | _ => True
  end.
(** Pointers that may be null. *)
Definition nullable (k : ptr) : bool :=
  match k with KConst | KMut | KAtomic => true | KNonNull | KRef | KRefMut => false end.
(** [d] declares a type of that size and alignment, whose invalid byte strings are exactly the
    forbidden ones, all of whose bits are used, and with a single niche if it says so. *)
Definition declares (d : desc) (size align : nat) (valid : list N -> Prop) : Prop :=
  dsize d = size /\ dalign d = align /\ dub d = [] /\
  (forall s : list N, length s = size -> is_bytes s -> (forbids (dfv d) s <-> ~ valid s)) /\
  (dniche d = A1 <-> exists s : list N, length s = size /\ is_bytes s /\ ~ valid s /\
     forall s' : list N, length s' = size -> is_bytes s' -> ~ valid s' -> s' = s).
