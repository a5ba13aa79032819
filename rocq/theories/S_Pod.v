(** What is expected of plain old data. *)
From Coq Require Import String.
From Coq Require Import List Arith NArith Bool.
From Verif Require Import M_Layout S_Layout M_Result M_Report S_Report M_Core S_Core M_Decl S_Decl M_Pod.
Import ListNotations.

(** Somewhere in values of the type there may be a pointer, or the author of the type has said that it is not plain data. *)
Inductive tied : pty -> Prop :=
| TiPtr k t : tied (PPtr k t)
| TiNot t : tied (PNot t)
| TiPin t : tied t -> tied (PPin t)
| TiArr t n : tied t -> tied (PArr t n)
| TiManually t : tied t -> tied (PManually t)
| TiUninit t : tied t -> tied (PUninit t)
| TiCell t : tied t -> tied (PCell t)
| TiStruct n m v al c fs f : In f fs -> tied (snd f) -> tied (PStruct n m v al c fs)
| TiUnion n m v c fs f : In f fs -> tied (snd f) -> tied (PUnion n m v c fs).

(** The memory holds the value, whatever there is in bytes that are not initialised. *)
Definition fills (mem : memory) (s : list N) : Prop := Forall2 (fun o b => match o with Some x => b = x | None => (b < 256)%N end) mem s.
Definition holds (m : machine) (t : pty) (mem : memory) (v : val) : Prop :=
  forall s, fills mem s -> read m t s = Some v.

(** Declarations whose identifiers say everything: no [repr(align)], [MaybeUninit], [ManuallyDrop], and in modules of users. *)
Definition pod_module (m : list N) : Prop := user_module m /\ m <> lit "stabby_abi::istable".
Inductive described : pty -> Prop :=
| DePrim p : described (PPrim p)
| DePin t : described t -> described (PPin t)
| DeArr t n : described t -> described (PArr t n)
| DeStruct n m v c fs : pod_module m -> Forall (fun f => described (snd f)) fs -> described (PStruct n m v None c fs)
| DeUnion n m v c fs : pod_module m -> Forall (fun f => described (snd f)) fs -> described (PUnion n m v c fs).
(** The identifiers do not collide (C37 tells when they do). *)
Definition no_collision (sha : list N -> list N) (m : machine) (t : pty) (m' : machine) (t' : pty) : Prop :=
  identifier sha m t = identifier sha m' t' ->
  arch m = arch m' /\ same_but_version (pod_report (m_u128 m) t) (pod_report (m_u128 m') t').
(** Both machines agree on what identifiers do not tell: the alignment of u64. *)
Definition same_u64 (m m' : machine) : Prop := t_u64 (m_target m) = t_u64 (m_target m').
(** No [NotPod] in it. *)
Fixpoint unmarked (t : pty) : bool :=
  match t with
  | PPrim _ | PPtr _ _ => true
  | PNot _ => false
  | PPin t | PArr t _ | PManually t | PUninit t | PCell t => unmarked t
  | PStruct _ _ _ _ _ fs | PUnion _ _ _ _ fs => forallb (fun f => unmarked (snd f)) fs
  end.

(** No byte is without meaning: the fields of structs are without gaps, and there are no unions and no [MaybeUninit] or [ManuallyDrop]. *)
Fixpoint dense (t : ty) : Prop :=
  match t with
  | TUnit | TPlain _ _ | TRawPtr _ | TNonZero _ _ | TRef _ | TBool | TOrdering => True
  | TFP a b => dense a /\ dense b /\
      match layout a, layout b, layout (TFP a b) with Some da, Some db, Some d => dsize d = dsize da + dsize db | _, _, _ => False end
  | TStruct t' | TAligned t' _ => dense t' /\
      match layout t', layout t with Some d', Some d => dsize d = dsize d' | _, _ => False end
  | TArr t' _ => dense t'
  | TPadByte | TUnion _ _ | TResult _ _ | TMaybeUninit _ => False
  end.

(** Types whose values must not be duplicated by copying their bytes: what may change while it is shared, exclusive references,
    [c_void], and types of users that do not derive [Copy] or have such fields. *)
Definition atomics : list prim := [PABool; PAI8; PAI16; PAI32; PAI64; PAIsize; PAU8; PAU16; PAU32; PAU64; PAUsize].
Inductive unique : pty -> Prop :=
| UnVoid : unique (PPrim PVoid)
| UnAtomic p : In p atomics -> unique (PPrim p)
| UnAtomicPtr t : unique (PPtr KAtomic t)
| UnMut t : unique (PPtr KRefMut t)
| UnCell t : unique (PCell t)
| UnPin t : unique t -> unique (PPin t)
| UnArr t n : unique t -> unique (PArr t n)
| UnManually t : unique t -> unique (PManually t)
| UnUninit t : unique t -> unique (PUninit t)
| UnNot t : unique t -> unique (PNot t)
| UnStruct n m v al fs : unique (PStruct n m v al false fs)
| UnStructField n m v al c fs f : In f fs -> unique (snd f) -> unique (PStruct n m v al c fs)
| UnUnion n m v fs : unique (PUnion n m v false fs)
| UnUnionField n m v c fs f : In f fs -> unique (snd f) -> unique (PUnion n m v c fs).
(** Sizes and alignments of pointers and u128 fit a byte. *)
Definition small_machine (m : machine) : Prop := t_ptr (m_target m) < 256 /\ m_u128 m < 256.

(** Sizes and alignments that Rust gives types: wrappers those of what they wrap, arrays a multiple, structs and unions as in C. *)
Inductive rust_layout (w : target) (a128 : nat) : pty -> nat -> nat -> Prop :=
| RlPrim p : rust_layout w a128 (PPrim p) (rust_size w p) (rust_align w a128 p)
| RlPtr k t : rust_layout w a128 (PPtr k t) (t_ptr w) (t_ptr w)
| RlPin t s a : rust_layout w a128 t s a -> rust_layout w a128 (PPin t) s a
| RlManually t s a : rust_layout w a128 t s a -> rust_layout w a128 (PManually t) s a
| RlUninit t s a : rust_layout w a128 t s a -> rust_layout w a128 (PUninit t) s a
| RlCell t s a : rust_layout w a128 t s a -> rust_layout w a128 (PCell t) s a
| RlNot t s a : rust_layout w a128 t s a -> rust_layout w a128 (PNot t) s a
| RlArr t n s a : rust_layout w a128 t s a -> rust_layout w a128 (PArr t n) (n * s) a
| RlStruct n m v al c fs ls os s a : Forall2 (fun f l => rust_layout w a128 (snd f) (fst l) (snd l)) fs ls ->
    c_struct (match al with None => 1 | Some x => x end) ls os s a -> rust_layout w a128 (PStruct n m v al c fs) s a
| RlUnion n m v c fs ls s a : Forall2 (fun f l => rust_layout w a128 (snd f) (fst l) (snd l)) fs ls ->
    c_union ls s a -> rust_layout w a128 (PUnion n m v c fs) s a.
(** No [c_void]; [repr(align)] up to 16, of structs that have fields. *)
Fixpoint ordinary (t : pty) : Prop :=
  match t with
  | PPrim p => p <> PVoid
  | PPtr _ _ => True
  | PPin t | PManually t | PUninit t | PCell t | PNot t | PArr t _ => ordinary t
  | PStruct _ _ _ al _ fs =>
      match al with None => True | Some n => align_ok n = true /\ fs <> [] end /\ fold_right (fun f P => ordinary (snd f) /\ P) True fs
  | PUnion _ _ _ _ fs => fold_right (fun f P => ordinary (snd f) /\ P) True fs
  end.
