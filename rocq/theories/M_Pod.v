(** Model of plain old data: [IPod], [NotPod] (stabby-abi/src/istable.rs:78-131), and of sending values of such types as bytes, with their identifiers. *)
From Coq Require Import String.
From Coq Require Import List Arith NArith Bool.
From Verif Require Import M_Layout M_Result M_Report M_Decl.
Import ListNotations.

(** Types, with what decides whether they are [Copy]: for user types whether they derive it (istable.rs:97-102; stable_impls/mod.rs:243-1000; structs.rs:102-190; unions.rs:57-104).
    [Result] and [Option] of stabby are left out: they are not [Copy] (result.rs:50-81); as are enums. *)
Inductive pty :=
| PPrim (p : prim)
| PPtr (k : ptr) (t : pty)
| PPin (t : pty)
| PArr (t : pty) (n : nat)
| PManually (t : pty)
| PUninit (t : pty)
| PCell (t : pty)
| PNot (t : pty)
| PStruct (name module : list N) (version : N) (align : option nat) (copy : bool) (fields : list (list N * pty))
| PUnion (name module : list N) (version : N) (copy : bool) (fields : list (list N * pty)).

(** Sizes, alignments, niches; [NotPod] is transparent (istable.rs:108, 121-131). *)
Fixpoint pod_ty (w : target) (a128 : nat) (t : pty) : ty :=
  match t with
  | PPrim p => prim_ty w a128 p
  | PPtr k _ => ptr_ty w k
  | PPin t | PNot t => pod_ty w a128 t
  | PArr t n => TArr (pod_ty w a128 t) n
  | PManually t | PUninit t | PCell t => TMaybeUninit (pod_ty w a128 t)
  | PStruct _ _ _ al _ fs =>
      let tys := map (fun f => pod_ty w a128 (snd f)) fs in
      match al with None => struct_ty tys | Some n => aligned_struct_ty tys n end
  | PUnion _ _ _ _ fs => union_ty (map (fun f => pod_ty w a128 (snd f)) fs)
  end.
(** [IStable::ContainsIndirections] (stable_impls/mod.rs:243-1000; istable.rs:125 [NotPod]; 399, 533, 554, 571 fields); that of the layout where there is no [NotPod]. *)
Fixpoint indirect (t : pty) : bool :=
  match t with
  | PPrim _ => false
  | PPtr _ _ | PNot _ => true
  | PPin t | PArr t _ | PManually t | PUninit t | PCell t => indirect t
  | PStruct _ _ _ _ _ fs | PUnion _ _ _ _ fs => existsb (fun f => indirect (snd f)) fs
  end.
(** core: primitive types that are [Copy] (istable.rs:97): not atomics, not [c_void]. *)
Definition prim_copy (p : prim) : bool :=
  match p with
  | PVoid | PABool | PAI8 | PAI16 | PAI32 | PAI64 | PAIsize | PAU8 | PAU16 | PAU32 | PAU64 | PAUsize => false
  | _ => true
  end.
(** core: [Copy] (istable.rs:97, 109 for [NotPod]). *)
Fixpoint is_copy (t : pty) : bool :=
  match t with
  | PPrim p => prim_copy p
  | PPtr k _ => match k with KAtomic | KRefMut => false | _ => true end
  | PPin t | PArr t _ | PManually t | PUninit t | PNot t => is_copy t
  | PCell _ => false
  | PStruct _ _ _ _ c fs | PUnion _ _ _ c fs => c && forallb (fun f => is_copy (snd f)) fs
  end.
(** The type is [IStable] (stable_impls/mod.rs:925-985: arrays to 128 elements; the other types if what is in them is). *)
Fixpoint stable (t : pty) : bool :=
  match t with
  | PPrim _ => true
  | PPtr _ t | PPin t | PManually t | PUninit t | PCell t | PNot t => stable t
  | PArr t n => Nat.leb n 128 && stable t
  | PStruct _ _ _ _ _ fs | PUnion _ _ _ _ fs => forallb (fun f => stable (snd f)) fs
  end.
(** istable.rs:101-105: [impl<T: IStable<ContainsIndirections = B0> + Copy> IPod for T]. *)
Definition is_pod (t : pty) : bool := stable t && negb (indirect t) && is_copy t.

(** The report (as [dty_report]; istable.rs:130 for [NotPod], its module by name). *)
Fixpoint pod_report (a128 : nat) (t : pty) : report :=
  match t with
  | PPrim p => Rep (prim_name a128 p) impls 0 KStruct []
  | PPtr k t => inner_report (ptr_name k) (pod_report a128 t)
  | PPin t => inner_report (lit "core::pin::Pin") (pod_report a128 t)
  | PArr t n => inner_report (array_name n) (pod_report a128 t)
  | PManually t | PUninit t | PCell t => Rep (report_name (pod_report a128 t)) impls 0 KStruct []
  | PNot t => Rep (lit "NotPod") (lit "stabby_abi::istable") 0 KStruct [(lit "inner", pod_report a128 t)]
  | PStruct n m v _ _ fs => macro_report n m v KStruct (map (fun f => (fst f, pod_report a128 (snd f))) fs)
  | PUnion n m v _ fs => macro_report n m v KUnion (map (fun f => (fst f, pod_report a128 (snd f))) fs)
  end.

(** Machines, with the compiler used for them (report.rs:153-163). *)
Record machine := Machine { m_target : target; m_u128 : nat; m_big : bool }.
(** report.rs:153-163 [ARCH_INFO]: [usize] and references have the size and alignment of pointers. *)
Definition arch (m : machine) : list N :=
  let p := N.of_nat (t_ptr (m_target m)) in
  arch_info p p p p (N.of_nat (m_u128 m)) (if m_big m then 1%N else 0%N).
(** istable.rs:97-105 [IPod::identifier]. *)
Definition identifier (sha : list N -> list N) (m : machine) (t : pty) : N := gen_id sha (arch m) (pod_report (m_u128 m) t).

(** What a machine makes of the bytes of an object (istable.rs:92-95). *)
Definition read (m : machine) (t : pty) (s : list N) : option val := decode (pod_ty (m_target m) (m_u128 m) t) s.

(** A byte of an object in memory, [None] if it is not initialised (istable.rs:92-95). *)
Definition memory := list (option N).
(** [core::slice::from_raw_parts(&self as *const Self as *const u8, size_of::<Self>())] (istable.rs:95); [None]: some byte is not initialised, reading it is undefined. *)
Fixpoint as_slice (mem : memory) : option (list N) :=
  match mem with
  | [] => Some []
  | Some b :: r => match as_slice r with Some l => Some (b :: l) | None => None end
  | None :: _ => None
  end.
(** What comes of it: one of the types is no [IPod], the identifier is not the expected one, a value, or there is no telling (istable.rs:92-105). *)
Inductive outcome := NotCompiled | Refused | Received (v : val) | Undefined.
(** A value is sent, with the identifier of its type, and read as a type with that identifier (istable.rs:92-105). *)
Definition transfer (sha : list N -> list N) (m : machine) (t : pty) (mem : memory) (m' : machine) (t' : pty) : outcome :=
  if is_pod t && is_pod t' then
    match as_slice mem with
    | None => Undefined
    | Some s => if N.eqb (identifier sha m t) (identifier sha m' t') then
                  match read m' t' s with Some v => Received v | None => Undefined end
                else Refused
    end
  else NotCompiled.
