(** What the checks of layouts are for (C104). *)
From Coq Require Import List NArith Bool.
From Verif Require Import M_Layout M_Decl M_Check.
Import ListNotations.
Local Open Scope N_scope.
Local Open Scope list_scope.

(** stabby and the compiler agree. *)
Definition agree (m : machine) (p : prim) : Prop := stabby_size m p = c_size m p /\ stabby_align m p = c_align m p.
(** What the documentation of Rust says: signed integers have the layout of unsigned ones, NonZero integers that of integers. *)
Definition twin (p : prim) : option prim :=
  match p with
  | PI8 => Some PU8 | PI16 => Some PU16 | PI32 => Some PU32 | PI64 => Some PU64 | PI128 => Some PU128 | PIsize => Some PUsize
  | PNzU8 => Some PU8 | PNzU16 => Some PU16 | PNzU32 => Some PU32 | PNzU64 => Some PU64 | PNzU128 => Some PU128 | PNzUsize => Some PUsize
  | PNzI8 => Some PU8 | PNzI16 => Some PU16 | PNzI32 => Some PU32 | PNzI64 => Some PU64 | PNzI128 => Some PU128 | PNzIsize => Some PUsize
  | _ => None
  end.
Definition documented (m : machine) : Prop :=
  forall p q, twin p = Some q -> c_size m p = c_size m q /\ c_align m p = c_align m q.
Definition integer (p : prim) : bool :=
  match p with PUnit | PPhantom | PPinned | PVoid | POrdering | PF32 | PF64 => false | _ => true end.
(** What is said of niches: none, one, several. *)
Definition niches_agree (c : sadd) (size opt oopt : N) : Prop :=
  match c with A0 => opt <> size | A1 => opt = size /\ oopt <> size | AMany => True end.
(** Numbers in decimal, of some length. *)
Fixpoint value (t : list N) (acc : N) : N := match t with [] => acc | c :: r => value r (10 * acc + (c - 48)) end.
Definition decimal (t : list N) (n : N) : Prop := Forall (fun c => 48 <= c <= 57) t /\ value t 0 = n.
(** A text in another. *)
Definition contains (t s : list N) : Prop := exists a b, t = a ++ s ++ b.
(** Sizes of the checked types, in bytes, as documented for Rust; [ptr] is that of usize. *)
Definition bytes_of (ptr : N) (p : prim) : N :=
  match p with
  | PU16 | PAI16 | PAU16 => 2 | PU32 | PAI32 | PAU32 => 4 | PU64 | PAI64 | PAU64 => 8 | PU128 => 16
  | PUsize | PNzUsize | PAIsize | PAUsize => ptr
  | _ => 1
  end.
(** A compiler as documented: pointers of 2, 4 or 8 bytes; sizes as documented; integers up to u32 have the alignment of their size, larger
    ones a power of two up to 16, and usize, NonZeroUsize and the atomics that of the integer of their size; [Option]s grow, but for
    [NonZero] integers, for which only the second one does, and bool. *)
Record sane (m : machine) : Prop := {
  sane_ptr : In (c_size m PUsize) [2; 4; 8];
  sane_size : forall p, In p checked -> c_size m p = bytes_of (c_size m PUsize) p;
  sane_small : forall p, In p [PBool; PABool; PU8; PAI8; PAU8; PU16; PAI16; PAU16; PU32; PAI32; PAU32] -> c_align m p = bytes_of 0 p;
  sane_large : forall p, In p [PU64; PU128; PAI64] -> In (c_align m p) [1; 2; 4; 8; 16];
  sane_au64 : c_align m PAU64 = c_align m PAI64;
  sane_nz64 : c_align m PNzU64 = c_align m PU64;
  sane_usize : c_align m PUsize = if c_size m PUsize =? 8 then c_align m PU64 else c_size m PUsize;
  sane_as_usize : forall p, In p [PNzUsize; PAIsize; PAUsize] -> c_align m p = c_align m PUsize;
  sane_opt : forall p, In p checked -> ~ In p [PBool; PABool; PNzUsize] -> c_opt m p <> c_size m p;
  sane_nz : c_opt m PNzUsize = c_size m PNzUsize /\ c_oopt m PNzUsize <> c_size m PNzUsize
}.
(** [Option]s as documented: [NonZero] integers have exactly one niche, other integers and atomics none, bool several. *)
Definition non_zero : list prim :=
  [PNzU8; PNzU16; PNzU32; PNzU64; PNzU128; PNzUsize; PNzI8; PNzI16; PNzI32; PNzI64; PNzI128; PNzIsize].
Definition documented_options (m : machine) : Prop :=
  (forall p, In p non_zero -> c_opt m p = c_size m p /\ c_oopt m p <> c_size m p) /\
  (forall p, integer p = true -> ~ In p (PBool :: non_zero) -> c_opt m p <> c_size m p) /\
  c_opt m PBool = c_size m PBool /\ c_oopt m PBool = c_size m PBool.
