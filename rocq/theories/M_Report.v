(** Model of stabby-abi/src/report.rs (layout reports and type identifiers).
    Strings are lists of bytes.  Reports are finite trees: they are constants, a cycle
    would be a cycle in constant evaluation. *)
From Coq Require Import List Arith NArith Bool.
Import ListNotations.

(** report.rs:80-91 [TyTy]. *)
Inductive tyty := KStruct | KEnum (repr : list N) | KUnion.
(** report.rs:21-35,93-104 [TypeReport], [FieldReport]: the linked list of fields is a list. *)
Inductive report := Rep (name module : list N) (version : N) (kind : tyty)
                        (fields : list (list N * report)).

(** Equality of strings (report.rs:66,75). *)
Fixpoint bytes_eqb (a b : list N) : bool :=
  match a, b with
  | [], [] => true
  | x :: a', y :: b' => N.eqb x y && bytes_eqb a' b'
  | _, _ => false
  end.
(** report.rs:82 [#[derive(PartialEq)]] of [TyTy]. *)
Definition tyty_eqb (a b : tyty) : bool :=
  match a, b with
  | KStruct, KStruct | KUnion, KUnion => true
  | KEnum s, KEnum t => bytes_eqb s t
  | _, _ => false
  end.
(** report.rs:65-77 [is_compatible]; [zip] (report.rs:72-73) stops with the shorter list. *)
Fixpoint is_compatible (a b : report) : bool :=
  match a, b with
  | Rep n m v k fs, Rep n' m' v' k' fs' =>
      bytes_eqb n n' && bytes_eqb m m' && N.eqb v v' && tyty_eqb k k' &&
      (fix go (l : list (list N * report)) (l' : list (list N * report)) : bool :=
         match l, l' with
         | (fn, r) :: t, (fn', r') :: t' => bytes_eqb fn fn' && is_compatible r r' && go t t'
         | _, _ => true
         end) fs fs'
  end.

(** report.rs:141-145. *)
Definition tyty_bytes (k : tyty) : list N :=
  match k with KStruct => [0%N] | KUnion => [1%N] | KEnum s => s end.
(** report.rs:137-152 [hash_report]: the bytes fed to the hash, in order ([update] appends). *)
Fixpoint hash_report (h : list N) (r : report) : list N :=
  match r with
  | Rep n m _ k fs =>
      (fix go (h : list N) (l : list (list N * report)) : list N :=
         match l with
         | [] => h
         | (fn, r') :: t => go (hash_report (h ++ fn) r') t
         end) (h ++ m ++ n ++ tyty_bytes k) fs
  end.
(** core [u64::from_le_bytes] (report.rs:172). *)
Fixpoint from_le_bytes (bs : list N) : N :=
  match bs with [] => 0%N | b :: r => (b + 256 * from_le_bytes r)%N end.
(** report.rs:153-163 [ARCH_INFO] for the given properties of the target. *)
Definition arch_info (size_usize align_usize size_ref align_ref align_u128 big_endian : N) : list N :=
  [0%N; size_usize; align_usize; size_ref; align_ref; align_u128; big_endian; 0%N].
(** report.rs:169-173 [gen_id]; [sha] is SHA-256, an arbitrary function here. *)
Definition gen_id (sha : list N -> list N) (arch : list N) (r : report) : N :=
  N.lxor (from_le_bytes (firstn 8 (sha (hash_report [] r)))) (from_le_bytes arch).

(** stabby-macros/src/lib.rs:423-445: the generated list of fields starts with the last
    declared one. *)
Definition macro_report (name module : list N) (version : N) (kind : tyty)
    (declared : list (list N * report)) : report :=
  Rep name module version kind (rev declared).

(** functions.rs:325-330: the exported [_stabbied_v3] function: [f] is only given
    if the reports are compatible; stabby/src/libloading.rs:74-99 [get_stabbied]. *)
Definition stabbied {F} (own : report) (f : F) (asked : report) : option F :=
  if is_compatible own asked then Some f else None.
