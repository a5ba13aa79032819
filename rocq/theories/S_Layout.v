(** Vocabulary used to state the layout properties.  Nothing here depends on
    how stabby computes layouts, except [types_ok], which delimits the types the
    theorems are about. *)
From Coq Require Import List Arith NArith Bool.
From Verif Require Import M_Layout.
Import ListNotations.

(** Bit [i] of byte [o] is advertised as unused by the mask [m]. *)
Definition bit_unused (m : mask) (o : nat) (i : N) : Prop :=
  exists v, In (o, v) m /\ N.testbit v i = true.

(** [s] and [s'] have the same length and only differ in bits advertised by [m]. *)
Definition agree_outside (m : mask) (s s' : list N) : Prop :=
  length s = length s' /\
  forall o b b' i, nth_error s o = Some b -> nth_error s' o = Some b' ->
    N.testbit b i = N.testbit b' i \/ bit_unused m o i.

(** The bytes [s] match one of the patterns advertised as forbidden.  A pattern
    is a chain of (offset, byte) pairs that must all match, or a range for one byte. *)
Fixpoint forbids (f : fv) (s : list N) : Prop :=
  match f with
  | FEnd => False
  | FArr o v r => nth_error s o = Some v /\ (r = FEnd \/ forbids r s)
  | FOr a b => forbids a s \/ forbids b s
  | FRange lo hi o => exists b, nth_error s o = Some b /\ (lo <= b /\ b <= hi)%N
  end.

(** Byte [o] takes part in a forbidden pattern. *)
Fixpoint fv_at (f : fv) (o : nat) : Prop :=
  match f with
  | FEnd => False
  | FArr o' _ r => o' = o \/ fv_at r o
  | FOr a b => fv_at a o \/ fv_at b o
  | FRange _ _ o' => o' = o
  end.

Definition is_bytes (s : list N) : Prop := Forall (fun b => (b < 256)%N) s.

(** The alignments stabby supports. *)
Definition align_ok (a : nat) : bool := existsb (Nat.eqb a) [1; 2; 4; 8; 16].

(** Grammar of the types the theorems range over: field lists only under structs,
    Rust's guarantee that the size of a type is a multiple of its alignment for
    primitives, no [MaybeUninit]-like wrapper.  [res_ok] is an additional condition
    on the payloads of each [Result]. *)
Fixpoint types_ok (res_ok : desc -> desc -> bool) (full : bool) (t : ty) : bool :=
  match t with
  | TUnit | TBool | TOrdering | TPadByte => true
  | TPlain s a => align_ok a && Nat.eqb (s mod a) 0
  | TRawPtr w | TRef w => align_ok w
  | TNonZero w a => align_ok a && Nat.eqb (w mod a) 0 && Nat.ltb 0 w
  | TFP a b => negb full && types_ok res_ok false a && types_ok res_ok true b
  | TStruct t => types_ok res_ok false t
  | TAligned t al => align_ok al && types_ok res_ok false t
  | TUnion a b => types_ok res_ok true a && types_ok res_ok true b
  | TArr t _ => types_ok res_ok true t
  | TResult a b =>
      types_ok res_ok true a && types_ok res_ok true b &&
      match layout a, layout b with
      | Some da, Some db => res_ok da db
      | _, _ => false
      end
  | TMaybeUninit _ => false
  end.

(** The payloads of a [Result] are such that the larger size is a multiple of
    the larger alignment. *)
Definition sizes_match (a b : desc) : bool :=
  Nat.eqb (Nat.max (dsize a) (dsize b) mod Nat.max (dalign a) (dalign b)) 0.

(** All types of the grammar, whatever the payloads of [Result]s. *)
Definition grammar (t : ty) : Prop := types_ok (fun _ _ => true) true t = true.
(** Types of the grammar whose [Result]s have matching sizes. *)
Definition wf (t : ty) : Prop := types_ok sizes_match true t = true.

(** ** The C layout *)

(** [x] is the smallest multiple of [a] that is at least [n]. *)
Definition first_multiple (n a x : nat) : Prop :=
  (exists k, x = k * a) /\ n <= x /\ forall k, n <= k * a -> x <= k * a.

(** [c_offsets start fields offsets fin]: fields given as (size, align) placed one after
    the other from [start], each at the first suitable multiple of its alignment. *)
Inductive c_offsets : nat -> list (nat * nat) -> list nat -> nat -> Prop :=
| c_nil start : c_offsets start [] [] start
| c_cons start s a o fs os fin :
    first_multiple start a o ->
    c_offsets (o + s) fs os fin ->
    c_offsets start ((s, a) :: fs) (o :: os) fin.

(** Size and alignment of a C struct: the alignment is the largest of the fields'
    alignments and [minal]; the size is the end of the fields rounded up to it. *)
Definition c_struct (minal : nat) (fs : list (nat * nat)) (os : list nat) (size al : nat) : Prop :=
  al = fold_left Nat.max (map snd fs) minal /\
  exists fin, c_offsets 0 fs os fin /\ first_multiple fin al size.
