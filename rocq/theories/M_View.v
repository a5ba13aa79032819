(** Model of stabby-abi/src/slice.rs and str.rs: views of memory, their conversions and borrows.
    Memory is a list of elements (of type T, or bytes) by address; a program holds a stack of views, each borrowed from the one below.  [None] is undefined behaviour:
    an access out of memory, or a [str] that is not UTF-8.
    Not modelled: formatting; [Eq]/[Hash] (slice.rs:81-112, 140-172: those of the slices); lifetimes are the stack discipline (variance is C55's). *)
From Coq Require Import NArith List Bool Arith.
From Verif Require Import M_String.
Import ListNotations.
Local Open Scope nat_scope.

(** slice.rs:22-29, 117-124 (also str.rs:24-26, 84-86: one such field): address and length; core's references to slices are the same. *)
Record fat := Fat { start : nat; len : nat }.
(** Kinds of views: of text or not, mutable or not; core's (&[T], &mut [T], &str, &mut str) or stabby's (slice.rs:22, 117; str.rs:24, 84). *)
Record kind := Kind { txt : bool; mut : bool; ours : bool }.

(** core's [from_raw_parts], called at slice.rs:52, 72, 78, 132, 137, 193, 199; its precondition is that the memory is there. *)
Definition read (m : list N) (r : fat) : option (list N) :=
  if start r + len r <=? length m then Some (firstn (len r) (skipn (start r) m)) else None.
(** core's [from_utf8_unchecked], called at str.rs:37, 96, 102, 122, 129; the precondition of [str] is that it is UTF-8. *)
Definition read_as (t : bool) (m : list N) (r : fat) : option (list N) :=
  match read m r with
  | Some l => if t then if from_utf8 l then Some l else None else Some l
  | None => None
  end.

(** slice.rs:43-49 [Slice::new], and 55-59. *)
Definition slice_new (r : fat) : fat := Fat (start r) (len r).
(** slice.rs:60-68. *)
Definition slice_of_mut (r : fat) : fat := Fat (start r) (len r).
(** slice.rs:51-53, 70-74, 75-80: what [as_slice], [into] and [deref] give to [from_raw_parts]. *)
Definition of_slice (s : fat) : fat := Fat (start s) (len s).
(** slice.rs:173-181. *)
Definition slice_mut_new (r : fat) : fat := Fat (start r) (len r).
(** slice.rs:182-190. *)
Definition slice_of_slice_mut (s : fat) : fat := Fat (start s) (len s).
(** slice.rs:191-201, 129-139: [into] both kinds of references, [deref], [deref_mut]. *)
Definition of_slice_mut (s : fat) : fat := Fat (start s) (len s).
(** str.rs:28-33, 40-44; 45-49 is the same after a reborrow. *)
Definition str_new (r : fat) : fat := slice_new r.
(** str.rs:34-38, 50-54, 60-65. *)
Definition of_str (s : fat) : fat := of_slice s.
(** str.rs:105-111. *)
Definition str_mut_new (r : fat) : fat := slice_mut_new r.
(** str.rs:112-118. *)
Definition str_of_str_mut (s : fat) : fat := slice_of_slice_mut s.
(** str.rs:119-131, 92-104. *)
Definition of_str_mut (s : fat) : fat := of_slice_mut s.

(** The conversions that take a view by value: slice.rs:55-74, 173-201; str.rs:40-54, 105-131; and core's, from & mut to &.  [None]: there is none. *)
Definition convert (k k' : kind) : option (fat -> fat) :=
  match k, k' with
  | Kind false false false, Kind false false true => Some slice_new
  | Kind false true false, Kind false false true => Some slice_of_mut
  | Kind false false true, Kind false false false => Some of_slice
  | Kind false true false, Kind false true true => Some slice_mut_new
  | Kind false true true, Kind false false true => Some slice_of_slice_mut
  | Kind false true true, Kind false _ false => Some of_slice_mut
  | Kind true _ false, Kind true false true => Some str_new
  | Kind true false true, Kind true false false => Some of_str
  | Kind true true false, Kind true true true => Some str_mut_new
  | Kind true true true, Kind true false true => Some str_of_str_mut
  | Kind true true true, Kind true _ false => Some of_str_mut
  | Kind _ true false, Kind _ false false => if eqb (txt k) (txt k') then Some (fun r => r) else None
  | _, _ => None
  end.
(** [deref] and [deref_mut] (slice.rs:75-80, 129-139; str.rs:60-65, 92-104), or a reborrow of core's: a reference of core's, mutable or not, borrowed from the view. *)
Definition borrow (k : kind) (m : bool) : option (fat -> fat) :=
  if ours k then convert k (Kind (txt k) m false) else if m && negb (mut k) then None else Some (fun r => r).

(** What programs do with the top of the stack: conversions and borrows of slice.rs and str.rs, and what core's references can do. *)
Inductive act :=
| Conv (k : kind)                (* slice.rs:55-74, 173-201; str.rs:40-54, 105-131 *)
| Borrow (m : bool)              (* slice.rs:75-80, 129-139; str.rs:60-65, 92-104 *)
| End                            (* the borrow ends *)
| Sub (i n : nat)                (* core: [&v[i..i + n]], [&mut v[i..i + n]] *)
| Bytes                          (* core: [as_bytes] *)
| Utf8                           (* core: [from_utf8], [from_utf8_mut] *)
| Write (i : nat) (x : N)        (* core: [v[i] = x] *)
| Case (up : bool)               (* core: [make_ascii_uppercase], [make_ascii_lowercase] *)
| Read                           (* core: iteration *)
| Count.                         (* core: [len]; also the field of slice.rs:26, 121 *)
(** What the program sees of slice.rs:20-201 and str.rs:22-131: nothing, the elements, a length, a panic, an error; [Illegal]: it does not compile. *)
Inductive seen := Nothing | Elements (l : list N) | Length (n : nat) | Panicked | Failed | Illegal.

(** core's [is_char_boundary]: the end, or a byte that is not 0b10xxxxxx (used by the indexing of the [str] of str.rs:36-38). *)
Definition boundary (l : list N) (i : nat) : bool :=
  match nth_error l i with Some b => negb (within 128 191 b) | None => i =? length l end.
(** Writes to memory, through [from_raw_parts_mut] (slice.rs:137, 193). *)
Definition write (m : list N) (a : nat) (l : list N) : option (list N) :=
  if a + length l <=? length m then Some (firstn a m ++ l ++ skipn (a + length l) m) else None.

(** One action, on the views of slice.rs:20-201 and str.rs:22-131; the program goes on with the same views if it would not compile, or panics. *)
Definition act_step (m : list N) (st : list (kind * fat)) (a : act) : option (list N * list (kind * fat) * seen) :=
  match st with
  | [] => Some (m, st, Illegal)
  | (k, r) :: rest =>
      let no s := Some (m, st, s) in
      match a with
      | Conv k' => match convert k k' with Some f => Some (m, (k', f r) :: rest, Nothing) | None => no Illegal end
      | Borrow mu => match borrow k mu with Some f => Some (m, (Kind (txt k) mu false, f r) :: st, Nothing) | None => no Illegal end
      | End => match rest with [] => no Illegal | _ => Some (m, rest, Nothing) end
      | Count => Some (m, st, Length (len r))
      | _ =>
          if ours k then no Illegal else
          match read_as (txt k) m r with
          | None => None
          | Some l =>
              match a with
              | Sub i n =>
                  if (i + n <=? len r) && (negb (txt k) || (boundary l i && boundary l (i + n)))
                  then Some (m, (k, Fat (start r + i) n) :: rest, Nothing) else no Panicked
              | Bytes => if txt k && negb (mut k) then Some (m, (Kind false false false, r) :: rest, Nothing) else no Illegal
              | Utf8 => if txt k then no Illegal else if from_utf8 l then Some (m, (Kind true (mut k) false, r) :: rest, Nothing) else no Failed
              | Write i x =>
                  if txt k || negb (mut k) then no Illegal else
                  if i <? len r then match write m (start r + i) [x] with Some m' => Some (m', st, Nothing) | None => None end else no Panicked
              | Case up =>
                  if txt k && mut k then match write m (start r) (map (ascii_case up) l) with Some m' => Some (m', st, Nothing) | None => None end
                  else no Illegal
              | _ => Some (m, st, Elements l)
              end
          end
      end
  end.
(** Programs: sequences of actions on the views of slice.rs:20-201 and str.rs:22-131. *)
Fixpoint act_run (m : list N) (st : list (kind * fat)) (acts : list act) : option (list N * list (kind * fat) * list seen) :=
  match acts with
  | [] => Some (m, st, [])
  | a :: acts =>
      match act_step m st a with
      | Some (m1, st1, s) => match act_run m1 st1 acts with Some (m2, st2, l) => Some (m2, st2, s :: l) | None => None end
      | None => None
      end
  end.

(** slice.rs:24-28: the fields are public, so that safe code can also write [Slice { start, len, marker }]. *)
Definition forge (s n : nat) (st : list (kind * fat)) : list (kind * fat) := (Kind false false true, Fat s n) :: st.
