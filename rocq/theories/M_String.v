(** Model of stabby-abi/src/alloc/string.rs: [String] and its conversions, over the vectors of M_Vec with elements of 1 byte.
    A [&str] argument is given by its bytes.
    Not modelled: formatting, hashing (string.rs:112-116, that of the bytes), and mutation through [ArcStr::as_str_mut]. *)
From Coq Require Import NArith List Bool.
From Verif Require Import M_Alloc M_Vec M_Arc M_ArcSlice.
Import ListNotations.
Local Open Scope N_scope.

(** [lo <= b <= hi]; for core, below (called at string.rs:79). *)
Definition within (lo hi b : N) : bool := (lo <=? b) && (b <=? hi).
(** [core::str::from_utf8], called at string.rs:79: the checks of core::str::validations, which is not in the repository (core's [run_utf8_validation]):
    widths by the first byte, and the range of the second by the first. *)
Fixpoint from_utf8 (l : list N) : bool :=
  match l with
  | [] => true
  | a :: l =>
      if a <? 128 then from_utf8 l else
      match l with
      | [] => false
      | b :: l =>
          if within 194 223 a then within 128 191 b && from_utf8 l else
          match l with
          | [] => false
          | c :: l =>
              if within 224 239 a then
                within (if a =? 224 then 160 else 128) (if a =? 237 then 159 else 191) b && within 128 191 c && from_utf8 l
              else
              match l with
              | [] => false
              | d :: l =>
                  within 240 244 a && within (if a =? 240 then 144 else 128) (if a =? 244 then 143 else 191) b &&
                  within 128 191 c && within 128 191 d && from_utf8 l
              end
          end
      end
  end.

(** What the caller sees of an operation: it succeeded, it gave an error, it panicked (string.rs:17-315). *)
Inductive answer := Good | Bad | Panic.
(** Result of the modelled functions of string.rs:17-315: [None] is undefined behaviour. *)
Definition result := option (vec N * answer).
(** Result of an operation of M_Vec (vec.rs:289-312) on [inner], string.rs:14. *)
Definition of_out (good : bool) (o : out N) : result :=
  match o with
  | Done v _ _ => Some (v, if good then Good else Bad)
  | Panicked v _ _ => Some (v, Panic)
  | UB => None
  end.

(** string.rs:64-68 [add_assign]. *)
Definition add_assign (ok : N -> bool) (t : list N) (s : vec N) : result := of_out true (v_copy_extend 1 ok t s).
(** string.rs:57-63 [add]: if it panics the string, owned by [add], is dropped; the caller goes on with a new one. *)
Definition add (ok : N -> bool) (t : list N) (s : vec N) : result :=
  match add_assign ok t s with Some (_, Panic) => Some (v_new, Panic) | r => r end.
(** string.rs:41-49 [try_concat], and 349-353 [write_str]. *)
Definition try_concat (ok : N -> bool) (t : list N) (s : vec N) : result :=
  let (g, o) := v_try_copy_extend 1 ok t s in of_out g o.
(** string.rs:134-144 [From<&str>], [From<Str>] (also 358-362, and deserialisation): the result replaces [s], unless it panics. *)
Definition from_str (ok : N -> bool) (t : list N) (s : vec N) : result :=
  match add ok t v_new with Some (_, Panic) => Some (s, Panic) | r => r end.
(** string.rs:11 derived [Clone]: the clone replaces [s], unless it panics. *)
Definition clone (ok : N -> bool) (s : vec N) : result :=
  match of_out true (v_clone 1 ok (fun b => b) s) with Some (_, Panic) => Some (s, Panic) | r => r end.
(** core's [u8::make_ascii_uppercase] and [make_ascii_lowercase], that safe code can call on the [&mut str] of string.rs:37-40. *)
Definition ascii_case (upper : bool) (b : N) : N :=
  if upper then (if within 97 122 b then b - 32 else b) else (if within 65 90 b then b + 32 else b).
(** string.rs:37-40 [as_str_mut], and one of them on all bytes. *)
Definition make_case (upper : bool) (s : vec N) : result :=
  match v_as_slice s with
  | Some l => match set_slots 0 (map (ascii_case upper) l) (slots s) with
              | Some m => Some (Vec m (vlen s) (vcap s), Good)
              | None => None
              end
  | None => None
  end.
(** string.rs:76-82 [TryFrom<Vec>]: if it fails the vector is dropped; the caller goes on with a new string. *)
Definition try_from_vec (v : vec N) : result :=
  match v_as_slice v with
  | Some l => if from_utf8 l then Some (v, Good) else Some (v_new, Bad)
  | None => None
  end.
(** string.rs:302-315: to [BoxedStr] and back.  A vector of capacity 0 is one without memory. *)
Definition boxed (s : vec N) : result :=
  match vec_of_bs (bs_of_vec s) with
  | Some v => Some (if vcap v =? 0 then v_new else v, Good)
  | None => None
  end.
(** string.rs:195-210, 245-272: to [ArcStr], any use of it and of its [WeakStr] by one thread (M_ArcSlice; [None] is [force_upgrade]), and, if a conversion to
    [String] succeeded, that string; else the caller goes on with a new one. *)
Definition shared_str (zst : bool) (ops : list (option op)) (s : vec N) : result :=
  let a := fold_left copy_slice_op ops (slice_of_vec zst s) in
  if a_bad a then None else
  match a_vec a with Some v => Some (v, Good) | None => Some (v_new, Bad) end.

(** string.rs:117-133 [eq] and [cmp]: those of [str], which are those of the bytes (core): lexicographic. *)
Fixpoint cmp (l m : list N) : comparison :=
  match l, m with
  | [], [] => Eq
  | [], _ => Lt
  | _, [] => Gt
  | a :: l, b :: m => match a ?= b with Eq => cmp l m | c => c end
  end.
(** string.rs:130-132 [cmp]; [None]: the strings cannot be read. *)
Definition str_cmp (s t : vec N) : option comparison :=
  match v_as_slice s, v_as_slice t with Some l, Some m => Some (cmp l m) | _, _ => None end.
(** string.rs:118-120 [eq]. *)
Definition str_eq (s t : vec N) : option bool :=
  option_map (fun c => match c with Eq => true | _ => false end) (str_cmp s t).
