(** Model of [StableLike] and [NoNiches] (stabby-abi/src/lib.rs:164-306): a type that is laid out as [T] and described as [As]. *)
From Coq Require Import List Arith NArith Bool.
From Verif Require Import M_Layout M_Result.
Import ListNotations.

(** Types that contain [StableLike]s at any depth (lib.rs:170-174); [LOf t]: a type without; [LPair] is the helper
    [FieldPair] of the macros (istable.rs:385-403), only below [LStruct] or on the left of another [LPair]. *)
Inductive lty :=
| LOf (t : ty)
| LLike (t a : ty)
| LPair (a b : lty)
| LStruct (t : lty)
| LArr (t : lty) (n : nat)
| LResult (ok err : lty).

(** lib.rs:262-273 [IStable for StableLike<T, As>]: what stabby computes layouts with. *)
Fixpoint claimed (l : lty) : ty :=
  match l with
  | LOf t => t
  | LLike _ a => a
  | LPair a b => TFP (claimed a) (claimed b)
  | LStruct t => TStruct (claimed t)
  | LArr t n => TArr (claimed t) n
  | LResult a b => TResult (claimed a) (claimed b)
  end.
(** lib.rs:279-306 [NoNiches<Size, Align>], the niche count and the presence of indirections left out. *)
Definition no_niches (s a : nat) : ty := TPlain s a.

(** [size_of], [align_of] of a type without [StableLike] (called at lib.rs:202, 207), which are those stabby computes (C02, [P_Layout]). *)
Definition size_align (t : ty) : option (nat * nat) := option_map (fun d => (dsize d, dalign d)) (layout t).
(** lib.rs:200-214 [CHECK]: whether [StableLike<T, As>::new] compiles (its [const] panics otherwise). *)
Definition like_check (t a : ty) : bool :=
  match size_align t, size_align a with
  | Some (s, al), Some (s', al') => Nat.eqb s s' && Nat.eqb al al'
  | _, _ => false
  end.
(** lib.rs:222-228 [new]; lib.rs:236-241 [as_ref], 254-259 [into_inner]: the value is kept as it is. [None]: does not compile. *)
Definition like_new (t a : ty) (v : list N) : option (list N) := if like_check t a then Some v else None.
(** lib.rs:254-259 [into_inner]. *)
Definition like_into_inner (s : list N) : list N := s.

(** Layouts of the payloads of a [Result] and how it tells them apart (result.rs:45-81): all from the claimed types. *)
Definition parts (a b : lty) : option (desc * desc * fprovider) :=
  match layout (claimed a), layout (claimed b) with
  | Some da, Some db => match provider_of da db with Some p => Some (da, db, p) | None => None end
  | _, _ => None
  end.
(** result.rs:240-250 [Ok]. *)
Definition like_ok (a b : lty) (v : list N) : option (list N) :=
  match parts a b with Some (da, db, p) => mk_ok da db p v | None => None end.
(** result.rs:253-263 [Err]. *)
Definition like_err (a b : lty) (v : list N) : option (list N) :=
  match parts a b with Some (da, db, p) => mk_err da db p v | None => None end.
(** result.rs:272-282,347-363 [match_ref], [match_owned]. *)
Definition like_match (a b : lty) (s : list N) : option (list N + list N) :=
  match parts a b with Some (da, db, p) => match_result da db p s | None => None end.
(** result.rs:483-519 writing through [OkGuard]. *)
Definition like_set_ok (a b : lty) (s v : list N) : option (list N) :=
  match parts a b with Some (da, db, p) => ok_guard_write da db p s v | None => None end.
(** result.rs:525-562 writing through [ErrGuard]. *)
Definition like_set_err (a b : lty) (s v : list N) : option (list N) :=
  match parts a b with Some (da, db, p) => err_guard_write da db p s v | None => None end.

(** Size in bytes that the claims give to a type (lib.rs:263). *)
Definition csize (l : lty) : option nat := option_map dsize (layout (claimed l)).
(** The right length, and bytes (as in [decode], [M_Result]); claims are those of lib.rs:262-273. *)
Definition lguard (l : lty) (s : list N) : bool :=
  match csize l with Some n => Nat.eqb (length s) n && forallb (fun b => N.ltb b 256) s | None => false end.
(** The value held by the bytes of a type with [StableLike]s: those hold values of [T] (lib.rs:172), made by [new], which compiled.
    The rest is as [decode] has it. *)
Fixpoint ldecode (l : lty) (s : list N) : option val :=
  if negb (lguard l s) then None else
  match l with
  | LOf t => decode t s
  | LLike t a => match like_new t a s with Some v => decode t (like_into_inner v) | None => None end
  | LPair a b =>
      match layout (claimed a), layout (claimed b) with
      | Some da, Some db =>
          match ldecode a (firstn (dsize da) s), ldecode b (skipn (nmo (dsize da) (dalign db)) s) with
          | Some va, Some vb => Some (VPair va vb)
          | _, _ => None
          end
      | _, _ => None
      end
  | LStruct t =>
      match layout (claimed t) with Some d => ldecode t (firstn (dsize d) s) | None => None end
  | LArr t n =>
      match layout (claimed t) with Some d => option_map VArr (read_elems (ldecode t) (dsize d) n s) | None => None end
  | LResult a b =>
      match like_match a b s with
      | Some (inl x) => option_map VOk (ldecode a x)
      | Some (inr x) => option_map VErr (ldecode b x)
      | None => None
      end
  end.

(** [size_of] and [align_of] of the type rustc sees: [repr(C)] structs (structs.rs, the attribute; [StableLike] lib.rs:168), arrays, and the storage of
    [Result]s, which is made to the claims (result.rs:82-89, lib.rs:170-174). *)
Fixpoint rust_size_align (l : lty) : option (nat * nat) :=
  match l with
  | LOf t => size_align t
  | LLike t _ => size_align t
  | LPair a b =>
      match rust_size_align a, rust_size_align b with
      | Some (s, al), Some (s', al') => Some (nmo s al' + s', Nat.max al al')
      | _, _ => None
      end
  | LStruct t => option_map (fun x => (nmo (fst x) (snd x), snd x)) (rust_size_align t)
  | LArr t n => option_map (fun x => (fst x * n, snd x)) (rust_size_align t)
  | LResult a b => size_align (TResult (claimed a) (claimed b))
  end.
(** Every [StableLike] within passed its check (lib.rs:200-214). *)
Fixpoint checked (l : lty) : bool :=
  match l with
  | LOf _ => true
  | LLike t a => like_check t a
  | LPair a b | LResult a b => checked a && checked b
  | LStruct t | LArr t _ => checked t
  end.

(** lib.rs:268 [ContainsIndirections]; istable.rs:97: a [Copy] type is [IPod] if it is not set ([T: Copy] makes [StableLike] so, lib.rs:193). *)
Definition like_pod (l : lty) (copy : bool) : bool :=
  match layout (claimed l) with Some d => copy && negb (dind d) | None => false end.
(** vtable/mod.rs:348-353 [VtDrop], of a target with 8-byte pointers: a struct of one field, a function pointer described as a [NonZeroUsize]; it is [Copy]. *)
Definition vt_drop : lty := LStruct (LLike (TRef 8) (TNonZero 8 8)).
