(** Model of the run-time part of stabby's [Result] (stabby-abi/src/result.rs,
    stabby-abi/src/enums/mod.rs): construction, inspection, guards.
    Memory is a list of bytes; every access is checked, [None] is an access
    outside the object. *)
From Coq Require Import List Arith NArith Bool.
From Verif Require Import M_Layout.
Import ListNotations.

(** A byte store through a [*mut u8] ([*ptr.add(o) = b], e.g. enums/mod.rs:129). *)
Fixpoint store (s : list N) (o : nat) (b : N) : option (list N) :=
  match s, o with
  | [], _ => None
  | _ :: r, O => Some (b :: r)
  | x :: r, S o' => option_map (cons x) (store r o' b)
  end.
(** A typed write of a value whose bytes are [p] ([ptr.write(value)], result.rs:244,245). *)
Fixpoint blit (s : list N) (o : nat) (p : list N) : option (list N) :=
  match p with
  | [] => Some s
  | b :: p' => match store s o b with Some s' => blit s' (S o) p' | None => None end
  end.
(** A typed read of [n] bytes at [o] ([&*ptr], [ptr::read], result.rs:355,464). *)
Definition slice (s : list N) (o n : nat) : option (list N) :=
  if Nat.leb (o + n) (length s) then Some (firstn n (skipn o s)) else None.

(** enums/mod.rs:65-67,77-79,124-126,162-169,204-206 [IDeterminant::ok]:
    the modified union and the bytes of the determinant object. *)
Fixpoint det_ok (d : det) (s : list N) : option (list N * list N) :=
  match d with
  | DBit => Some (s, [0%N])
  | DEnd => Some (s, [])
  | DVal _ _ t => det_ok t s
  | DBitErr o m =>
      match (if N.eqb m 1 then store s o 0 else Some s) with
      | Some s1 =>
          match nth_error s1 o with
          | Some b => option_map (fun s2 => (s2, [])) (store s1 o (N.land b (N.lxor 255 m)))
          | None => None
          end
      | None => None
      end
  | DNot d => det_err d s
  end
(** enums/mod.rs:68-70,80-82,127-131,170-177,207-209 [IDeterminant::err]. *)
with det_err (d : det) (s : list N) : option (list N * list N) :=
  match d with
  | DBit => Some (s, [1%N])
  | DEnd => Some (s, [])
  | DVal o v t => match store s o v with Some s' => det_err t s' | None => None end
  | DBitErr o m =>
      match (if N.eqb m 1 then store s o 0 else Some s) with
      | Some s1 =>
          match nth_error s1 o with
          | Some b => option_map (fun s2 => (s2, [])) (store s1 o (N.lor b m))
          | None => None
          end
      | None => None
      end
  | DNot d => det_ok d s
  end.
(** enums/mod.rs:71-73,83-85,132-135,178-181,210-212 [is_det_ok]; the determinant
    object sits at the start of the storage (result.rs:228-232). *)
Fixpoint is_det_ok (d : det) (s : list N) : option bool :=
  match d with
  | DBit => option_map (fun b => N.eqb (N.land b 1) 0) (nth_error s 0)
  | DEnd => Some false
  | DVal o v t =>
      match nth_error s o with
      | Some b => if N.eqb b v then is_det_ok t s else Some true
      | None => None
      end
  | DBitErr o m => option_map (fun b => N.eqb (N.land b m) 0) (nth_error s o)
  | DNot d => option_map negb (is_det_ok d s)
  end.

(** result.rs:201-203 [DET_SIZE]. *)
Definition det_size (ok err : desc) (p : fprovider) : nat :=
  nmo (dsize (det_d (fp_det p))) (Nat.max (dalign ok) (dalign err)).
(** result.rs:204-205 [OK_OFFSET]. *)
Definition ok_offset (ok err : desc) (p : fprovider) : nat :=
  fp_ok_shift p + det_size ok err p.
(** result.rs:206-207 [ERR_OFFSET]. *)
Definition err_offset (ok err : desc) (p : fprovider) : nat :=
  fp_err_shift p + det_size ok err p.
(** result.rs:82-89 [Storage]: an array of [Size / Align] unsigned integers of
    size [Align]. *)
Definition storage_size (ok err : desc) (p : fprovider) : nat :=
  dsize (result_d ok err p) / dalign (result_d ok err p) * dalign (result_d ok err p).

(** result.rs:240-250 [Result::Ok]; [v] are the bytes of the payload. *)
Definition mk_ok (ok err : desc) (p : fprovider) (v : list N) : option (list N) :=
  let zeroed := repeat 0%N (storage_size ok err p) in
  match blit zeroed (ok_offset ok err p) v with
  | Some s =>
      match det_ok (fp_det p) s with
      | Some (s', obj) => blit s' 0 obj
      | None => None
      end
  | None => None
  end.
(** result.rs:253-263 [Result::Err]. *)
Definition mk_err (ok err : desc) (p : fprovider) (v : list N) : option (list N) :=
  let zeroed := repeat 0%N (storage_size ok err p) in
  match blit zeroed (err_offset ok err p) v with
  | Some s =>
      match det_err (fp_det p) s with
      | Some (s', obj) => blit s' 0 obj
      | None => None
      end
  | None => None
  end.
(** result.rs:384-386 [is_ok]. *)
Definition is_ok (p : fprovider) (s : list N) : option bool := is_det_ok (fp_det p) s.
(** result.rs:272-282,347-363 [match_ref]/[match_owned] up to the call of the closure:
    which closure is called and the bytes of its argument. *)
Definition match_result (ok err : desc) (p : fprovider) (s : list N)
  : option (list N + list N) :=
  match is_ok p s with
  | Some true => option_map inl (slice s (ok_offset ok err p) (dsize ok))
  | Some false => option_map inr (slice s (err_offset ok err p) (dsize err))
  | None => None
  end.
(** result.rs:483-519 [OkGuard]: the payload is overwritten through [DerefMut] with
    the bytes [v], then the guard is dropped. *)
Definition ok_guard_write (ok err : desc) (p : fprovider) (s v : list N) : option (list N) :=
  match blit s (ok_offset ok err p) v with
  | Some s' =>
      if is_niche_trick (fp_det p)
      then option_map fst (det_ok (fp_det p) s')
      else Some s'
  | None => None
  end.
(** result.rs:525-562 [ErrGuard]. *)
Definition err_guard_write (ok err : desc) (p : fprovider) (s v : list N) : option (list N) :=
  match blit s (err_offset ok err p) v with
  | Some s' =>
      if is_niche_trick (fp_det p)
      then option_map fst (det_err (fp_det p) s')
      else Some s'
  | None => None
  end.

(** ** Values *)

(** Values of the modelled types, as seen through the API (result.rs:50-81, stable_impls/mod.rs:243-1000). *)
Inductive val :=
| VUnit
| VRaw (bs : list N)
| VBool (b : bool)
| VOrd (c : comparison)
| VPad
| VPair (a b : val)
| VArr (l : list val)
| VOk (v : val)
| VErr (v : val).

(** Reading [n] consecutive elements of [w] bytes (stable_impls/mod.rs:947-985). *)
Fixpoint read_elems (rd : list N -> option val) (w n : nat) (s : list N) : option (list val) :=
  match n with
  | O => Some []
  | S n' =>
      match rd (firstn w s), read_elems rd w n' (skipn w s) with
      | Some v, Some l => Some (v :: l)
      | _, _ => None
      end
  end.

(** The value held by the bytes [s] of an object of type [t]; [None] if the
    bytes are not those of a valid value (Rust reference, "validity"):
    wrong length, a byte above 255, a zero [NonZero]/reference, a [bool] above 1, an
    [Ordering] outside -1..1.  Padding is not read.  A struct's fields are
    at their C offsets; a [Result] is read as result.rs:347-363 does. *)
Fixpoint decode (t : ty) (s : list N) : option val :=
  match layout t with
  | None => None
  | Some d =>
      if negb (Nat.eqb (length s) (dsize d) && forallb (fun b => N.ltb b 256) s)
      then None else
      match t with
      | TUnit => Some VUnit
      | TPlain _ _ | TRawPtr _ | TUnion _ _ | TMaybeUninit _ => Some (VRaw s)
      | TNonZero _ _ | TRef _ => if forallb (N.eqb 0) s then None else Some (VRaw s)
      | TBool =>
          match s with
          | [0%N] => Some (VBool false)
          | [1%N] => Some (VBool true)
          | _ => None
          end
      | TOrdering =>
          match s with
          | [0%N] => Some (VOrd Eq)
          | [1%N] => Some (VOrd Gt)
          | [255%N] => Some (VOrd Lt)
          | _ => None
          end
      | TPadByte => Some VPad
      | TFP a b =>
          match layout a, layout b with
          | Some da, Some db =>
              match decode a (firstn (dsize da) s),
                    decode b (skipn (nmo (dsize da) (dalign db)) s) with
              | Some va, Some vb => Some (VPair va vb)
              | _, _ => None
              end
          | _, _ => None
          end
      | TStruct t' | TAligned t' _ =>
          match layout t' with
          | Some d' => decode t' (firstn (dsize d') s)
          | None => None
          end
      | TArr t' n =>
          match layout t' with
          | Some d' => option_map VArr (read_elems (decode t') (dsize d') n s)
          | None => None
          end
      | TResult a b =>
          match layout a, layout b with
          | Some da, Some db =>
              match provider_of da db with
              | Some p =>
                  match match_result da db p s with
                  | Some (inl x) => option_map VOk (decode a x)
                  | Some (inr x) => option_map VErr (decode b x)
                  | None => None
                  end
              | None => None
              end
          | _, _ => None
          end
      end
  end.
