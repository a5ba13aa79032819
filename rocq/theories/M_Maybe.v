(** Model of [MaybeResolved] (stabby-abi/src/future.rs:322-371) at the level of bytes, on top of [M_Enum] and [M_Result].
    [T] and [F] are the types of the output and of the future.  [None]: an access outside the object. *)
From Coq Require Import List Arith NArith Bool.
From Verif Require Import M_Layout M_Result M_Enum.
Import ListNotations.

(** future.rs:324-334: the variants [Resolved(T)], [Empty], [Pending(F)], in order. *)
Definition maybe_variants (T F : ty) : list ty := [T; TUnit; F].
(** future.rs:323, what the enum is made of (stabby-macros/src/enums.rs:440-442): [Result<T, Result<(), F>>]. *)
Definition maybe_ty (T F : ty) : ty := TResult T (TResult TUnit F).
(** The constructors [Resolved] (0), [Empty] (1) and [Pending] (2), stabby-macros/src/enums.rs:613-618. *)
Definition maybe_new (T F : ty) (i : nat) (v : list N) : option (list N) := enum_new (maybe_variants T F) i v.

(** A call of [Future::poll] on the inner future (future.rs:360), whose bytes are the argument: the output if it is ready, and the bytes of the future afterwards. *)
Definition future := list N -> option (list N) * list N.
(** The result of a poll (future.rs:347): the output, the bytes of the object afterwards, the variant dropped (with its payload). *)
Record polled := Polled { ready : option (list N); after : list N; dropped : option (nat * list N) }.

(** [OkGuard::drop] and [ErrGuard::drop], result.rs:509-519, 552-562, on the storage [s]. *)
Definition ok_drop (p : fprovider) (s : list N) : option (list N) :=
  if is_niche_trick (fp_det p) then option_map fst (det_ok (fp_det p) s) else Some s.
(** result.rs:552-562 [ErrGuard::drop]. *)
Definition err_drop (p : fprovider) (s : list N) : option (list N) :=
  if is_niche_trick (fp_det p) then option_map fst (det_err (fp_det p) s) else Some s.
(** Sequencing of the fallible accesses of future.rs:344-370. *)
Definition obind {A B} (x : option A) (f : A -> option B) : option B := match x with Some a => f a | None => None end.

(** future.rs:344-370 [poll].  The closures run while the guards of both levels of [match_mut] (stabby-macros/src/enums.rs:518-525) are alive; [inner] is the
    whole object.  [core::ptr::replace] (line 363) gives the old value back, which is dropped: result.rs:182-195. *)
Definition maybe_poll (T F : ty) (fut : future) (s : list N) : option polled :=
  obind (layout T) (fun dT => obind (layout F) (fun dF => obind (layout (TResult TUnit F)) (fun dR =>
  obind (provider_of dT dR) (fun p => obind (provider_of unit_d dF) (fun q =>
  obind (match_result dT dR p s) (fun m =>
  match m with
  | inl v =>
      (* 351-358 *)
      obind (maybe_new T F 1 []) (fun e =>
      obind (ok_drop p e) (fun s' => Some (Polled (Some v) s' None)))
  | inr r =>
      obind (match_result unit_d dF q r) (fun m' =>
      match m' with
      | inl _ =>
          (* 359 *)
          obind (ok_drop q r) (fun r' =>
          obind (blit s (err_offset dT dR p) r') (fun s1 =>
          obind (err_drop p s1) (fun s' => Some (Polled None s' None))))
      | inr f =>
          (* 360-368: the future works in place *)
          let '(res, f') := fut f in
          obind (blit r (err_offset unit_d dF q) f') (fun r1 =>
          obind (blit s (err_offset dT dR p) r1) (fun s1 =>
          match res with
          | Some v =>
              obind (maybe_new T F 1 []) (fun e =>
              obind (enum_match (maybe_variants T F) s1) (fun d =>
              obind (slice e (err_offset dT dR p) (dsize dR)) (fun re =>
              obind (err_drop q re) (fun re' =>
              obind (blit e (err_offset dT dR p) re') (fun s2 =>
              obind (err_drop p s2) (fun s' => Some (Polled (Some v) s' (Some d))))))))
          | None =>
              obind (err_drop q r1) (fun r2 =>
              obind (blit s1 (err_offset dT dR p) r2) (fun s2 =>
              obind (err_drop p s2) (fun s' => Some (Polled None s' None))))
          end))
      end)
  end)))))).

(** future.rs:344-370, [n] polls in a row, with the outputs and the drops; the last component is the final object. *)
Fixpoint maybe_polls (T F : ty) (fut : future) (n : nat) (s : list N) : option (list (option (list N) * option (nat * list N)) * list N) :=
  match n with
  | O => Some ([], s)
  | S n => obind (maybe_poll T F fut s) (fun r => obind (maybe_polls T F fut n (after r)) (fun x => Some ((ready r, dropped r) :: fst x, snd x)))
  end.
(** Drop of the object, result.rs:182-195: the variant dropped and its payload. *)
Definition maybe_drop (T F : ty) (s : list N) : option (nat * list N) := enum_match (maybe_variants T F) s.
