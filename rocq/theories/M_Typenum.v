(** Model of stabby's type-level unsigned integers
    (stabby-abi/src/typenum2/unsigned.rs).  Rust types become constructors,
    associated types become functions. *)
From Coq Require Import List NArith Bool.
Import ListNotations.

(** unsigned.rs:27-34 [UTerm], [UInt<Msbs, Bit>]; istable.rs:404 [Saturator].
    [B0]/[B1] (unsigned.rs:95-138) are [false]/[true]. *)
Inductive unum : Type :=
| UTerm
| UInt (msb : unum) (b : bool)
| Saturator.

(** build.rs:24-36 [u]: the textual encoding of a number, used to define every
    [U<n>] alias.  The loop is over the bits of [i]; its input is a [u128] in
    the source, any [N] here. *)
Fixpoint build_bits (fuel : nat) (i : N) : list bool :=
  match fuel with
  | O => nil
  | S fuel' =>
      if N.ltb 0 i then N.odd i :: build_bits fuel' (N.shiftr i 1) else nil
  end.
(** build.rs:32-35 the fold over the reversed bits. *)
Definition build_u (i : N) : unum :=
  fold_left UInt (rev (build_bits (N.to_nat (N.size i)) i)) UTerm.

(** unsigned.rs:246,398,425,516 [IUnsignedBase::Bit]. *)
Definition bit_of (u : unum) : bool :=
  match u with UTerm => false | UInt _ b => b | Saturator => false end.
(** unsigned.rs:248,399,426,517 [IUnsignedBase::Msb]. *)
Definition msb_of (u : unum) : unum :=
  match u with UTerm => UTerm | UInt m _ => m | Saturator => Saturator end.

(** unsigned.rs:252,400,427,518 [_IsUTerm]. *)
Fixpoint is_uterm (u : unum) : bool :=
  match u with
  | UTerm => true
  | UInt m b => negb b && is_uterm m
  | Saturator => true
  end.

(** unsigned.rs:256,403,430,519 [_Simplified]. *)
Fixpoint simplified (u : unum) : unum :=
  match u with
  | UTerm => UTerm
  | UInt m b => if is_uterm (UInt m b) then UTerm else UInt (simplified m) b
  | Saturator => Saturator
  end.

(** unsigned.rs:401,428,520 [_BitAndInner]. *)
Fixpoint bitand_inner (u t : unum) : unum :=
  match u with
  | UTerm => UTerm
  | UInt m b => UInt (bitand_inner m (msb_of t)) (b && bit_of t)
  | Saturator => Saturator
  end.
(** unsigned.rs:402,429,521 [_BitOrInner]. *)
Fixpoint bitor_inner (u t : unum) : unum :=
  match u with
  | UTerm => t
  | UInt m b => UInt (bitor_inner m (msb_of t)) (b || bit_of t)
  | Saturator => Saturator
  end.
(** unsigned.rs:369 [BitAnd]. *)
Definition bitand (u t : unum) : unum := simplified (bitand_inner u t).
(** unsigned.rs:370 [BitOr]. *)
Definition bitor (u t : unum) : unum := simplified (bitor_inner u t).

(** unsigned.rs:230 [IBit::Xor]. *)
Definition bxor (a b : bool) : bool := (a && negb b) || (b && negb a).
(** unsigned.rs:231 [Equals]. *)
Definition bequals (a b : bool) : bool := negb (bxor a b).
(** unsigned.rs:232 [AdderSum]. *)
Definition adder_sum (a rhs carry : bool) : bool := bxor (bxor a rhs) carry.
(** unsigned.rs:233-234 [AdderCarry]. *)
Definition adder_carry (a rhs carry : bool) : bool :=
  (rhs && carry) || (a && bxor rhs carry).
(** unsigned.rs:235 [SuberSum]. *)
Definition suber_sum (a rhs carry : bool) : bool := adder_sum a rhs carry.
(** unsigned.rs:236-239 [SuberCarry]. *)
Definition suber_carry (a rhs carry : bool) : bool :=
  (negb a && (rhs || carry)) || (a && (rhs && carry)).

(** unsigned.rs:404,431,522 [_Equals]. *)
Fixpoint equal (u t : unum) : bool :=
  match u with
  | UTerm => is_uterm t
  | UInt m b => bequals b (bit_of t) && equal m (msb_of t)
  | Saturator => is_uterm t
  end.
(** unsigned.rs:372 [NotEqual]. *)
Definition not_equal (u t : unum) : bool := negb (equal u t).

(** unsigned.rs:407,434,523-524 [_Greater<T, Hint>]. *)
Fixpoint greater_hint (u t : unum) (hint : bool) : bool :=
  match u with
  | UTerm => hint && is_uterm t
  | UInt m b =>
      greater_hint m (msb_of t) (if bit_of t then hint && b else hint || b)
  | Saturator => hint && is_uterm t
  end.
(** unsigned.rs:373 [Greater]. *)
Definition greater (u t : unum) : bool := greater_hint u t false.
(** unsigned.rs:374 [GreaterOrEq]. *)
Definition greater_or_eq (u t : unum) : bool := greater u t || equal u t.
(** unsigned.rs:375 [SmallerOrEq]. *)
Definition smaller_or_eq (u t : unum) : bool := negb (greater u t).
(** unsigned.rs:376 [Smaller]. *)
Definition smaller (u t : unum) : bool := negb (greater_or_eq u t).

(** [U1], from build.rs:42-44. *)
Definition U1 : unum := UInt UTerm true.

(** [Self::_Add<UTerm, Carry>]: unsigned.rs:406,433,526-527 specialised at
    [T = UTerm] ([T::Msb = UTerm], [T::Bit = B0], [UTerm::Increment = U1]), needed to break the
    mutual recursion between [_Add] and [Increment]; [add_uterm_is_add] in L_Typenum
    proves the specialisation. *)
Fixpoint add_uterm (u : unum) (carry : bool) : unum :=
  match u with
  | UTerm => if carry then U1 else UTerm
  | UInt m b => UInt (add_uterm m (adder_carry b false carry)) (adder_sum b false carry)
  | Saturator => if carry then U1 else UTerm
  end.
(** unsigned.rs:405,432,525 [Increment]. *)
Definition increment (u : unum) : unum :=
  match u with
  | UTerm => U1
  | UInt m b => add_uterm (UInt m b) true
  | Saturator => Saturator
  end.
(** unsigned.rs:406,433,526-527 [_Add<T, Carry>]. *)
Fixpoint add_carry (u t : unum) (carry : bool) : unum :=
  match u with
  | UTerm => if carry then increment t else t
  | UInt m b =>
      UInt (add_carry m (msb_of t) (adder_carry b (bit_of t) carry))
           (adder_sum b (bit_of t) carry)
  | Saturator => if carry then increment t else t
  end.
(** unsigned.rs:377 [Add]. *)
Definition add (u t : unum) : unum := add_carry u t false.

(** unsigned.rs:408,435,528-529 [_Sub<T, Carry>]. *)
Fixpoint sub_carry (u t : unum) (carry : bool) : unum :=
  match u with
  | UTerm => UTerm
  | UInt m b =>
      UInt (sub_carry m (msb_of t) (suber_carry b (bit_of t) carry))
           (suber_sum b (bit_of t) carry)
  | Saturator => Saturator
  end.
(** unsigned.rs:378-381 [AbsSub]. *)
Definition abs_sub (u t : unum) : unum :=
  simplified (if greater u t then sub_carry u t false else sub_carry t u false).

(** unsigned.rs:382 [Min]. *)
Definition umin (u t : unum) : unum := if greater u t then t else u.
(** unsigned.rs:383 [Max]. *)
Definition umax (u t : unum) : unum := if greater u t then u else t.

(** unsigned.rs:409,436,530-531 [_Truncate<T>]. *)
Fixpoint truncate_inner (u t : unum) : unum :=
  match u with
  | UTerm => UTerm
  | UInt m b => if is_uterm t then UTerm else UInt (truncate_inner m (abs_sub t U1)) b
  | Saturator => Saturator
  end.
(** unsigned.rs:384 [Truncate]. *)
Definition truncate (u t : unum) : unum := simplified (truncate_inner u t).

(** unsigned.rs:558-572: the two impls of [IPowerOf2]. [None] when neither
    applies ([Self] is not a power of two: does not compile). *)
Fixpoint modulate (p t : unum) : option unum :=
  match p with
  | UInt m true => if is_uterm m then Some UTerm else None
  | UInt m false =>
      match modulate m (msb_of t) with
      | Some r => Some (simplified (UInt r (bit_of t)))
      | None => None
      end
  | _ => None
  end.
(** unsigned.rs:563,571 [Divide]. *)
Fixpoint divide (p t : unum) : option unum :=
  match p with
  | UInt m true => if is_uterm m then Some t else None
  | UInt m false => divide m (msb_of t)
  | _ => None
  end.
(** unsigned.rs:559,566 [Log2]. *)
Fixpoint log2 (p : unum) : option unum :=
  match p with
  | UInt m true => if is_uterm m then Some UTerm else None
  | UInt m false => match log2 m with Some l => Some (increment l) | None => None end
  | _ => None
  end.
(** unsigned.rs:385 [Mod<T>] = [T::Modulate<Self>]. *)
Definition umod (u p : unum) : option unum := modulate p u.

(** unsigned.rs:388-389 [NextMultipleOf<T>]; the operators of [tyeval!] are
    given by stabby-macros/src/tyops.rs:209-253 ([-] is [AbsSub], [%] is [Mod], [==] is [Equal]). *)
Definition next_multiple_of (u p : unum) : option unum :=
  match umod u p with
  | Some r => Some (if equal r UTerm then u else add u (abs_sub p r))
  | None => None
  end.

(** unsigned.rs:390-393 [Cmp]. *)
Definition ucmp (u t : unum) : comparison :=
  if equal u t then Eq else if greater u t then Gt else Lt.

(** unsigned.rs:415,442,538-540 [_Mul]. *)
Fixpoint mul (u t : unum) : unum :=
  match u with
  | UTerm => UTerm
  | UInt m b => add (if b then t else UTerm) (simplified (UInt (mul m t) false))
  | Saturator => Saturator
  end.

(** unsigned.rs:411,438,532-533 [_SatDecrement]. *)
Fixpoint sat_decrement (u : unum) : unum :=
  match u with
  | UTerm => UTerm
  | UInt m b => simplified (if b then UInt m false else UInt (sat_decrement m) true)
  | Saturator => Saturator
  end.
(** unsigned.rs:455-457,484-486 [NonZero::Decrement] (not defined on [UTerm]). *)
Definition decrement (u : unum) : unum :=
  match u with
  | UInt m b => simplified (if b then UInt m false else UInt (sat_decrement m) true)
  | _ => Saturator
  end.

(** unsigned.rs:412,439,535 [NextPow2]. *)
Fixpoint next_pow2 (u : unum) : unum :=
  match u with
  | UTerm => UTerm
  | UInt m b => add (next_pow2 m) (if is_uterm (UInt m b) then UTerm else U1)
  | Saturator => Saturator
  end.

(** unsigned.rs:413,440,536 [_TruncateAtRightmostOne]. *)
Fixpoint truncate_at_rightmost_one (u : unum) : unum :=
  match u with
  | UTerm => Saturator
  | UInt m b => if b then U1 else UInt (truncate_at_rightmost_one m) false
  | Saturator => Saturator
  end.

(** unsigned.rs:397,422,515 [_U128]: [None] is the compile-time panic of [Saturator];
    the shift drops the bits beyond 128, as in the source. *)
Fixpoint u128 (u : unum) : option N :=
  match u with
  | UTerm => Some 0%N
  | UInt m b =>
      match u128 m with
      | Some v => Some (N.lor (N.shiftl v 1 mod 2 ^ 128) (if b then 1 else 0))%N
      | None => None
      end
  | Saturator => None
  end.

(** unsigned.rs:416,443,541-545 [PaddingBitMask] as a list of (offset, mask);
    istable.rs:248-272 [Shift] adds to each offset.  The recursion goes through
    [_SatDecrement], hence the fuel. [None]: fuel exhausted. *)
Fixpoint padding_bit_mask (fuel : nat) (u : unum) : option (list (unum * unum)) :=
  match u with
  | UTerm | Saturator => Some nil
  | UInt m b =>
      match fuel with
      | O => None
      | S fuel' =>
          match padding_bit_mask fuel' (sat_decrement u) with
          | Some l =>
              Some ((UTerm, build_u 255)
                    :: map (fun e => (add (fst e) U1, snd e)) l)
          | None => None
          end
      end
  end.
