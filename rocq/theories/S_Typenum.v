(** Specification for C01: the canonical encoding of a number as a type.
    [enc n] is the binary writing of [n], most significant bit first, without
    leading zeros; two numbers have the same encoding iff they are equal
    ([enc_inj] in L_Typenum). *)
From Coq Require Import NArith.
From Verif Require Import M_Typenum.

Fixpoint enc_pos (p : positive) : unum :=
  match p with
  | xH => UInt UTerm true
  | xO q => UInt (enc_pos q) false
  | xI q => UInt (enc_pos q) true
  end.
Definition enc (n : N) : unum :=
  match n with N0 => UTerm | Npos p => enc_pos p end.

(** [r] is the least multiple of [p] that is at least [a]. *)
Definition is_next_multiple (a p r : N) : Prop :=
  N.divide p r /\ (a <= r)%N /\ forall s, N.divide p s -> (a <= s)%N -> (r <= s)%N.
