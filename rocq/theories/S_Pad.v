(** What one expects of padding. *)
From Coq Require Import List Arith NArith Bool.
From Verif Require Import M_Typenum M_Layout S_Layout M_Pad.
Import ListNotations.

(** Bit [i] of byte [o] of a [p] is not used by any field. *)
Fixpoint idle (p : pad) (o : nat) (i : N) : Prop :=
  match p with
  | PUnit => False
  | PByte => o = 0 /\ (i < 8)%N
  | PHelper d b =>
      let n := rust_size d in
      (o < n /\ idle d o i) \/ (n <= o < n + n /\ idle d (o - n) i) \/ (b = true /\ o = n + n /\ (i < 8)%N)
  | PMore l => (o < rust_size l /\ idle l o i) \/ (o = rust_size l /\ (i < 8)%N)
  | POf d => bit_unused (dub d) o i
  end.
(** The parameters' unused bits are bits they have. *)
Fixpoint inside (p : pad) : Prop :=
  match p with
  | PUnit | PByte => True
  | PHelper d _ => inside d
  | PMore l => inside l
  | POf d => forall o i, bit_unused (dub d) o i -> o < dsize d
  end.
(** The number a type stands for, by its digits. *)
Fixpoint value (u : unum) : N :=
  match u with
  | UTerm => 0
  | UInt m b => 2 * value m + (if b then 1 else 0)
  | Saturator => 0
  end%N.
(** It is a number. *)
Fixpoint number (u : unum) : Prop :=
  match u with UTerm => True | UInt m _ => number m | Saturator => False end.
