(** Which narrow integers there should be, by the documentation (C113). *)
From Coq Require Import String List NArith ZArith Decimal DecimalString.
Import ListNotations.
Local Open Scope string_scope.

(** A letter followed by a number in decimal. *)
Definition int_name (c : string) (n : N) : string := c ++ NilEmpty.string_of_uint (N.to_uint n).
(** The sizes of Rust's own integers. *)
Definition rust_bits : list N := [8; 16; 32; 64; 128]%N.
(** The numbers of bits below 128 for which Rust has no integers. *)
Definition missing (n : N) : Prop := (0 < n < 128)%N /\ ~ In n rust_bits.
(** The smallest integer of Rust with [n] bits has [w]. *)
Definition smallest (n w : N) : Prop := In w rust_bits /\ (n <= w)%N /\ forall w', In w' rust_bits -> (n <= w')%N -> (w <= w')%N.
