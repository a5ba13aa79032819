(** Model of the checks the macro generates beside a [#[repr(stabby)]] enum. *)
From Coq Require Import List Arith Bool.
From Verif Require Import M_Layout.

(** enums.rs:548-565 [has_optimal_layout]: the size of the enum against that of a
    [#[repr(u8)]] enum with the same variants, [opt]. *)
Definition has_optimal_layout (size opt : nat) : bool := Nat.ltb size opt.
(** enums.rs:569-594: the constant that must evaluate without panicking.  [check]: the
    enum has no [repr] attribute (enums.rs:241-249); [d]: the layout stabby computed;
    [size], [al]: those the compiler gave the enum. *)
Definition enum_compiles (check : bool) (d : desc) (size al opt : nat) : bool :=
  (if check then has_optimal_layout size opt else true) && Nat.eqb size (dsize d) && Nat.eqb al (dalign d).
