(** Specification for the reports of functions. *)
From Coq Require Import List Arith NArith Bool.
From Verif Require Import M_Report S_Report M_FnReport.
Import ListNotations.

(** Same calling convention, same safety, as many inputs, and inputs and outputs that agree. *)
Definition same_fn (a b : fnty) : Prop :=
  fn_unwind a = fn_unwind b /\ fn_unsafe a = fn_unsafe b /\
  Forall2 agree (fn_inputs a) (fn_inputs b) /\ agree (fn_output a) (fn_output b).
(** The name and module of a report. *)
Definition path (r : report) : list N * list N := match r with Rep n m _ _ _ => (n, m) end.
