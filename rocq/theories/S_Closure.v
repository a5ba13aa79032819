(** What closures as trait objects offer: [Fn], [FnMut] and [FnOnce], but ABI-stable (stabby-macros/src/gen_closures.rs:38, 104, 124). *)
From Coq Require Import List Arith NArith Bool.
From Verif Require Import M_Closure.
Import ListNotations.

Section calls.
  Context {S V : Type}.
  (** Calling the closure itself, one time after the other. *)
  Fixpoint direct (run : S -> list V -> S * V) (vss : list (list (N * V))) (s : S) : S * list V :=
    match vss with
    | [] => (s, [])
    | vs :: r => let (s', v) := run s (map snd vs) in let (s'', l) := direct run r s' in (s'', v :: l)
    end.
End calls.
(** Everything that crosses is stable. *)
Definition all_stable (st : N -> Prop) (t : fnty) : Prop := Forall st (f_in t) /\ st (f_out t).
