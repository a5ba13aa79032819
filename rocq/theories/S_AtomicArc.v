(** What users of [AtomicArc] rely on. *)
From Coq Require Import List Arith Bool.
From Verif Require Import M_AtomicArc.
Import ListNotations.

(** No Arc, in the cell or out of it, refers to a value that was dropped. *)
Definition no_early_release (s : acell) : Prop :=
  fault s = false /\ forall b, (0 < hs s b \/ cell s = Some b) -> gone s b = false.
(** No value is kept for ever: those that no Arc refers to were dropped. *)
Definition no_leak (s : acell) : Prop :=
  forall b, b < next s -> hs s b = 0 -> cell s <> Some b -> gone s b = true.

(** The content of the cell is never replaced while a call has read it and not yet counted its own reference. *)
Definition undisturbed (sched : list (nat * aop)) : Prop :=
  forall k t b, let s := arun (firstn k sched) acell_new in apcs s t = AIncr b -> cell s = Some b.
(** Whether a call (as first step of an idle thread) loses an Arc: it stores over one, or its exchange fails although it
    brings one. *)
Definition lossy (s : acell) (act : nat * aop) : Prop :=
  apcs s (fst act) = AIdle /\
  match snd act with
  | AStore _ => cell s <> None
  | ACas cur (Some _) => cell s <> cur
  | _ => False
  end.
(** No call of the schedule does. *)
Definition lossless (sched : list (nat * aop)) : Prop :=
  forall k a, nth_error sched k = Some a -> ~ lossy (arun (firstn k sched) acell_new) a.
