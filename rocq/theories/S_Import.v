(** What users of imported symbols rely on (independent of the steps of the model). *)
From Verif Require Import M_Import.

(** The outcomes allowed for a checker's answer: the symbol to all, or a mismatch to all. *)
Definition answers {F} (answer : option F) (x : outcome F) : Prop :=
  match answer with
  | Some f => exists k, x = Gave (Some f) k
  | None => x = Mismatch
  end.
(** A thread between taking the lock and publishing the symbol. *)
Definition initialising {F} (p : pc F) : Prop :=
  match p with Write _ | Publish => True | _ => False end.
