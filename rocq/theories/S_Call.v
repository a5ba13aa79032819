(** What a caller expects of a function that it has loaded. *)
From Coq Require Import String List Arith NArith Bool.
From Verif Require Import M_Layout M_Result M_Report S_Report M_Trait M_FnReport S_FnReport M_Decl S_Decl M_Call.
Import ListNotations.

(** Declarations whose reports say everything, with no type called [stabby::signature], of a function
    with at most 15 inputs. *)
Definition declared (a128 : nat) (s : sig) : Prop :=
  u128_align a128 /\ length (s_args s) <= 15 /\
  Forall (fun d => self_described d /\ path (dty_report a128 d) <> (bytes_of "signature", bytes_of "stabby"))
    (s_ret s :: s_args s).
(** Types of the same name have as many fields on both sides. *)
Definition same_fields (a128 a128' : nat) (s s' : sig) : Prop :=
  forall d d', In d (s_ret s :: s_args s) -> In d' (s_ret s' :: s_args s') ->
    is_compatible (dty_report a128 d) (dty_report a128' d') = true -> same_arity (dty_report a128 d) (dty_report a128' d').
(** The bytes [ss] are, for one side, those of the values [vs]. *)
Definition passes (w : target) (a128 : nat) (s : sig) (ss : list (list N)) (vs : list val) : Prop :=
  length ss = length (s_args s) /\ length vs = length (s_args s) /\
  forall i d b v, nth_error (s_args s) i = Some d -> nth_error ss i = Some b -> nth_error vs i = Some v ->
    decode (dty_ty w a128 d) b = Some v.
(** The code of the library, given these values, returns that value. *)
Definition answers (w : target) (e : export) (vs : list val) (v : val) : Prop :=
  decode (dty_ty w (e_a128 e) (s_ret (e_sig e))) (e_code e vs) = Some v.
(** Both sides declare the function alike: same convention, same safety, and reports of inputs and output that agree. *)
Definition same_sig (a128 a128' : nat) (s s' : sig) : Prop :=
  s_unwind s = s_unwind s' /\ s_unsafe s = s_unsafe s' /\
  Forall2 (fun d d' => agree (dty_report a128 d) (dty_report a128' d')) (s_args s) (s_args s') /\
  agree (dty_report a128 (s_ret s)) (dty_report a128' (s_ret s')).
