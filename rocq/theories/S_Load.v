(** What a user expects of loading a function by its name. *)
From Coq Require Import List Arith NArith Bool.
From Verif Require Import M_Report M_Canary M_Load.
Import ListNotations.
Local Open Scope N_scope.

(** The name without NUL that a C string can hold (stabby/src/libloading.rs:79). *)
Definition nameable (s : list N) : Prop := ~ In 0 s.
(** [s] ends with [t] (the reserved suffixes of stabby/src/libloading.rs:65-66). *)
Definition ends_with (t s : list N) : Prop := exists p, s = p ++ t.
(** The names that are the user's own or those of canaries: not made for a report
    (functions.rs:295,299,342). *)
Definition written {F} (e : env) (x : export F) : list (list N) :=
  match x with
  | Bare n _ => [n]
  | Canaried n _ => export_canaried e n
  | Reported n _ _ => [n]
  end.
(** No such name ends with a reserved suffix (stabby/src/libloading.rs:65-66). *)
Definition unreserved {F} (e : env) (xs : list (export F)) : Prop :=
  forall x s, In x xs -> In s (written e x) ->
    ~ ends_with STABBIED_SUFFIX s /\ ~ ends_with REPORT_SUFFIX s.
(** The canaries of a loader can be named (stabby/src/libloading.rs:114-120). *)
Definition nameable_env (e : env) : Prop := forall c, nameable (display e c).
(** A function with a compatible report is exported under this name
    (stabby/src/libloading.rs:20-29: the documentation of [get_stabbied]). *)
Definition offered {F} (xs : list (export F)) (n : list N) (asked : report) (f : F) : Prop :=
  exists own, In (Reported n own f) xs /\ is_compatible own asked = true.
(** The name that a user gave to what they export (functions.rs:295,312). *)
Definition export_name {F} (x : export F) : list N :=
  match x with Bare n _ => n | Canaried n _ => n | Reported n _ _ => n end.
(** Exported without canaries (functions.rs:350-379: the argument of [export]). *)
Definition uncanaried {F} (x : export F) : Prop :=
  match x with Canaried _ _ => False | _ => True end.
