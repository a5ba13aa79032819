(** What a user expects of [#[stabby::stabby]] and [#[stabby::export]] on a function (for C93).  Of [M_FnItem], what Rust
    accepts ([gfn_ok], [exported_ok]), how it reads words ([p_quals]) and the syntax of items are used. *)
From Coq Require Import String.
From Coq Require Import List NArith Arith Bool.
From Verif Require Import M_Generics M_FnItem.
Import ListNotations.
Local Open Scope string_scope.
Local Open Scope list_scope.

(** Types a user can write for an input; an output can also be [!]. *)
Definition written (t : ty) : Prop := match t with TPlain _ | TGen _ | TRef _ | TImpl _ => True | _ => False end.
(** The types of a signature. *)
Definition types (f : fnitem) : list ty :=
  (match f_out f with Some t => [t] | None => [] end) ++ map (fun i => match i with Recv => TSelf | Arg _ t => t end) (f_ins f).
(** Rust accepts the function itself. *)
Definition legal_fn (f : fnitem) : Prop :=
  ~ (f_const f = true /\ f_async f = true) /\
  (forall p t, In (Arg p t) (f_ins f) -> written t) /\
  (forall t, f_out f = Some t -> written t \/ t = TNever) /\
  (forall i, nth_error (f_ins f) (S i) <> Some Recv).

(** The conventions that are stable. *)
Definition stable_abi (s : string) : Prop :=
  In s ["C"; "C-unwind"; "system"; "system-unwind"; "stdcall"; "aapcs"; "cdecl"; "fastcall"; "win64"; "sysv64"].
(** The convention asked for: C if none is named. *)
Definition asked_abi (a : abi) : string := match a with ANamed s => s | _ => "C" end.
(** The lifetime of a future: the last one given, or ['static]. *)
Definition asked_lt (l : list attr) (n : option N) : Prop :=
  match n with
  | Some x => exists l1 l2, l = l1 ++ Lifetime x :: l2 /\ forall y, ~ In (Lifetime y) l2
  | None => forall y, ~ In (Lifetime y) l
  end.
(** The function is as declared, but with a stable convention; if it is async it returns a boxed future of its output, that can be sent and shared
    unless it is asked not to. *)
Definition kept (l : list attr) (f : fnitem) (g : gfn) : Prop :=
  g_name g = f_name f /\ g_params g = f_params f /\ g_where g = f_where f /\ g_ins g = f_ins f /\
  p_quals (g_quals g) = Some (f_const f, false, f_unsafe f, Some (Some (asked_abi (f_abi f)))) /\ stable_abi (asked_abi (f_abi f)) /\
  match f_async f, g_out g, g_body g with
  | false, ONone, Own b => f_out f = None /\ b = f_body f
  | false, OTy t, Own b => f_out f = Some t /\ b = f_body f
  | true, ODyn n (FFuture o :: vt), InAsync b =>
      o = f_out f /\ b = f_body f /\ asked_lt l n /\ (In FSend vt <-> ~ In Unsend l) /\ (In FSync vt <-> ~ In Unsync l)
  | _, _, _ => False
  end.
(** All is well. *)
Definition fn_works (stable : ty -> bool) (l : list attr) (f : fnitem) : Prop :=
  exists g, stabby l f = Some g /\ gfn_ok stable g = true /\ kept l f g.
(** The functions for which all is well. *)
Definition fn_supported (stable : ty -> bool) (l : list attr) (f : fnitem) : Prop :=
  (forall w, ~ In (Word w) l) /\ stable_abi (asked_abi (f_abi f)) /\ ~ (f_const f = true /\ f_unsafe f = true) /\ f_where f = [] /\
  (forall t, In t (types f) -> stable t = true /\ t <> TNever /\ forall n, t <> TImpl n) /\
  (f_async f = true -> forall n, ~ In (Borrows n) (f_body f)).

(** The symbols of an export. *)
Definition symbols (x : exported) : list string := [g_name (x_def x); g_name (x_stabbied x); g_name (x_report x)].
Definition export_works (stable : ty -> bool) (f : fnitem) : Prop :=
  exists x, export f = Some x /\ exported_ok stable x = true /\ kept [] f (x_def x) /\
    symbols x = [f_name f; String.append (f_name f) "_stabbied_v3"; String.append (f_name f) "_stabbied_v3_report"].
(** The functions that can be exported. *)
Definition export_supported (stable : ty -> bool) (f : fnitem) : Prop :=
  fn_supported stable [] f /\ f_async f = false /\ (f_abi f = AExtern \/ f_abi f = ANamed "C" \/ f_abi f = ANamed "C-unwind") /\
  Forall (fun i => exists n t, i = Arg (PName n) (TPlain t)) (f_ins f) /\ (forall t, f_out f = Some t -> exists n, t = TPlain n) /\
  Forall (fun p => is_lt p = true) (f_params f) /\ (length (f_ins f) <= 15)%nat.
