(** Calls of functions loaded from a library with their reports: the caller and the library were
    compiled apart, each with its own declarations of the types (stabby/src/libloading.rs:72-99,
    stabby-macros/src/functions.rs:306-350, stabby-abi/src/stable_impls/mod.rs:812-910). *)
From Coq Require Import List Arith NArith Bool.
From Verif Require Import M_Layout M_Result M_Report M_Trait M_FnReport M_Decl.
Import ListNotations.

(** The type of a function with the declarations of its inputs and output, as one side sees them
    (stable_impls/mod.rs:849-908). *)
Record sig := Sig { s_unwind : bool; s_unsafe : bool; s_args : list dty; s_ret : dty }.
(** The reports of that type (stable_impls/mod.rs:849-910). *)
Definition sig_fn (a128 : nat) (s : sig) : fnty :=
  Fn (s_unwind s) (s_unsafe s) (map (dty_report a128) (s_args s)) (dty_report a128 (s_ret s)).
(** A function with [#[stabby::export]] (functions.rs:306-350): the compiler's alignment of u128,
    its type, and its code: which bytes it returns when it is given these values. *)
Record export := Exp { e_a128 : nat; e_sig : sig; e_code : list val -> list N }.

(** The inputs of a call as one side reads them: each is the bytes of an object of the type declared
    by that side.  Simplification: [extern "C"] calls hand over the bytes of each input and of the
    output (libloading.rs:72-99 leaves that to the platform's C ABI, which depends on the declared types
    only). *)
Fixpoint read_args (w : target) (a128 : nat) (ds : list dty) (ss : list (list N)) : option (list val) :=
  match ds, ss with
  | [], [] => Some []
  | d :: ds', s :: ss' =>
      match decode (dty_ty w a128 d) s, read_args w a128 ds' ss' with
      | Some v, Some vs => Some (v :: vs)
      | _, _ => None
      end
  | _, _ => None
  end.

(** What comes of loading and calling a function: the loader does not compile, gets an error
    (libloading.rs:89-96), is answered with a value, or there is no telling. *)
Inductive outcome := NotCompiled | Refused | Returned (v : val) | Undefined.
(** libloading.rs:72-99 [get_stabbied] by a caller compiled with [a128] that declares the function as
    [asked], followed by a call with these bytes. *)
Definition call (w : target) (a128 : nat) (asked : sig) (e : export) (ss : list (list N)) : outcome :=
  match get_stabbied (sig_fn (e_a128 e) (e_sig e)) e (sig_fn a128 asked) with
  | None => NotCompiled
  | Some None => Refused
  | Some (Some f) =>
      match read_args w (e_a128 f) (s_args (e_sig f)) ss with
      | None => Undefined
      | Some vs =>
          match decode (dty_ty w a128 (s_ret asked)) (e_code f vs) with
          | None => Undefined
          | Some v => Returned v
          end
      end
  end.
