(** Model of the owning API of [Result] (stabby-abi/src/result.rs:101-199, 264-460) on a variable, over the bytes of M_Result.  [Option] is the case
    of an empty error (stabby-abi/src/option.rs:23-174). *)
From Coq Require Import List Arith NArith Bool.
From Verif Require Import M_Layout M_Result.
Import ListNotations.

(** What happens to payloads: a payload is moved to the caller or to a closure, or destroyed; [ok] is its variant.  A panic is shown by [Panics]
    (result.rs:347-363, 188-199, 434, 455). *)
Inductive event (V : Type) := Moves (ok : bool) (v : V) | Destroys (ok : bool) (v : V) | Panics.
Arguments Moves {V}. Arguments Destroys {V}. Arguments Panics {V}.

(** Uses of a variable.  [V] is what payloads are: bytes here. *)
Inductive use (V : Type) :=
| SetOk (v : V) | SetErr (v : V)                 (* r = Result::Ok(v), result.rs:240, 253, dropping the previous one, result.rs:188 *)
| FromCore (x : V + V)                           (* the same from core's Result, result.rs:161-172 *)
| MutOk (v : V) | MutErr (v : V)                 (* if let Some(mut g) = r.ok_mut() { *g = v }, result.rs:407-414, 324-341 *)
| CloneSelf (f : bool -> V)                      (* r = r.clone(), result.rs:101-109; [f] gives the clone of the payload *)
| IntoOk | IntoErr                               (* r.ok(), r.err(), result.rs:391-398 *)
| IntoCore                                       (* core's Result::from(r), result.rs:173-181 *)
| UnwrapOrElse | UnwrapErrOrElse                 (* result.rs:430-432, 448-450; the closure gets the other payload *)
| Unwrap | UnwrapErr                             (* result.rs:438-447, 454-460 *)
| MapOk (v : V)                                  (* r = r.map(|_| v), result.rs:415-421, with U = Ok *)
| AndThen (x : V + V)                            (* r = r.and_then(|_| x), result.rs:422-429 *)
| DropIt.                                        (* drop(r) *)
Arguments SetOk {V}. Arguments SetErr {V}. Arguments FromCore {V}. Arguments MutOk {V}. Arguments MutErr {V}. Arguments CloneSelf {V}.
Arguments IntoOk {V}. Arguments IntoErr {V}. Arguments IntoCore {V}. Arguments UnwrapOrElse {V}. Arguments UnwrapErrOrElse {V}. Arguments Unwrap {V}. Arguments UnwrapErr {V}.
Arguments MapOk {V}. Arguments AndThen {V}. Arguments DropIt {V}.

Section Api.
Variables (da db : desc) (p : fprovider).

(** result.rs:188-199 [drop]: match_mut with guards; the destructor is run on the payload, whose bytes it is assumed to leave as they are; the guard is then
    dropped (result.rs:510-519, 553-562). *)
Definition drop_result (s : list N) : option (event (list N)) :=
  match match_result da db p s with
  | Some (inl w) => option_map (fun _ => Destroys true w) (ok_guard_write da db p s w)
  | Some (inr w) => option_map (fun _ => Destroys false w) (err_guard_write da db p s w)
  | None => None
  end.
(** result.rs:240-263, 161-172. *)
Definition make (x : list N + list N) : option (list N) := match x with inl v => mk_ok da db p v | inr v => mk_err da db p v end.
(** Assignment: the new value is computed, the old one is dropped if there is one (result.rs:188-199). *)
Definition assign (cur : option (list N)) (x : list N + list N) : option (option (list N) * list (event (list N))) :=
  match make x, cur with
  | Some s', None => Some (Some s', [])
  | Some s', Some s => option_map (fun e => (Some s', [e])) (drop_result s)
  | None, _ => None
  end.
(** result.rs:347-363 [match_owned] with closures that return the new content of the variable and what they did with the payload. *)
Definition match_owned (s : list N) (ok err : list N -> option (list N + list N) * list (event (list N)))
  : option (option (list N) * list (event (list N))) :=
  match match_result da db p s with
  | None => None
  | Some x =>
      let r := match x with inl w => ok w | inr w => err w end in
      match fst r with
      | None => Some (None, snd r)
      | Some y => option_map (fun s' => (Some s', snd r)) (make y)
      end
  end.
(** One use: the bytes in the variable afterwards ([None]: moved out), and the events, last first.  Outer [None]: an access out of bounds.  Uses of a
    variable that was moved out do not compile; they do nothing here.  See the lines at [use] (result.rs:101-460). *)
Definition use_step (cur : option (list N)) (u : use (list N)) : option (option (list N) * list (event (list N))) :=
  match u, cur with
  | SetOk v, _ => assign cur (inl v)
  | SetErr v, _ => assign cur (inr v)
  | FromCore x, _ => assign cur x
  | _, None => Some (None, [])
  | MutOk v, Some s =>
      match match_result da db p s with
      | Some (inl w) => option_map (fun s' => (Some s', [Destroys true w])) (ok_guard_write da db p s v)
      | Some (inr w) => option_map (fun s' => (Some s', [])) (err_guard_write da db p s w)   (* the closure drops the guard *)
      | None => None
      end
  | MutErr v, Some s =>
      match match_result da db p s with
      | Some (inl w) => option_map (fun s' => (Some s', [])) (ok_guard_write da db p s w)
      | Some (inr w) => option_map (fun s' => (Some s', [Destroys false w])) (err_guard_write da db p s v)
      | None => None
      end
  | CloneSelf f, Some s =>
      match match_result da db p s with
      | Some (inl _) => assign cur (inl (f true))
      | Some (inr _) => assign cur (inr (f false))
      | None => None
      end
  | IntoOk, Some s => match_owned s (fun w => (None, [Moves true w])) (fun w => (None, [Destroys false w]))
  | IntoErr, Some s => match_owned s (fun w => (None, [Destroys true w])) (fun w => (None, [Moves false w]))
  | IntoCore, Some s => match_owned s (fun w => (None, [Moves true w])) (fun w => (None, [Moves false w]))
  | UnwrapOrElse, Some s => match_owned s (fun w => (None, [Moves true w])) (fun w => (None, [Moves false w]))
  | UnwrapErrOrElse, Some s => match_owned s (fun w => (None, [Moves true w])) (fun w => (None, [Moves false w]))
  | Unwrap, Some s => match_owned s (fun w => (None, [Moves true w])) (fun w => (None, [Destroys false w; Panics]))
  | UnwrapErr, Some s => match_owned s (fun w => (None, [Destroys true w; Panics])) (fun w => (None, [Moves false w]))
  | MapOk v, Some s => match_owned s (fun w => (Some (inl v), [Moves true w])) (fun w => (Some (inr w), []))
  | AndThen x, Some s => match_owned s (fun w => (Some x, [Moves true w])) (fun w => (Some (inr w), []))
  | DropIt, Some s => option_map (fun e => (None, [e])) (drop_result s)
  end.
(** Successive uses of a variable, at first not initialised (result.rs:240-263). *)
Fixpoint use_run (cur : option (list N)) (us : list (use (list N))) : option (option (list N) * list (event (list N))) :=
  match us with
  | [] => Some (cur, [])
  | u :: us =>
      match use_step cur u with
      | Some (cur', ev) => match use_run cur' us with Some (c, ev') => Some (c, ev' ++ ev) | None => None end
      | None => None
      end
  end.
(** result.rs:142-157 [eq], [eqa] and [eqb] being those of the payloads. *)
Definition result_eq (eqa eqb : list N -> list N -> bool) (s s' : list N) : option bool :=
  match is_ok p s, is_ok p s' with
  | Some true, Some true =>
      match slice s (ok_offset da db p) (dsize da), slice s' (ok_offset da db p) (dsize da) with Some v, Some w => Some (eqa v w) | _, _ => None end
  | Some false, Some false =>
      match slice s (err_offset da db p) (dsize db), slice s' (err_offset da db p) (dsize db) with Some v, Some w => Some (eqb v w) | _, _ => None end
  | Some _, Some _ => Some false
  | _, _ => None
  end.
(** result.rs:121-141 [hash]: what is fed to the hasher, [ha] and [hb] being what the payloads feed. *)
Definition result_hash (ha hb : list N -> list N) (s : list N) : option (list N) :=
  match is_ok p s with
  | Some true => option_map (fun v => 1%N :: ha v) (slice s (ok_offset da db p) (dsize da))
  | Some false => option_map (fun v => 0%N :: hb v) (slice s (err_offset da db p) (dsize db))
  | None => None
  end.
End Api.
