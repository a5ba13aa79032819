(** Model of the conversions of [Option] and [Result] with the standard ones
    (stabby-abi/src/option.rs, stabby-abi/src/result.rs), and of the code generated
    for [#[repr(stabby)]] enums (stabby-macros/src/enums.rs). *)
From Coq Require Import List Arith NArith Bool.
From Verif Require Import M_Layout M_Result.
Import ListNotations.

(** ** Conversions *)

(** option.rs:36-51 [From<core::Option<T>> for Option<T>] (and the constructors 78-89).
    A payload is the list of its bytes; [None]: an access outside the object. *)
Definition option_from_core (d : desc) (p : fprovider) (v : option (list N)) : option (list N) :=
  match v with
  | Some x => mk_ok d unit_d p x
  | None => mk_err d unit_d p []
  end.
(** option.rs:52-58 [From<Option<T>> for core::Option<T>]: [value.inner.ok()],
    result.rs:392-394. *)
Definition option_into_core (d : desc) (p : fprovider) (s : list N) : option (option (list N)) :=
  match match_result d unit_d p s with
  | Some (inl x) => Some (Some x)
  | Some (inr _) => Some None
  | None => None
  end.
(** option.rs:160-162 [is_some]. *)
Definition option_is_some (p : fprovider) (s : list N) : option bool := is_ok p s.
(** result.rs:161-172 [From<core::Result<Ok, Err>>]. *)
Definition result_from_core (a b : desc) (p : fprovider) (v : list N + list N) : option (list N) :=
  match v with
  | inl x => mk_ok a b p x
  | inr x => mk_err a b p x
  end.
(** result.rs:173-181 [From<Result<Ok, Err>> for core::Result<Ok, Err>]: [match_owned(Ok, Err)]. *)
Definition result_into_core (a b : desc) (p : fprovider) (s : list N) : option (list N + list N) :=
  match_result a b p s.
(** result.rs:416-421 [map]; [q] is the provider of the new type [Result<U, Err>]. *)
Definition result_map (a b c : desc) (p q : fprovider) (f : list N -> list N) (s : list N)
  : option (list N) :=
  match match_result a b p s with
  | Some (inl x) => mk_ok c b q (f x)
  | Some (inr x) => mk_err c b q x
  | None => None
  end.
(** result.rs:423-428 [and_then]. *)
Definition result_and_then (a b c : desc) (p q : fprovider) (f : list N -> option (list N)) (s : list N)
  : option (list N) :=
  match match_result a b p s with
  | Some (inl x) => f x
  | Some (inr x) => mk_err c b q x
  | None => None
  end.

(** ** Enums *)

(** enums.rs:382-395 [Variants::recursion]; [None]: the index of the empty slice panics.
    [fuel] bounds the depth, the number of variants is enough. *)
Fixpoint recursion {A U} (leaf : A -> U) (join : U -> U -> U) (fuel : nat) (vs : list A) : option U :=
  match fuel with
  | O => None
  | S fuel' =>
      match vs with
      | [] => None
      | [v] => Some (leaf v)
      | _ =>
          let k := length vs / 2 in
          match recursion leaf join fuel' (firstn k vs), recursion leaf join fuel' (skipn k vs) with
          | Some l, Some r => Some (join l r)
          | _, _ => None
          end
      end
  end.
(** enums.rs:396-402 [Variants::map]. *)
Definition vmap {A U} (leaf : A -> U) (join : U -> U -> U) (vs : list A) : option U :=
  recursion leaf join (length vs) vs.
(** enums.rs:403-420 [Variants::map_with_finalizer]. *)
Definition vmap_final {A U V} (leaf : A -> U) (join : U -> U -> U) (fin : U -> U -> V) (vs : list A)
  : option V :=
  let k := length vs / 2 in
  match recursion leaf join (length vs) (firstn k vs), recursion leaf join (length vs) (skipn k vs) with
  | Some l, Some r => Some (fin l r)
  | _, _ => None
  end.

(** enums.rs:436-438: single-member enums are refused. *)
Definition enum_ty (vs : list ty) : option ty :=
  if Nat.ltb (length vs) 2 then None else vmap (fun t => t) TResult vs.

(** enums.rs:471-495: the expression [Result::Ok(Result::Err(..value..))] of each
    constructor, as the list of its constructors from the outside
    ([true]: [Ok]). *)
Definition enum_paths (vs : list ty) : option (list (list bool)) :=
  vmap (fun _ => [[]]) (fun a b => map (cons true) a ++ map (cons false) b) vs.
(** Evaluation of such an expression at type [t] on the payload [v] (enums.rs:471-495, calling result.rs:240-263). *)
Fixpoint eval_path (t : ty) (path : list bool) (v : list N) : option (list N) :=
  match path, t with
  | [], _ => Some v
  | b :: path', TResult ta tb =>
      match layout ta, layout tb with
      | Some da, Some db =>
          match provider_of da db with
          | Some p =>
              match eval_path (if b then ta else tb) path' v with
              | Some x => if b then mk_ok da db p x else mk_err da db p x
              | None => None
              end
          | None => None
          end
      | _, _ => None
      end
  | _ :: _, _ => None
  end.
(** enums.rs:613-618: the [i]-th constructor. *)
Definition enum_new (vs : list ty) (i : nat) (v : list N) : option (list N) :=
  match enum_ty vs, enum_paths vs with
  | Some t, Some ps =>
      match nth_error ps i with Some path => eval_path t path v | None => None end
  | _, _ => None
  end.

(** enums.rs:496-505 the generated matcher: a tree of closures, the leaves being
    the arguments of the function, named by their index. *)
Inductive matcher := MLeaf (i : nat) | MNode (a b : matcher).
(** enums.rs:496-517: the tree for the given variants. *)
Definition enum_matcher (vs : list ty) : option matcher :=
  vmap_final MLeaf MNode MNode (seq 0 (length vs)).
(** Running the closures on the bytes [s] of a value of type [t]: index of the
    closure called and bytes of its argument (enums.rs:496-505, calling result.rs:272-282). *)
Fixpoint run_matcher (m : matcher) (t : ty) (s : list N) : option (nat * list N) :=
  match m, t with
  | MLeaf i, _ => Some (i, s)
  | MNode ma mb, TResult ta tb =>
      match layout ta, layout tb with
      | Some da, Some db =>
          match provider_of da db with
          | Some p =>
              match match_result da db p s with
              | Some (inl x) => run_matcher ma ta x
              | Some (inr x) => run_matcher mb tb x
              | None => None
              end
          | None => None
          end
      | _, _ => None
      end
  | MNode _ _, _ => None
  end.
(** enums.rs:620-629 [match_owned]/[match_ref]. *)
Definition enum_match (vs : list ty) (s : list N) : option (nat * list N) :=
  match enum_ty vs, enum_matcher vs with
  | Some t, Some m => run_matcher m t s
  | _, _ => None
  end.
(** enums.rs:518-525 [match_mut]: each level holds a guard; the leaf closure
    overwrites the payload of closure [i] with [f i]; guards are dropped from the inside. *)
Fixpoint run_mut (m : matcher) (t : ty) (f : nat -> list N) (s : list N) : option (list N) :=
  match m, t with
  | MLeaf i, _ => Some (f i)
  | MNode ma mb, TResult ta tb =>
      match layout ta, layout tb with
      | Some da, Some db =>
          match provider_of da db with
          | Some p =>
              match match_result da db p s with
              | Some (inl x) =>
                  match run_mut ma ta f x with
                  | Some x' => ok_guard_write da db p s x'
                  | None => None
                  end
              | Some (inr x) =>
                  match run_mut mb tb f x with
                  | Some x' => err_guard_write da db p s x'
                  | None => None
                  end
              | None => None
              end
          | None => None
          end
      | _, _ => None
      end
  | MNode _ _, _ => None
  end.
(** enums.rs:630-634 [match_mut]. *)
Definition enum_mut (vs : list ty) (f : nat -> list N) (s : list N) : option (list N) :=
  match enum_ty vs, enum_matcher vs with
  | Some t, Some m => run_mut m t f s
  | _, _ => None
  end.
