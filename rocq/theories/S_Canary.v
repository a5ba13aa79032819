(** What users of canaries rely on. *)
From Coq Require Import List Arith NArith Bool String.
From Verif Require Import M_Canary.
Import ListNotations.
Local Open Scope N_scope.

(** The documented canaries (README.md:100-109) and their bits. *)
Inductive canary := Rustc | OptLevel | Debug | NumJobs | Target | Host.
Definition all_canaries : list canary := [Rustc; OptLevel; Debug; NumJobs; Target; Host].
Definition bit_of (c : canary) : N :=
  match c with Rustc => 0 | OptLevel => 1 | Debug => 2 | NumJobs => 3 | Target => 4 | Host => 5 end.
Definition selects (spec : N) (c : canary) : Prop := N.testbit spec (bit_of c) = true.

(** The documented names, and the canaries each one selects. *)
Inductive names_canaries : list N -> list canary -> Prop :=
| NParanoid : names_canaries (str "paranoid") all_canaries
| NNone : names_canaries (str "none") []
| NRustc : names_canaries (str "rustc") [Rustc]
| NOpt : names_canaries (str "opt_level") [OptLevel]
| NTarget : names_canaries (str "target") [Target]
| NJobs : names_canaries (str "num_jobs") [NumJobs]
| NDebug : names_canaries (str "debug") [Debug]
| NHost : names_canaries (str "host") [Host].

(** A request: a name with spaces around it. *)
Definition spaces (n : nat) : list N := repeat 32 n.
Definition padded (r : nat * list N * nat) : list N :=
  let '(a, name, b) := r in spaces a ++ name ++ spaces b.
(** A comma-separated list of requests. *)
Fixpoint join (l : list (list N)) : list N :=
  match l with
  | [] => []
  | [x] => x
  | x :: r => x ++ [44] ++ join r
  end.
Definition request_name (r : nat * list N * nat) : list N := snd (fst r).

(** Canary [c] is selected by one of the names. *)
Definition requested (l : list (list N)) (c : canary) : Prop :=
  exists n cs, In n l /\ names_canaries n cs /\ In c cs.

(** What a build environment says about a canary. *)
Definition same_payload (e e' : env) (c : canary) : Prop :=
  match c with
  | Rustc => rustc_major e = rustc_major e' /\ rustc_minor e = rustc_minor e' /\
             rustc_patch e = rustc_patch e' /\ firstn 8 (rustc_commit e) = firstn 8 (rustc_commit e')
  | OptLevel => opt_level e = opt_level e'
  | Debug => debug e = debug e'
  | NumJobs => num_jobs e = num_jobs e'
  | Target => target e = target e'
  | Host => host e = host e'
  end.

(** Strings in which [fix] cannot be misled: no '_', hexadecimal code of a character that is to be
    escaped, then '_' or a character that is to be escaped. *)
Definition escaped (c : N) : bool := negb (is_alnum c || N.eqb c 95).
Definition looks_escaped (s : list N) : Prop :=
  exists c d r, s = 95 :: hex c ++ d :: r /\ escaped c = true /\ c < 16 ^ 8 /\ (d = 95 \/ escaped d = true).
Definition clean (s : list N) : Prop := forall a b, s = a ++ b -> ~ looks_escaped b.

(** Environments as build.rs writes them: versions are decimal numbers, triples are clean. *)
Definition no_underscore (s : list N) : Prop := ~ In 95 s.
Definition good_env (e : env) : Prop :=
  no_underscore (rustc_major e) /\ no_underscore (rustc_minor e) /\ no_underscore (rustc_patch e) /\
  clean (target e) /\ clean (host e) /\
  Forall (fun c => c < 1114112) (target e) /\ Forall (fun c => c < 1114112) (host e).
(** Characters of identifiers of Rust, in ASCII. *)
Definition id_char (c : N) : Prop := 48 <= c <= 57 \/ 65 <= c <= 90 \/ c = 95 \/ 97 <= c <= 122.
(** The strings of the environment that are used as they are have no others. *)
Definition id_env (e : env) : Prop :=
  Forall id_char (rustc_major e) /\ Forall id_char (rustc_minor e) /\ Forall id_char (rustc_patch e) /\
  Forall id_char (rustc_commit e) /\ Forall id_char (opt_level e) /\ Forall id_char (num_jobs e).
