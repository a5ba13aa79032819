(** Model of the canaries of stabby-macros/src/functions.rs and of their use when linking
    (functions.rs) and when loading a library (stabby/src/libloading.rs).
    Strings are lists of Unicode scalar values. *)
From Coq Require Import List Arith NArith Bool Ascii String.
Import ListNotations.
Local Open Scope N_scope.

(** String literals of the source (those of functions.rs:172-181). *)
Definition str (s : string) : list N := map N_of_ascii (list_ascii_of_string s).
Arguments str _%string.
(** Equality of strings (functions.rs:199). *)
Fixpoint str_eqb (a b : list N) : bool :=
  match a, b with
  | [], [] => true
  | x :: a', y :: b' => N.eqb x y && str_eqb a' b'
  | _, _ => false
  end.

(** functions.rs:161-182 [CanarySpec::ARRAY]. *)
Definition canary_array : list (list N * N) :=
  [ (str "paranoid", 63); (str "none", 0); (str "rustc", 1); (str "opt_level", 2);
    (str "target", 16); (str "num_jobs", 8); (str "debug", 4); (str "host", 32) ].

(** core char::is_alphabetic (functions.rs:191).  Simplification: every scalar value out of ASCII
    counts as alphabetic; no name contains one, so a request with one is refused either way. *)
Definition is_alphabetic (c : N) : bool :=
  (65 <=? c) && (c <=? 90) || (97 <=? c) && (c <=? 122) || (128 <=? c).
(** core str::split(',') (functions.rs:196): the pieces between the commas. *)
Fixpoint split_comma (s : list N) : list (list N) :=
  match s with
  | [] => [[]]
  | c :: r =>
      if N.eqb c 44 then [] :: split_comma r
      else match split_comma r with
           | p :: ps => (c :: p) :: ps
           | [] => [[c]]
           end
  end.
(** core str::trim_start (functions.rs:196); the only white space that gets there is ' '. *)
Fixpoint trim_start (s : list N) : list N :=
  match s with
  | c :: r => if N.eqb c 32 then trim_start r else s
  | [] => []
  end.
(** core str::trim (functions.rs:196). *)
Definition trim (s : list N) : list N := rev (trim_start (rev (trim_start s))).
(** functions.rs:197-204 [find_map]. *)
Fixpoint find_canary (l : list (list N * N)) (request : list N) : option N :=
  match l with
  | [] => None
  | (name, spec) :: r => if str_eqb name request then Some spec else find_canary r request
  end.
(** functions.rs:196-206, the loop. *)
Fixpoint parse_requests (this : N) (l : list (list N)) : option N :=
  match l with
  | [] => Some this
  | r :: l' =>
      match find_canary canary_array (trim r) with
      | Some spec => parse_requests (N.lor this spec) l'
      | None => None
      end
  end.
(** functions.rs:185-208 [FromStr::from_str]; [None] for the errors. *)
Definition from_str (s : list N) : option N :=
  match s with
  | [] => Some 63
  | _ =>
      if existsb (fun c => negb (is_alphabetic c || N.eqb c 32 || N.eqb c 44)) s then None
      else parse_requests 0 (split_comma s)
  end.

(** functions.rs:226-237 [Canaries::next]: the item and the new shift.  [None] if the shift
    overflows (the candidate is a u16); [fuel] bounds the loop, 16 turns are enough. *)
Fixpoint canaries_next (fuel : nat) (spec shift : N) : option (option N * N) :=
  match fuel with
  | O => None
  | S fuel =>
      if 16 <=? shift then None
      else let candidate := N.shiftl 1 shift in
           if spec <? candidate then Some (None, shift)
           else if negb (N.eqb (N.land candidate spec) 0) then Some (Some candidate, shift + 1)
           else canaries_next fuel spec (shift + 1)
  end.
(** functions.rs:210-223,441: iterating over the canaries of a specification, to the end. *)
Fixpoint canaries_from (n : nat) (spec shift : N) : option (list N) :=
  match n with
  | O => None
  | S n =>
      match canaries_next 17 spec shift with
      | None => None
      | Some (None, _) => Some []
      | Some (Some c, shift') =>
          match canaries_from n spec shift' with Some l => Some (c :: l) | None => None end
      end
  end.
(** functions.rs:210-223,441 [into_iter]. *)
Definition canaries (spec : N) : option (list N) := canaries_from 17 spec 0.

(** core char::is_ascii_alphanumeric (functions.rs:255). *)
Definition is_alnum (c : N) : bool :=
  (48 <=? c) && (c <=? 57) || (65 <=? c) && (c <=? 90) || (97 <=? c) && (c <=? 122).
(** core formatting [{:x}] of a digit (functions.rs:258). *)
Definition hex_digit (d : N) : N := if d <? 10 then 48 + d else 87 + d.
(** core formatting [{:x}] (functions.rs:258) of a number below 16^fuel. *)
Fixpoint hex_aux (fuel : nat) (n : N) (acc : list N) : list N :=
  match fuel with
  | O => acc
  | S fuel =>
      let acc := hex_digit (n mod 16) :: acc in
      if n <? 16 then acc else hex_aux fuel (n / 16) acc
  end.
(** core formatting [{:x}] of a char as u32 (functions.rs:258). *)
Definition hex (c : N) : list N := hex_aux 8 c [].
(** functions.rs:251-262 [fix]. *)
Fixpoint fix_ (source : list N) : list N :=
  match source with
  | [] => []
  | c :: r => (if is_alnum c || N.eqb c 95 then [c] else 95 :: hex c ++ [95]) ++ fix_ r
  end.

(** The build environment recorded by stabby-macros/build.rs (functions.rs:20-24).
    [commit] is at least eight bytes long, otherwise the macro panics. *)
Record env := Env {
  rustc_major : list N; rustc_minor : list N; rustc_patch : list N; rustc_commit : list N;
  opt_level : list N; debug : bool; num_jobs : list N; target : list N; host : list N
}.
(** functions.rs:245-250 [BitAnd]. *)
Definition has (this bit : N) : bool := negb (N.eqb (N.land this bit) 0).
(** functions.rs:263-291 [Display]. *)
Definition display (e : env) (this : N) : list N :=
  (str "_canary"
   ++ (if has this 1 then str "_rustc_" ++ rustc_major e ++ str "_" ++ rustc_minor e ++ str "_"
                          ++ rustc_patch e ++ str "_" ++ firstn 8 (rustc_commit e) else [])
   ++ (if has this 2 then str "_optlevel" ++ opt_level e else [])
   ++ (if has this 4 then str "_debug" ++ (if debug e then str "1" else str "0") else [])
   ++ (if has this 8 then str "_numjobs" ++ num_jobs e else [])
   ++ (if has this 16 then str "_target_" ++ fix_ (target e) else [])
   ++ (if has this 32 then str "_host_" ++ fix_ (host e) else []))%list.

(** functions.rs:293-305 [export_canaried]: the symbols exported with function [ident]. *)
Definition export_canaried (e : env) (ident : list N) : list (list N) :=
  ident :: map (fun i => ident ++ display e (N.shiftl 1 i)) [0; 1; 2; 3; 4; 5].
(** functions.rs:436-458 [import]: the symbols required for function [ident]. *)
Definition import_symbols (e : env) (ident : list N) (spec : N) : option (list (list N)) :=
  match canaries spec with
  | Some l => Some (ident :: map (fun c => ident ++ display e c) l)
  | None => None
  end.
(** The linker's requirement: each imported symbol is exported (README.md:100-101). *)
Definition links (required exported : list (list N)) : bool :=
  forallb (fun s => existsb (str_eqb s) exported) required.
(** stabby/src/libloading.rs:109-130 [get_canaried]: whether the symbol is given;
    the suffixes are those of stabby-macros/src/lib.rs:473-482. *)
Definition get_canaried (e : env) (symbol : list N) (exported : list (list N)) : bool :=
  existsb (str_eqb symbol) exported &&
  forallb (fun spec => existsb (str_eqb (symbol ++ display e spec)) exported) [1; 2; 4; 16; 8].
