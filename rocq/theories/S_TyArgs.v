(** What the arguments of [#[stabby::stabby(..)]] on a type are meant to say: a list of settings with commas
    between them (CHANGELOG.md:86, stabby/TUTORIAL.md:188-190). *)
From Coq Require Import String Ascii.
From Coq Require Import List NArith Bool.
From Verif Require Import M_Report M_TyArgs.
Import ListNotations.
Local Open Scope string_scope.
Local Open Scope N_scope.
Local Open Scope list_scope.

(** A setting, as written by the user: the version is the text of an integer literal, the module an expression. *)
Inductive setting := NoOpt | Version (text : string) | Module (e : list tok).
(** As it is written. *)
Definition written (s : setting) : list tok :=
  match s with
  | NoOpt => [Id "no_opt"]
  | Version l => [Id "version"; Eq; Int l]
  | Module e => Id "module" :: Eq :: e
  end.
(** Settings with a comma between any two; [trail]: and one at the end. *)
Fixpoint written_all (ss : list setting) (trail : bool) : list tok :=
  match ss with
  | [] => []
  | [s] => written s ++ (if trail then [Comma] else [])
  | s :: r => written s ++ Comma :: written_all r trail
  end.

(** Integer literals of Rust (the reference, "Integer literals"): the value of a digit in a base. *)
Definition digit_in (base : N) (c : ascii) : option N :=
  let n := N_of_ascii c in
  let v := if (48 <=? n) && (n <=? 57) then Some (n - 48)
           else if (97 <=? n) && (n <=? 102) then Some (n - 87)
           else if (65 <=? n) && (n <=? 70) then Some (n - 55) else None in
  match v with Some d => if d <? base then Some d else None | None => None end.
(** The suffixes of integer literals. *)
Definition suffixes : list string :=
  ["u8"; "u16"; "u32"; "u64"; "u128"; "usize"; "i8"; "i16"; "i32"; "i64"; "i128"; "isize"].
(** Digits and underscores, with at least one digit, then a suffix or nothing. *)
Fixpoint int_digits (base acc : N) (some : bool) (s : string) : option N :=
  match s with
  | EmptyString => if some then Some acc else None
  | String c r =>
      match digit_in base c with
      | Some d => int_digits base (acc * base + d) true r
      | None => if Ascii.eqb c "_" then int_digits base acc some r
                else if some && existsb (String.eqb s) suffixes then Some acc else None
      end
  end.
(** The value of an integer literal. *)
Definition int_value (s : string) : option N :=
  match s with
  | String c r =>
      match digit_in 10 c with
      | None => None
      | Some _ =>
          match r with
          | String p r' =>
              if Ascii.eqb c "0" && Ascii.eqb p "x" then int_digits 16 0 false r'
              else if Ascii.eqb c "0" && Ascii.eqb p "o" then int_digits 8 0 false r'
              else if Ascii.eqb c "0" && Ascii.eqb p "b" then int_digits 2 0 false r'
              else int_digits 10 0 false s
          | EmptyString => int_digits 10 0 false s
          end
      end
  | EmptyString => None
  end.

(** What is asked for: the last version, zero without one; *)
Fixpoint last_version (v : option N) (ss : list setting) : option N :=
  match ss with [] => v | Version l :: r => last_version (int_value l) r | _ :: r => last_version v r end.
Definition asked_version (ss : list setting) : option N := last_version (Some 0) ss.
(** the last module, none without one; *)
Fixpoint last_module (m : list tok) (ss : list setting) : list tok :=
  match ss with [] => m | Module e :: r => last_module e r | _ :: r => last_module m r end.
Definition asked_module (ss : list setting) : list tok := last_module [] ss.
(** and that the layout is not looked at. *)
Definition asked_no_opt (ss : list setting) : bool := existsb (fun s => match s with NoOpt => true | _ => false end) ss.

(** The settings make sense: versions are integer literals of at most 32 bits; expressions begin with something other than a comma;
    only structs have [no_opt]. *)
Definition sensible (k : kind) (s : setting) : Prop :=
  match s with
  | NoOpt => k = Struct
  | Version l => exists n, int_value l = Some n /\ n < 2 ^ 32
  | Module e => match e with [] | Comma :: _ => False | _ => True end
  end.

(** The arguments say to the macro what they are meant to say. *)
Definition understood (k : kind) (ss : list setting) (trail : bool) : Prop :=
  exists a, parse k (written_all ss trail) = Some a /\
    asked_version ss = Some (version a) /\ asked_module ss = module a /\ asked_no_opt ss = negb (optimize a).

(** Only digits. *)
Fixpoint decimal (s : string) : bool :=
  match s with EmptyString => true | String c r => match digit_in 10 c with Some _ => decimal r | None => false end end.
Definition is_comma (t : tok) : bool := match t with Comma => true | _ => false end.
Definition is_module (s : setting) : bool := match s with Module _ => true | _ => false end.
(** The settings that are understood: decimal versions without suffix or underscores, at most one module, no commas in it outside delimiters. *)
Definition plain (s : setting) : bool :=
  match s with NoOpt => true | Version l => decimal l | Module e => negb (existsb is_comma e) end.
Definition supported (ss : list setting) : Prop :=
  forallb plain ss = true /\ (length (filter is_module ss) <= 1)%nat.

(** The layout of the declaration is accepted: as the README (line 39) and the documentation of [has_optimal_layout] say. *)
Definition layout_fine (d : decl) (no_opt : bool) : Prop :=
  match d_kind d with
  | Struct => no_opt = true \/ d_generic d = true \/ d_aligned d = true \/ d_size d <= d_other_size d
  | Enum None => d_generic d = true \/ d_size d < d_other_size d
  | _ => True
  end.
