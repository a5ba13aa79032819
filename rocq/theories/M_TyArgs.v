(** Model of the arguments of [#[stabby::stabby(..)]] on structs, enums and unions, and of
    what they change in the generated code (stabby-macros/src/structs.rs:21-58, 114-147, 201-214, 258-260,
    enums.rs:104-151, 172-222, 556-575, unions.rs:21-54, 70-75, lib.rs:300-352, 424-461). *)
From Coq Require Import String Ascii.
From Coq Require Import List NArith Bool.
From Verif Require Import M_Report.
Import ListNotations.
Local Open Scope string_scope.
Local Open Scope N_scope.
Local Open Scope list_scope.

(** Token trees given to the macro (structs.rs:26-58).  [Int] has the text of an integer literal, [Str] the value of a string
    literal, [Grp] is a delimited group, [Other] any other punctuation, literal or lifetime.  Groups without delimiters,
    which macros by example make, are left out. *)
Inductive tok := Id (s : string) | Comma | Eq | Int (text : string) | Str (bytes : list N) | Grp (l : list tok) | Other (c : N).

(** What the macro is applied to: [Enum repr] is an enum with this representation, [Enum None] one without
    [#[repr(..)]] (enums.rs:225-257; [None] is reported as [repr(stabby)], lib.rs:318-331). *)
Inductive kind := Struct | Enum (repr : option (list N)) | Union.
(** structs.rs:21-25, enums.rs:104-107, unions.rs:21-24 [Args]; the latter have no [optimize], it stays [true]. *)
Record args := Args { optimize : bool; version : N; module : list tok }.
(** structs.rs:28-32, enums.rs:110-113, unions.rs:27-30. *)
Definition no_args : args := Args true 0 [].

(** core: the value of a decimal digit, as [char::to_digit] (structs.rs:40). *)
Definition digit (c : ascii) : option N :=
  let n := N_of_ascii c in if (48 <=? n) && (n <=? 57) then Some (n - 48) else None.
(** core [u32::from_str]: the digits, with the test for overflow (structs.rs:40). *)
Fixpoint digits_u32 (acc : N) (s : string) : option N :=
  match s with
  | EmptyString => Some acc
  | String c r => match digit c with
                  | None => None
                  | Some d => if acc * 10 + d <? 2 ^ 32 then digits_u32 (acc * 10 + d) r else None
                  end
  end.
(** core [u32::from_str]: nothing is an error, a leading [+] is accepted (structs.rs:40). *)
Definition parse_u32 (s : string) : option N :=
  match s with
  | EmptyString => None
  | String c r => if Ascii.eqb c "+" then match r with EmptyString => None | _ => digits_u32 0 r end else digits_u32 0 s
  end.

(** structs.rs:50 [this.module.extend(Some(token))]. *)
Definition push (t : tok) (a : args) : args := Args (optimize a) (version a) (module a ++ [t]).
(** structs.rs:33-56, enums.rs:114-136, unions.rs:31-53: the loops of [parse]; [inside] is the inner loop (structs.rs:44-51).  [None] is
    an error, which the caller unwraps (structs.rs:118, enums.rs:148, unions.rs:68), or a panic (structs.rs:40).  [no_opt] is only there for structs.
    structs.rs:55: one comma is skipped if there is one. *)
Fixpoint go (k : kind) (inside : bool) (a : args) (ts : list tok) : option args :=
  match ts with
  | [] => Some a
  | t :: r =>
      if inside then match t with Comma => go k false a r | _ => go k true (push t a) r end
      else match t with
      | Id s =>
          if String.eqb s "no_opt" then
            match k with
            | Struct => let a' := Args false (version a) (module a) in
                match r with Comma :: r' => go k false a' r' | _ => go k false a' r end
            | _ => None
            end
          else if String.eqb s "version" then
            match r with
            | Eq :: Int l :: r' =>
                match parse_u32 l with
                | None => None
                | Some n => let a' := Args (optimize a) n (module a) in
                    match r' with Comma :: r'' => go k false a' r'' | _ => go k false a' r' end
                end
            | _ => None
            end
          else if String.eqb s "module" then match r with Eq :: r' => go k true a r' | _ => None end
          else None
      | _ => None
      end
  end.
(** [Args::parse], structs.rs:26-58, enums.rs:108-138, unions.rs:25-55. *)
Definition parse (k : kind) (ts : list tok) : option args := go k false no_args ts.

(** rustc, for [Str::new(#module)] of lib.rs:456: a literal directly followed by a literal or by a word other than [as] is no expression. *)
Definition is_lit (t : tok) : bool := match t with Int _ | Str _ => true | _ => false end.
(** rustc, see above (lib.rs:456). *)
Fixpoint juxtaposed (ts : list tok) : bool :=
  match ts with
  | a :: (b :: _) as r => (is_lit a && (is_lit b || match b with Id s => negb (String.eqb s "as") | _ => false end)) || juxtaposed r
  | _ => false
  end.
(** The value of [Str::new(#module)] (lib.rs:456), with the default of lib.rs:309-313, 323-327, 340-344.  [path] is [module_path!()]; the value of an
    expression that is not a literal is given by [ev]; [None] is an error of compilation. *)
Definition module_value (ev : list tok -> option (list N)) (path : list N) (m : list tok) : option (list N) :=
  match m with
  | [] => Some path
  | [Str s] => Some s
  | _ => if juxtaposed m then None else ev m
  end.

(** A field or variant: with a type, reported by its own report, or a variant with several fields (enums.rs:172-222). *)
Inductive field := FTy (r : report) | FVariant (fs : list (list N * report)).
(** A declaration; [size] is the size of the type, [other_size] that of [OptimizedLayoutFor..] (structs.rs:259) or
    [ReprCLayoutFor..] (enums.rs:558), as rustc lays them out; [aligned]: it has [#[repr(align(..))]] (structs.rs:133). *)
Record decl := Decl { d_kind : kind; d_name : list N; d_generic : bool; d_aligned : bool;
                      d_size : N; d_other_size : N; d_fields : list (list N * field) }.

(** enums.rs:174-190, 201-215: the variants have the version and the module of the enum. *)
Definition field_report (v : N) (m : list N) (nf : list N * field) : list N * report :=
  match nf with
  | (n, FTy r) => (n, r)
  | (n, FVariant fs) => (n, macro_report n m v KStruct fs)
  end.
(** lib.rs:315, 329, 346 and enums.rs:274. *)
Definition kind_tyty (k : kind) : tyty :=
  match k with
  | Struct => KStruct
  | Union => KUnion
  | Enum (Some r) => KEnum r
  | Enum None => KEnum [115; 116; 97; 98; 98; 121]     (* "stabby", enums.rs:61 *)
  end.
(** structs.rs:119, 133, 201-214, 258-260; enums.rs:256, 556-575: the assertions on the layout. *)
Definition layout_ok (d : decl) (a : args) : bool :=
  match d_kind d with
  | Struct => negb (optimize a && negb (d_generic d) && negb (d_aligned d)) || (d_size d <=? d_other_size d)
  | Enum None => d_generic d || (d_size d <? d_other_size d)
  | _ => true
  end.
(** [stabby] (structs.rs:102-264, enums.rs:139-, unions.rs:56-) up to [REPORT]; [None]: the declaration does not compile. *)
Definition compile (ev : list tok -> option (list N)) (path : list N) (d : decl) (ts : list tok) : option report :=
  match parse (d_kind d) ts with
  | None => None
  | Some a =>
      match module_value ev path (module a) with
      | None => None
      | Some m =>
          if layout_ok d a
          then Some (macro_report (d_name d) m (version a) (kind_tyty (d_kind d)) (map (field_report (version a) m) (d_fields d)))
          else None
      end
  end.
