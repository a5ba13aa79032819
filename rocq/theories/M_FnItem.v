(** The items that [#[stabby::stabby]] and [#[stabby::export]] generate for functions
    (stabby-macros/src/functions.rs:26-160,306-380, lib.rs:94,107-124), and what Rust accepts of them. *)
From Coq Require Import String.
From Coq Require Import List NArith Arith Bool.
From Verif Require Import M_Generics.
Import ListNotations.
Local Open Scope string_scope.
Local Open Scope list_scope.

(** Types in signatures: whole ones, ones that mention a parameter of the function, ones with an elided lifetime,
    [impl Trait], [!], [Self] and those made by stabby: the type of the report's reference, the type of the function
    itself and its [Option] (functions.rs:316-341).  Which of the user's types are stable is given by an oracle. *)
Inductive ty := TPlain (n : N) | TGen (n : N) | TRef (n : N) | TImpl (n : N) | TNever | TSelf | TReport | TOptFn.
(** Patterns of inputs: a name, [mut] and a name, others (syn's [PatType], functions.rs:129). *)
Inductive pat := PName (n : N) | PMut (n : N) | POther (n : N).
(** Inputs (syn's [FnArg], functions.rs:127-130). *)
Inductive input := Recv | Arg (p : pat) (t : ty).
(** What a body does with an input: borrow it or copy from it, or move it (functions.rs:149 puts it in an async block). *)
Inductive use := Borrows (n : N) | Moves (n : N).
(** Bodies: the user's, the same in [Box::new(async {..}).into()] (functions.rs:149), and those that answer with the function or
    with its report (functions.rs:327,339). *)
Inductive body := Own (b : list use) | InAsync (b : list use) | CheckReport | GetReport.
(** Calling conventions: none, [extern], [extern ".."] (functions.rs:100-123). *)
Inductive abi := ANone | AExtern | ANamed (s : string).
(** A function (syn's [ItemFn], functions.rs:87-101).  Left out: attributes, visibility, variadics (which need a nightly compiler). *)
Record fnitem := Fn { f_const : bool; f_async : bool; f_unsafe : bool; f_abi : abi; f_name : string;
  f_params : list param; f_where : list pred; f_ins : list input; f_out : option ty; f_body : list use }.

(** Arguments of the attribute (functions.rs:39-57): lifetimes, the two known words, other words. *)
Inductive attr := Unsend | Unsync | Lifetime (n : N) | Word (n : N).
(** functions.rs:26-38 [Attrs]: [None] is ['static]. *)
Record attrs := Attrs { a_unsend : bool; a_unsync : bool; a_lt : option N }.
(** functions.rs:29-37 [Attrs::default]. *)
Definition attrs0 : attrs := Attrs false false None.
(** functions.rs:58-77: [parse]; an error makes the macro panic (lib.rs:95). *)
Fixpoint parse_attrs (a : attrs) (l : list attr) : option attrs :=
  match l with
  | [] => Some a
  | Unsend :: r => parse_attrs (Attrs true (a_unsync a) (a_lt a)) r
  | Unsync :: r => parse_attrs (Attrs (a_unsend a) true (a_lt a)) r
  | Lifetime n :: r => parse_attrs (Attrs (a_unsend a) (a_unsync a) (Some n)) r
  | Word _ :: _ => None
  end.

(** Words before [fn] (functions.rs:155). *)
Inductive qual := QConst | QAsync | QUnsafe | QExtern (s : option string).
(** Traits of the future that an async function returns (functions.rs:132-143). *)
Inductive fut := FFuture (o : option ty) | FSend | FSync.
(** Output types: nothing, a type, [Dyn<'lt, Box<()>, vtable>] (functions.rs:132-151). *)
Inductive gout := ONone | OTy (t : ty) | ODyn (lt : option N) (vt : list fut).
(** A generated function: words, name, parameters, where clause, inputs, output, the types that are asserted to be stable, body
    (functions.rs:153-159). *)
Record gfn := Gfn { g_quals : list qual; g_name : string; g_params : list param; g_where : list pred;
  g_ins : list input; g_out : gout; g_asserts : list ty; g_body : body }.

(** The stable conventions (functions.rs:107-118). *)
Definition abis : list string :=
  ["C"; "system"; "stdcall"; "aapcs"; "cdecl"; "fastcall"; "win64"; "sysv64"; "C-unwind"; "system-unwind"].
(** functions.rs:102-123: [None]: panics. *)
Definition gen_abi (a : abi) : option qual :=
  match a with
  | ANone | AExtern => Some (QExtern (Some "C"))
  | ANamed s => if existsb (String.eqb s) abis then Some (QExtern (Some s)) else None
  end.
(** The type that is asserted for an input (functions.rs:127-130). *)
Definition in_ty (i : input) : ty := match i with Recv => TSelf | Arg _ t => t end.
(** functions.rs:79-160 [stabby]: the words are printed as [#unsafety #constness #abi], [#generics] prints no where clause. *)
Definition gen_fn (a : attrs) (f : fnitem) : option gfn :=
  match gen_abi (f_abi f) with
  | None => None
  | Some q =>
      let asserts := match f_out f with Some t => [t] | None => [] end ++ map in_ty (f_ins f) in
      let vt := FFuture (f_out f) :: (if a_unsend a then [] else [FSend]) ++ (if a_unsync a then [] else [FSync]) in
      Some (Gfn ((if f_unsafe f then [QUnsafe] else []) ++ (if f_const f then [QConst] else []) ++ [q])
        (f_name f) (f_params f) [] (f_ins f)
        (if f_async f then ODyn (a_lt a) vt else match f_out f with None => ONone | Some t => OTy t end)
        asserts (if f_async f then InAsync (f_body f) else Own (f_body f)))
  end.
(** lib.rs:94-95: [#[stabby::stabby(..)]] on a function. *)
Definition stabby (l : list attr) (f : fnitem) : option gfn :=
  match parse_attrs attrs0 l with None => None | Some a => gen_fn a f end.

(** The type of a function as [export] writes it: [#asyncness #unsafety #abi fn(#inputs) #output] (functions.rs:319). *)
Record fnty := Fty { t_quals : list qual; t_ins : list input; t_out : option ty }.
(** functions.rs:307-319. *)
Definition signature (f : fnitem) : fnty :=
  Fty ((if f_async f then [QAsync] else []) ++ (if f_unsafe f then [QUnsafe] else []) ++
       match f_abi f with ANone => [] | AExtern => [QExtern None] | ANamed s => [QExtern (Some s)] end) (f_ins f) (f_out f).
(** What [export] generates: three functions, each with [#[no_mangle]], two of which mention the type (functions.rs:342-349). *)
Record exported := Exported { x_def : gfn; x_sig : fnty; x_stabbied : gfn; x_report : gfn }.
(** functions.rs:306-350 [export_with_report]. *)
Definition export (f : fnitem) : option exported :=
  let stabbied := String.append (f_name f) "_stabbied_v3" in
  match gen_fn attrs0 f,
        gen_fn attrs0 (Fn false false false (ANamed "C") stabbied [] [] [Arg (PName 0) TReport] (Some TOptFn) []),
        gen_fn attrs0 (Fn false false false (ANamed "C") (String.append stabbied "_report") [] [] [] (Some TReport) []) with
  | Some d, Some s, Some r =>
      Some (Exported d (signature f) (Gfn (g_quals s) (g_name s) (g_params s) (g_where s) (g_ins s) (g_out s) (g_asserts s) CheckReport)
        (Gfn (g_quals r) (g_name r) (g_params r) (g_where r) (g_ins r) (g_out r) (g_asserts r) GetReport))
  | _, _, _ => None
  end.

(** ** What Rust accepts (rules of the language for the items of functions.rs:153-159,319-341) *)
(** The words before [fn], in Rust's order: [const], [async], [unsafe], [extern] (Rust's grammar; functions.rs:155). *)
Definition p_quals (l : list qual) : option (bool * bool * bool * option (option string)) :=
  let '(c, l1) := match l with QConst :: r => (true, r) | _ => (false, l) end in
  let '(a, l2) := match l1 with QAsync :: r => (true, r) | _ => (false, l1) end in
  let '(u, l3) := match l2 with QUnsafe :: r => (true, r) | _ => (false, l2) end in
  match l3 with
  | [] => Some (c, a, u, None)
  | [QExtern s] => Some (c, a, u, Some s)
  | _ => None
  end.
(** Can the type be written in [AssertStable::<..>] in a body (rules of the language; functions.rs:83)? *)
Definition nameable (t : ty) : bool := match t with TImpl _ | TNever => false | _ => true end.
(** An async block that is not [move] must not borrow the inputs (rules of the language; functions.rs:149). *)
Definition body_ok (b : body) : bool :=
  match b with InAsync l => forallb (fun u => match u with Borrows _ => false | Moves _ => true end) l | _ => true end.
(** A generated function, given which types are stable (rules of the language; functions.rs:153-159). *)
Definition gfn_ok (stable : ty -> bool) (g : gfn) : bool :=
  match p_quals (g_quals g) with
  | None => false
  | Some (c, a, _, _) => negb (c && a) && forallb (fun t => nameable t && stable t) (g_asserts g) && body_ok (g_body g)
  end.
(** May the input be part of the type of a function (rules of the language; functions.rs:319)?  Types that mention
    parameters are out of scope there. *)
Definition in_sig (i : input) : bool :=
  match i with
  | Recv => false
  | Arg (PName _) (TPlain _ | TRef _) => true
  | Arg _ _ => false
  end.
(** As above, for the output (rules of the language; functions.rs:319). *)
Definition out_sig (o : option ty) : bool := match o with None | Some (TPlain _) | Some (TRef _) | Some TNever => true | _ => false end.
(** Is it a type of Rust (rules of the language; functions.rs:319)? *)
Definition fnty_ok (t : fnty) : bool :=
  match p_quals (t_quals t) with
  | Some (false, false, _, _) => forallb in_sig (t_ins t) && out_sig (t_out t)
  | _ => false
  end.
(** Is it one of the types of functions that implement [IStable] (stable_impls/mod.rs:849-910)?  One with elided lifetimes is
    [for<'a> fn(&'a T)], which is none of them. *)
Definition fnty_stable (stable : ty -> bool) (t : fnty) : bool :=
  match p_quals (t_quals t) with
  | Some (_, _, _, Some s) =>
      existsb (String.eqb (match s with None => "C" | Some s => s end)) ["C"; "C-unwind"] &&
      forallb (fun i => match in_ty i with TPlain n => stable (TPlain n) | _ => false end) (t_ins t) &&
      match t_out t with None => true | Some (TPlain n) => stable (TPlain n) | Some _ => false end &&
      (length (t_ins t) <=? 15)%nat
  | _ => false
  end.
(** Can the function be used as a value of that type (rules of the language; functions.rs:327)?  The convention and safety are the same, and
    nothing is left to infer. *)
Definition coerces (g : gfn) (t : fnty) : bool :=
  match p_quals (g_quals g), p_quals (t_quals t) with
  | Some (_, _, u, Some s), Some (_, _, u', s') =>
      let c x := match x with None => "C" | Some s => s end in
      match s' with Some s1 => String.eqb (c s) (c s1) | None => false end && implb u u' &&
      forallb is_lt (g_params g)
  | _, _ => false
  end.
(** All that [export] generates (rules of the language; functions.rs:306-350). *)
Definition exported_ok (stable : ty -> bool) (x : exported) : bool :=
  let st t := match t with TReport => true | TOptFn => fnty_stable stable (x_sig x) | _ => stable t end in
  gfn_ok stable (x_def x) && fnty_ok (x_sig x) && fnty_stable stable (x_sig x) && coerces (x_def x) (x_sig x) &&
  gfn_ok st (x_stabbied x) && gfn_ok st (x_report x).
