(** Model of [#[stabby::import(..)]] (stabby-macros/src/functions.rs:381-502): the module that is generated for an [extern] block, what Rust accepts of it, and what the
    names that it gives to the user are.  Left out: attributes of the block, extern types (which need a nightly compiler), attributes of functions but [#[cfg(..)]]. *)
From Coq Require Import String.
From Coq Require Import List Arith NArith Bool.
From Verif Require Import M_Canary.
Import ListNotations.

(** Paths of types in signatures (functions.rs:444, 470): [crate::..], [::krate::..], a name, [self::..], [super::super::..] ([k] more than one). *)
Inductive path := PCrate (l : list N) | PGlobal (l : list N) | PName (l : list N) | PSelf (l : list N) | PSuper (k : nat) (l : list N).
(** The types that exist: those of the crate, by module and name (items and [use]s), those in scope everywhere (the prelude, primitives, and those named from a crate), those
    named from [::] (rules of the language, for functions.rs:444, 470). *)
Record world := World { w_items : list N -> option N; w_prelude : list N -> option N; w_global : list N -> option N }.
(** The type of a path in module [m] (rules of the language, for functions.rs:490-501): the module itself has precedence on what is in scope everywhere. *)
Definition resolve (w : world) (m : list N) (p : path) : option N :=
  match p with
  | PCrate l => w_items w l
  | PGlobal l => w_global w l
  | PName l => match w_items w (m ++ l) with Some t => Some t | None => w_prelude w l end
  | PSelf l => w_items w (m ++ l)
  | PSuper k l => if S k <=? length m then w_items w (firstn (length m - S k) m ++ l) else None
  end.
(** All or nothing, for lists (the [unwrap]s and panics of functions.rs:411-489). *)
Fixpoint mapM {A B} (f : A -> option B) (l : list A) : option (list B) :=
  match l with
  | [] => Some []
  | a :: l => match f a, mapM f l with Some b, Some r => Some (b :: r) | _, _ => None end
  end.
(** A type of a signature (functions.rs:470): how it is built, from which paths, and whether a lifetime is elided in it. *)
Record ty := Ty { t_shape : N; t_paths : list path; t_elided : bool }.
(** The same once its paths are known (rules of the language, for functions.rs:470). *)
Record rty := RTy { r_shape : N; r_types : list N; r_elided : bool }.
(** The type that is meant in module [m] (rules of the language, for functions.rs:490-501). *)
Definition resolve_ty (w : world) (m : list N) (t : ty) : option rty :=
  option_map (fun l => RTy (t_shape t) l (t_elided t)) (mapM (resolve w m) (t_paths t)).
(** Inputs and output (functions.rs:437, 465). *)
Definition resolve_out (w : world) (m : list N) (o : option ty) : option (option rty) :=
  match o with None => Some None | Some t => option_map Some (resolve_ty w m t) end.

(** A function of the block (syn's [ForeignItemFn], functions.rs:437, 465): visibility, whether its [#[cfg(..)]] hold, words, name, lifetimes, inputs, output, [...]. *)
Record fdecl := FDecl { d_vis : N; d_cfg : bool; d_unsafe : bool; d_async : bool; d_name : list N; d_lts : list N; d_ins : list ty; d_out : option ty;
  d_variadic : bool }.
(** Items of the block, functions.rs:436-487. *)
Inductive fitem := IFn (f : fdecl) | IStatic (n : list N) (t : ty).

(** Convention of a block or of a type: [None] is [extern] alone (functions.rs:426-427). *)
Definition abi := option (list N).
(** The type of a function as it is printed: [#unsafety #abi fn #generics(#inputs)#output] (functions.rs:447, 470). *)
Record fnty := Fty { y_unsafe : bool; y_abi : abi; y_lts : list N; y_ins : list ty; y_out : option ty }.
(** What the generated block has: the item as it was (functions.rs:438), a canary (functions.rs:442), the two functions of an export (functions.rs:471-474). *)
Inductive ext := XFn (f : fdecl) | XCanary (n : list N) | XReport (n : list N) | XStabbied (n : list N) (y : fnty).
(** What comes after the block: the function that calls canaries (functions.rs:449-451), a [CanariedImport] (functions.rs:454), a [CheckedImport] (functions.rs:475-478). *)
Inductive intern := NCanaries (n : list N) (calls : list (list N)) | NCanaried (n : list N) (y : fnty) (f canaries : list N)
| NChecked (n : list N) (y : fnty) (stabbied report : list N).
(** The [use] that gives a name to the user (functions.rs:456, 479). *)
Record use := Use { u_vis : N; u_in : list N; u_as : list N }.
(** What one item generates (functions.rs:436-458, 464-480). *)
Record group := Group { g_ext : list ext; g_int : list intern; g_use : use }.
(** The module (functions.rs:490-501). *)
Record gmod := GMod { g_link : list (list N * list N); g_abi : abi; g_groups : list group }.

(** ImportArgs::parse, functions.rs:403-419, on [ident = ".."] arguments: the canaries asked for, the arguments of [#[link(..)]]; [None] is a panic. *)
Fixpoint parse_args (l : list (list N * list N)) (can : option N) (link : list (list N * list N)) : option (option N * list (list N * list N)) :=
  match l with
  | [] => Some (can, link)
  | (k, v) :: l =>
      if str_eqb k (str "canaries") then match from_str v with Some c => parse_args l (Some c) link | None => None end
      else parse_args l can (link ++ [(k, v)])
  end.
(** functions.rs:436-458. *)
Definition gen_canaried (e : env) (c : N) (a : abi) (it : fitem) : option group :=
  match it, canaries c with
  | IFn f, Some l =>
      let ids := map (fun x => d_name f ++ display e x) l in
      let canaries_fn := d_name f ++ str "_canaries_fn" in
      let canaried := d_name f ++ str "_canaried" in
      let y := Fty true a (d_lts f) (d_ins f) (d_out f) in
      Some (Group (XFn f :: map XCanary ids) [NCanaries canaries_fn ids; NCanaried canaried y (d_name f) canaries_fn] (Use (d_vis f) canaried (d_name f)))
  | _, _ => None
  end.
(** functions.rs:464-486. *)
Definition gen_checked (a : abi) (it : fitem) : option group :=
  match it with
  | IFn f =>
      if d_async f then None
      else
        let stabbied := d_name f ++ str "_stabbied_v3" in
        let report := stabbied ++ str "_report" in
        let y := Fty (d_unsafe f) a (d_lts f) (d_ins f) (d_out f) in
        Some (Group [XReport report; XStabbied stabbied y] [NChecked (d_name f) y stabbied report] (Use (d_vis f) (d_name f) (d_name f)))
  | IStatic _ _ => None
  end.
(** functions.rs:422-502 [import]; [None]: it panics. *)
Definition import (e : env) (args : list (list N * list N)) (a : abi) (items : list fitem) : option gmod :=
  match parse_args args None [] with
  | None => None
  | Some (can, link) =>
      option_map (GMod link a) (mapM (match can with Some c => gen_canaried e c a | None => gen_checked a end) items)
  end.

(** ** What Rust accepts (rules of the language for the module of functions.rs:490-501) *)
(** The conventions of Rust that are stable (rules of the language, for functions.rs:494). *)
Definition rust_abis : list (list N) :=
  [str "C"; str "C-unwind"; str "system"; str "system-unwind"; str "Rust"; str "stdcall"; str "aapcs"; str "cdecl"; str "fastcall"; str "win64"; str "sysv64"; str "efiapi"].
(** [extern] alone is [extern "C"] (rules of the language, for functions.rs:494). *)
Definition abi_name (a : abi) : list N := match a with None => str "C" | Some s => s end.
(** Repeated elements (rules of the language, for functions.rs:490-501). *)
Fixpoint nodup_b (l : list (list N)) : bool := match l with [] => true | x :: l => negb (existsb (str_eqb x) l) && nodup_b l end.
(** [#[link(..)]] has a name that is not empty, known arguments, each once (rules of the language, for functions.rs:493). *)
Definition link_ok (l : list (list N * list N)) : bool :=
  existsb (fun kv => str_eqb (fst kv) (str "name") && negb (str_eqb (snd kv) [])) l &&
  forallb (fun kv => existsb (str_eqb (fst kv)) [str "name"; str "kind"; str "modifiers"; str "wasm_import_module"; str "import_name_type"]) l &&
  nodup_b (map fst l).
(** The values that are defined in the module; items whose [#[cfg(..)]] do not hold are not (rules of the language, for functions.rs:490-501). *)
Definition values (g : group) : list (list N) :=
  flat_map (fun x => match x with XFn f => if d_cfg f then [d_name f] else [] | XCanary n | XReport n | XStabbied n _ => [n] end) (g_ext g) ++
  map (fun x => match x with NCanaries n _ | NCanaried n _ _ _ | NChecked n _ _ _ => n end) (g_int g).
(** Is it a type: [fn<'a>(..)] is not, and names must mean something in module [m] (rules of the language, for functions.rs:447, 470). *)
Definition fnty_ok (w : world) (m : list N) (y : fnty) : bool :=
  match y_lts y with
  | [] => match mapM (resolve_ty w m) (y_ins y), resolve_out w m (y_out y) with Some _, Some _ => true | _, _ => false end
  | _ => false
  end.
(** Does it implement IStable (stable_impls/mod.rs:849-910)?  With elided lifetimes it is [for<'a> fn(&'a T)], which does not. *)
Definition fnty_stable (stable : rty -> bool) (w : world) (m : list N) (y : fnty) : bool :=
  let st t := match resolve_ty w m t with Some r => negb (r_elided r) && stable r | None => false end in
  existsb (str_eqb (abi_name (y_abi y))) [str "C"; str "C-unwind"] && forallb st (y_ins y) && match y_out y with Some t => st t | None => true end &&
  (length (y_ins y) <=? 15)%nat.
(** Items of the block: no word before [fn], names that mean something (rules of the language, for functions.rs:438, 471-474). *)
Definition ext_ok (w : world) (m : list N) (x : ext) : bool :=
  match x with
  | XFn f => negb (d_cfg f) || negb (d_async f) && negb (d_unsafe f) &&
      match mapM (resolve_ty w m) (d_ins f), resolve_out w m (d_out f) with Some _, Some _ => true | _, _ => false end
  | XStabbied _ y => fnty_ok w m y
  | XCanary _ | XReport _ => true
  end.
(** What comes after: the function that is cast exists and is not variadic (functions.rs:454; the types are printed from the same tokens); [CheckedImport::new] takes
    functions in convention C (checked_import.rs:85-100), and the report of the type is asked for (functions.rs:477). *)
Definition int_ok (stable : rty -> bool) (w : world) (m : list N) (a : abi) (xs : list ext) (x : intern) : bool :=
  match x with
  | NCanaries _ _ => true
  | NCanaried _ y f _ => fnty_ok w m y &&
      existsb (fun x => match x with XFn f' => str_eqb (d_name f') f && d_cfg f' && negb (d_variadic f') | _ => false end) xs
  | NChecked _ y _ _ => fnty_ok w m y && fnty_stable stable w m y && str_eqb (abi_name a) (str "C")
  end.
(** The module, as child [m] of the user's (rules of the language, for functions.rs:490-501). *)
Definition accepted (stable : rty -> bool) (w : world) (m : list N) (g : gmod) : bool :=
  link_ok (g_link g) && existsb (str_eqb (abi_name (g_abi g))) rust_abis && nodup_b (flat_map values (g_groups g)) &&
  forallb (fun x => forallb (ext_ok w m) (g_ext x) && forallb (int_ok stable w m (g_abi g) (g_ext x)) (g_int x)) (g_groups g).

(** What a name is: a function, with its visibility, safety, inputs and output, or a static (functions.rs:447-456, 470-479). *)
Inductive imp := Imp (name : list N) (vis : N) (unsafe : bool) (conv : list N) (ins : list rty) (out : option rty) (variadic : bool) | ImpStatic (name : list N) (t : rty).
(** What the [use] of an item gives; all names are distinct, so the item is the one of the same group (functions.rs:456, 479). *)
Definition provided (w : world) (m : list N) (g : group) : option imp :=
  match find (fun x => match x with NCanaried n _ _ _ | NChecked n _ _ _ => str_eqb n (u_in (g_use g)) | _ => false end) (g_int g) with
  | Some (NCanaried _ y _ _) | Some (NChecked _ y _ _) =>
      match mapM (resolve_ty w m) (y_ins y), resolve_out w m (y_out y) with
      | Some i, Some o => Some (Imp (u_as (g_use g)) (u_vis (g_use g)) (y_unsafe y) (abi_name (y_abi y)) i o false)
      | _, _ => None
      end
  | _ => None
  end.
(** The symbols that a group asks of the linker: what the block has, of which all is used (functions.rs:438-442, 471-474). *)
Definition required (g : group) : list (list N) :=
  flat_map (fun x => match x with XFn f => if d_cfg f then [d_name f] else [] | XCanary n | XReport n | XStabbied n _ => [n] end) (g_ext g).
