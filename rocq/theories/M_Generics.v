(** The items that [#[stabby::stabby]] generates for declarations with parameters, as tokens, and how
    Rust reads them: stabby-macros/src/utils.rs:15-72, structs.rs:102-264, unions.rs:56-102,
    enums.rs:139-330,424-652, lib.rs:68-104,345-377. *)
From Coq Require Import List NArith Bool.
Import ListNotations.
Local Open Scope N_scope.

(** Names of items: those of the user, and those made by stabby (structs.rs:197, enums.rs:546). *)
Inductive name := User (n : N) | Made (n : N).
(** Types: those of the user, which are not looked into, the type of the layout (structs.rs:176-191) and
    those of the parts of an enum (enums.rs:456-469). *)
Inductive tyx := XUser (n : N) | XLayout | XPart (n : nat).
(** Bounds: those of the user, [IStable] and [IDeterminantProvider] (lib.rs:345-372, enums.rs:466). *)
Inductive bnd := BUser (n : N) | BStable | BDet.

(** A parameter (syn's [GenericParam], as matched at utils.rs:42-50): names, bounds, defaults. *)
Inductive param :=
| PLt (n : N) (bs : list bnd)
| PTy (n : N) (bs : list bnd) (d : option N)
| PCst (n : N) (t : N) (d : option N).
(** A predicate of a where clause (syn's [WherePredicate], as used at structs.rs:121-122). *)
Definition pred : Type := tyx * list bnd.
(** Fields or variants, in braces or in parentheses, or neither (structs.rs:133-175). *)
Inductive shape := Braces (ts : list N) | Parens (ts : list N) | Nothing.
(** What is declared (lib.rs:74-92): a struct, a union, an enum with an explicit size, or one with
    [repr(stabby)] (the flag: without any [repr], enums.rs:231-244). *)
Inductive kind := KStruct | KUnion | KEnum | KStabby (check : bool).
(** A declaration (syn's [DeriveInput], lib.rs:74-82); [d_comma]: does its where clause end with a comma. *)
Record decl := Decl { d_kind : kind; d_name : N; d_params : list param; d_where : list pred; d_comma : bool; d_shape : shape }.

(** Tokens.  Simplification: bounds, types, [stabby::IStable] and what is in braces or parentheses are one token
    each (the items of structs.rs:230-262). *)
Inductive tok :=
| KwStruct | KwUnion | KwEnum | KwImpl | KwFor | KwWhere | KwConst
| Lt | Gt | Comma | Colon | Eq | Semi
| Life (n : N) | Id (n : name) | Var (n : N) | Ty (t : tyx) | Bnd (bs : list bnd) | Trait
| Brace (ts : list N) | Paren (ts : list N) | Body.

(** ** What is generated *)
(** How syn prints a parameter, with bounds and default ([#generics], e.g. structs.rs:148). *)
Definition param_toks (p : param) : list tok :=
  match p with
  | PLt n bs => Life n :: match bs with [] => [] | _ => [Colon; Bnd bs] end
  | PTy n bs d => Var n :: match bs with [] => [] | _ => [Colon; Bnd bs] end ++
                  match d with None => [] | Some t => [Eq; Ty (XUser t)] end
  | PCst n t d => [KwConst; Var n; Colon; Ty (XUser t)] ++ match d with None => [] | Some x => [Eq; Ty (XUser x)] end
  end.
(** Lists with a comma between elements (syn's [Punctuated], e.g. unions.rs:69). *)
Fixpoint seps (l : list (list tok)) : list tok :=
  match l with
  | [] => []
  | [x] => x
  | x :: r => x ++ Comma :: seps r
  end.
(** Which parameters (utils.rs:42-50). *)
Definition is_lt (p : param) : bool := match p with PLt _ _ => true | _ => false end.
(** As above (utils.rs:44). *)
Definition is_ty (p : param) : bool := match p with PTy _ _ _ => true | _ => false end.
(** As above (utils.rs:48). *)
Definition is_cst (p : param) : bool := match p with PCst _ _ _ => true | _ => false end.
(** syn's [ToTokens] for [Generics] ([#generics], e.g. structs.rs:148): nothing if there are no parameters,
    otherwise lifetimes first. *)
Definition full (ps : list param) : list tok :=
  match ps with
  | [] => []
  | _ => Lt :: seps (map param_toks (filter is_lt ps ++ filter (fun p => negb (is_lt p)) ps)) ++ [Gt]
  end.
(** utils.rs:19-37 [SeparatedGenerics] and its [ToTokens]: each followed by a comma. *)
Definition separated (f : param -> list tok) (ps : list param) : list tok :=
  flat_map (fun p => f p ++ [Comma]) (filter is_lt ps ++ filter is_ty ps ++ filter is_cst ps).
(** utils.rs:38-53 [unbound_generics]. *)
Definition unbound (p : param) : list tok :=
  match p with PLt n _ => [Life n] | PTy n _ _ => [Var n] | PCst n _ _ => [Var n] end.
(** utils.rs:54-72 [generics_without_defaults]: the colon is always there. *)
Definition no_default (p : param) : list tok :=
  match p with
  | PLt n bs => Life n :: Colon :: match bs with [] => [] | _ => [Bnd bs] end
  | PTy n bs _ => Var n :: Colon :: match bs with [] => [] | _ => [Bnd bs] end
  | PCst n t _ => [KwConst; Var n; Colon; Ty (XUser t)]
  end.
(** A predicate (structs.rs:233). *)
Definition pred_toks (p : pred) : list tok := [Ty (fst p); Colon; Bnd (snd p)].
(** The predicates as written by the user (structs.rs:122, enums.rs:538). *)
Definition user_preds (d : decl) : list tok :=
  seps (map pred_toks (d_where d)) ++ match d_where d with [] => [] | _ => if d_comma d then [Comma] else [] end.
(** syn's [ToTokens] for [WhereClause] (structs.rs:148,166,173): nothing if there are no predicates. *)
Definition user_where (d : decl) : list tok :=
  match d_where d with [] => [] | _ => KwWhere :: user_preds d end.
(** Predicates followed by commas, as the macros write them (lib.rs:345-372, enums.rs:466). *)
Definition commas (ps : list pred) : list tok := flat_map (fun p => pred_toks p ++ [Comma]) ps.
(** The types of the fields (structs.rs:133-160). *)
Definition shape_tys (s : shape) : list N := match s with Braces ts | Parens ts => ts | Nothing => [] end.
(** lib.rs:353-372 [Report::__bounds]: a type that was seen is not bound again; later ones come first. *)
Fixpoint bounds_from (seen : list N) (acc : list pred) (ts : list N) : list pred :=
  match ts with
  | [] => acc
  | t :: r => if existsb (N.eqb t) seen then bounds_from seen acc r
              else bounds_from (t :: seen) ((XUser t, [BStable]) :: acc) r
  end.
(** lib.rs:373-377 [Report::bounds]. *)
Definition report_preds (d : decl) : list pred := bounds_from [] [] (shape_tys (d_shape d)).
(** enums.rs:456-469: two predicates per [Result] of the tree (there is one less than there are variants);
    which types they are about is not modelled. *)
Definition part_preds (d : decl) : list pred :=
  flat_map (fun i => [(XPart i, [BDet]); (XPart i, [BStable])]) (seq 1 (length (shape_tys (d_shape d)) - 1)).
(** The predicate about the layout (structs.rs:233). *)
Definition layout_pred : pred := (XLayout, [BStable]).
(** The fields (structs.rs:148,166,173). *)
Definition shape_toks (s : shape) : list tok :=
  match s with Braces ts => [Brace ts] | Parens ts => [Paren ts] | Nothing => [] end.
(** structs.rs:144-175: a struct; the where clause is before the fields whatever these are. *)
Definition struct_toks (n : name) (d : decl) : list tok :=
  [KwStruct; Id n] ++ full (d_params d) ++ user_where d ++ shape_toks (d_shape d) ++
  match d_shape d with Braces _ => [] | _ => [Semi] end.
(** [impl <..> IStable for ident <..> where .. {..}] (structs.rs:233). *)
Definition impl_toks (ps : list tok) (tr : list tok) (n : name) (args : list tok) (wh : list tok) : list tok :=
  [KwImpl] ++ ps ++ tr ++ [Id n; Lt] ++ args ++ [Gt; KwWhere] ++ wh ++ [Body].
(** In angle brackets (structs.rs:233). *)
Definition angles (t : list tok) : list tok := Lt :: t ++ [Gt].

(** lib.rs:68-104 with structs.rs:102-264, unions.rs:56-102, enums.rs:139-330 and 424-652; the constants
    that check sizes are left out. *)
Definition expand (d : decl) : list tok :=
  let n := User (d_name d) in
  let ps := d_params d in
  let un := separated unbound ps in
  let gen := angles (separated no_default ps) in
  let stable := [Trait; KwFor] in
  match d_kind d with
  | KStruct =>
      let wh := pred_toks layout_pred ++ [Comma] ++ commas (report_preds d) ++ user_preds d in
      struct_toks n d ++ impl_toks gen stable n un wh ++
      struct_toks (Made (d_name d)) d ++ impl_toks gen [] n un wh
  | KUnion =>
      [KwUnion; Id n] ++ full ps ++ shape_toks (d_shape d) ++
      impl_toks (full ps) stable n (seps (map param_toks ps)) (commas (report_preds d) ++ pred_toks layout_pred)
  | KEnum =>
      [KwEnum; Id n] ++ full ps ++ shape_toks (d_shape d) ++
      impl_toks (full ps) stable n (seps (map param_toks ps)) (commas (report_preds d) ++ pred_toks layout_pred)
  | KStabby check =>
      let bounds := commas (part_preds d) ++ user_preds d in
      [KwStruct; Id n] ++ full ps ++ [Paren (shape_tys (d_shape d)); KwWhere] ++ commas (report_preds d) ++ bounds ++ [Semi] ++
      (if check
       then [KwEnum; Id (Made (d_name d))] ++ gen ++ [KwWhere] ++ bounds ++ shape_toks (d_shape d) ++
            impl_toks gen [] n un (commas (report_preds d) ++ bounds ++ pred_toks layout_pred)
       else []) ++
      impl_toks gen stable n un (commas (report_preds d) ++ bounds ++ pred_toks layout_pred) ++
      impl_toks (full ps) [] n un (commas (report_preds d) ++ bounds)
  end.

(** ** How Rust reads it (the language's grammar of items, for the tokens of structs.rs:230-262) *)
(** Arguments of a type (as in [ident <..>], structs.rs:233). *)
Inductive arg := ALt (n : N) | AVar (n : N) | ATy (t : tyx).
(** Items: definitions, and implementations of [IStable] or inherent ones (structs.rs:230-262). *)
Inductive item :=
| Def (k : kind) (n : name) (ps : list param) (w : list pred) (s : shape)
| Impl (ps : list param) (stable : bool) (n : name) (args : list arg) (w : list pred).

(** Bounds after a colon, which may be missing (Rust's grammar; utils.rs:62-67). *)
Definition p_bounds (t : list tok) : list bnd * list tok :=
  match t with
  | Colon :: Bnd bs :: r => (bs, r)
  | Colon :: r => ([], r)
  | _ => ([], t)
  end.
(** A default (Rust's grammar; structs.rs:148). *)
Definition p_default (t : list tok) : option N * list tok :=
  match t with Eq :: Ty (XUser x) :: r => (Some x, r) | _ => (None, t) end.
(** A parameter (Rust's grammar; utils.rs:54-72). *)
Definition p_param (t : list tok) : option (param * list tok) :=
  match t with
  | Life n :: r => let '(bs, r1) := p_bounds r in Some (PLt n bs, r1)
  | Var n :: r => let '(bs, r1) := p_bounds r in let '(d, r2) := p_default r1 in Some (PTy n bs d, r2)
  | KwConst :: Var n :: Colon :: Ty (XUser x) :: r => let '(d, r2) := p_default r in Some (PCst n x d, r2)
  | _ => None
  end.
(** Things with commas between them up to [>], which may follow a comma (Rust's grammar; structs.rs:233). *)
Fixpoint p_list {A} (p : list tok -> option (A * list tok)) (fuel : nat) (t : list tok) : option (list A * list tok) :=
  match fuel with
  | O => None
  | S f =>
      match t with
      | Gt :: r => Some ([], r)
      | _ => match p t with
             | None => None
             | Some (x, Gt :: r) => Some ([x], r)
             | Some (x, Comma :: r) => match p_list p f r with None => None | Some (l, r') => Some (x :: l, r') end
             | Some _ => None
             end
      end
  end.
(** Parameters, if there is a [<] (Rust's grammar; structs.rs:148,233). *)
Definition p_params (t : list tok) : option (list param * list tok) :=
  match t with Lt :: r => p_list p_param (length t) r | _ => Some ([], t) end.
(** An argument: a bound, a default or [const] cannot be part of it (Rust's grammar; unions.rs:89). *)
Definition p_arg (t : list tok) : option (arg * list tok) :=
  match t with
  | Life n :: r => Some (ALt n, r)
  | Var n :: r => Some (AVar n, r)
  | Ty x :: r => Some (ATy x, r)
  | _ => None
  end.
(** Predicates, with commas between them and maybe after the last (Rust's grammar; structs.rs:233). *)
Fixpoint p_preds (fuel : nat) (t : list tok) : list pred * list tok :=
  match fuel with
  | O => ([], t)
  | S f =>
      match t with
      | Ty x :: Colon :: Bnd bs :: Comma :: r => let '(l, r') := p_preds f r in ((x, bs) :: l, r')
      | Ty x :: Colon :: Bnd bs :: r => ([(x, bs)], r)
      | _ => ([], t)
      end
  end.
(** A where clause (Rust's grammar; structs.rs:233). *)
Definition p_where (t : list tok) : list pred * list tok :=
  match t with KwWhere :: r => p_preds (length r) r | _ => ([], t) end.
(** An item (Rust's grammar; structs.rs:144-175, 230-262): the where clause of a struct comes after its fields if these
    are in parentheses, otherwise before. *)
Definition p_item (t : list tok) : option (item * list tok) :=
  match t with
  | KwStruct :: Id n :: r =>
      match p_params r with
      | None => None
      | Some (ps, Paren ts :: r1) =>
          match p_where r1 with (w, Semi :: r2) => Some (Def KStruct n ps w (Parens ts), r2) | _ => None end
      | Some (ps, r1) =>
          match p_where r1 with
          | (w, Brace ts :: r2) => Some (Def KStruct n ps w (Braces ts), r2)
          | (w, Semi :: r2) => Some (Def KStruct n ps w Nothing, r2)
          | _ => None
          end
      end
  | KwUnion :: Id n :: r =>
      match p_params r with
      | None => None
      | Some (ps, r1) => match p_where r1 with (w, Brace ts :: r2) => Some (Def KUnion n ps w (Braces ts), r2) | _ => None end
      end
  | KwEnum :: Id n :: r =>
      match p_params r with
      | None => None
      | Some (ps, r1) => match p_where r1 with (w, Brace ts :: r2) => Some (Def KEnum n ps w (Braces ts), r2) | _ => None end
      end
  | KwImpl :: r =>
      match p_params r with
      | None => None
      | Some (ps, r1) =>
          let '(tr, r2) := match r1 with Trait :: KwFor :: r2 => (true, r2) | _ => (false, r1) end in
          match r2 with
          | Id n :: Lt :: r3 =>
              match p_list p_arg (length r3) r3 with
              | None => None
              | Some (args, r4) => match p_where r4 with (w, Body :: r5) => Some (Impl ps tr n args w, r5) | _ => None end
              end
          | _ => None
          end
      end
  | _ => None
  end.
(** The items of a file (Rust's grammar; lib.rs:68-104). *)
Fixpoint p_items (fuel : nat) (t : list tok) : option (list item) :=
  match t, fuel with
  | [], _ => Some []
  | _, O => None
  | _, S f => match p_item t with
              | None => None
              | Some (i, r) => match p_items f r with None => None | Some l => Some (i :: l) end
              end
  end.
(** What Rust makes of the generated tokens (Rust's grammar; lib.rs:68-104). *)
Definition parse (t : list tok) : option (list item) := p_items (length t) t.

(** ** What Rust accepts (rules of the language for the items of structs.rs:230-262) *)
(** Names of parameters (utils.rs:42-50). *)
Definition p_name (p : param) : N := match p with PLt n _ | PTy n _ _ | PCst n _ _ => n end.
(** Has it a default (rules of the language; utils.rs:54-72)? *)
Definition has_default (p : param) : bool := match p with PTy _ _ (Some _) | PCst _ _ (Some _) => true | _ => false end.
(** Lifetimes come first (rules of the language; utils.rs:25-37). *)
Fixpoint lts_first (ps : list param) : bool :=
  match ps with
  | [] => true
  | p :: r => if is_lt p then lts_first r else forallb (fun q => negb (is_lt q)) r
  end.
(** Defaults come last (rules of the language; structs.rs:148). *)
Fixpoint defaults_last (ps : list param) : bool :=
  match ps with
  | [] => true
  | p :: r => if has_default p then forallb has_default r else defaults_last r
  end.
(** Each name once (rules of the language; utils.rs:42-50). *)
Fixpoint distinct (l : list N) : bool :=
  match l with [] => true | x :: r => negb (existsb (N.eqb x) r) && distinct r end.
(** The parameters of the item a name stands for (rules of the language; structs.rs:233). *)
Fixpoint lookup (n : N) (is : list item) : option (list param) :=
  match is with
  | [] => None
  | Def _ (User m) ps _ _ :: r => if N.eqb m n then Some ps else lookup n r
  | _ :: r => lookup n r
  end.
(** Is the argument of the kind of the parameter, given the parameters in scope (rules of the language; structs.rs:233)? *)
Definition fits (scope : list param) (p : param) (x : arg) : bool :=
  match p, x with
  | PLt _ _, ALt n => existsb (fun q => is_lt q && N.eqb (p_name q) n) scope
  | PTy _ _ _, AVar n => existsb (fun q => is_ty q && N.eqb (p_name q) n) scope
  | PTy _ _ _, ATy _ => true
  | PCst _ _ _, AVar n => existsb (fun q => is_cst q && N.eqb (p_name q) n) scope
  | _, _ => false
  end.
(** As many, and each of the kind (rules of the language; structs.rs:233; no argument is left to a default here). *)
Fixpoint fit (scope : list param) (ps : list param) (xs : list arg) : bool :=
  match ps, xs with
  | [], [] => true
  | p :: ps', x :: xs' => fits scope p x && fit scope ps' xs'
  | _, _ => false
  end.
(** An item among others (rules of the language; structs.rs:230-262): no defaults in implementations. *)
Definition item_ok (is : list item) (i : item) : bool :=
  match i with
  | Def _ _ ps _ _ => lts_first ps && defaults_last ps && distinct (map p_name ps)
  | Impl ps _ n args _ =>
      lts_first ps && forallb (fun p => negb (has_default p)) ps && distinct (map p_name ps) &&
      match n with
      | User m => match lookup m is with Some qs => fit ps qs args | None => false end
      | Made _ => false
      end
  end.
(** All of them (rules of the language; lib.rs:68-104). *)
Definition accepts (is : list item) : bool := forallb (item_ok is) is.
