(** The items that [#[stabby::stabby]] generates for a trait with parameters and associated types, and how Rust reads
    them: stabby-macros/src/traits.rs:28-48,152-175,208-414,500-893, utils.rs:74-149. The vtable goes through the macro
    for structs (traits.rs:692), for which see [M_Generics]. *)
From Coq Require Import List NArith Bool.
From Verif Require Import M_Generics.
Import ListNotations.
Local Open Scope N_scope.

(** Names of parameters, and bounds, are numbers: those of the user are even, those made by the macro odd, so that the
    user has none of the macro's (traits.rs:140-142, 667-669, 723-724, 764, 797-801). First ['stabby_vt_lt]. *)
Definition n_lt : N := 1.
(** [StabbyArbitraryType] (traits.rs:724). *)
Definition n_arb : N := 3.
(** [StabbyTransitiveDerefN] (traits.rs:770). *)
Definition n_der : N := 5.
(** [StabbyVtProvider] (traits.rs:785). *)
Definition n_vtp : N := 7.
(** [StabbyPtrProvider] (traits.rs:817). *)
Definition n_ptr : N := 9.
(** traits.rs:140-142 [unselfed_n]: [_stabby_unselfed_i]. *)
Definition n_dyn (i : nat) : N := 2 * N.of_nat i + 11.

(** A bound of an associated type (traits.rs:343-372): a lifetime, or a trait, which may come with a [?]; [ms] are the
    associated types it mentions as [Self::m]. *)
Inductive abound := ALife (n : N) | ATrait (relaxed : bool) (n : N) (ms : list N).
(** A method (traits.rs:246-320): is it [&mut self], and which parameters of the trait and which associated types its
    signature mentions. *)
Record method := Method { m_name : N; m_mut : bool; m_pars : list N; m_types : list N }.
(** A trait (syn's [ItemTrait], traits.rs:208-222): parameters, where clause (predicates on [Self] are left out: they are
    supertraits), associated types with bounds, methods; [t_super]: the associated types of its supertraits, which
    the macro does not know. Panics of traits.rs:262-291,331-341,376-381 are left out. *)
Record trait := Trait { t_params : list param; t_where : list pred; t_types : list (N * list abound); t_super : list N; t_fns : list method }.

(** ** What is generated *)
(** Where a type is in the list (traits.rs:45-48 [find]). *)
Fixpoint find (x : N) (l : list N) : option nat :=
  match l with [] => None | y :: r => if N.eqb y x then Some O else match find x r with None => None | Some i => Some (S i) end end.
(** traits.rs:32-43 [push], [extend]: what is there already is not added. *)
Fixpoint extend (l : list N) (xs : list N) : list N :=
  match xs with [] => l | x :: r => extend (match find x l with None => l ++ [x] | Some _ => l end) r end.
(** Methods with [&self], then those with [&mut self] (traits.rs:308-312). *)
Definition shared (t : trait) : list method := filter (fun m => negb (m_mut m)) (t_fns t).
(** As above (traits.rs:308-312). *)
Definition muts (t : trait) : list method := filter m_mut (t_fns t).
(** As above, in the order of the vtable (traits.rs:382-387). *)
Definition fns (t : trait) : list method := shared t ++ muts t.
(** The types that depend on [Self] (traits.rs:374, 382-387): declared ones, then those of signatures. *)
Definition sdts (t : trait) : list N := extend (extend [] (map fst (t_types t))) (flat_map m_types (fns t)).
(** The parameter for the [i]-th (traits.rs:137-139 [unselfed_iter]). *)
Definition dyns (t : trait) : list N := map n_dyn (seq 0 (length (sdts t))).
(** traits.rs:48-61 [unselfed] on an associated type: panics if there is none. *)
Definition unself (t : trait) (x : N) : option N := match find x (sdts t) with None => None | Some i => Some (n_dyn i) end.
(** Names followed by commas (traits.rs:513,529). *)
Definition vars (l : list N) : list tok := flat_map (fun n => [Var n; Comma]) l.
(** traits.rs:504-532 [vt_generics]: the types that depend on [Self] come before the first type; without
    bounds ([b = false]), only those of types are left out. *)
Fixpoint vt_gen (b : bool) (sd : option (list N)) (ps : list param) : list tok :=
  match ps with
  | [] => match sd with Some l => vars l | None => [] end
  | PTy n bs d :: r =>
      match sd with Some l => vars l | None => [] end ++ (if b then param_toks (PTy n bs d) else [Var n]) ++ [Comma] ++ vt_gen b None r
  | p :: r => param_toks p ++ [Comma] ++ vt_gen b sd r
  end.
(** As above (traits.rs:504-532). *)
Definition vt_generics (b : bool) (t : trait) : list tok := vt_gen b (Some (dyns t)) (t_params t).
(** traits.rs:540-559: one bound; a trait is followed by a comma, a lifetime is not; the [?] is dropped (traits.rs:346-355). *)
Definition bound_toks (n : N) (b : abound) : list tok :=
  match b with
  | ALife l => [Ty (XUser n); Colon; Bnd [BUser l]]
  | ATrait _ k _ => [Ty (XUser n); Colon; Bnd [BUser k]; Comma]
  end.
(** traits.rs:549-553: all types that bounds mention must be found. *)
Definition found (t : trait) (b : abound) : bool :=
  match b with ALife _ => true | ATrait _ _ ms => forallb (fun m => match unself t m with None => false | Some _ => true end) ms end.
(** The bounds in order, with the type they are about (traits.rs:343-372). *)
Definition bounds (t : trait) : list (N * abound) := flat_map (fun x => map (pair (fst x)) (snd x)) (t_types t).
(** traits.rs:540-559 [vt_bounds]. *)
Definition vt_bounds (t : trait) : list tok :=
  flat_map (fun x => match unself t (fst x) with None => [] | Some n => bound_toks n (snd x) end) (bounds t).
(** Parameters by kind, as declared, each followed by a comma (traits.rs:608-610, utils.rs:74-115). *)
Definition lts (t : trait) : list param := filter is_lt (t_params t).
(** As above (traits.rs:609). *)
Definition tys (t : trait) : list param := filter is_ty (t_params t).
(** As above (traits.rs:610). *)
Definition csts (t : trait) : list param := filter is_cst (t_params t).
(** As above (e.g. traits.rs:723-727). *)
Definition decls (ps : list param) : list tok := flat_map (fun p => param_toks p ++ [Comma]) ps.
(** As above, only the names (traits.rs:611-613, utils.rs:116-149). *)
Definition uses (ps : list param) : list tok := flat_map (fun p => unbound p ++ [Comma]) ps.
(** traits.rs:660-666 [vt_signature]: the arguments of the vtable. *)
Definition vt_args (t : trait) : list tok := uses (lts t) ++ vars (dyns t) ++ uses (tys t).
(** The arguments of the trait (traits.rs:667). *)
Definition tr_args (t : trait) : list tok := uses (lts t) ++ uses (tys t) ++ uses (csts t).
(** The arguments of the generated traits (traits.rs:791-797). *)
Definition dyn_args (t : trait) : list tok := uses (lts t) ++ [Var n_der; Comma] ++ vars (dyns t) ++ uses (tys t) ++ uses (csts t).
(** traits.rs:650-658 [trait_to_vt_bindings]. *)
Definition binds (t : trait) : list (N * N) := combine (sdts t) (dyns t).
(** traits.rs:619-649 [sdtbounds]. *)
Definition sdt_bounds (t : trait) : list (N * list bnd) :=
  map (fun x => (x, flat_map (fun y => if N.eqb (fst y) x then [match snd y with ALife l => BUser l | ATrait _ k _ => BUser k end] else []) (bounds t))) (sdts t).

(** What items refer to with arguments: the vtable, the trait, its trait object, the two generated traits
    ([..Dyn], [..DynMut]), traits without parameters ([Clone], ... and [CompoundVt]), [IConstConstructor],
    [DynRef] and [Dyn] (traits.rs:692-893). *)
Inductive head := HVt | HTr | HObj | HDyn | HMut | HStd | HCompound | HCons | HPtr.
(** A reference: arguments, then bindings of associated types (e.g. traits.rs:731). *)
Record gref (A : Type) := Ref { f_head : head; f_args : A; f_binds : list (N * N) }.
Arguments Ref {A}. Arguments f_head {A}. Arguments f_args {A}. Arguments f_binds {A}.
(** An implementation of a trait for a type with associated types, or a new trait with its super trait and associated types
    (traits.rs:693-893). *)
Inductive what (A : Type) :=
| Imp (tr self : gref A) (ts : list (N * N))
| New (h : head) (super : option (gref A)) (ts : list (N * list bnd)).
Arguments Imp {A}. Arguments New {A}.
(** An item: parameters, where clause, the trait that a parameter is asked to implement (traits.rs:730-731), other references in
    it, the associated types it names as [<.. as Trait>::X] (traits.rs:667-673), its methods. *)
Record gitem (P W A : Type) := Item { g_what : what A; g_params : P; g_where : W; g_bound : option (N * gref A);
  g_refs : list (gref A); g_projs : list N; g_fns : list N }.
Arguments Item {P W A}. Arguments g_what {P W A}. Arguments g_params {P W A}. Arguments g_where {P W A}.
Arguments g_bound {P W A}. Arguments g_refs {P W A}. Arguments g_projs {P W A}. Arguments g_fns {P W A}.
(** As printed: the parts of items as tokens (traits.rs:693-893). Simplification: what is around them is not in question. *)
Definition raw : Type := gitem (list tok) (list tok) (list tok).

(** The vtable as handed to the macro for structs (traits.rs:678-692); fields are numbered, each has its own type. *)
Definition vt_decl (t : trait) : list tok :=
  [KwStruct; Id (User 0)] ++ angles (vt_generics true t) ++ [KwWhere] ++ vt_bounds t ++ [Brace (map N.of_nat (seq 0 (length (fns t))))].
(** The parameters that a field mentions (traits.rs:466-498 [field_signature]). *)
Definition field_uses (t : trait) : list N :=
  flat_map (fun m => m_pars m ++ flat_map (fun x => match unself t x with None => [] | Some n => [n] end) (m_types m)) (fns t).
(** [Clone], [Copy], [PartialEq], [Hash], [Debug] for the vtable (traits.rs:694-720). *)
Definition std_impl (t : trait) : raw :=
  Item (Imp (Ref HStd [] []) (Ref HVt (vt_generics false t) []) []) (vt_generics true t) (vt_bounds t) None [] [] [].
(** [IConstConstructor] for the vtable (traits.rs:722-751). *)
Definition cons_impl (t : trait) : raw :=
  Item (Imp (Ref HCons [Life n_lt; Comma; Var n_arb] []) (Ref HVt (vt_args t) []) [])
    ([Life n_lt; Comma] ++ decls (lts t) ++ [Var n_arb; Comma] ++ vars (dyns t) ++ decls (tys t) ++ decls (csts t))
    (vt_bounds t ++ flat_map (fun p => [Ty (XUser (p_name p)); Colon; Bnd [BUser n_lt]; Comma]) (tys t) ++
     flat_map (fun n => [Ty (XUser n); Colon; Bnd [BUser n_lt]; Comma]) (dyns t))
    (Some (n_arb, Ref HTr (tr_args t) (binds t)))
    [Ref HTr (tr_args t) []; Ref HVt (vt_args t) []] (flat_map m_types (fns t)) [].
(** [CompoundVt] for the trait object (traits.rs:753-763). *)
Definition compound_impl (t : trait) : raw :=
  Item (Imp (Ref HCompound [] []) (Ref HObj (tr_args t) (binds t)) [])
    ([Life n_lt; Comma] ++ decls (lts t) ++ vars (dyns t) ++ decls (tys t) ++ decls (csts t)) (vt_bounds t) None [Ref HVt (vt_args t) []] [] [].
(** The trait [..Dyn] (traits.rs:765-782). *)
Definition dyn_trait (t : trait) : raw :=
  Item (New HDyn None (sdt_bounds t)) (decls (lts t) ++ [Var n_der; Comma] ++ vars (dyns t) ++ decls (tys t) ++ decls (csts t)) (vt_bounds t)
    None [] [] (map m_name (shared t)).
(** Parameters of providers (traits.rs:785-789, 817-822): their bounds are left out but for the vtable they name. *)
Definition providers (b : bool) : list tok := (if b then [Var n_ptr; Comma] else []) ++ [Var n_vtp; Comma; Var n_der; Comma].
(** [DynRef] and [Dyn] as types (traits.rs:799,833,883). *)
Definition ptr_self (b : bool) : gref (list tok) := Ref HPtr ((if b then [Var n_ptr; Comma] else []) ++ [Var n_vtp]) [].
(** [..Dyn] for [DynRef] and [Dyn] (traits.rs:783-848). *)
Definition dyn_impl (b : bool) (t : trait) : raw :=
  Item (Imp (Ref HDyn (dyn_args t) []) (ptr_self b) (binds t))
    (decls (lts t) ++ providers b ++ vars (dyns t) ++ decls (tys t) ++ decls (csts t)) (vt_bounds t)
    None [Ref HVt (vt_args t) []] [] (map m_name (shared t)).
(** The trait [..DynMut] (traits.rs:851-868). *)
Definition mut_trait (t : trait) : raw :=
  Item (New HMut (Some (Ref HDyn (dyn_args t) [])) []) (decls (lts t) ++ [Var n_der; Comma] ++ vars (dyns t) ++ decls (tys t) ++ decls (csts t)) (vt_bounds t)
    None [] [] (map m_name (muts t)).
(** [..DynMut] for [Dyn] (traits.rs:869-893). *)
Definition mut_impl (t : trait) : raw :=
  Item (Imp (Ref HMut (dyn_args t) []) (ptr_self true) [])
    (decls (lts t) ++ providers true ++ vars (dyns t) ++ decls (tys t) ++ decls (csts t)) (vt_bounds t)
    None [Ref HVt (vt_args t) []] [] (map m_name (muts t)).
(** All but the vtable (traits.rs:693-893); one for the five traits of traits.rs:694-720. *)
Definition raws (t : trait) : list raw :=
  [std_impl t; cons_impl t; compound_impl t; dyn_trait t; dyn_impl false t; dyn_impl true t; mut_trait t; mut_impl t].

(** ** How it is read *)
(** An item with its parts read (the grammar of Rust, for traits.rs:693-893). *)
Definition item : Type := gitem (list param) (list pred) (list arg).
(** Up to the closing [>], after which there is nothing (the grammar of Rust, for traits.rs:660-666). *)
Definition whole {A} (p : list tok -> option (A * list tok)) (t : list tok) : option (list A) :=
  match p_list p (S (length t)) (t ++ [Gt]) with Some (l, []) => Some l | _ => None end.
(** A where clause (the grammar of Rust, for traits.rs:730-734): up to its end. *)
Definition read_where (t : list tok) : option (list pred) := match p_preds (length t) t with (l, []) => Some l | _ => None end.
(** A reference (the grammar of Rust, for traits.rs:660-667). *)
Definition read_ref (r : gref (list tok)) : option (gref (list arg)) :=
  match whole p_arg (f_args r) with None => None | Some l => Some (Ref (f_head r) l (f_binds r)) end.
(** Several (the grammar of Rust, for traits.rs:693-893). *)
Fixpoint all {A B} (f : A -> option B) (l : list A) : option (list B) :=
  match l with
  | [] => Some []
  | x :: r => match f x, all f r with Some y, Some s => Some (y :: s) | _, _ => None end
  end.
(** The head of an item (the grammar of Rust, for traits.rs:693-893). *)
Definition read_what (w : what (list tok)) : option (what (list arg)) :=
  match w with
  | Imp tr self ts => match read_ref tr, read_ref self with Some a, Some b => Some (Imp a b ts) | _, _ => None end
  | New h None ts => Some (New h None ts)
  | New h (Some s) ts => match read_ref s with Some a => Some (New h (Some a) ts) | None => None end
  end.
(** A bound by a trait, if any (the grammar of Rust, for traits.rs:730-731). *)
Definition read_bound (b : option (N * gref (list tok))) : option (option (N * gref (list arg))) :=
  match b with
  | None => Some None
  | Some (n, r) => match read_ref r with Some a => Some (Some (n, a)) | None => None end
  end.
(** An item (the grammar of Rust, for traits.rs:693-893). *)
Definition read (r : raw) : option item :=
  match read_what (g_what r), whole p_param (g_params r), read_where (g_where r), read_bound (g_bound r), all read_ref (g_refs r) with
  | Some w, Some ps, Some wh, Some b, Some rs => Some (Item w ps wh b rs (g_projs r) (g_fns r))
  | _, _, _, _, _ => None
  end.
(** Does the where clause end with a comma (syn's [Punctuated], structs.rs:122)? *)
Definition ends_comma (t : list tok) : bool := match rev t with Comma :: _ => true | _ => false end.
(** How syn reads the vtable (traits.rs:692, lib.rs:74-82). *)
Definition read_decl (t : trait) : option decl :=
  match p_item (vt_decl t) with
  | Some (Def KStruct (User n) ps w s, []) => Some (Decl KStruct n ps w (ends_comma (vt_bounds t)) s)
  | _ => None
  end.
(** What is generated, as read, if nothing panics and there are no errors of syntax (traits.rs:533-893). *)
Definition compile (t : trait) : option (decl * list item) :=
  if forallb (fun x => found t (snd x)) (bounds t) then
    match read_decl t, all read (raws t) with Some d, Some is => Some (d, is) | _, _ => None end
  else None.

(** ** What Rust accepts (rules of the language, for the items of traits.rs:674-893) *)
(** The bounds of parameters as predicates (rules of the language; traits.rs:678-693). *)
Definition param_preds (ps : list param) : list pred :=
  flat_map (fun p => match p with PLt n bs | PTy n bs _ => [(XUser n, bs)] | PCst _ _ _ => [] end) ps.
(** Equality of bounds (no code of its own; used for traits.rs:540-559). *)
Definition bnd_eqb (a b : bnd) : bool := match a, b with BUser n, BUser m => N.eqb n m | BStable, BStable | BDet, BDet => true | _, _ => false end.
(** Equality of types (no code of its own; used for traits.rs:540-559). *)
Definition tyx_eqb (a b : tyx) : bool := match a, b with XUser n, XUser m => N.eqb n m | XLayout, XLayout => true | XPart n, XPart m => Nat.eqb n m | _, _ => false end.
(** Is a bound given (rules of the language; traits.rs:694-720)? Simplification: nothing holds that is not given. *)
Definition given (env : list pred) (x : tyx) (b : bnd) : bool :=
  existsb (fun p => tyx_eqb (fst p) x && existsb (bnd_eqb b) (snd p)) env.
(** All of a predicate (rules of the language; traits.rs:694-720). *)
Definition holds (env : list pred) (p : pred) : bool := forallb (given env (fst p)) (snd p).
(** Is the argument in scope (rules of the language; traits.rs:723-729)? *)
Definition in_scope (ps : list param) (x : arg) : bool :=
  match x with
  | ALt n => existsb (fun q => is_lt q && N.eqb (p_name q) n) ps
  | AVar n => existsb (fun q => negb (is_lt q) && N.eqb (p_name q) n) ps
  | ATy _ => true
  end.
(** Are they the parameters themselves (rules of the language; traits.rs:660-667)? Simplification: the macro puts nothing else there, and anything else
    is not accepted. *)
Fixpoint same (scope : list param) (qs : list param) (xs : list arg) : bool :=
  match qs, xs with
  | [], [] => true
  | q :: qs', x :: xs' =>
      match q, x with
      | PLt n _, ALt m => N.eqb n m && existsb (fun q => is_lt q && N.eqb (p_name q) m) scope
      | PTy n _ _, AVar m => N.eqb n m && existsb (fun q => is_ty q && N.eqb (p_name q) m) scope
      | PCst n _ _, AVar m => N.eqb n m && existsb (fun q => is_cst q && N.eqb (p_name q) m) scope
      | _, _ => false
      end && same scope qs' xs'
  | _, _ => false
  end.
(** A generated trait (rules of the language; traits.rs:765-782, 851-868). *)
Fixpoint trait_of (h : head) (is : list item) : option item :=
  match is with
  | [] => None
  | i :: r => match g_what i, h with
              | New HDyn _ _, HDyn | New HMut _ _, HMut => Some i
              | _, _ => trait_of h r
              end
  end.
(** The parameters and the where clause of what is referred to (rules of the language; traits.rs:693-893). *)
Definition def_of (t : trait) (d : decl) (is : list item) (h : head) : option (list param * list pred) :=
  match h with
  | HVt => Some (d_params d, d_where d)
  | HTr | HObj => Some (t_params t, t_where t)
  | HDyn | HMut => match trait_of h is with Some i => Some (g_params i, g_where i) | None => None end
  | HStd | HCompound => Some ([], [])
  | HCons | HPtr => None
  end.
(** Bindings of associated types (rules of the language; traits.rs:731,758): of types there are, each at most once; a trait
    object needs all of them. *)
Definition binds_ok (t : trait) (ps : list param) (r : gref (list arg)) : bool :=
  let names := map fst (t_types t) ++ t_super t in
  match f_head r with
  | HTr | HObj =>
      forallb (fun b => existsb (N.eqb (fst b)) names && existsb (fun q => is_ty q && N.eqb (p_name q) (snd b)) ps) (f_binds r) &&
      distinct (map fst (f_binds r)) &&
      match f_head r with HObj => forallb (fun n => existsb (fun b => N.eqb (fst b) n) (f_binds r)) names | _ => true end
  | _ => match f_binds r with [] => true | _ => false end
  end.
(** A reference in an item with these parameters and this where clause (rules of the language; traits.rs:693-893). *)
Definition ref_ok (t : trait) (d : decl) (is : list item) (ps : list param) (w : list pred) (r : gref (list arg)) : bool :=
  match f_head r with
  | HCons | HPtr => forallb (in_scope ps) (f_args r)
  | h => match def_of t d is h with
         | None => false
         | Some (qs, v) => same ps qs (f_args r) && forallb (holds (param_preds ps ++ w)) (param_preds qs ++ v)
         end
  end && binds_ok t ps r.
(** The names that arguments mention (rules of the language; traits.rs:722-729). *)
Definition arg_names (r : gref (list arg)) : list N :=
  flat_map (fun a => match a with ALt n | AVar n => [n] | ATy _ => [] end) (f_args r) ++ map snd (f_binds r).
(** The head of an item (rules of the language; traits.rs:693-893): in an implementation there are no defaults, types and constants are
    determined by the trait and the type, associated types and methods are those of the trait, the types as bounded there. *)
Definition what_ok (t : trait) (d : decl) (is : list item) (i : item) : bool :=
  let ps := g_params i in
  let w := g_where i in
  match g_what i with
  | Imp tr self ts =>
      forallb (fun p => negb (has_default p)) ps && ref_ok t d is ps w tr && ref_ok t d is ps w self &&
      forallb (fun p => is_lt p || existsb (N.eqb (p_name p)) (arg_names tr ++ arg_names self)) ps &&
      match f_head tr with
      | HDyn | HMut =>
          match trait_of (f_head tr) is with
          | Some j =>
              match g_what j with
              | New _ _ us =>
                  (if list_eq_dec N.eq_dec (map fst us) (map fst ts) then true else false) &&
                  forallb (fun u => forallb (fun b => existsb (N.eqb (fst u)) (map fst ts) &&
                    forallb (fun x => negb (N.eqb (fst x) (fst u)) || given (param_preds ps ++ w) (XUser (snd x)) b) ts) (snd u)) us
              | Imp _ _ _ => false
              end && (if list_eq_dec N.eq_dec (g_fns j) (g_fns i) then true else false)
          | None => false
          end
      | _ => match ts, g_fns i with [], [] => true | _, _ => false end
      end
  | New _ s _ => defaults_last ps && match s with Some r => ref_ok t d is ps w r | None => true end
  end.
(** An item (rules of the language; traits.rs:693-893): [<.. as Trait>::X] only for types declared in the trait itself. *)
Definition item_ok (t : trait) (d : decl) (is : list item) (i : item) : bool :=
  lts_first (g_params i) && distinct (map p_name (g_params i)) && what_ok t d is i &&
  match g_bound i with Some (n, r) => in_scope (g_params i) (AVar n) && ref_ok t d is (g_params i) (g_where i) r | None => true end &&
  forallb (ref_ok t d is (g_params i) (g_where i)) (g_refs i) &&
  forallb (fun x => existsb (N.eqb x) (map fst (t_types t))) (g_projs i).
(** The vtable (rules of the language; traits.rs:678-692): what the macro for structs makes of it is accepted, and its lifetimes and
    types are all mentioned by fields. *)
Definition vt_ok (t : trait) (d : decl) : bool :=
  match parse (expand d) with Some is => accepts is | None => false end &&
  forallb (fun p => is_cst p || existsb (N.eqb (p_name p)) (field_uses t)) (d_params d).
(** All of it (rules of the language; traits.rs:674-893). *)
Definition accepted (t : trait) (d : decl) (is : list item) : bool := vt_ok t d && forallb (item_ok t d is) is.
