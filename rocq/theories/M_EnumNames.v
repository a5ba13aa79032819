(** Model of the constructors and match functions generated for [#[repr(stabby)]] enums, names included
    (stabby-macros/src/enums.rs:159-161, 172-222, 241-257, 334-364, 382-420, 433-531, 611-649). *)
From Coq Require Import String.
From Coq Require Import List Arith NArith Bool.
From Verif Require Import M_Enum.
Import ListNotations.
Local Open Scope string_scope.
Local Open Scope list_scope.

(** ** Declarations *)
(** The fields of a variant, as declared (enums.rs:172-222).  A type is the list of the names it mentions, lifetimes with their quote. *)
Inductive shape := Unit | Tuple (tys : list (list string)) | Named.
(** syn::Variant (enums.rs:341-349); [v_discr]: it has an explicit discriminant. *)
Record variant := Variant { v_name : string; v_shape : shape; v_discr : bool }.
(** The enum (enums.rs:139-146); [e_params]: the names of its parameters, lifetimes with their quote. *)
Record enum := Enum { e_params : list string; e_variants : list variant }.

(** ** Generated code *)
(** Parameters of closures (enums.rs:496-527). *)
Inductive pat := PVar (x : string) | PWild.
(** What a match function is called on (enums.rs:503-504): [self.0] or a variable. *)
Inductive recv := RSelf | RVar (x : string).
(** The expressions of the match functions (enums.rs:496-527): [EMatch r c a b] is [r.match_..(c, a, b)], where [c] is empty or the context;
    [ECall f xs] is [f(xs)].  [&mut*a] is [a]. *)
Inductive expr :=
| EVar (x : string)
| ELam (ps : list pat) (b : expr)
| EMatch (r : recv) (c : list string) (a b : expr)
| ECall (f : string) (xs : list string).
(** The expressions of the constructors (enums.rs:471-495). *)
Inductive cexpr := CVar (x : string) | CUnit | COk (c : cexpr) | CErr (c : cexpr).
(** A constructor: its name, parameters and body (enums.rs:613-619). *)
Record ctor := Ctor { c_name : string; c_params : list string; c_body : cexpr }.
(** A match function: its name, its parameters that are types or lifetimes, its parameters but [self], its body (enums.rs:620-648). *)
Record fn := Fn { f_name : string; f_tparams : list string; f_params : list string; f_body : expr }.
(** The generated [impl] (enums.rs:611-649). *)
Record gen := Gen { g_ctors : list ctor; g_fns : list fn }.

(** A variant without what the macro does not keep: its name and the type of its field (enums.rs:334-338). *)
Definition vfield : Type := string * option (list string).
(** enums.rs:196-219 and 339-364 [From<&syn::Variant> for Variant]; [None]: a panic. *)
Definition from_variant (v : variant) : option vfield :=
  if v_discr v then None else
  match v_shape v with
  | Unit => Some (v_name v, None)
  | Tuple [t] => Some (v_name v, Some t)
  | Tuple _ | Named => None
  end.
(** enums.rs:373-379 [FromIterator]. *)
Fixpoint from_variants (vs : list variant) : option (list vfield) :=
  match vs with
  | [] => Some []
  | v :: r => match from_variant v, from_variants r with Some x, Some l => Some (x :: l) | _, _ => None end
  end.

(** [match_owned], [match_ref], [match_mut] (enums.rs:516-527). *)
Inductive access := Owned | Ref | Mut.
(** enums.rs:518-522, 523-527: the names of the functions; [ctx]: the variants with a context. *)
Definition fname (k : access) (ctx : bool) : string :=
  match k, ctx with
  | Owned, false => "match_owned" | Ref, false => "match_ref" | Mut, false => "match_mut"
  | Owned, true => "match_owned_ctx" | Ref, true => "match_ref_ctx" | Mut, true => "match_mut_ctx"
  end.
(** [stabby_ctx], if there is a context (enums.rs:506-515). *)
Definition cx (ctx : bool) : list string := if ctx then ["stabby_ctx"] else [].
(** The closures of the leaves, enums.rs:498-501, 508-511, 519-522, 526-529. *)
Definition leaf (k : access) (ctx : bool) (v : vfield) : expr :=
  match snd v with
  | None => ELam (map PVar (cx ctx) ++ [PWild]) (ECall (fst v) (cx ctx))
  | Some _ => match k with
              | Mut => ELam (map PVar (cx ctx) ++ [PVar "a"]) (ECall (fst v) (cx ctx ++ ["a"]))
              | _ => EVar (fst v)
              end
  end.
(** The closures of the inner nodes, enums.rs:502, 512, 523, 530. *)
Definition join (ctx : bool) (a b : expr) : expr :=
  ELam (map PVar (cx ctx) ++ [PVar "this"]) (EMatch (RVar "this") (cx ctx) a b).
(** The body, enums.rs:503, 513, 524, 531. *)
Definition final (ctx : bool) (a b : expr) : expr := EMatch RSelf (cx ctx) a b.
(** enums.rs:459-462: the parameter for the closure of a variant. *)
Definition fnvid (v : vfield) : string := String.append (fst v) "Fn".
(** enums.rs:620-648: the signatures. *)
Definition tparams (k : access) (ctx : bool) (vs : list vfield) : list string :=
  match k with Owned => [] | _ => ["'st_lt"] end ++ "StabbyOut" :: (if ctx then ["StabbyCtx"] else []) ++ map fnvid vs.
(** enums.rs:516-531, 620-648. *)
Definition match_fn (vs : list vfield) (k : access) (ctx : bool) : option fn :=
  match vmap_final (leaf k ctx) (join ctx) (final ctx) vs with
  | Some b => Some (Fn (fname k ctx) (tparams k ctx vs) (cx ctx ++ map fst vs) b)
  | None => None
  end.
(** enums.rs:473-483: the parameters of a constructor. *)
Definition cparams (v : vfield) : list string := match snd v with Some _ => ["value"] | None => [] end.
(** enums.rs:473-484. *)
Definition cleaf (v : vfield) : list cexpr := [match snd v with Some _ => CVar "value" | None => CUnit end].
(** enums.rs:486-495. *)
Definition cjoin (a b : list cexpr) : list cexpr := map COk a ++ map CErr b.
(** enums.rs:613-619: the three lists are put side by side. *)
Fixpoint ctors (vs : list vfield) (bs : list cexpr) : list ctor :=
  match vs, bs with v :: vs', b :: bs' => Ctor (fst v) (cparams v) b :: ctors vs' bs' | _, _ => [] end.
(** All that is [Some]: a panic in one of enums.rs:516-531 is a panic. *)
Fixpoint sequence {A} (l : list (option A)) : option (list A) :=
  match l with
  | [] => Some []
  | Some a :: r => match sequence r with Some l => Some (a :: l) | None => None end
  | None :: _ => None
  end.
(** enums.rs:616-648: the functions, in order. *)
Definition kinds : list (access * bool) := [(Owned, false); (Ref, false); (Mut, false); (Owned, true); (Ref, true); (Mut, true)].
(** enums.rs:196-219, 473: the variant has a field. *)
Definition has_field (v : vfield) : bool := match snd v with Some _ => true | None => false end.
(** enums.rs:164-166, 172-222, 244-246, 433-531, 611-649; [None]: the macro panics. *)
Definition expand (e : enum) : option gen :=
  match from_variants (e_variants e) with
  | None => None
  | Some vs =>
      if negb (existsb has_field vs) then None              (* enums.rs:244-246 *)
      else if Nat.ltb (length vs) 2 then None               (* enums.rs:436-438 *)
      else match vmap cleaf cjoin vs, sequence (map (fun kc => match_fn vs (fst kc) (snd kc)) kinds) with
           | Some bs, Some fs => Some (Gen (ctors vs bs) fs)
           | _, _ => None
           end
  end.

(** ** What rustc accepts of it (enums.rs:611-649 in the scope of the user) *)
Definition mem (x : string) (l : list string) : bool := existsb (String.eqb x) l.
(** Names declared once, as rustc asks of enums.rs:611-649. *)
Fixpoint nodup (l : list string) : bool := match l with [] => true | x :: r => negb (mem x r) && nodup r end.
(** The variables of the patterns of enums.rs:496-531. *)
Definition pat_vars (ps : list pat) : list string := flat_map (fun p => match p with PVar x => [x] | PWild => [] end) ps.
(** The variables that an expression binds (enums.rs:496-531). *)
Fixpoint binders (e : expr) : list string :=
  match e with
  | ELam ps b => pat_vars ps ++ binders b
  | EMatch _ _ a b => binders a ++ binders b
  | _ => []
  end.
(** The names that the types of the variants mention (enums.rs:440-452, 620-648). *)
Definition mentions (e : enum) : list string :=
  flat_map (fun v => match v_shape v with Tuple l => concat l | _ => [] end) (e_variants e).
(** A constructor is accepted (enums.rs:616-618).  [sc]: the names in scope of constants, statics, unit and tuple structs and
    variants, [Some], [None], [Ok] and [Err] of the prelude among them: a pattern that is such a name is no variable (errors E0530, E0308, E0005). *)
Definition ctor_ok (sc : list string) (c : ctor) : bool := forallb (fun x => negb (mem x sc)) (c_params c).
(** A match function is accepted (enums.rs:620-648): its parameters are variables, different from each other (E0415); its type parameters are different from each other and from
    those of the enum (E0403), and from what the types of the variants mention, which would be taken for them (E0308). *)
Definition fn_ok (sc : list string) (e : enum) (f : fn) : bool :=
  forallb (fun x => negb (mem x sc)) (f_params f ++ binders (f_body f)) && nodup (f_params f) &&
  nodup (f_tparams f) && forallb (fun x => negb (mem x (e_params e)) && negb (mem x (mentions e))) (f_tparams f).
(** And no two functions have the same name (E0592; enums.rs:611-649). *)
Definition accepted (sc : list string) (e : enum) (g : gen) : bool :=
  forallb (ctor_ok sc) (g_ctors g) && forallb (fn_ok sc e) (g_fns g) && nodup (map c_name (g_ctors g) ++ map f_name (g_fns g)).

(** ** Running it *)
(** Values of the enum: nested [Result]s (enums.rs:471-495) of payloads. *)
Inductive data := DPay (n : N) | DUnit | DOk (d : data) | DErr (d : data).
(** What closures are given: data, or the context (enums.rs:506-515). *)
Inductive base := BData (d : data) | BCtx (n : N).
(** The closure of the user that was called, by its position, and its arguments (enums.rs:498-501). *)
Definition out : Type := nat * list base.
(** Values of expressions: [VOut] is what a closure of the user returns (enums.rs:496-531). *)
Inductive val := VBase (b : base) | VFun (f : list base -> option out) | VOut (o : out).
(** The variables in scope in enums.rs:496-531. *)
Definition env : Type := list (string * val).
(** The innermost of that name, as in enums.rs:496-531. *)
Fixpoint lookup (x : string) (r : env) : option val :=
  match r with [] => None | (y, v) :: r' => if String.eqb x y then Some v else lookup x r' end.
(** Arguments that are given as they are, in variables (enums.rs:499-531). *)
Fixpoint bases (r : env) (xs : list string) : option (list base) :=
  match xs with
  | [] => Some []
  | x :: xs' => match lookup x r, bases r xs' with Some (VBase b), Some l => Some (b :: l) | _, _ => None end
  end.
(** The parameters of a closure get its arguments (enums.rs:496-531). *)
Fixpoint bind (ps : list pat) (bs : list base) (r : env) : option env :=
  match ps, bs with
  | [], [] => Some r
  | PVar x :: ps', b :: bs' => bind ps' bs' ((x, VBase b) :: r)
  | PWild :: ps', _ :: bs' => bind ps' bs' r
  | _, _ => None
  end.
(** [match_..] of [Result], result.rs:272-379: the closure for the variant is called on the payload (C06, C10). *)
Definition match_data (r : base) (c : list base) (fa fb : list base -> option out) : option out :=
  match r with
  | BData (DOk d) => fa (c ++ [BData d])
  | BData (DErr d) => fb (c ++ [BData d])
  | _ => None
  end.
(** Rust, on the expressions of enums.rs:496-531; [None]: the types are wrong.  [self] is the value of [self.0]. *)
Fixpoint eval (self : data) (r : env) (e : expr) : option val :=
  match e with
  | EVar x => lookup x r
  | ELam ps b => Some (VFun (fun bs => match bind ps bs r with
                                       | Some r' => match eval self r' b with Some (VOut o) => Some o | _ => None end
                                       | None => None
                                       end))
  | EMatch rc c a b =>
      match (match rc with RSelf => Some (VBase (BData self)) | RVar x => lookup x r end), bases r c, eval self r a, eval self r b with
      | Some (VBase d), Some cs, Some (VFun fa), Some (VFun fb) =>
          match match_data d cs fa fb with Some o => Some (VOut o) | None => None end
      | _, _, _, _ => None
      end
  | ECall f xs =>
      match lookup f r, bases r xs with
      | Some (VFun g), Some bs => match g bs with Some o => Some (VOut o) | None => None end
      | _, _ => None
      end
  end.
(** Likewise on those of enums.rs:471-495; [v] is the value of [value]. *)
Fixpoint ceval (x : string) (v : data) (c : cexpr) : option data :=
  match c with
  | CVar y => if String.eqb x y then Some v else None
  | CUnit => Some DUnit
  | COk c => match ceval x v c with Some d => Some (DOk d) | None => None end
  | CErr c => match ceval x v c with Some d => Some (DErr d) | None => None end
  end.
(** [E::name(n)] (enums.rs:613-619). *)
Definition construct (g : gen) (name : string) (n : N) : option data :=
  match find (fun c => String.eqb (c_name c) name) (g_ctors g) with
  | Some c => ceval (match c_params c with x :: _ => x | [] => EmptyString end) (DPay n) (c_body c)
  | None => None
  end.
(** [d.name(c, f0, f1, ..)] where the closure [fi] notes that it was called (enums.rs:620-648); [c] is the context, if any. *)
Definition call_match (g : gen) (name : string) (c : list N) (closures : nat) (d : data) : option out :=
  match find (fun f => String.eqb (f_name f) name) (g_fns g) with
  | Some f =>
      let vals := map (fun n => VBase (BCtx n)) c ++ map (fun i => VFun (fun bs => Some (i, bs))) (seq 0 closures) in
      if Nat.eqb (length vals) (length (f_params f)) then
        match eval d (combine (f_params f) vals) (f_body f) with Some (VOut o) => Some o | _ => None end
      else None
  | None => None
  end.
