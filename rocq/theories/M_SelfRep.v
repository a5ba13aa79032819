(** Model of the treatment of types that mention themselves: [Unself] (stabby-macros/src/lib.rs:484-711), the reports and layouts that [#[stabby::stabby]] generates
    from it (structs.rs:126-190, unions.rs:70-80, enums.rs:183-232), on declarations with type parameters.
    Simplifications: names are resolved in one scope, paths have one segment; no lifetimes, const parameters, associated types, trait objects or
    function types; the default of a parameter mentions no parameter and no type with defaults; variants of enums have at most one field. *)
From Coq Require Import Ascii String.
From Coq Require Import List Arith NArith Bool.
From Verif Require Import M_Layout M_Report M_Decl.
Import ListNotations.

(** Identifiers (lib.rs:487-495). *)
Notation ident := (list N).
(** The built-in types: those without parameters, pointers, [Pin], arrays, [ManuallyDrop], [MaybeUninit] and [UnsafeCell] (stable_impls/mod.rs:243-692, 925-984),
    [PhantomData] (stable_impls/mod.rs:256-266), [core::result::Result] of a payload with one niche and one without bytes, in either order (stable_impls/mod.rs:739-810),
    stabby's [Result] (result.rs:65-79). *)
Inductive con := CPrim (p : prim) | CPtr (k : ptr) | CPin | CArr (n : nat) | CWrap | CPhantom | CCoreOk | CCoreErr | CResult.
(** Types as written (syn::Type, lib.rs:586-711), a path being a parameter or a declared type; or the types they stand for, where a path is a declared type
    with all its arguments. *)
Inductive type := TPath (id : ident) (args : list type) | TCon (c : con) (args : list type).
(** The name of the placeholder, stabby-abi/src/istable.rs:594-596. *)
Definition self_name : ident := lit "_Self".
(** What a type calls itself (lib.rs:493). *)
Definition Self_name : ident := lit "Self".
(** The placeholder (lib.rs:493-496). *)
Definition placeholder : type := TPath self_name [].
(** lib.rs:487-711 [Unself]: [Self] and the name of the type without arguments become the placeholder. *)
Fixpoint unself (this : ident) (t : type) : type :=
  match t with
  | TPath x [] => if bytes_eqb x Self_name || bytes_eqb x this then placeholder else t
  | TPath x args => TPath x (map (unself this) args)
  | TCon c args => TCon c (map (unself this) args)
  end.

(** A declaration with the attribute: structs.rs:102-125, unions.rs:57-70, enums.rs:148-183.  Parameters may have a default. *)
Record decl := Decl { d_name : ident; d_module : list N; d_version : N; d_kind : tyty;
                      d_params : list (ident * option type); d_fields : list (list N * type) }.
(** istable.rs:594-596 [_Self]. *)
Definition self_decl : decl := Decl self_name (lit "stabby_abi::istable") 0 KStruct [] [].
(** No code: declared names, with those of stabby (istable.rs:594-596). *)
Definition find_decl (E : list decl) (x : ident) : option decl :=
  if bytes_eqb x self_name then Some self_decl else find (fun d => bytes_eqb (d_name d) x) E.
(** Rust: missing arguments are the defaults (of the generics kept in structs.rs:143, 158). *)
Fixpoint fill (ps : list (ident * option type)) (args : list type) : option (list type) :=
  match ps, args with
  | [], [] => Some []
  | _ :: r, a :: args => option_map (cons a) (fill r args)
  | (_, Some t) :: r, [] => option_map (cons t) (fill r [])
  | _, _ => None
  end.
(** No code: a function that may fail on each element of a list (for lib.rs:586-711). *)
Definition mapM {A B} (f : A -> option B) : list A -> option (list B) :=
  fix mapM l :=
    match l with
    | [] => Some []
    | x :: r => match f x, mapM r with Some y, Some ys => Some (y :: ys) | _, _ => None end
    end.
(** No code: the value of a parameter (for structs.rs:143, 158). *)
Fixpoint lookup (b : list (ident * type)) (x : ident) : option type :=
  match b with [] => None | (y, t) :: r => if bytes_eqb y x then Some t else lookup r x end.
(** Rust: the type that a type written in a declaration stands for, [b] being the parameters and [self] the declared type
    (for structs.rs:137-146, 155-164). *)
Fixpoint resolve (E : list decl) (b : list (ident * type)) (self : type) (t : type) : option type :=
  match t with
  | TPath x args =>
      let app := match find_decl E x, mapM (resolve E b self) args with
                 | Some d, Some ts => option_map (TPath x) (fill (d_params d) ts)
                 | _, _ => None
                 end in
      match args with
      | [] => if bytes_eqb x Self_name then Some self else match lookup b x with Some u => Some u | None => app end
      | _ => app
      end
  | TCon c args => option_map (TCon c) (mapM (resolve E b self) args)
  end.
(** Rust: the parameters of an instance of a declaration (structs.rs:216). *)
Definition bind_params (d : decl) (args : list type) : list (ident * type) := combine (map fst (d_params d)) args.

(** [REPORT] of the built-in types: stabby-abi/src/lib.rs:51-76 and the lines given at [con].  Here the argument of [PhantomData] must have a report too, which the code does not ask
    (stable_impls/mod.rs:256). *)
Definition con_report (a128 : nat) (c : con) (rs : list report) : option report :=
  match c, rs with
  | CPrim p, [] => Some (Rep (prim_name a128 p) impls 0 KStruct [])
  | CPtr k, [r] => Some (inner_report (ptr_name k) r)
  | CPin, [r] => Some (inner_report (lit "core::pin::Pin") r)
  | CArr n, [r] => if n <=? 128 then Some (inner_report (array_name n) r) else None
  | CWrap, [r] => Some (Rep (report_name r) impls 0 KStruct [])
  | CPhantom, [_] => Some (Rep (prim_name a128 PPhantom) impls 0 KStruct [])
  | CCoreOk, [a; _] => Some (Rep (lit "Result") (lit "core::result") 0 (KEnum (lit "rust")) [(lit "Ok", a)])
  | CCoreErr, [_; b] => Some (Rep (lit "Result") (lit "core::result") 0 (KEnum (lit "rust")) [(lit "Err", b)])
  | CResult, [a; b] => Some (Rep (lit "Result") (lit "stabby_abi::result") 1 (KEnum (lit "stabby")) [(lit "Ok", a); (lit "Err", b)])
  | _, _ => None
  end.
(** [REPORT] of a type (structs.rs:137-166, 222; stabby-macros/src/lib.rs:423-459): the fields' types are those that [unself] gives.  [None]: no report within
    [n] levels, which Rust refuses if it is so for all [n]. *)
Fixpoint type_report (a128 : nat) (E : list decl) (n : nat) (t : type) : option report :=
  match n with
  | 0 => None
  | S m =>
      match t with
      | TPath x args =>
          match find_decl E x with
          | None => None
          | Some d =>
              if length args =? length (d_params d) then
                option_map (macro_report (d_name d) (d_module d) (d_version d) (d_kind d))
                  (mapM (fun f => match resolve E (bind_params d args) t (unself (d_name d) (snd f)) with
                                  | Some u => option_map (pair (fst f)) (type_report a128 E m u)
                                  | None => None
                                  end) (d_fields d))
              else None
          end
      | TCon c args => match mapM (type_report a128 E m) args with Some rs => con_report a128 c rs | None => None end
      end
  end.

Section Layouts.
(** Any layouts, with what computes those of structs, unions and enums (structs.rs:167-190, unions.rs:70-74, enums.rs:183-232) and of built-in types
    (stable_impls/mod.rs:243-984); those of pointers and [PhantomData] do not depend on the pointee. *)
Context {L : Type} (combined : decl -> list L -> L) (built : con -> list L -> L) (thin : con -> L).
(** The types whose layout does not depend on that of their argument (stable_impls/mod.rs:256-266, 553-576, 652-674). *)
Definition is_thin (c : con) : bool := match c with CPtr _ | CPhantom => true | _ => false end.
(** The layout that the macro gives (structs.rs:137-190): the fields' types are those that [unself] gives. *)
Fixpoint macro_layout (E : list decl) (n : nat) (t : type) : option L :=
  match n with
  | 0 => None
  | S m =>
      match t with
      | TPath x args =>
          match find_decl E x with
          | None => None
          | Some d =>
              if length args =? length (d_params d) then
                option_map (combined d)
                  (mapM (fun f => match resolve E (bind_params d args) t (unself (d_name d) (snd f)) with
                                  | Some u => macro_layout E m u
                                  | None => None
                                  end) (d_fields d))
              else None
          end
      | TCon c args => if is_thin c then Some (thin c) else option_map (built c) (mapM (macro_layout E m) args)
      end
  end.
End Layouts.
