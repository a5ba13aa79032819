(** What reports and layouts of types should be, without placeholders. *)
From Coq Require Import Ascii String.
From Coq Require Import List Arith NArith Bool.
From Verif Require Import M_Layout M_Report M_Decl M_SelfRep.
Import ListNotations.

(** What a type is made of, down to some depth: declared types with their fields, built-in types with their arguments. *)
Inductive tree := Cut | Declared (name module : list N) (version : N) (kind : tyty) (fields : list (list N * tree)) | Built (c : con) (args : list tree).
Fixpoint unroll (E : list decl) (n : nat) (t : type) : option tree :=
  match n with
  | 0 => Some Cut
  | S m =>
      match t with
      | TPath x args =>
          match find_decl E x with
          | None => None
          | Some d =>
              option_map (Declared (d_name d) (d_module d) (d_version d) (d_kind d))
                (mapM (fun f => match resolve E (bind_params d args) t (snd f) with
                                | Some u => option_map (pair (fst f)) (unroll E m u)
                                | None => None
                                end) (d_fields d))
          end
      | TCon c args => option_map (Built c) (mapM (unroll E m) args)
      end
  end.
(** Two types, in two programs, that are made of the same things at any depth. *)
Definition same_type (E E' : list decl) (t t' : type) : Prop :=
  forall n, exists T, unroll E n t = Some T /\ unroll E' n t' = Some T.

(** Types that mention a name without arguments. *)
Fixpoint mentions (x : ident) (t : type) : bool :=
  match t with
  | TPath y args => (match args with [] => bytes_eqb y x | _ => false end) || existsb (mentions x) args
  | TCon _ args => existsb (mentions x) args
  end.
(** No path is [x], with or without arguments. *)
Fixpoint avoids (x : ident) (t : type) : bool :=
  match t with
  | TPath y args => negb (bytes_eqb y x) && forallb (avoids x) args
  | TCon _ args => forallb (avoids x) args
  end.
(** Only built-in types whose report tells their argument. *)
Definition telling (c : con) : bool :=
  match c with CWrap | CPhantom | CCoreOk | CCoreErr | CPrim PPhantom => false | _ => true end.
Fixpoint all_telling (t : type) : bool :=
  match t with TPath _ args => forallb all_telling args | TCon c args => telling c && forallb all_telling args end.

(** Declarations as Rust has them: what is declared is not called [Self] nor [_Self], nor are parameters, which differ from the declared name;
    nobody mentions stabby's [_Self]. *)
Definition proper (d : decl) : bool :=
  forallb (fun x => negb (bytes_eqb x self_name) && negb (bytes_eqb x Self_name))
    (d_name d :: map fst (d_params d)) &&
  forallb (fun p => negb (bytes_eqb (fst p) (d_name d))) (d_params d) &&
  forallb (fun p => match snd p with Some t => avoids self_name t | None => true end) (d_params d) &&
  forallb (fun f => avoids self_name (snd f)) (d_fields d).
(** The type calls itself by its name without arguments only if it has no parameter. *)
Definition no_default_self (d : decl) : bool :=
  match d_params d with [] => true | _ => forallb (fun f => negb (mentions (d_name d) (snd f))) (d_fields d) end.
(** [rec]: which types, told by their name and module, are known to mention themselves. *)
Definition recursive_known (rec : ident -> list N -> bool) (d : decl) : bool :=
  rec (d_name d) (d_module d) ||
  forallb (fun f => negb (mentions (d_name d) (snd f)) && negb (mentions Self_name (snd f))) (d_fields d).
(** Modules of users: not those of the built-in types. *)
Definition foreign (d : decl) : bool :=
  negb (bytes_eqb (d_module d) impls) && negb (bytes_eqb (d_module d) (lit "stabby_abi::result")) && negb (bytes_eqb (d_module d) (lit "stabby_abi::istable")).
Definition good_decls (rec : ident -> list N -> bool) (E : list decl) : bool :=
  forallb (fun d => proper d && no_default_self d && recursive_known rec d && foreign d
                    && forallb (fun f => all_telling (snd f)) (d_fields d)
                    && forallb (fun p => match snd p with Some t => all_telling t | None => true end) (d_params d)) E.
(** In the first [n] levels of its report, no type that mentions itself is given, as an argument, a type that mentions the type being declared. *)
Fixpoint tame (rec : ident -> list N -> bool) (E : list decl) (n : nat) (t : type) : bool :=
  match n with
  | 0 => true
  | S m =>
      match t with
      | TPath x args =>
          match find_decl E x with
          | None => true
          | Some d =>
              (negb (rec (d_name d) (d_module d)) || forallb (avoids self_name) args) &&
              forallb (fun f => match resolve E (bind_params d args) t (unself (d_name d) (snd f)) with
                                | Some u => tame rec E m u
                                | None => true
                                end) (d_fields d)
          end
      | TCon _ args => forallb (tame rec E m) args
      end
  end.

(** How many arguments a built-in type takes; arrays are declared up to 128 elements. *)
Definition takes (c : con) (k : nat) : bool :=
  match c with CPrim _ => k =? 0 | CArr n => (n <=? 128) && (k =? 1) | CPtr _ | CPin | CWrap | CPhantom => k =? 1 | CCoreOk | CCoreErr | CResult => k =? 2 end.
(** A type whose names are declared and that gives all arguments. *)
Fixpoint fits (E : list decl) (t : type) : bool :=
  match t with
  | TPath x args => (match find_decl E x with Some d => length args =? length (d_params d) | None => false end) && forallb (fits E) args
  | TCon c args => takes c (length args) && forallb (fits E) args
  end.
(** A type, as written, made of the names [b] without arguments and of declared types of a lower rank. *)
Fixpoint uses_below (E : list decl) (rank : ident -> nat) (b : list ident) (r : nat) (t : type) : bool :=
  match t with
  | TPath x args =>
      (match args with [] => existsb (fun y => bytes_eqb y x) b | _ => false end) ||
      ((match find_decl E x with Some d => (match fill (d_params d) args with Some _ => rank x <? r | None => false end) | None => false end)
       && forallb (uses_below E rank b r) args)
  | TCon c args => takes c (length args) && forallb (uses_below E rank b r) args
  end.
(** Declarations that, [Self] and the bare name of the declared type apart, can be ordered so that each only uses earlier ones. *)
Definition ordered (E : list decl) (rank : ident -> nat) : bool :=
  forallb (fun d => forallb (fun f => uses_below E rank (Self_name :: d_name d :: map fst (d_params d)) (rank (d_name d)) (snd f)) (d_fields d) &&
                    forallb (fun p => match snd p with Some t => fits E t && uses_below E rank [] (rank (d_name d)) t | None => true end) (d_params d)) E.

Section Layouts.
Context {L : Type} (combined : decl -> list L -> L) (built : con -> list L -> L) (thin : con -> L).
(** The layout of a type: [None] if it has none within [n] levels, as types that contain themselves. *)
Fixpoint true_layout (E : list decl) (n : nat) (t : type) : option L :=
  match n with
  | 0 => None
  | S m =>
      match t with
      | TPath x args =>
          match find_decl E x with
          | None => None
          | Some d =>
              if length args =? length (d_params d) then
                option_map (combined d)
                  (mapM (fun f => match resolve E (bind_params d args) t (snd f) with
                                  | Some u => true_layout E m u
                                  | None => None
                                  end) (d_fields d))
              else None
          end
      | TCon c args => if is_thin c then Some (thin c) else option_map (built c) (mapM (true_layout E m) args)
      end
  end.
End Layouts.
