(** Model of the [tyeval!] macro: stabby-macros/src/tyops.rs (and lib.rs:247-250).
    Token streams are lists of trees; [syn::parse2] of a type is taken to succeed, and a type is its tokens.  Panics of the macro are compile errors. *)
From Coq Require Import String Ascii List Bool Arith NArith.
From Verif Require Import M_Typenum.
Import ListNotations.
Local Open Scope char_scope.

(** Token trees (tyops.rs:64-84, 160): groups, whatever their delimiter; identifiers; punctuation with its spacing ([true]: Joint); literals. *)
Inductive tok := TGroup (l : list tok) | TIdent (s : string) | TPunct (c : ascii) (joint : bool) | TLit.

(** tyops.rs:20-30 [TyExpr]. *)
Inductive tyexpr :=
| EType (t : list tok)
| ENot (e : tyexpr)
| ETernary (c t f : tyexpr)
| EAdd (l r : tyexpr) | ESub (l r : tyexpr) | ERem (l r : tyexpr) | EBitOr (l r : tyexpr) | EBitAnd (l r : tyexpr) | EIsEqual (l r : tyexpr).
(** tyops.rs:32-42 [TyOps]. *)
Inductive tyops := OType | ONot | OTernary | OAdd | OSub | ORem | OBitOr | OBitAnd | OIsEqual.

(** What the macro does (tyops.rs:48-205): a value, a panic; [OutOfFuel] is an artefact of the model, which never occurs. *)
Inductive res (A : Type) := Ok (a : A) | Panic | OutOfFuel.
Arguments Ok {A}. Arguments Panic {A}. Arguments OutOfFuel {A}.

(** The variables of the loop (tyops.rs:50-61). *)
Record state := St { path : list tok; accept_ident : bool; in_ternary : bool; operation : tyops; types : list tyexpr }.
(** tyops.rs:50-61: their initial values. *)
Definition initial : state := St [] true false OType [].
(** tyops.rs:55-60 [set_op]. *)
Definition set_op (op : tyops) (s : state) : res state :=
  match operation s with OType => Ok (St (path s) (accept_ident s) (in_ternary s) op (types s)) | _ => Panic end.
(** tyops.rs:153-157: after an operator. *)
Definition flush (s : state) : state :=
  match path s with
  | [] => St [] true (in_ternary s) (operation s) (types s)
  | p => St [] true (in_ternary s) (operation s) (types s ++ [EType p])
  end.
(** tyops.rs:129-146: tokens up to the [>] that closes; it is consumed. *)
Fixpoint take_angle (count : nat) (l : list tok) : list tok * list tok :=
  match l with
  | [] => ([], [])
  | t :: r =>
      let count' := match t with TPunct "<" _ => S count | TPunct ">" _ => count - 1 | _ => count end in
      match count' with
      | O => ([], r)
      | _ => let '(a, b) := take_angle count' r in (t :: a, b)
      end
  end.
(** tyops.rs:80-152: a token of punctuation; the state, the tokens left, and whether the loop continues at once (without 153-157). *)
Definition punct (c : ascii) (joint : bool) (s : state) (rest : list tok) : res (state * list tok * bool) :=
  let op o := match set_op o s with Ok s' => Ok (s', rest, false) | Panic => Panic | OutOfFuel => OutOfFuel end in
  match c with
  | ":" =>
      if joint then
        match rest with
        | TPunct ":" _ :: rest' => Ok (St (path s ++ [TPunct ":" true; TPunct ":" false]) true (in_ternary s) (operation s) (types s), rest', true)
        | _ => Panic
        end
      else if in_ternary s then Ok (St (path s) (accept_ident s) false (operation s) (types s), rest, false) else Panic
  | "!" =>
      if joint then Panic
      else match set_op ONot s with
           | Ok s' => match path s with [] => Ok (s', rest, true) | _ => Panic end
           | Panic => Panic | OutOfFuel => OutOfFuel
           end
  | "?" =>
      match set_op OTernary s with
      | Ok s' => Ok (St (path s') (accept_ident s') true (operation s') (types s'), rest, false)
      | Panic => Panic | OutOfFuel => OutOfFuel
      end
  | "+" => op OAdd
  | "-" => op OSub
  | "%" => op ORem
  | "|" => op OBitOr
  | "&" => op OBitAnd
  | "=" =>
      if joint then
        match rest with
        | TPunct "=" _ :: rest' => match set_op OIsEqual s with Ok s' => Ok (s', rest', false) | Panic => Panic | OutOfFuel => OutOfFuel end
        | _ => Panic
        end
      else Panic
  | "<" => let '(a, b) := take_angle 1 rest in Ok (St (path s ++ TPunct "<" false :: a ++ [TPunct ">" false]) (accept_ident s) (in_ternary s) (operation s) (types s), b, true)
  | _ => Panic
  end.
(** tyops.rs:163-205: what the operation and the types found make; asserts are panics. *)
Definition build (op : tyops) (ts : list tyexpr) : res tyexpr :=
  match op, ts with
  | OType, [t] => Ok t
  | ONot, [t] => Ok (ENot t)
  | OTernary, [c; t; f] => Ok (ETernary c t f)
  | OAdd, [l; r] => Ok (EAdd l r)
  | OSub, [l; r] => Ok (ESub l r)
  | ORem, [l; r] => Ok (ERem l r)
  | OBitOr, [l; r] => Ok (EBitOr l r)
  | OBitAnd, [l; r] => Ok (EBitAnd l r)
  | OIsEqual, [l; r] => Ok (EIsEqual l r)
  | _, _ => Panic
  end.
(** tyops.rs:62-205: the loop, and what follows it (160-205).  A group is converted by the same function (65). *)
Fixpoint loop (fuel : nat) (s : state) (l : list tok) : res tyexpr :=
  match fuel with
  | O => OutOfFuel
  | S fuel =>
      match l with
      | [] => build (operation s) (match path s with [] => types s | p => types s ++ [EType p] end)
      | TGroup g :: r =>
          match loop fuel initial g with
          | Ok e => loop fuel (St (path s) false (in_ternary s) (operation s) (types s ++ [e])) r
          | Panic => Panic
          | OutOfFuel => OutOfFuel
          end
      | TIdent i :: r => if accept_ident s then loop fuel (St (path s ++ [TIdent i]) false (in_ternary s) (operation s) (types s)) r else Panic
      | TPunct c j :: r =>
          match punct c j s r with
          | Ok (s', r', true) => loop fuel s' r'
          | Ok (s', r', false) => loop fuel (flush s') r'
          | Panic => Panic
          | OutOfFuel => OutOfFuel
          end
      | TLit :: _ => Panic
      end
  end.
(** How many steps there can be: the number of tokens (tyops.rs:62, 65), each stream ending once. *)
Fixpoint tsize (t : tok) : nat :=
  match t with TGroup l => S (S ((fix go l := match l with [] => 0 | t :: r => tsize t + go r end) l)) | _ => 1 end.
(** The same for a stream (tyops.rs:62). *)
Fixpoint lsize (l : list tok) : nat := match l with [] => 0 | t :: r => tsize t + lsize r end.
(** tyops.rs:48-206 [From<TokenStream> for TyExpr]. *)
Definition parse (l : list tok) : res tyexpr := loop (S (lsize l)) initial l.

(** Types as the compiler sees them: [syn]'s type, or [<self as typenum2::Unsigned>::Assoc<args>], [<self as typenum2::Bit>::Assoc<args>] (tyops.rs:211-253). *)
Inductive oty :=
| Plain (t : list tok)
| UAdd (s a : oty) | UAbsSub (s a : oty) | UMod (s a : oty) | UBitOr (s a : oty) | UBitAnd (s a : oty) | UEqual (s a : oty)
| BNot (s : oty) | BUTernary (s a b : oty).
(** tyops.rs:209-254 [tyeval]. *)
Fixpoint tyeval (e : tyexpr) : oty :=
  match e with
  | EType t => Plain t
  | EAdd l r => UAdd (tyeval l) (tyeval r)
  | ESub l r => UAbsSub (tyeval l) (tyeval r)
  | ERem l r => UMod (tyeval l) (tyeval r)
  | EBitOr l r => UBitOr (tyeval l) (tyeval r)
  | EBitAnd l r => UBitAnd (tyeval l) (tyeval r)
  | ENot t => BNot (tyeval t)
  | ETernary c t f => BUTernary (tyeval c) (tyeval t) (tyeval f)
  | EIsEqual l r => UEqual (tyeval l) (tyeval r)
  end.
(** Types that matter here: unsigned numbers and bits (typenum2/unsigned.rs:27-34, 95-138). *)
Inductive tval := TU (u : unum) | TB (b : bool).
(** Resolution of the associated types (typenum2/unsigned.rs:97-138 [Bit], 276-394 [Unsigned]); [None]: the bound does not hold, a compile error.  [Mod] needs a power
    of two (381). [ty] says what the types written by the user are. *)
Fixpoint resolve (ty : list tok -> option tval) (o : oty) : option tval :=
  match o with
  | Plain t => ty t
  | UAdd a b => match resolve ty a, resolve ty b with Some (TU x), Some (TU y) => Some (TU (add x y)) | _, _ => None end
  | UAbsSub a b => match resolve ty a, resolve ty b with Some (TU x), Some (TU y) => Some (TU (abs_sub x y)) | _, _ => None end
  | UMod a b => match resolve ty a, resolve ty b with Some (TU x), Some (TU y) => match umod x y with Some z => Some (TU z) | None => None end | _, _ => None end
  | UBitOr a b => match resolve ty a, resolve ty b with Some (TU x), Some (TU y) => Some (TU (bitor x y)) | _, _ => None end
  | UBitAnd a b => match resolve ty a, resolve ty b with Some (TU x), Some (TU y) => Some (TU (bitand x y)) | _, _ => None end
  | UEqual a b => match resolve ty a, resolve ty b with Some (TU x), Some (TU y) => Some (TB (equal x y)) | _, _ => None end
  | BNot a => match resolve ty a with Some (TB x) => Some (TB (negb x)) | _ => None end
  | BUTernary a b c => match resolve ty a, resolve ty b, resolve ty c with Some (TB x), Some (TU y), Some (TU z) => Some (TU (if x then y else z)) | _, _, _ => None end
  end.
