(** C76: the language of [tyeval!], and what its expressions mean. *)
From Coq Require Import String Ascii List Bool NArith.
From Verif Require Import M_TyEval.
Import ListNotations.
Local Open Scope char_scope.

(** Tokens between angle brackets: [<] and [>] are balanced. *)
Inductive balanced : list tok -> Prop :=
| bal_nil : balanced []
| bal_tok t r : (forall j, t <> TPunct "<" j) -> (forall j, t <> TPunct ">" j) -> balanced r -> balanced (t :: r)
| bal_angle j a j' b : balanced a -> balanced b -> balanced (TPunct "<" j :: a ++ TPunct ">" j' :: b).

(** The tokens of a path such as [<T::Size as Unsigned>::NextMultipleOf<Self::Align>], as written, and up to spacing.  The flag: may an identifier come next? *)
Inductive path_tokens : bool -> list tok -> list tok -> Prop :=
| pt_nil b : path_tokens b [] []
| pt_ident i ts ns : path_tokens false ts ns -> path_tokens true (TIdent i :: ts) (TIdent i :: ns)
| pt_sep b j ts ns : path_tokens true ts ns ->
    path_tokens b (TPunct ":" true :: TPunct ":" j :: ts) (TPunct ":" true :: TPunct ":" false :: ns)
| pt_angle b j a j' ts ns : balanced a -> path_tokens b ts ns ->
    path_tokens b (TPunct "<" j :: a ++ TPunct ">" j' :: ts) (TPunct "<" false :: a ++ TPunct ">" false :: ns).

(** Infix operators. *)
Inductive infix : list tok -> (tyexpr -> tyexpr -> tyexpr) -> Prop :=
| in_add j : infix [TPunct "+" j] EAdd
| in_sub j : infix [TPunct "-" j] ESub
| in_rem j : infix [TPunct "%" j] ERem
| in_or j : infix [TPunct "|" j] EBitOr
| in_and j : infix [TPunct "&" j] EBitAnd
| in_eq j : infix [TPunct "=" true; TPunct "=" j] EIsEqual.

(** The tokens of an expression; those of an operand ([true]): a path, or in parentheses. *)
Inductive written : bool -> tyexpr -> list tok -> Prop :=
| wr_path b ts ns : path_tokens true ts ns -> ts <> [] -> written b (EType ns) ts
| wr_group b e ts : written false e ts -> written b e [TGroup ts]
| wr_not e ts : written true e ts -> written false (ENot e) (TPunct "!" false :: ts)
| wr_infix op f l ls r rs : infix op f -> written true l ls -> written true r rs -> written false (f l r) (ls ++ op ++ rs)
| wr_ternary c cs t ts f fs j : written true c cs -> written true t ts -> written true f fs ->
    written false (ETernary c t f) (cs ++ TPunct "?" j :: ts ++ TPunct ":" false :: fs).

(** Meaning: numbers and booleans; [None]: the expression has none. *)
Inductive value := VNum (n : N) | VBool (b : bool).
Definition is_pow2 (n : N) : bool := N.eqb (2 ^ N.log2 n) n.
Definition num2 (f : N -> N -> option value) (a b : option value) : option value :=
  match a, b with Some (VNum x), Some (VNum y) => f x y | _, _ => None end.
Fixpoint meaning (ty : list tok -> option value) (e : tyexpr) : option value :=
  match e with
  | EType t => ty t
  | ENot e => match meaning ty e with Some (VBool b) => Some (VBool (negb b)) | _ => None end
  | ETernary c t f => match meaning ty c with Some (VBool b) => num2 (fun x y => Some (VNum (if b then x else y))) (meaning ty t) (meaning ty f) | _ => None end
  | EAdd l r => num2 (fun x y => Some (VNum (x + y))) (meaning ty l) (meaning ty r)
  | ESub l r => num2 (fun x y => Some (VNum (N.max x y - N.min x y))) (meaning ty l) (meaning ty r)
  | ERem l r => num2 (fun x y => if is_pow2 y then Some (VNum (x mod y)) else None) (meaning ty l) (meaning ty r)
  | EBitOr l r => num2 (fun x y => Some (VNum (N.lor x y))) (meaning ty l) (meaning ty r)
  | EBitAnd l r => num2 (fun x y => Some (VNum (N.land x y))) (meaning ty l) (meaning ty r)
  | EIsEqual l r => num2 (fun x y => Some (VBool (N.eqb x y))) (meaning ty l) (meaning ty r)
  end%N.

(** The identifiers of a text, in order, and of an expression. *)
Fixpoint tok_names (t : tok) : list string :=
  match t with TGroup l => (fix go l := match l with [] => [] | t :: r => (tok_names t ++ go r)%list end) l | TIdent i => [i] | _ => [] end.
Definition names (l : list tok) : list string := flat_map tok_names l.
Fixpoint expr_names (e : tyexpr) : list string :=
  match e with
  | EType t => names t
  | ENot e => expr_names e
  | ETernary c t f => expr_names c ++ expr_names t ++ expr_names f
  | EAdd l r | ESub l r | ERem l r | EBitOr l r | EBitAnd l r | EIsEqual l r => expr_names l ++ expr_names r
  end%list.
