(** Model of the types in the signatures of a [#[stabby::stabby]] trait (stabby-macros/src/traits.rs:896-938, 1023-1101, 1147-1176, 1222-1321): from what syn parses to [Ty],
    from [Ty] to tokens, and what these tokens are parsed as again.  Identifiers, lifetimes, expressions, and [for<..> unsafe extern ".." fn] are numbers. *)
From Coq Require Import List Arith NArith Bool.
Import ListNotations.

(** The word [Self] (traits.rs:1149). *)
Definition SELF : N := 0%N.
(** syn's [Type] (traits.rs:1224-1318): paths, [<T as ..>::..] whose path is split at [position] (traits.rs:1241-1250), bare functions, the groups of [macro_rules!], parentheses, arrays,
    pointers, references, tuples, [!], slices, and those that are refused whatever they are made of (trait objects, [impl], macros, [_], others). *)
Inductive sty :=
| SPath (lead : bool) (p : segs)
| SQual (t : sty) (lead : bool) (p1 p2 : segs)
| SFn (head : N) (ins : stys) (variadic : bool) (out : oty)
| SGroup (t : sty) | SParen (t : sty) | SArr (t : sty) (len : N) | SPtr (mutable : bool) (t : sty) | SRef (l : option N) (mutable : bool) (t : sty)
| STuple (l : stys) | SNever | SSlice (t : sty) | SOther (n : N)
(** Segments of a path (traits.rs:1147-1148). *)
with segs := PNil | PCons (i : N) (a : sargs) (p : segs)
(** Arguments of a segment: none, [<..>] with or without [::] before, [(..) -> ..] (traits.rs:1152-1169). *)
with sargs := ANone | AAngle (turbofish : bool) (l : gargs) | AParen (ins : stys) (out : oty)
(** What is in [<..>]; bindings and constraints are copied (traits.rs:1156-1165). *)
with gargs := GNil | GLt (l : N) (r : gargs) | GTy (t : sty) (r : gargs) | GConst (c : N) (r : gargs) | GBind (b : N) (r : gargs)
(** Lists of types (traits.rs:1263, 1298). *)
with stys := TNil | TCons (t : sty) (r : stys)
(** Outputs (traits.rs:1264-1267). *)
with oty := ONone | OTy (t : sty).

(** traits.rs:896-938 [Ty]; [Arbitrary], which is not made from types, is left out. *)
Inductive ty :=
| Never | Unit | SelfRef (t : ty) | Ref (l : option N) (mutable : bool) (t : ty) | Ptr (mutable : bool) (t : ty) | Arr (t : ty) (len : N)
| Fn (head : N) (ins : tys) (out : ty) | Path (i : N) (a : targs) (next : onext) | Colon (next : ty) | Qual (target as_trait next : ty)
(** traits.rs:1022-1026 [Arguments]. *)
with targs := NoArgs | Angle (l : tgargs)
(** traits.rs:1027-1034 [GenericArgument]. *)
with tgargs := TgNil | TgLt (l : N) (r : tgargs) | TgTy (t : ty) (r : tgargs) | TgConst (c : N) (r : tgargs) | TgBind (b : N) (r : tgargs)
(** Inputs of a bare function (traits.rs:921). *)
with tys := TysNil | TysCons (t : ty) (r : tys)
(** The rest of a path (traits.rs:927). *)
with onext := NNone | NSome (t : ty).

(** Sequence of partial operations (a panic is [None]; traits.rs:1148, 1168, 1273, 1305-1317). *)
Definition bind {A B} (o : option A) (f : A -> option B) : option B := match o with Some a => f a | None => None end.
(** traits.rs:1222-1321 [From<&Type> for Ty]; [None] is a panic. *)
Fixpoint from (t : sty) : option ty :=
  match t with
  | SPath lead p => bind (from_iter p) (fun this => Some (if lead then Colon this else this))
  | SQual t _ p1 p2 => bind (from t) (fun target => bind (from_iter p1) (fun as_trait => bind (from_iter p2) (fun next => Some (Qual target as_trait next))))
  | SFn head ins false out => bind (from_list ins) (fun i => bind (from_out out) (fun o => Some (Fn head i o)))
  | SFn _ _ true _ => None
  | SGroup t => from t
  | SParen _ => None
  | SArr t len => bind (from t) (fun e => Some (Arr e len))
  | SPtr m t => bind (from t) (fun e => Some (Ptr m e))
  | SRef l m t => bind (from t) (fun e => Some (Ref l m e))
  | STuple TNil => Some Unit
  | STuple _ => None
  | SNever => Some Never
  | SSlice _ | SOther _ => None
  end
(** traits.rs:1147-1176 [from_iter]. *)
with from_iter (p : segs) : option ty :=
  match p with
  | PNil => None
  | PCons i a p =>
      if N.eqb i SELF then bind (from_iter p) (fun t => Some (SelfRef t))
      else bind (from_args a) (fun a => match p with PNil => Some (Path i a NNone) | PCons _ _ _ => bind (from_iter p) (fun t => Some (Path i a (NSome t))) end)
  end
(** traits.rs:1152-1169. *)
with from_args (a : sargs) : option targs :=
  match a with ANone => Some NoArgs | AAngle _ l => bind (from_gargs l) (fun l => Some (Angle l)) | AParen _ _ => None end
(** traits.rs:1155-1167. *)
with from_gargs (l : gargs) : option tgargs :=
  match l with
  | GNil => Some TgNil
  | GLt l r => bind (from_gargs r) (fun r => Some (TgLt l r))
  | GTy t r => bind (from t) (fun t => bind (from_gargs r) (fun r => Some (TgTy t r)))
  | GConst c r => bind (from_gargs r) (fun r => Some (TgConst c r))
  | GBind b r => bind (from_gargs r) (fun r => Some (TgBind b r))
  end
(** traits.rs:1263. *)
with from_list (l : stys) : option tys :=
  match l with TNil => Some TysNil | TCons t r => bind (from t) (fun t => bind (from_list r) (fun r => Some (TysCons t r))) end
(** traits.rs:1264-1267. *)
with from_out (o : oty) : option ty := match o with ONone => Some Unit | OTy t => from t end.

(** Tokens (traits.rs:1035-1101): identifiers, lifetimes, punctuation, the words [mut], [const] and [as], what comes before [(..)] in the type of a function, groups, expressions, bindings. *)
Inductive tok :=
| KId (i : N) | KLt (l : N) | KAmp | KStar | KMut | KConst | KColon2 | KLess | KGreater | KComma | KArrow | KBang | KAs | KDots | KFn (head : N)
| KParen (l : list tok) | KBracket (l : list tok) (len : option N) | KExpr (c : N) | KBind (b : N).
(** traits.rs:1054-1101 [ToTokens for Ty]. *)
Fixpoint print (t : ty) : list tok :=
  match t with
  | Never => [KBang]
  | Unit => [KParen []]
  | SelfRef t => KId SELF :: KColon2 :: print t
  | Ref l m t => KAmp :: match l with Some l => [KLt l] | None => [] end ++ (if m then [KMut] else []) ++ print t
  | Ptr m t => KStar :: (if m then KMut else KConst) :: print t
  | Arr t len => [KBracket (print t) (Some len)]
  | Fn head ins out => KFn head :: KParen (print_tys ins) :: KArrow :: print out
  | Path i a n => KId i :: print_args a ++ match n with NSome t => KColon2 :: print t | NNone => [] end
  | Colon t => KColon2 :: print t
  | Qual t a n => KLess :: print t ++ KAs :: print a ++ KGreater :: KColon2 :: print n
  end
(** traits.rs:1046-1053 [ToTokens for Arguments]. *)
with print_args (a : targs) : list tok := match a with NoArgs => [] | Angle l => KColon2 :: KLess :: print_gargs l ++ [KGreater] end
(** traits.rs:1035-1045 [ToTokens for GenericArgument], and the commas of traits.rs:1050. *)
with print_gargs (l : tgargs) : list tok :=
  match l with
  | TgNil => []
  | TgLt l r => KLt l :: KComma :: print_gargs r
  | TgTy t r => print t ++ KComma :: print_gargs r
  | TgConst c r => KExpr c :: KComma :: print_gargs r
  | TgBind b r => KBind b :: KComma :: print_gargs r
  end
(** traits.rs:1080. *)
with print_tys (l : tys) : list tok := match l with TysNil => [] | TysCons t r => print t ++ KComma :: print_tys r end.

(** ** The grammar of types (rules of the language, for the tokens of traits.rs:1054-1101) *)
(** How a list ends (rules of the language, for traits.rs:1080). *)
Inductive lend := EPlain | EComma | EDots.
(** A type at the head of the tokens, and what is left; [None] with too little fuel or if there is none (rules of the language, for traits.rs:1054-1101). *)
Fixpoint p_ty (fuel : nat) (l : list tok) : option (sty * list tok) :=
  match fuel with
  | O => None
  | S n =>
      match l with
      | KBang :: r => Some (SNever, r)
      | KParen ts :: r =>
          bind (p_list n ts) (fun x => match x with
            | (TCons t TNil, EPlain) => Some (SParen t, r)
            | (_, EDots) => None
            | (l, _) => Some (STuple l, r)
            end)
      | KBracket ts len :: r =>
          match p_ty n ts with Some (t, []) => Some (match len with Some e => SArr t e | None => SSlice t end, r) | _ => None end
      | KAmp :: r =>
          let '(lt, r) := match r with KLt l :: r => (Some l, r) | _ => (None, r) end in
          let '(m, r) := match r with KMut :: r => (true, r) | _ => (false, r) end in
          bind (p_ty n r) (fun x => Some (SRef lt m (fst x), snd x))
      | KStar :: KMut :: r => bind (p_ty n r) (fun x => Some (SPtr true (fst x), snd x))
      | KStar :: KConst :: r => bind (p_ty n r) (fun x => Some (SPtr false (fst x), snd x))
      | KFn head :: KParen ts :: r =>
          bind (p_list n ts) (fun x => bind (p_out n r) (fun o =>
            Some (SFn head (fst x) (match snd x with EDots => true | _ => false end) (fst o), snd o)))
      | KLess :: r =>
          bind (p_ty n r) (fun x =>
            match snd x with
            | KGreater :: KColon2 :: r => bind (p_segs n r) (fun p => Some (SQual (fst x) false PNil (fst p), snd p))
            | KAs :: r =>
                let '(lead, r) := match r with KColon2 :: r => (true, r) | _ => (false, r) end in
                bind (p_segs n r) (fun a => match snd a with
                  | KGreater :: KColon2 :: r => bind (p_segs n r) (fun p => Some (SQual (fst x) lead (fst a) (fst p), snd p))
                  | _ => None
                  end)
            | _ => None
            end)
      | KColon2 :: r => bind (p_segs n r) (fun p => Some (SPath true (fst p), snd p))
      | KId _ :: _ => bind (p_segs n l) (fun p => Some (SPath false (fst p), snd p))
      | _ => None
      end
  end
(** Segments (rules of the language, for traits.rs:1082-1093). *)
with p_segs (fuel : nat) (l : list tok) : option (segs * list tok) :=
  match fuel with
  | O => None
  | S n =>
      match l with
      | KId i :: r =>
          bind (p_args n r) (fun a => match snd a with
            | KColon2 :: r => bind (p_segs n r) (fun p => Some (PCons i (fst a) (fst p), snd p))
            | r => Some (PCons i (fst a) PNil, r)
            end)
      | _ => None
      end
  end
(** Arguments (rules of the language, for traits.rs:1050). *)
with p_args (fuel : nat) (l : list tok) : option (sargs * list tok) :=
  match fuel with
  | O => None
  | S n =>
      match l with
      | KColon2 :: KLess :: r => bind (p_gargs n r) (fun x => Some (AAngle true (fst x), snd x))
      | KLess :: r => bind (p_gargs n r) (fun x => Some (AAngle false (fst x), snd x))
      | KParen ts :: r => bind (p_list n ts) (fun x => bind (p_out n r) (fun o => match snd x with EDots => None | _ => Some (AParen (fst x) (fst o), snd o) end))
      | _ => Some (ANone, l)
      end
  end
(** What is in [<..>], with the [>] (rules of the language, for traits.rs:1050). *)
with p_gargs (fuel : nat) (l : list tok) : option (gargs * list tok) :=
  match fuel with
  | O => None
  | S n =>
      let sep c r := match r with KComma :: r => bind (p_gargs n r) (fun x => Some (c (fst x), snd x)) | KGreater :: r => Some (c GNil, r) | _ => None end in
      match l with
      | KGreater :: r => Some (GNil, r)
      | KLt x :: r => sep (GLt x) r
      | KExpr x :: r => sep (GConst x) r
      | KBind x :: r => sep (GBind x) r
      | _ => bind (p_ty n l) (fun x => sep (GTy (fst x)) (snd x))
      end
  end
(** What is in [(..)] (rules of the language, for traits.rs:1080). *)
with p_list (fuel : nat) (l : list tok) : option (stys * lend) :=
  match fuel with
  | O => None
  | S n =>
      match l with
      | [] => Some (TNil, EPlain)
      | [KDots] => Some (TNil, EDots)
      | _ => bind (p_ty n l) (fun x => match snd x with
          | [] => Some (TCons (fst x) TNil, EPlain)
          | [KComma] => Some (TCons (fst x) TNil, EComma)
          | KComma :: r => bind (p_list n r) (fun y => Some (TCons (fst x) (fst y), snd y))
          | _ => None
          end)
      end
  end
(** Outputs (rules of the language, for traits.rs:1080). *)
with p_out (fuel : nat) (l : list tok) : option (oty * list tok) :=
  match fuel with
  | O => None
  | S n => match l with KArrow :: r => bind (p_ty n r) (fun x => Some (OTy (fst x), snd x)) | _ => Some (ONone, l) end
  end.
(** All the tokens are one type (rules of the language, for traits.rs:1054-1101). *)
Definition parses (l : list tok) (t : sty) : Prop := exists n, forall k, n <= k -> p_ty k l = Some (t, []).
