(** Specification of the types of a trait's signatures. *)
From Coq Require Import List NArith.
From Verif Require M_Trait.
From Verif Require Import M_TraitTy.
Import ListNotations.

(** What a type means, as far as it does not depend on names: groups and parentheses are nothing, [::] before [<..>] neither, and no output is [()]. *)
Fixpoint meaning (t : sty) : sty :=
  match t with
  | SPath lead p => SPath lead (meaning_segs p)
  | SQual t lead p1 p2 => SQual (meaning t) lead (meaning_segs p1) (meaning_segs p2)
  | SFn head ins v out => SFn head (meaning_list ins) v (meaning_out out)
  | SGroup t | SParen t => meaning t
  | SArr t len => SArr (meaning t) len
  | SPtr m t => SPtr m (meaning t)
  | SRef l m t => SRef l m (meaning t)
  | STuple l => STuple (meaning_list l)
  | SNever => SNever
  | SSlice t => SSlice (meaning t)
  | SOther n => SOther n
  end
with meaning_segs (p : segs) : segs := match p with PNil => PNil | PCons i a p => PCons i (meaning_args a) (meaning_segs p) end
with meaning_args (a : sargs) : sargs :=
  match a with ANone => ANone | AAngle _ l => AAngle false (meaning_gargs l) | AParen ins out => AParen (meaning_list ins) (meaning_out out) end
with meaning_gargs (l : gargs) : gargs :=
  match l with
  | GNil => GNil | GLt l r => GLt l (meaning_gargs r) | GTy t r => GTy (meaning t) (meaning_gargs r)
  | GConst c r => GConst c (meaning_gargs r) | GBind b r => GBind b (meaning_gargs r)
  end
with meaning_list (l : stys) : stys := match l with TNil => TNil | TCons t r => TCons (meaning t) (meaning_list r) end
with meaning_out (o : oty) : oty := match o with ONone => OTy (STuple TNil) | OTy t => OTy (meaning t) end.

(** The types that are supported: without parentheses, tuples but [()], slices, trait objects and the like; [Self] only before an associated type; [<T as path>::..] with a trait, whose path
    does not start with [::]; functions that are not variadic; no [Trait(..) -> ..]. *)
Fixpoint supported (t : sty) : Prop :=
  match t with
  | SPath _ p => supported_segs p
  | SQual t lead p1 p2 => supported t /\ lead = false /\ supported_segs p1 /\ supported_segs p2
  | SFn _ ins v out => supported_list ins /\ v = false /\ supported_out out
  | SGroup t | SArr t _ | SPtr _ t | SRef _ _ t => supported t
  | STuple l => l = TNil
  | SNever => True
  | SParen _ | SSlice _ | SOther _ => False
  end
with supported_segs (p : segs) : Prop :=
  match p with
  | PNil => False
  | PCons i a p => (i = SELF /\ a = ANone /\ supported_segs p) \/ (i <> SELF /\ supported_args a /\ (p = PNil \/ supported_segs p))
  end
with supported_args (a : sargs) : Prop := match a with ANone => True | AAngle _ l => supported_gargs l | AParen _ _ => False end
with supported_gargs (l : gargs) : Prop :=
  match l with GNil => True | GLt _ r | GConst _ r | GBind _ r => supported_gargs r | GTy t r => supported t /\ supported_gargs r end
with supported_list (l : stys) : Prop := match l with TNil => True | TCons t r => supported t /\ supported_list r end
with supported_out (o : oty) : Prop := match o with ONone => True | OTy t => supported t end.

(** The types of [M_Trait], where arguments have no bindings, and no arguments are the same as [<>]. *)
Fixpoint emb (t : ty) : M_Trait.ty :=
  match t with
  | Never => M_Trait.TNever | Unit => M_Trait.TUnit | SelfRef t => M_Trait.TSelf (emb t) | Ref l m t => M_Trait.TRef l m (emb t) | Ptr m t => M_Trait.TPtr m (emb t)
  | Arr t len => M_Trait.TArr (emb t) len | Fn head ins out => M_Trait.TFn head (emb_tys ins) (emb out) | Path i a n => M_Trait.TPath (M_Trait.User i) (emb_args a) (emb_next n)
  | Colon t => M_Trait.TColon (emb t) | Qual t a n => M_Trait.TQual (emb t) (emb a) (emb n)
  end
with emb_args (a : targs) : M_Trait.args := match a with NoArgs => M_Trait.ANil | Angle l => emb_gargs l end
with emb_gargs (l : tgargs) : M_Trait.args :=
  match l with
  | TgNil => M_Trait.ANil | TgLt l r => M_Trait.ALt l (emb_gargs r) | TgTy t r => M_Trait.ATy (emb t) (emb_gargs r) | TgConst c r => M_Trait.AConst c (emb_gargs r)
  | TgBind _ r => emb_gargs r
  end
with emb_tys (l : tys) : M_Trait.args := match l with TysNil => M_Trait.ANil | TysCons t r => M_Trait.ATy (emb t) (emb_tys r) end
with emb_next (n : onext) : M_Trait.onext := match n with NNone => M_Trait.NNone | NSome t => M_Trait.NSome (emb t) end.
Fixpoint plain (t : ty) : Prop :=
  match t with
  | Never | Unit => True
  | SelfRef t | Ref _ _ t | Ptr _ t | Arr t _ | Colon t => plain t
  | Fn _ ins out => plain_tys ins /\ plain out
  | Path _ a n => plain_args a /\ plain_next n
  | Qual t a n => plain t /\ plain a /\ plain n
  end
with plain_args (a : targs) : Prop := match a with NoArgs => True | Angle l => l <> TgNil /\ plain_gargs l end
with plain_gargs (l : tgargs) : Prop := match l with TgNil => True | TgLt _ r | TgConst _ r => plain_gargs r | TgTy t r => plain t /\ plain_gargs r | TgBind _ _ => False end
with plain_tys (l : tys) : Prop := match l with TysNil => True | TysCons t r => plain t /\ plain_tys r end
with plain_next (n : onext) : Prop := match n with NNone => True | NSome t => plain t end.
