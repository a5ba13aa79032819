(** Model of computing with narrow integers [uN] and [iN]: expressions of their constructors and operators, and what is formatted (stabby-abi/src/num.rs:245-478). *)
From Coq Require Import NArith ZArith List Bool.
From Verif Require Import M_Num.

(** Safe expressions of type [uN]: [new(v).unwrap()], [MAX], [MIN], [default()], and the operators that give [Self] (num.rs:255, 262-271, 317-342, 364-375).
    The assigning operators (329-336, 349-356) are these operators. *)
Inductive uexp :=
| UNew (v : N) | UMax | UMin | UDefault
| UAnd (a b : uexp) | UAndBase (a : uexp) (r : N) | UOr (a b : uexp) | USub (a b : uexp) | USubBase (a : uexp) (r : N).
(** The stored integer (num.rs:255, 262-271, 317-342, 364-375); [None] is a panic: of [unwrap], or of a subtraction that overflows, if there are [checks]. *)
Fixpoint ueval (checks : bool) (w n : N) (e : uexp) : option N :=
  match e with
  | UNew v => um_new w n v
  | UMax => Some (um_max w n)
  | UMin => Some um_min
  | UDefault => Some 0%N
  | UAnd a b => match ueval checks w n a, ueval checks w n b with Some x, Some y => Some (um_and x y) | _, _ => None end
  | UAndBase a r => match ueval checks w n a with Some x => Some (um_and x r) | None => None end
  | UOr a b => match ueval checks w n a, ueval checks w n b with Some x, Some y => Some (um_or x y) | _, _ => None end
  | USub a b =>
      match ueval checks w n a, ueval checks w n b with
      | Some x, Some y => if checks then um_sub w n x y else Some (um_sub_release w n x y)
      | _, _ => None
      end
  | USubBase a r =>
      match ueval checks w n a with
      | Some x => if checks then um_sub_base w n x r else Some (u_wsub w (um_get w n x) r)
      | None => None
      end
  end.
(** num.rs:277-316: the integer that [Debug], [Display], [LowerHex], ... format. *)
Definition um_fmt (x : N) : N := x.

(** Safe expressions of type [iN] (num.rs:389, 397-408, 459-492). *)
Inductive iexp := INew (v : Z) | IMax | IMin | IDefault | IAnd (a b : iexp) | IAndBase (a : iexp) (r : Z) | IOr (a b : iexp).
(** num.rs:459-470 [BitAnd], with the base type or [Self]: both read [.0]. *)
Definition im_and (x y : Z) : Z := Z.land x y.
(** num.rs:479-484 [BitOr]. *)
Definition im_or (x y : Z) : Z := Z.lor x y.
(** The stored integer (num.rs:389, 397-408, 459-484); [None] is the panic of [unwrap]. *)
Fixpoint ieval (w n : Z) (e : iexp) : option Z :=
  match e with
  | INew v => im_new w n v
  | IMax => Some (im_max w n)
  | IMin => Some (im_min w n)
  | IDefault => Some 0%Z
  | IAnd a b => match ieval w n a, ieval w n b with Some x, Some y => Some (im_and x y) | _, _ => None end
  | IAndBase a r => match ieval w n a with Some x => Some (im_and x r) | None => None end
  | IOr a b => match ieval w n a, ieval w n b with Some x, Some y => Some (im_or x y) | _, _ => None end
  end.
(** num.rs:419-458: the integer that [Debug], [Display], [LowerHex], ... format. *)
Definition im_fmt (x : Z) : Z := x.
