(** What expressions of narrow integers mean (C112): integers. *)
From Coq Require Import NArith ZArith List Bool.
From Verif Require Import M_Num S_Num M_NumOps.

(** The value of an expression of [uN]; [None]: it is no value of [uN]. *)
Fixpoint uvalue (n : N) (e : uexp) : option N :=
  match e with
  | UNew v => if N.ltb v (2 ^ n) then Some v else None
  | UMax => Some (2 ^ n - 1)%N
  | UMin | UDefault => Some 0%N
  | UAnd a b => match uvalue n a, uvalue n b with Some x, Some y => Some (N.land x y) | _, _ => None end
  | UAndBase a r => match uvalue n a with Some x => Some (N.land x r) | None => None end
  | UOr a b => match uvalue n a, uvalue n b with Some x, Some y => Some (N.lor x y) | _, _ => None end
  | USub a b => match uvalue n a, uvalue n b with Some x, Some y => if N.leb y x then Some (x - y)%N else None | _, _ => None end
  | USubBase a r => match uvalue n a with Some x => if N.leb r x then Some (x - r)%N else None | None => None end
  end.
(** The same with subtraction modulo 2^n. *)
Fixpoint uvalue_mod (n : N) (e : uexp) : option N :=
  match e with
  | USub a b =>
      match uvalue_mod n a, uvalue_mod n b with
      | Some x, Some y => Some (Z.to_N ((Z.of_N x - Z.of_N y) mod 2 ^ Z.of_N n)) | _, _ => None
      end
  | USubBase a r => match uvalue_mod n a with Some x => Some (Z.to_N ((Z.of_N x - Z.of_N r) mod 2 ^ Z.of_N n)) | None => None end
  | UAnd a b => match uvalue_mod n a, uvalue_mod n b with Some x, Some y => Some (N.land x y) | _, _ => None end
  | UAndBase a r => match uvalue_mod n a with Some x => Some (N.land x r) | None => None end
  | UOr a b => match uvalue_mod n a, uvalue_mod n b with Some x, Some y => Some (N.lor x y) | _, _ => None end
  | UNew v => if N.ltb v (2 ^ n) then Some v else None
  | UMax => Some (2 ^ n - 1)%N
  | UMin | UDefault => Some 0%N
  end.
(** Integers of the base type in the expression are in range. *)
Fixpoint ubase (w : N) (e : uexp) : Prop :=
  match e with
  | UAnd a b | UOr a b | USub a b => ubase w a /\ ubase w b
  | UAndBase a r | USubBase a r => ubase w a /\ fits_u w r
  | UNew v => fits_u w v
  | _ => True
  end.

(** The value of an expression of [iN]. *)
Fixpoint ivalue (n : Z) (e : iexp) : Z :=
  match e with
  | INew v => v
  | IMax => (2 ^ (n - 1) - 1)%Z
  | IMin => (- 2 ^ (n - 1))%Z
  | IDefault => 0%Z
  | IAnd a b => Z.land (ivalue n a) (ivalue n b)
  | IAndBase a r => Z.land (ivalue n a) r
  | IOr a b => Z.lor (ivalue n a) (ivalue n b)
  end.
(** Without [MAX] (wrong by C43), masks are values of [iN]; and, if [min] is false, without [MIN]. *)
Fixpoint iplain (min : bool) (n : Z) (e : iexp) : Prop :=
  match e with
  | IMax => False
  | IMin => min = true
  | IAnd a b | IOr a b => iplain min n a /\ iplain min n b
  | IAndBase a r => iplain min n a /\ fits_i n r
  | _ => True
  end.
