(** What users of [==], [<] and hash tables rely on. *)
From Coq Require Import List Arith NArith ZArith Bool.
From Verif Require Import M_Num M_Report S_String M_Cmp.
Import ListNotations.
Local Open Scope N_scope.

(** The values of a type.  [st]: the function stored at each address (two [VtDrop]s at one address are one). *)
Fixpoint has (st : N -> N) (k : kty) (x : val) : Prop :=
  match k, x with
  | QUInt n, VN a => a < 256 ^ N.of_nat n
  | QSInt n, VZ a => (0 < n)%nat /\ (- 2 ^ (8 * Z.of_nat n - 1) <= a < 2 ^ (8 * Z.of_nat n - 1))%Z
  | QBool, VB _ => True
  | QUnit, VUnit => True
  | QNonMax n, VN a => 0 < a < 256 ^ N.of_nat n
  | QNonX n f, VN a => 0 < a < 256 ^ N.of_nat n /\ f < 256 ^ N.of_nat n
  | QText _, VText l => (exists t, is_text l t) /\ N.of_nat (length l) < 2 ^ 64
  | QSeq _ t, VList l => Forall (has st t) l /\ N.of_nat (length l) < 2 ^ 64
  | QResult a b, VOk x => has st a x
  | QResult a b, VErr x => has st b x
  | QOption a, VOk x => has st a x
  | QOption a, VErr x => x = VUnit
  | QPair a b, VPair x y => has st a x /\ has st b y
  | QDrop, VFn p f => f = st p /\ f < 2 ^ 64
  | _, _ => False
  end.
(** Types without [VtDrop] inside. *)
Fixpoint plain (k : kty) : Prop :=
  match k with
  | QSeq _ t => plain t
  | QResult a b | QPair a b => plain a /\ plain b
  | QOption a => plain a
  | QDrop => False
  | _ => True
  end.
(** Types with a hash, and with an order. *)
Fixpoint hashes (k : kty) : Prop :=
  match k with
  | QSeq QVec _ | QSeq QSingle _ => False
  | QSeq _ t => hashes t
  | QResult a b | QPair a b => hashes a /\ hashes b
  | QOption a => hashes a
  | _ => True
  end.
Fixpoint orders (k : kty) : Prop :=
  match k with
  | QSeq QView _ | QSeq QViewMut _ => False
  | QSeq _ t => orders t
  | QPair a b => orders a /\ orders b
  | QResult _ _ | QOption _ | QDrop => False
  | _ => True
  end.

(** The same value, wherever it is stored: [VtDrop]s with the same function. *)
Inductive same : val -> val -> Prop :=
| same_refl x : same x x
| same_fn p q f : same (VFn p f) (VFn q f)
| same_list l m : Forall2 same l m -> same (VList l) (VList m)
| same_ok x y : same x y -> same (VOk x) (VOk y)
| same_err x y : same x y -> same (VErr x) (VErr y)
| same_pair x y x' y' : same x y -> same x' y' -> same (VPair x x') (VPair y y').

(** The number a restricted integer stands for (the [n]-byte integers are written with [2 ^ (8 * n)] values). *)
Definition nonmax_value (n : nat) (a : N) : N := 256 ^ N.of_nat n - 1 - a.
Definition nonx_value (n : nat) (f a : N) : N := (a + f) mod 256 ^ N.of_nat n.

(** The order: of numbers, of the scalar values of texts, of the first difference in sequences and pairs. *)
Inductive below : kty -> val -> val -> Prop :=
| be_n n a b : a < b -> below (QUInt n) (VN a) (VN b)
| be_z n a b : (a < b)%Z -> below (QSInt n) (VZ a) (VZ b)
| be_b : below QBool (VB false) (VB true)
| be_max n a b : nonmax_value n a < nonmax_value n b -> below (QNonMax n) (VN a) (VN b)
| be_x n f a b : nonx_value n f a < nonx_value n f b -> below (QNonX n f) (VN a) (VN b)
| be_t s l m t u : is_text l t -> is_text m u -> before t u -> below (QText s) (VText l) (VText m)
| be_q s k l m : below_list k l m -> below (QSeq s k) (VList l) (VList m)
| be_p1 a b x y x' y' : below a x y -> below (QPair a b) (VPair x x') (VPair y y')
| be_p2 a b x x' y' : below b x' y' -> below (QPair a b) (VPair x x') (VPair x y')
with below_list : kty -> list val -> list val -> Prop :=
| bl_prefix k b m : below_list k [] (b :: m)
| bl_diff k a b l m : below k a b -> below_list k (a :: l) (b :: m)
| bl_same k a l m : below_list k l m -> below_list k (a :: l) (a :: m).
Scheme below_mut := Induction for below Sort Prop with below_list_mut := Induction for below_list Sort Prop.

(** ** Reports *)

(** The strings of a report are short, its field names non-empty and without zero bytes, and its versions below [lim]. *)
Definition short (l : list N) : Prop := Forall (fun b => b < 256) l /\ N.of_nat (length l) < 2 ^ 24.
Fixpoint usual (lim : N) (r : report) : Prop :=
  match r with
  | Rep n m v k fs =>
      short n /\ short m /\ v < lim /\ match k with KEnum s => short s | _ => True end /\
      (fix go (l : list (list N * report)) : Prop :=
         match l with
         | [] => True
         | (fn, r') :: t => (short fn /\ fn <> [] /\ Forall (fun b => b <> 0) fn) /\ usual lim r' /\ go t
         end) fs
  end.
