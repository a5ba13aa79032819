(** Types that are the same but for FORBIDDEN, and types that say the truth about where they come from. *)
From Coq Require Import List NArith ZArith Bool String Decimal DecimalString.
From Verif Require Import M_Report M_Decl M_NumRep.
Import ListNotations.

(** The same integer type, whatever is forbidden. *)
Definition alike_int (r r' : rint) : Prop :=
  match r, r' with
  | RInt s w, RInt s' w' | RNonZero s w, RNonZero s' w' => s = s' /\ w = w'
  | RNonMax w, RNonMax w' => w = w'
  | RNonX s w _, RNonX s' w' _ => s = s' /\ w = w'
  | _, _ => False
  end.
Inductive alike : rty -> rty -> Prop :=
| AlI r r' : alike_int r r' -> alike (RI r) (RI r')
| AlS n m v fs fs' : Forall2 (fun f f' => fst f = fst f' /\ alike (snd f) (snd f')) fs fs' -> alike (RS n m v fs) (RS n m v fs').
(** No struct pretends to come from stabby's own modules. *)
Inductive honest : rty -> Prop :=
| HoI r : honest (RI r)
| HoS n m v fs : m <> impls -> m <> nums -> Forall (fun f => honest (snd f)) fs -> honest (RS n m v fs).
(** The forbidden values in a type, in order. *)
Definition forbidden_int (r : rint) : list Z := match r with RNonX _ _ f => [f] | _ => [] end.
Fixpoint forbidden (t : rty) : list Z :=
  match t with RI r => forbidden_int r | RS _ _ _ fs => flat_map (fun f => forbidden (snd f)) fs end.
(** Forbidden values are values of the integer type (they are constants of that type). *)
Definition typed_int (pw : N) (r : rint) : Prop := match r with RNonX s w f => in_range s (bits pw w) f = true | _ => True end.
Inductive typed (pw : N) : rty -> Prop :=
| TyI r : typed_int pw r -> typed pw (RI r)
| TyS n m v fs : Forall (fun f => typed pw (snd f)) fs -> typed pw (RS n m v fs).
(** A name with the sign and the number of bits in it, as those of core. *)
Definition sized_name (n : string) (s : bool) (bits : N) : list N :=
  lit (n ++ (if s then "I" else "U") ++ NilEmpty.string_of_uint (N.to_uint bits)).
