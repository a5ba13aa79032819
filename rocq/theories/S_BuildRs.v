(** What is expected of the build script of stabby-abi. *)
From Coq Require Import String Ascii.
From Coq Require Import List NArith Bool.
From Verif Require Import M_Typenum M_BuildRs.
Import ListNotations.
Local Open Scope string_scope.
Local Open Scope N_scope.
Local Open Scope list_scope.

(** The value of a digit: 0 to 9, then A to F. *)
Definition digit_value (c : ascii) : option N :=
  let n := N_of_ascii c in
  if (48 <=? n) && (n <=? 57) then Some (n - 48) else if (65 <=? n) && (n <=? 70) then Some (n - 55) else None.
(** The value of digits in a base, if they are digits in it. *)
Fixpoint value_from (base acc : N) (s : string) : option N :=
  match s with
  | EmptyString => Some acc
  | String c r => match digit_value c with
                  | Some d => if d <? base then value_from base (base * acc + d) r else None
                  | None => None
                  end
  end.
(** Digits that are the usual writing of a number: some, and no zero in front of others. *)
Definition writes (base : N) (s : string) (n : N) : Prop :=
  value_from base 0 s = Some n /\ s <> EmptyString /\ forall r, s = String "0"%char r -> r = EmptyString.

(** The names, and the number that each stands for. *)
Inductive form := Dec | Hex | Bin | Pow10 | Pow2.
Definition prefix (f : form) : string := match f with Dec => "U" | Hex => "Ux" | Bin => "Ub" | Pow10 => "U10pow" | Pow2 => "U2pow" end.
Definition base (f : form) : N := match f with Hex => 16 | Bin => 2 | _ => 10 end.
(** [names_it f k s]: the name of this form with the number [k] written out. *)
Definition names_it (f : form) (k : N) (s : string) : Prop := exists ds, s = String.append (prefix f) ds /\ writes (base f) ds k.
Definition stands_for (f : form) (k : N) : N := match f with Pow10 => 10 ^ k | Pow2 => 2 ^ k | _ => k end.
Definition spelled (s : string) (n : N) : Prop := exists f k, names_it f k s /\ n = stands_for f k.

(** The type that a text means. *)
Inductive denotes : string -> unum -> Prop :=
| D_term : denotes "UTerm" UTerm
| D_zero s u : denotes s u -> denotes (String.append "UInt<" (String.append s ", B0>")) (UInt u false)
| D_one s u : denotes s u -> denotes (String.append "UInt<" (String.append s ", B1>")) (UInt u true).

(** Which names are expected. *)
Definition expected (f : form) (k : N) : Prop :=
  match f with
  | Dec => k <= 1000 \/ (exists i, i < 39 /\ k = 10 ^ i) \/ (exists i, i < 128 /\ k = 2 ^ i)
  | Hex | Bin => k <= 1000 \/ exists i, i < 39 /\ k = 10 ^ i
  | Pow10 => k < 39
  | Pow2 => k < 128
  end.

(** How many elements tuples may have: what is asked for if it is a number, at least ten. *)
Definition asked_tuple (env : option string) (n : N) : Prop :=
  (exists s ds k, env = Some s /\ (s = ds \/ s = String "+"%char ds) /\ ds <> EmptyString /\ value_from 10 0 ds = Some k /\ k < 2 ^ 64 /\ n = N.max k 10) \/
  (n = 32 /\ forall s ds k, env = Some s -> (s = ds \/ s = String "+"%char ds) -> ds <> EmptyString -> value_from 10 0 ds = Some k -> 2 ^ 64 <= k).
