(** What a [#[repr(stabby)]] enum offers: a constructor for each variant, and match functions which call the closure of the variant
    (stabby/TUTORIAL.md:275-277), whatever the variants, the parameters and what is in scope are called. *)
From Coq Require Import String.
From Coq Require Import List Arith NArith Bool.
From Verif Require Import M_Enum M_EnumNames.
Import ListNotations.
Local Open Scope string_scope.
Local Open Scope list_scope.

(** Rust accepts the enum itself: names are given once. *)
Definition legal (e : enum) : Prop := NoDup (map v_name (e_variants e)) /\ NoDup (e_params e).

(** What the closure of the variant is called on: the context, if there is one, and the payload, if there is one. *)
Definition expected (v : variant) (c : list N) (n : N) : list base :=
  map BCtx c ++ match v_shape v with Unit => [] | _ => [BData (DPay n)] end.

(** The macro gives code that rustc accepts, and each match function, on a value made by the constructor of a variant, calls the closure of this variant, on what was given. *)
Definition works (sc : list string) (e : enum) : Prop :=
  exists g, expand e = Some g /\ accepted sc e g = true /\
    forall i v n, nth_error (e_variants e) i = Some v ->
      exists d, construct g (v_name v) n = Some d /\
        forall k (ctx : bool) (c : list N), length c = (if ctx then 1 else 0)%nat ->
          call_match g (fname k ctx) c (length (e_variants e)) d = Some (i, expected v c n).

(** ** When this is so *)
(** Variants with nothing or one unnamed field, and without discriminant. *)
Definition simple (v : variant) : bool :=
  negb (v_discr v) && match v_shape v with Unit => true | Tuple [_] => true | _ => false end.
Definition carries (v : variant) : bool := match v_shape v with Unit => false | _ => true end.
(** The half of the variants that the [i]-th is in has more than one. *)
Definition crowded (n i : nat) : Prop := if Nat.ltb i (n / 2) then (2 <= n / 2)%nat else (2 <= n - n / 2)%nat.
(** Names of types that the generated functions declare. *)
Definition reserved_types (e : enum) : list string :=
  "'st_lt" :: "StabbyOut" :: "StabbyCtx" :: map (fun v => String.append (v_name v) "Fn") (e_variants e).
Definition reserved_variants : list string :=
  ["match_owned"; "match_ref"; "match_mut"; "match_owned_ctx"; "match_ref_ctx"; "match_mut_ctx"; "stabby_ctx"].
Record supported (sc : list string) (e : enum) : Prop := {
  s_simple : forallb simple (e_variants e) = true;
  s_two : (2 <= length (e_variants e))%nat;
  s_carries : existsb carries (e_variants e) = true;
  s_scope : forall v, In v (e_variants e) -> ~ In (v_name v) sc;                  (* no constant, static, struct or variant in scope has the name of a variant *)
  s_binders : ~ In "value" sc /\ ~ In "a" sc /\ ~ In "stabby_ctx" sc /\ (In "this" sc -> length (e_variants e) = 2%nat);
  s_fns : forall v, In v (e_variants e) -> ~ In (v_name v) reserved_variants;
  s_this : forall i v, nth_error (e_variants e) i = Some v -> v_name v = "this" -> ~ crowded (length (e_variants e)) i;
  s_a : forall v, In v (e_variants e) -> v_name v = "a" -> carries v = false;
  s_types : forall x, In x (reserved_types e) -> ~ In x (e_params e) /\ ~ In x (mentions e)
}.
