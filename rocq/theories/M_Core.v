(** Model of the layouts given to the standard [Option]/[Result]
    (stabby-abi/src/stable_impls/mod.rs:695-810), of the layouts generated for explicitly
    tagged enums (stabby-macros/src/enums.rs:176-331), and of [NotPod], [is_invalid]. *)
From Coq Require Import List Arith NArith Bool.
From Verif Require Import M_Layout.
Import ListNotations.

(** stable_impls/mod.rs:696-715 [core::option::Option<T>]; [None]: no implementation. *)
Definition core_option_d (t : desc) : option desc :=
  match dniche t with
  | A1 => Some {| dsize := dsize t; dalign := dalign t; dfv := FEnd; dub := []; dniche := A0;
                  dind := dind t |}
  | _ => None
  end.
(** stable_impls/mod.rs:738-810 [core::result::Result<Ok, Err>]. *)
Definition core_result_d (ok err : desc) : option desc :=
  let like d := Some {| dsize := dsize d; dalign := dalign d; dfv := FEnd; dub := []; dniche := A0;
                        dind := dind ok || dind err |} in
  match dsize err with
  | O => match dniche ok with A1 => like ok | _ => None end
  | S _ =>
      match dsize ok, dniche err with
      | O, A1 => like err
      | _, _ => None
      end
  end.

(** enums.rs:176-231: the data of a variant: its single field, or (only with
    [#[repr(C, ..)]]) a struct of its fields, paired from [()]. *)
Inductive variant := VNone | VOne (t : ty) | VMany (fs : list ty).
(** enums.rs:190-215. *)
Definition variant_ty (v : variant) : ty :=
  match v with
  | VNone => TUnit
  | VOne t => t
  | VMany fs => TStruct (fold_left TFP fs TUnit)
  end.
(** enums.rs:181-231: the union of the variants that have data. *)
Definition variants_ty (vs : list variant) : ty :=
  fold_left (fun acc v => match v with VNone => acc | _ => TUnion acc (variant_ty v) end) vs TUnit.
(** enums.rs:273 [Tuple<repr, union>] for a tag of [w] bytes. *)
Definition tagged_enum_ty (w : nat) (vs : list variant) : ty :=
  TStruct (TFP (TPlain w w) (variants_ty vs)).

(** istable.rs:121-131 [NotPod<T>]. *)
Definition not_pod_d (d : desc) : desc :=
  {| dsize := dsize d; dalign := dalign d; dfv := dfv d; dub := dub d; dniche := dniche d; dind := true |}.
(** istable.rs:72-74 [IStable::is_invalid] on the bytes at the pointer. *)
Definition is_invalid (d : desc) (s : list N) : option bool := fv_is_invalid (dfv d) s.
(** istable.rs:55-59 [IStable::size]. *)
Definition istable_size (d : desc) : nat :=
  dsize d + ((dalign d - dsize d mod dalign d) mod dalign d).
