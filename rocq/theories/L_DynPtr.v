(** Lemmas about dynptr!. *)
From Coq Require Import List Arith Bool Lia.
From Verif Require Import M_Dyn S_Dyn M_DynPtr S_DynPtr.
Import ListNotations.

Lemma layers_macro bs : layers (vtable_macro bs) = bs.
Proof.
  unfold vtable_macro. induction bs as [|b bs IH] using rev_ind; [reflexivity|]. rewrite fold_left_app. cbn [fold_left].
  destruct b; cbn [compound layers]; rewrite IH; reflexivity.
Qed.
Lemma vtable_loop_traits bs v : lives_of bs = [] -> vtable_loop bs v = Some (fold_left compound (bounds_of bs) v).
Proof.
  revert v. induction bs as [|[b|l] bs IH]; intros v H; [reflexivity| |discriminate]. cbn in *. apply IH, H.
Qed.
Lemma vtable_loop_life bs v : lives_of bs <> [] -> vtable_loop bs v = None.
Proof. revert v. induction bs as [|[b|l] bs IH]; intros v H; [contradiction| |reflexivity]. cbn in *. apply IH, H. Qed.

(** The lifetime found by the loop. *)
Definition found (l : option life) (bs : list tbound) : option (option life) :=
  match l, lives_of bs with
  | l, [] => Some l
  | None, [l] => Some (Some l)
  | _, _ => None
  end.
Lemma bounds_loop_spec bs : forall p q l,
  bounds_loop bs (DynPtr p q l) = option_map (DynPtr p (q ++ bounds_of bs)) (found l bs).
Proof.
  induction bs as [|[b|l'] bs IH]; intros p q l; cbn [bounds_loop dp_ptr dp_bounds dp_life].
  - unfold found, bounds_of. cbn. rewrite app_nil_r. destruct l; reflexivity.
  - rewrite IH. unfold found, lives_of, bounds_of. cbn [flat_map app]. rewrite <- app_assoc. reflexivity.
  - destruct l as [l|]; [unfold found, lives_of; cbn; reflexivity|]. rewrite IH. unfold found, lives_of, bounds_of. cbn [flat_map app].
    destruct (flat_map _ bs); reflexivity.
Qed.
Lemma parse_path q lead pre name e bs : e = TObj bs ->
  parse (TPath q lead pre name false [GType e]) = option_map (DynPtr (PPath lead pre name) (bounds_of bs)) (found None bs).
Proof. intros ->. unfold parse, pointer_of. rewrite bounds_loop_spec. reflexivity. Qed.
Lemma parse_ref l mut bs :
  parse (TRef l mut (TObj bs)) = option_map (DynPtr (if mut then PRefMut else PRef) (bounds_of bs)) (found l bs).
Proof. unfold parse, pointer_of. rewrite bounds_loop_spec. reflexivity. Qed.
Lemma one_trait bs : length bs = 1 -> bounds_of bs <> [] -> lives_of bs = [].
Proof. destruct bs as [|[b|l] [|? ?]]; intros L H; try discriminate; [reflexivity|]. contradiction H. reflexivity. Qed.
Lemma objects_ref l mut bs : objects_ok (TRef l mut (TObj bs)) = true -> lives_of bs = [].
Proof.
  intros H. cbn [objects_ok one_bound] in H. apply andb_true_iff in H as (H1 & H2). apply Nat.eqb_eq in H1. apply one_trait; [exact H1|].
  destruct (bounds_of bs); [discriminate H2|discriminate].
Qed.
