(** C23: [SingleOrVec]. *)
From Coq Require Import NArith Arith List Bool Lia.
From Verif Require Import M_Layout M_Result M_Vec S_Vec L_Vec M_Sov S_Sov L_Layout L_Result L_Sov.
Import ListNotations.

(** Partial: for histories that keep away from the defects refuted below (see [careful]). *)
Theorem sov_refines_list_partial : forall E d (s : N) (h : list (sop E * (N -> bool))), s <> 0%N ->
  Forall (fun x => honest (as_vop (fst x))) h -> Forall (careful d) h -> fits s (weights (as_history h)) ->
  exists st l ret dr, s_run d s h s_new = Some (st, ret, dr) /\ s_as_slice st = Some l /\
    lrun (as_history h) [] l ret dr /\
    exists freed, s_drop st = Some (l, freed).
Proof.
  intros E d s h Hs Ho C F. destruct (s_run_spec d s h s_new [] Hs (holds_new s) Ho F C) as (st & l & a & b & E1 & E2 & E3).
  exists st, l, a, b. split; [auto|].
  destruct st as [e | v |]; cbn [sholds s_as_slice s_drop] in *; [subst l | | contradiction].
  - split; [reflexivity|]. split; [auto|]. eauto.
  - split; [apply (v_as_slice_spec s); auto|]. split; [auto|]. eexists. apply (v_drop_spec s); auto.
Qed.
Print Assumptions sov_refines_list_partial.

(** Created with a capacity, it behaves as a list whatever happens. *)
Theorem sov_with_capacity_refines_list : forall E d (s : N) cap (h : list (sop E * (N -> bool))), s <> 0%N -> cap <> 0%N ->
  Forall (fun x => honest (as_vop (fst x))) h -> fits s (cap + weights (as_history h)) ->
  exists st l ret dr, s_run d s ((OReserve cap, fun _ => true) :: h) s_new = Some (st, ret, dr) /\
    s_as_slice st = Some l /\ lrun (as_history h) [] l ret dr.
Proof.
  intros E d s cap h Hs Hc Ho F.
  destruct (@with_capacity_spec E s (fun _ => true) cap Hs) as [(v & E1 & E2 & E3) | [[k K] _]]; [| |discriminate].
  { eapply fits_mul; [|exact F]. lia. }
  destruct (s_run_allocated d s h v [] Hs E2) as (st & l & a & b & F1 & F2 & F3).
  { lia. } { exact Ho. } { eapply fits_le; [|exact F]. cbn [length]. lia. }
  exists st, l, a, b. split; [|split; [|auto]].
  - unfold v_try_with_capacity in E1. cbn [s_run s_run1]. unfold s_reserve, s_try_reserve, s_new.
    destruct (v_try_reserve s (fun _ => true) cap v_new) as [[] v1]; [|discriminate].
    injection E1 as ->. rewrite F1. reflexivity.
  - destruct st as [e | w |]; cbn [sholds s_as_slice] in *; [subst; reflexivity | apply (v_as_slice_spec s); auto | contradiction].
Qed.
Print Assumptions sov_with_capacity_refines_list.

Definition yes (_ : N) := true.
Definition no (_ : N) := false.
Definition small_d : det := DNot (DVal 8 0 (DVal 9 0 DEnd)).
Example sov_refines_list_ex :
  let h := [(OPush 1, yes); (OTryPush 2, no); (OTruncate 1, yes); (OPush 3, yes); (OTruncate 1, yes); (OPush 4, yes)] in
  Forall (fun x => honest (as_vop (fst x))) h /\ Forall (careful small_d) h /\ fits 8 (weights (as_history h)) /\
  match s_run small_d 8 h s_new with
  | Some (st, ret, dr) => s_as_slice st = Some [1; 4] /\ ret = [2] /\ dr = [3] /\ s_capacity st = Some 8%N
  | None => False
  end.
Proof.
  cbv zeta. split; [repeat constructor|]. split; [repeat (apply Forall_cons; [cbn; first [exact I | right; discriminate]|]); constructor|].
  split; [reflexivity|]. repeat split; reflexivity.
Qed.
Example sov_with_capacity_ex :
  match s_run small_d 8 [(OReserve 2, yes); (OPush 1, yes); (OTruncate 0, yes); (OExtend [2; 3; 4] 3, no); (OExtend [5; 6; 7] 0, no)] s_new with
  | Some (st, ret, dr) => s_as_slice st = Some [5; 6] /\ dr = [1; 2; 3; 4; 7]
  | None => False
  end.
Proof. split; reflexivity. Qed.

(** Conversions. *)
Theorem sov_into_vec : forall E s ok (st : sov E) l, s <> 0%N -> sholds s st l -> fits s (N.of_nat (length l)) ->
  (exists v, s_into_vec s ok st = Done v [] [] /\ holds s v l) \/
  ((exists k, ok k = false) /\ s_into_vec s ok st = Panicked v_new [] l).
Proof.
  intros E s ok st l Hs H F. destruct st as [e | v |]; cbn [sholds s_into_vec] in *; [|left; eauto | contradiction].
  subst l. destruct (v_push_spec s ok v_new [] e Hs (holds_new s)) as [(v & E1 & E2) | [K E1]]; auto.
  - eapply fits_le; [|exact F]. cbn. lia.
  - left. eauto.
Qed.
Print Assumptions sov_into_vec.

Theorem sov_clone : forall E s ok f (st : sov E) l, s <> 0%N -> sholds s st l ->
  (exists st', s_clone s ok f st = SDone st' [] [] /\ sholds s st' (map f l)) \/
  ((exists k, ok k = false) /\ s_clone s ok f st = SPanic s_new [] []).
Proof.
  intros E s ok f st l Hs H. destruct st as [e | v |]; cbn [sholds s_clone] in *; [|  | contradiction].
  - subst l. left. eexists. split; [reflexivity | reflexivity].
  - destruct (v_clone_spec s ok f v l Hs H) as [(v' & E1 & E2 & _) | [K E1]]; rewrite E1; cbn [on_vec].
    + left. eauto.
    + right. auto.
Qed.
Print Assumptions sov_clone.
Example sov_conversions_ex :
  s_into_vec 8 yes (Single 3) = Done (Vec (Some 3 :: repeat None 7) 1 8) [] [] /\
  s_clone 8 yes S (Single 3) = SDone (Single 4) [] [].
Proof. split; reflexivity. Qed.

(** ** What the guards write. *)

(** A [SingleOrVec<u8>]: the layouts of [Single<u8, A>] (single_or_vec.rs:7-11) and
    [Vec<u8, A>] (vec.rs:24-29) for an empty allocator. *)
Definition single_u8 : desc := struct_ (field_pair (plain_d 1 1) unit_d).
Definition vec_d : desc :=
  struct_ (field_pair (field_pair (field_pair (struct_ (field_pair (nonzero_d 8 8) unit_d)) (nonzero_d 8 8)) (nonzero_d 8 8)) unit_d).

(** If [reasserts], the storage says [Ok] once the guard is dropped; if not, the guard leaves
    the storage as it is. *)
Theorem sov_guard_bytes : forall d s s' obj, det_ok d s = Some (s', obj) ->
  (forall c, d = DNot (dval c) -> c <> [] -> NoDup (map fst c) -> (forall o v, In (o, v) c -> o < length s) ->
     reasserts d = true /\ is_det_ok d s' = Some true) /\
  (forall o k, d = DBitErr o (2 ^ k) -> (k < 8)%N -> reasserts d = true /\ is_det_ok d s' = Some true) /\
  (forall c, d = dval c -> reasserts d = false /\ s' = s) /\
  (d = DBit -> reasserts d = false /\ is_niche_trick d = false).
Proof.
  intros d s s' obj H. split; [|split; [|split]].
  - intros c -> N0 ND L. split; [destruct c as [|[o v] c]; [congruence | reflexivity]|].
    cbn [det_ok] in H. destruct (dval_err c s ND L) as (s1 & E1 & E2 & E3 & _). rewrite E1 in H. injection H as <- <-.
    cbn [is_det_ok]. destruct (dval_is_ok c s1) as [_ Q]; [intros o v I; rewrite E2; eauto|].
    apply Q in E3. rewrite E3. reflexivity.
  - intros o k -> K. split; [reflexivity|]. cbn [det_ok is_det_ok] in *.
    destruct (if N.eqb (2 ^ k) 1 then store s o 0 else Some s) as [s1|]; [|discriminate].
    destruct (nth_error s1 o) as [b|] eqn:Eb; [|discriminate].
    destruct (store_spec s1 o (N.land b (N.lxor 255 (2 ^ k)))) as (s2 & E1 & E2 & E3).
    { apply nth_error_Some. congruence. }
    rewrite E1 in H. injection H as <- _. rewrite E3, Nat.eqb_refl. cbn [option_map]. f_equal.
    rewrite land_pow2_zero, N.land_spec, lxor_255_testbit, N.eqb_refl by auto. cbn. rewrite andb_false_r. reflexivity.
  - intros c ->. rewrite dval_ok in H. injection H as <- <-. split; [|reflexivity].
    destruct c as [|[o v] c]; reflexivity.
  - intros ->. auto.
Qed.
Print Assumptions sov_guard_bytes.
Example sov_guard_bytes_ex : det_ok (DNot (dval [(1, 0%N); (2, 0%N)])) [1; 2; 3; 4]%N = Some ([1; 0; 0; 4], [])%N.
Proof. reflexivity. Qed.

(** For [u8] the determinant is written by the guards: reserving or truncating a single
    element leaves a vector that is taken for a single element. *)
Theorem sov_truncate_refuted : exists p, provider_of single_u8 vec_d = Some p /\
  s_run (fp_det p) 1 [(OPush 7, yes); (OTruncate 0, yes)] s_new = Some (Corrupt, [], [7]).
Proof. eexists. split; [vm_compute; reflexivity | reflexivity]. Qed.
Print Assumptions sov_truncate_refuted.

Theorem sov_reserve_refuted : exists p, provider_of single_u8 vec_d = Some p /\
  s_run (fp_det p) 1 [(OPush 7, yes); (OReserve 3, yes)] s_new = Some (Corrupt, [], []).
Proof. eexists. split; [vm_compute; reflexivity | reflexivity]. Qed.
Print Assumptions sov_reserve_refuted.

(** The same in bytes: from the result holding a vector whose pointers are [a], [b], [c],
    dropping the guard gives a result that matches as the element made of [a]'s first byte. *)
Theorem sov_truncate_bytes_refuted : exists p s s1 obj,
  provider_of single_u8 vec_d = Some p /\
  mk_err single_u8 vec_d p ([8; 0; 0; 0; 0; 0; 0; 1] ++ [8; 0; 0; 0; 0; 0; 0; 1] ++ [8; 0; 0; 0; 0; 0; 0; 1])%N = Some s /\
  (exists v, match_result single_u8 vec_d p s = Some (inr v)) /\
  det_ok (fp_det p) s = Some (s1, obj) /\
  match_result single_u8 vec_d p s1 = Some (inl [8%N]).
Proof.
  eexists. eexists. eexists. eexists. split; [vm_compute; reflexivity|]. split; [vm_compute; reflexivity|].
  split; [eexists; vm_compute; reflexivity|]. split; vm_compute; reflexivity.
Qed.
Print Assumptions sov_truncate_bytes_refuted.

(** When the allocator refuses, [try_reserve] drops the element and keeps it. *)
Theorem sov_try_reserve_failure_refuted : forall d, exists st dr,
  s_run d 8 [(OPush 7, yes); (OTryReserve 1, no)] s_new = Some (st, [], dr) /\
  s_as_slice st = Some [7] /\ dr = [7] /\ s_drop st = Some ([7], false).
Proof. intro d. eexists. eexists. split; [reflexivity|]. repeat split. Qed.
Print Assumptions sov_try_reserve_failure_refuted.

(** ** [IterMut]: positions are within bounds and never yielded twice.
    Partial: the arguments of [nth] must not add up to [usize::MAX] and more. *)
Theorem sov_iter_mut_partial : forall h (n : N), (n + im_skips h < 2 ^ 64)%N ->
  NoDup (fst (im_run h (IM 0 n))) /\ Forall (fun p => p < n)%N (fst (im_run h (IM 0 n))).
Proof.
  intros h n H. pose proof (im_run_spec h (IM 0 n)) as P. cbn [im_start im_end] in P.
  destruct (im_run h (IM 0 n)) as [xs i]. cbn [fst]. destruct P as [P1 P2]; [lia | lia |].
  split; [auto|]. eapply Forall_impl; [|exact P2]. cbn. intros. lia.
Qed.
Print Assumptions sov_iter_mut_partial.
Example sov_iter_mut_ex : fst (im_run [INext; INth 2; INextBack; INthBack 1; INext; INext] (IM 0 8)) = [0; 3; 7; 5; 4]%N.
Proof. reflexivity. Qed.

(** [nth(usize::MAX)] wraps and yields the first element a second time, as a second [&mut]. *)
Theorem sov_iter_mut_refuted : exists h n, ~ NoDup (fst (im_run h (IM 0 n))).
Proof.
  exists [INext; INth (2 ^ 64 - 1)], 4%N. vm_compute. intro H. inversion H as [|x l N _]. apply N. left. reflexivity.
Qed.
Print Assumptions sov_iter_mut_refuted.
