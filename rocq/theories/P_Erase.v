(** C85: values owned through [Arc]s and trait objects over them are destroyed exactly once, as what they are, when their last owner goes. *)
From Coq Require Import List NArith Bool Arith Lia.
From Verif Require Import M_Arc M_Erase S_Erase L_Erase.
Import ListNotations.

(** C85, ownership, for all programs of one thread that make no [Dyn<Weak>]: nothing is used after its end, each value ends once, when its last owner goes (an [Arc] taken out of
    a trait object counts), and its memory is released once, when its last owner or watcher goes. *)
Theorem dyn_owned_partial : forall l, (N.of_nat (length l) < 2 ^ 62)%N -> Forall no_dyn_weak l -> well_owned (execs l).
Proof. intros l H F. apply inv_well with (length l). now apply inv_execs. Qed.
Print Assumptions dyn_owned_partial.
(** C85, destructors, for all programs of one thread that take no pointer out of a trait object: a value is destroyed or moved out as what it is. *)
Theorem dyn_ends_own_partial : forall l, Forall no_ptr l -> ended_as_own (execs l).
Proof.
  intros l F a c e H I. symmetry. apply (ty_e eq (execs l)) with a; auto. apply types_execs; auto.
  eapply Forall_impl; [|exact F]. intros []; cbn; auto.
Qed.
Print Assumptions dyn_ends_own_partial.
(** C85, destructors, if pointers are taken out of trait objects but not exchanged: a value ends as what it is, or as [()]. *)
Theorem dyn_ends_own_or_unit_partial : forall l, Forall no_swap l ->
  forall a c e, nth_error (cells (execs l)) a = Some c -> In e (c_ends c) -> ended_as e = c_ty c \/ ended_as e = 0.
Proof. intros l F a c e H I. apply (ty_e (fun t u => u = t \/ u = 0) (execs l)) with a; auto. apply types_execs; auto. Qed.
Print Assumptions dyn_ends_own_or_unit_partial.
(** C85, the last owner decides: dropping an owner runs the destructor that this owner knows if it is the last one, and nothing otherwise. *)
Theorem dyn_last_owner_partial : forall l i h, (N.of_nat (length l) < 2 ^ 62)%N -> Forall no_dyn_weak l -> get (hs (execs l)) i = Some h ->
  exists c, nth_error (cells (execs (l ++ [Drop i]))) (h_at h) = Some c /\
    c_ends c = if owners (execs l) (h_at h) =? 1 then [Dropped (h_ty h)] else [].
Proof.
  intros l i h H F G. pose proof (inv_execs l H F) as I. destruct (owners_S _ _ _ _ I G) as (k & K & Lk).
  assert (E : execs (l ++ [Drop i]) = exec (Drop i) (execs l)) by (unfold execs; now rewrite fold_left_app). rewrite E. cbn [exec]. rewrite G. cbn [cells].
  rewrite on_nth, Nat.eqb_refl. destruct (nth_error (cells (execs l)) (h_at h)) as [c|] eqn:Ec.
  - cbn [option_map]. eexists. split; [reflexivity|]. pose proof (inv_ok _ _ I _ _ Ec) as O. rewrite K in O.
    apply (ok_drop k _ c (h_ty h)) in O as [_ ->]; [|now apply small_le with (length l)|apply small_le with (length l); [assumption|now apply watchers_le]]. rewrite K. now destruct k.
  - apply nth_error_None in Ec. pose proof (inv_hat _ _ I _ _ G). lia.
Qed.
Print Assumptions dyn_last_owner_partial.
(** Two trait objects of one value of type 5 and a watcher that is upgraded; all of them go but the watcher.  A value of type 6 keeps one of its two trait objects. *)
Example dyn_owned_ex : let l := [New 5; Downgrade 0; IntoDyn 0; Clone 0; Upgrade 0; Drop 0; Read 1; Drop 1; Drop 2; New 6; IntoDyn 3; Clone 3; Drop 3] in
  Forall no_ptr l /\ Forall no_dyn_weak l /\
  map (fun c => (c_ty c, c_ends c, c_frees c, c_bad c)) (cells (execs l)) = [(5, [Dropped 5], 0, false); (6, [], 0, false)] /\
  get (hs (execs l)) 4 = Some (Handle true 6 1) /\ owners (execs l) 1 = 1 /\ watchers (execs l) 0 = 1.
Proof. repeat split; repeat constructor. Qed.

(** C85, refuted: [dyn.ptr().clone()] is an [Arc<()>]; if it goes after the trait object, the destructor of the value never runs, and its memory is released. *)
Theorem dyn_ptr_refuted : exists l c, Forall no_swap l /\ Forall no_dyn_weak l /\ nth_error (cells (execs l)) 0 = Some c /\
  c_ty c = 5 /\ c_ends c = [Dropped 0] /\ c_frees c = 1.
Proof. exists [New 5; IntoDyn 0; Ptr 0; Drop 0; Drop 1]. eexists. repeat split; repeat constructor. Qed.
Print Assumptions dyn_ptr_refuted.
(** C85, refuted: the [Arc<()>] can also be unwrapped, into [()]; the value is forgotten. *)
Theorem dyn_ptr_into_inner_refuted : exists l c, Forall no_swap l /\ Forall no_dyn_weak l /\ nth_error (cells (execs l)) 0 = Some c /\
  c_ty c = 5 /\ c_ends c = [Moved 0] /\ c_frees c = 1.
Proof. exists [New 5; IntoDyn 0; Ptr 0; Drop 0; IntoInner 1]. eexists. repeat split; repeat constructor. Qed.
Print Assumptions dyn_ptr_into_inner_refuted.
(** C85, refuted: [core::mem::swap(a.ptr_mut(), b.ptr_mut())] of trait objects of two types: each value is destroyed by the destructor of the other's type. *)
Theorem dyn_ptr_mut_refuted : exists l c d, Forall no_dyn_weak l /\ nth_error (cells (execs l)) 0 = Some c /\ nth_error (cells (execs l)) 1 = Some d /\
  c_ty c = 5 /\ c_ends c = [Dropped 6] /\ c_ty d = 6 /\ c_ends d = [Dropped 5].
Proof. exists [New 5; New 6; IntoDyn 0; IntoDyn 1; Swap 0 1; Drop 0; Drop 1]. do 2 eexists. repeat split; repeat constructor. Qed.
Print Assumptions dyn_ptr_mut_refuted.
(** C85, refuted: dropping a [Dyn<Weak>] destroys the value though the trait object it was made from is still there. *)
Theorem dyn_weak_drop_refuted : exists l c, Forall no_ptr l /\ nth_error (cells (execs l)) 0 = Some c /\ owners (execs l) 0 = 1 /\ c_ends c = [Dropped 5] /\
  exists c', nth_error (cells (execs (l ++ [Read 0]))) 0 = Some c' /\ c_bad c = false /\ c_bad c' = true.
Proof.
  exists [New 5; IntoDyn 0; DynDowngrade 0; WDrop 0]. eexists. split; [repeat constructor|]. split; [reflexivity|]. split; [reflexivity|]. split; [reflexivity|].
  eexists. repeat split.
Qed.
Print Assumptions dyn_weak_drop_refuted.
(** C85, refuted: dropping a [Dyn<Weak>] after the value is gone makes the strong count the greatest number, so that another [Weak] can be upgraded to the destroyed value. *)
Theorem dyn_weak_revive_refuted : exists l c, Forall no_ptr l /\ nth_error (cells (execs l)) 0 = Some c /\ owners (execs l) 0 = 0 /\ c_ends c = [Dropped 5] /\
  owners (execs (l ++ [Upgrade 1])) 0 = 1 /\ exists c', nth_error (cells (execs (l ++ [Upgrade 1; Read 1]))) 0 = Some c' /\ c_bad c = false /\ c_bad c' = true.
Proof.
  exists [New 5; Downgrade 0; WClone 0; Drop 0; WIntoDyn 0; WDrop 0], (Cell 5 (2 ^ 64 - 1) 2 [Dropped 5] 0 false). split; [repeat constructor|].
  repeat (split; [lazy; reflexivity|]). exists (Cell 5 0 2 [Dropped 5] 0 true). repeat (split; [lazy; reflexivity|]). reflexivity.
Qed.
Print Assumptions dyn_weak_revive_refuted.
(** C85, refuted, whatever came before: if the only owner of a value is a trait object, a [Dyn<Weak>] of it is upgraded, and the first is dropped, then the second, which the
    upgrade returned, refers to a destroyed value. *)
Theorem dyn_weak_upgrade_refuted : forall l i t a, (N.of_nat (length l) < 2 ^ 61)%N -> Forall no_dyn_weak l ->
  get (hs (execs l)) i = Some (Handle true t a) -> owners (execs l) a = 1 ->
  let k := length (hs (execs l)) in let m := execs (l ++ [DynDowngrade i; Upgrade (length (ws (execs l))); Drop i]) in
  get (hs m) k = Some (Handle true t a) /\ (exists c, nth_error (cells m) a = Some c /\ c_ends c = [Dropped t]) /\
  exists c, nth_error (cells (exec (Read k) m)) a = Some c /\ c_bad c = true.
Proof.
  intros l i t a H F G O. cbv zeta. rewrite (fold_left_app _ l _ _ : execs (l ++ _) = _). fold (execs l). assert (Sm : small (length l)) by (unfold small; lia). pose proof (inv_execs l Sm F) as I.
  set (m := execs l) in *. pose proof (inv_hat _ _ I _ _ G) as L. cbn [h_at] in L.
  destruct (nth_error (cells m) a) as [c|] eqn:Ec; [|apply nth_error_None in Ec; lia]. pose proof (inv_ok _ _ I _ _ Ec) as K. rewrite O in K.
  pose proof (watchers_le _ _ a I) as W. destruct c as [ty st wk en fr bad]. unfold ok in K. cbn [c_bad c_ends c_frees c_strong c_weak] in K.
  destruct K as (-> & -> & -> & -> & ->). set (w := N.of_nat (watchers m a)) in *. assert (Lw : (w < 2 ^ 61)%N) by (unfold w; lia).
  set (c1 := Cell ty 1 (w + 2) [] 0 false). set (c2 := Cell ty 0 (w + 1) [Dropped t] 0 false).
  assert (E1 : exec (DynDowngrade i) m = Mem (put (cells m) a c1) (hs m) (ws m ++ [Some (WHandle true t a)])).
  { cbn [exec]. rewrite G. unfold on. rewrite Ec. f_equal. f_equal. unfold c1, downgrade_cell. cbn [touch_cell with_weak c_ty c_strong c_weak c_ends c_frees c_bad orb Nat.ltb Nat.leb].
    f_equal. rewrite L_Arc.inc_small by lia. replace (w + 1 + 1)%N with (w + 2)%N by lia. reflexivity. }
  assert (La : (a <? length (cells m)) = true) by now apply Nat.ltb_lt.
  assert (P1 : nth_error (put (cells m) a c1) a = Some c1) by (rewrite nth_put, Nat.eqb_refl, La; reflexivity).
  assert (E2 : exec (Upgrade (length (ws m))) (exec (DynDowngrade i) m) =
    Mem (put (put (put (cells m) a c1) a (Cell ty 2 (w + 2) [] 0 false)) a c1) (hs m ++ [Some (Handle true t a)]) (put (ws m ++ [Some (WHandle true t a)]) (length (ws m)) None)).
  { rewrite E1. cbn [exec cells hs ws]. unfold get. rewrite nth_error_app2, Nat.sub_diag by lia. cbn [nth_error w_at]. rewrite P1. cbn [upgrade_cell c1 w_dyn w_ty w_at].
    unfold drop_dyn_weak. cbn [cells hs ws w_at w_ty].
    change (upgrade_cell c1) with (true, Cell ty 2 (w + 2) [] 0 false). cbn [cells hs ws w_at w_ty]. unfold on. rewrite nth_put, length_put, Nat.eqb_refl, La. cbn [andb].
    f_equal. }
  assert (E3 : exec (Drop i) (exec (Upgrade (length (ws m))) (exec (DynDowngrade i) m)) =
    Mem (put (put (put (put (cells m) a c1) a (Cell ty 2 (w + 2) [] 0 false)) a c1) a c2) (put (hs m ++ [Some (Handle true t a)]) i None)
      (put (ws m ++ [Some (WHandle true t a)]) (length (ws m)) None)).
  { rewrite E2. cbn [exec cells hs ws]. assert (Li : i < length (hs m)) by (apply get_nth in G; apply nth_error_Some; congruence). unfold get in G |- *.
    rewrite nth_error_app1 by exact Li. rewrite G. cbn [h_at h_ty]. unfold on. rewrite nth_put, !length_put, Nat.eqb_refl, La. cbn [andb]. f_equal. f_equal.
    unfold drop_cell, c1. cbn [touch_cell with_strong c_ty c_strong c_weak c_ends c_frees c_bad orb Nat.ltb Nat.leb N.eqb Pos.eqb].
    unfold drop_weak_cell, end_value. cbn [use_cell touch_cell with_strong with_weak c_ty c_strong c_weak c_ends c_frees c_bad orb Nat.ltb Nat.leb].
    rewrite (proj2 (N.eqb_neq _ _)) by lia. unfold c2. rewrite L_Arc.dec_pos by lia. replace (w + 2 - 1)%N with (w + 1)%N by lia. reflexivity. }
  assert (Li : i < length (hs m)) by (apply get_nth in G; apply nth_error_Some; congruence).
  cbn [fold_left]. rewrite E3. cbn [cells hs ws]. assert (Gk : get (put (hs m ++ [Some (Handle true t a)]) i None) (length (hs m)) = Some (Handle true t a)).
  { unfold get. rewrite nth_put. rewrite (proj2 (Nat.eqb_neq i (length (hs m)))) by lia. cbn [andb]. rewrite nth_error_app2, Nat.sub_diag by lia. reflexivity. }
  assert (Pc : nth_error (put (put (put (put (cells m) a c1) a (Cell ty 2 (w + 2) [] 0 false)) a c1) a c2) a = Some c2) by (rewrite nth_put, !length_put, Nat.eqb_refl, La; reflexivity).
  split; [exact Gk|]. split; [exists c2; auto|]. cbn [exec hs cells ws]. rewrite Gk. cbn [h_at cells]. rewrite on_nth, Nat.eqb_refl, Pc. eexists. split; reflexivity.
Qed.
Print Assumptions dyn_weak_upgrade_refuted.
Example dyn_weak_upgrade_ex : let l := [New 4; New 5; IntoDyn 1; Clone 1; Drop 1] in
  Forall no_dyn_weak l /\ get (hs (execs l)) 2 = Some (Handle true 5 1) /\ owners (execs l) 1 = 1 /\
  map (fun c => (c_ty c, c_bad c)) (cells (execs (l ++ [DynDowngrade 2; Upgrade 0; Drop 2; Read 3]))) = [(4, false); (5, true)].
Proof. repeat split; repeat constructor. Qed.
