(** C80: vectors of zero-sized elements. *)
From Coq Require Import NArith List Bool Lia.
From Verif Require Import M_Alloc M_Vec S_Vec M_Zst S_Zst L_Zst.
Import ListNotations.
Local Open Scope N_scope.

(** C80, without debug assertions, for elements that need no alignment, histories that add and
    reserve fewer than 2^64 - 1 elements, and operations other than [push] and those that use it:
    the vector behaves as a list, and memory is neither asked for nor released. *)
Theorem zst_vec_list_partial : forall h, Forall usable h -> zweights h <= 2 ^ 64 - 2 ->
  exists v l x y, zrun false 1 h (z_new 1) = Some (v, x, y) /\ zholds 1 v l /\ zlrun h [] l x y.
Proof.
  intros h U W. apply run_good; [|exact U|cbn; lia]. split; [reflexivity|cbn; lia].
Qed.
Print Assumptions zst_vec_list_partial.
(** C80, without debug assertions: exactly which operations are sound, for any alignment. *)
Theorem zst_vec_step : forall a v l o, 0 < a -> zholds a v l -> usable o ->
  (zstep false a o v = Some Ub <->
   too_much o a (N.of_nat (length l)) \/
   touches_end o (N.of_nat (length l)) /\ ~ (a | N.of_nat (length l))) /\
  (forall v' x y, zstep false a o v = Some (Val (v', x, y)) ->
     exists l', zholds a v' l' /\ zspec o l l' x y false) /\
  (zstep false a o v = Some Pan -> zspec o l l [] [] true).
Proof.
  intros a v l o Ha Hv U.
  assert (M : ~ (a | N.of_nat (length l)) <-> N.of_nat (length l) mod a <> 0).
  { rewrite <- N.mod_divide by lia. tauto. }
  rewrite M.
  assert (D : too_much o a (N.of_nat (length l)) \/ touches_end o (N.of_nat (length l)) /\ N.of_nat (length l) mod a <> 0 \/
    ~ too_much o a (N.of_nat (length l)) /\ (touches_end o (N.of_nat (length l)) -> N.of_nat (length l) mod a = 0)).
  { assert (D1 : too_much o a (N.of_nat (length l)) \/ ~ too_much o a (N.of_nat (length l))).
    { destruct o as [o| | | | |]; try destruct o; cbn [too_much]; try tauto; lia. }
    destruct (N.eq_dec (N.of_nat (length l) mod a) 0); [tauto|].
    assert (D2 : touches_end o (N.of_nat (length l)) \/ ~ touches_end o (N.of_nat (length l))).
    { destruct o as [o| | | | |]; try destruct o; cbn [touches_end]; try tauto; try lia;
        destruct es; [right; auto|left; discriminate|right; auto|left; discriminate]. }
    tauto. }
  destruct D as [D|[D|[D1 D2]]].
  - pose proof (step_ub a v l Ha Hv o U (or_introl D)) as E. rewrite E.
    split; [tauto|]. split; [intros; discriminate|discriminate].
  - pose proof (step_ub a v l Ha Hv o U (or_intror D)) as E. rewrite E.
    split; [tauto|]. split; [intros; discriminate|discriminate].
  - destruct (step_good a v l Ha Hv o U D1 D2) as (r & E & G). rewrite E.
    split; [|split].
    + split; [intros Q; injection Q as ->; destruct G|tauto].
    + intros v' x y Q. injection Q as ->. destruct G as (l' & S & H & _). eauto.
    + intros Q. injection Q as ->. exact G.
Qed.
Print Assumptions zst_vec_step.
(** Eleven [()]s are put in a vector, some are drained, and so on. *)
Definition ex_zst : list zop :=
  [ZV (Reserve 1000); ZV (CopyExtend (units 11)); ZDrain (Included 2) (Included 4) 1; ZV Pop; ZV (SwapRemove 0); ZRebox;
   ZClone; ZV (Truncate 5); ZDrain (Included 2) (Included 1) 0; ZDrain (Included 4) (Excluded 9) 0; ZV (Swap 0 5)].
Example zst_vec_list_ex : Forall usable ex_zst /\ zweights ex_zst = 1011 /\
  zrun false 1 ex_zst (z_new 1) = Some (Z 1 6 (2 ^ 64 - 1), units 3, units 9).
Proof. split; [repeat constructor|]. split; vm_compute; reflexivity. Qed.
Example zst_vec_step_ex : zholds 8 (Z 8 9 (2 ^ 64 - 1)) [tt] /\ touches_end (ZV Pop) 1 /\ ~ (8 | 1) /\
  zstep false 8 (ZV (Remove 0)) (Z 8 9 (2 ^ 64 - 1)) = Some (Val (Z 8 8 (2 ^ 64 - 1), [tt], [])).
Proof.
  split; [split; cbn; [reflexivity|lia]|]. split; [cbn; lia|]. split; [|vm_compute; reflexivity].
  intros [k H]. lia.
Qed.

(** C80, refuted: there is no code for [push], [try_push], [extend] (and [FromIterator],
    [Deserialize]) of zero-sized elements. *)
Theorem zst_push_refuted : exists o, (forall l, zspec o l (l ++ [tt]) [] [] false) /\
  forall dbg a v, zstep dbg a o v = None.
Proof. exists (ZV (Push tt)). split; [intros; constructor; constructor|reflexivity]. Qed.
Print Assumptions zst_push_refuted.
(** C80, refuted: with debug assertions, nothing can be copied into a vector, nor reserved, and a
    vector cannot be cloned: [remaining_capacity] asserts that a difference of more than
    [isize::MAX] bytes is not negative. *)
Theorem zst_debug_refuted : exists l, l <> [] /\
  zspec (ZV (CopyExtend l)) [] l [] [] false /\
  zstep true 1 (ZV (CopyExtend l)) (z_new 1) = Some Pan /\
  zstep true 1 (ZV (Reserve 0)) (z_new 1) = Some Pan /\ zstep true 1 ZClone (z_new 1) = Some Pan.
Proof.
  exists [tt]. split; [discriminate|]. split; [|repeat split; vm_compute; reflexivity].
  constructor. exact (ls_copy_extend (fun _ => true) [tt] []).
Qed.
Print Assumptions zst_debug_refuted.
(** C80, refuted: elements that need alignment ([[u64; 0]]) are written and read at addresses
    that do not have it. *)
Theorem zst_align_refuted : exists h, Forall usable h /\ zrun false 8 h (z_new 8) = None /\
  exists l x y, zlrun h [] l x y.
Proof.
  exists [ZV (CopyExtend [tt]); ZV Pop]. split; [repeat constructor|]. split; [vm_compute; reflexivity|].
  exists [], [tt], [].
  refine (zl_cons _ _ [] [tt] _ [] [] false [tt] [] (zs_v _ _ _ _ _ _ (ls_copy_extend _ [tt] [])) _).
  refine (zl_cons _ _ [tt] [] _ [tt] [] false [] [] (zs_v _ _ _ _ _ _ (ls_pop _ [] tt)) (zl_nil [])).
Qed.
Print Assumptions zst_align_refuted.
(** C80, refuted: copying [usize::MAX] elements (a slice that exists: it has no bytes) reallocates
    memory that was never allocated. *)
Theorem zst_length_refuted : exists l, N.of_nat (length l) = 2 ^ 64 - 1 /\
  zspec (ZV (CopyExtend l)) [] l [] [] false /\ zstep false 1 (ZV (CopyExtend l)) (z_new 1) = Some Ub.
Proof.
  exists (units (2 ^ 64 - 1)).
  assert (L : N.of_nat (length (units (2 ^ 64 - 1))) = 2 ^ 64 - 1).
  { rewrite units_length. apply N2Nat.id. }
  revert L. generalize (units (2 ^ 64 - 1)). intros l L. split; [exact L|]. split.
  - constructor. exact (ls_copy_extend (fun _ => true) l []).
  - unfold zstep. rewrite L. vm_compute. reflexivity.
Qed.
Print Assumptions zst_length_refuted.
(** C80, refuted: [try_push] on a boxed slice of zero-sized elements reads memory before the
    dangling pointer. *)
Theorem zst_boxed_refuted : exists l v, zholds 1 v l /\ l <> [] /\
  zspec ZBoxPush l (l ++ [tt]) [] [] false /\ zstep false 1 ZBoxPush v = Some Ub.
Proof.
  exists [tt], (Z 1 2 (2 ^ 64 - 1)). split; [split; cbn; [reflexivity|lia]|]. split; [discriminate|].
  split; [constructor|reflexivity].
Qed.
Print Assumptions zst_boxed_refuted.
