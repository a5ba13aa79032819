(** Property C27: shared slices. *)
From Coq Require Import List NArith Bool Arith Lia.
From Verif Require Import M_Alloc M_Vec S_Vec L_Vec M_Arc S_Arc L_Arc M_ArcSlice S_ArcSlice L_ArcSlice.
Import ListNotations.

Example holds_slots : forall E sz (v : vec E) l, holds sz v l -> get_slots 0 (vlen v) (slots v) = Some l.
Proof. intros E sz v l. exact (v_as_slice_spec sz v l). Qed.
Example holds_cap0 : forall E sz (v : vec E) l zst, holds sz v l -> vcap v <> 0%N \/ zst = true ->
  vcap v <> 0%N \/ (zst = true /\ slots v = [] /\ vcap v = 0%N).
Proof.
  intros E sz v l zst (r & _ & _ & H & _) [C|C]; [now left|].
  destruct (N.eq_dec (vcap v) 0) as [Z|Z]; [right|now left].
  rewrite Z in H. repeat split; auto. destruct (slots v); [reflexivity|discriminate].
Qed.

(** C27: a vector that has an allocation (or whose allocator has no bytes) is made a shared slice, and used by any history of
    operations of one thread.  No fault occurs; the answers are those dictated by the handles; the slice shows the
    vector's elements while it has a strong handle; the elements are dropped once when the last one goes, unless
    the slice is made a vector again, which then is the original vector, elements and capacity; the memory is released
    once, when no handle is left, or else belongs to that vector. *)
Theorem slice_history_partial : forall E sz (v : vec E) l zst ops,
  holds sz v l -> vcap v <> 0%N \/ zst = true -> slice_ops ops -> (N.of_nat (length ops) < 2 ^ 61)%N ->
  let s := slice_history zst v ops in let o := fst (owners_after ops) in
  a_bad s = false /\ a_arcs s = n_arc o /\ a_weaks s = n_weak o /\ a_log s = snd (owners_after ops) /\
  ((0 < n_arc o)%nat -> slice_read s = Some l) /\
  a_dropped s = (match value o with Destroyed => l | _ => [] end) /\
  a_vec s = (match value o with Given => Some v | _ => None end) /\
  a_freed s = (match value o with Given => 0 | _ => if (n_arc o =? 0) && (n_weak o =? 0) then 1 else 0 end).
Proof.
  intros E sz v l zst ops Hv Hc Ho Hl. cbn zeta.
  pose proof (holds_slots _ _ _ _ Hv) as Hs.
  rewrite (slice_history_embed v l Hs zst (holds_cap0 _ _ _ _ _ Hv Hc) ops Ho Hl).
  pose proof (sa_held _ (proj1 (owners_after_sane ops))) as Hh.
  set (o := fst (owners_after ops)) in *. clearbody o.
  unfold sembed, slice_read.
  cbn [a_bad a_arcs a_weaks a_log a_dropped a_vec a_freed a_there a_len a_mem].
  repeat split. intros Ha. rewrite (proj2 Hh Ha). destruct (n_arc o) as [|a]; [lia|].
  cbn [Nat.eqb andb]. exact Hs.
Qed.
Print Assumptions slice_history_partial.
Example slice_history_ex :
  let v := Vec [Some 7; Some 8; None] 2 3 in
  let ops := [OClone; ODowngrade; OUnique IntoInner; ODropArc; OUpgrade; ODropArc; ODropWeak; OUnique GetMut; OUnique IntoInner] in
  holds 8 v [7; 8] /\ slice_ops ops /\
  owners_after ops = (Owners 0 0 Given, [Unique IntoInner false; Upgraded true; Unique GetMut true; Unique IntoInner true]) /\
  a_vec (slice_history false v ops) = Some v.
Proof.
  cbn zeta. split; [exists [None]; repeat split|]. split; [|vm_compute; auto].
  split; cbn; intuition discriminate.
Qed.

(** C27, slices of [Copy] elements, which may also be revived by [force_upgrade]: no fault; the elements can be read through any
    strong handle; the memory is released once, when no handle is left (or belongs to the vector made of it). *)
Theorem copy_slice_history_partial : forall E sz (v : vec E) l zst ops,
  holds sz v l -> vcap v <> 0%N \/ zst = true -> copy_slice_ops ops -> (N.of_nat (length ops) < 2 ^ 61)%N ->
  let s := fold_left copy_slice_op ops (slice_of_vec zst v) in let o := copy_owners_after ops in
  a_bad s = false /\ a_arcs s = n_arc o /\ a_weaks s = n_weak o /\
  ((0 < n_arc o)%nat -> slice_read s = Some l) /\
  a_vec s = (match value o with Given => Some v | _ => None end) /\
  a_freed s = (match value o with Given => 0 | _ => if (n_arc o =? 0) && (n_weak o =? 0) then 1 else 0 end).
Proof.
  intros E sz v l zst ops Hv Hc Ho Hl. cbn zeta.
  pose proof (holds_slots _ _ _ _ Hv) as Hs.
  destruct (copy_history_embed v l Hs zst (holds_cap0 _ _ _ _ _ Hv Hc) ops Ho Hl) as (d & ans & ->).
  pose proof (sa_held _ (proj1 (copy_after_sane ops))) as Hh.
  set (o := copy_owners_after ops) in *. clearbody o.
  unfold sembed, slice_read.
  cbn [a_bad a_arcs a_weaks a_log a_dropped a_vec a_freed a_there a_len a_mem].
  repeat split. intros Ha. rewrite (proj2 Hh Ha). destruct (n_arc o) as [|a]; [lia|].
  cbn [Nat.eqb andb]. exact Hs.
Qed.
Print Assumptions copy_slice_history_partial.
Example copy_slice_history_ex :
  let v := Vec [Some 7; Some 8; None] 2 3 in
  let ops := [Some ODowngrade; Some ODropArc; None; None; Some ODropWeak; Some ODropArc] in
  holds 8 v [7; 8] /\ copy_slice_ops ops /\ copy_owners_after ops = Owners 1 0 Held /\
  slice_read (fold_left copy_slice_op ops (slice_of_vec false v)) = Some [7; 8].
Proof.
  cbn zeta. split; [exists [None]; repeat split|]. split; [|vm_compute; auto].
  split; cbn; intuition discriminate.
Qed.

(** C27 is false of the conversion from [Arc]: the Arc is dropped by the conversion.  If it was the only one, the slice
    that is returned refers to a dropped value in released memory. *)
Theorem slice_of_arc_refuted : forall E (x : E),
  let s := slice_of_arc (arc_alloc x 1) in
  a_arcs s = 1 /\ a_dropped s = [x] /\ a_freed s = 1 /\ slice_read s = None /\ a_bad (slice_op s ODropArc) = true.
Proof. intros. vm_compute. auto. Qed.
Print Assumptions slice_of_arc_refuted.
(** ... and if other Arcs exist, the count is short of one, whatever their number: the value is
    dropped one handle too early. *)
Theorem slice_of_arc_short_refuted : exists n, (1 < n)%nat /\
  let s := fold_left slice_op (repeat ODropArc (n - 1)) (slice_of_arc (arc_alloc 0 n)) in
  a_arcs s = 1 /\ a_dropped s = [0] /\ slice_read s = None.
Proof. exists 4. split; [lia|]. vm_compute. auto. Qed.
Print Assumptions slice_of_arc_short_refuted.
(** C27 is false of vectors that never allocated, if the allocator is not zero-sized: the conversion writes it before the
    start of a dangling pointer (and leaves that of the new block uninitialised). *)
Theorem slice_of_empty_vec_refuted : forall E, a_bad (slice_of_vec false (@v_new E)) = true.
Proof. reflexivity. Qed.
Print Assumptions slice_of_empty_vec_refuted.
(** ... and the block allocated for such a vector is lost if the slice is made a vector again: the slice does not release it,
    nor does the vector when dropped. *)
Theorem slice_of_empty_vec_leak_refuted : exists v' : vec nat,
  let s := slice_history true (@v_new nat) [OUnique IntoInner] in
  a_arcs s = 0 /\ a_weaks s = 0 /\ a_vec s = Some v' /\ a_freed s = 0 /\ v_drop v' = Some ([], false).
Proof. exists (Vec [] 0 0). vm_compute. auto. Qed.
Print Assumptions slice_of_empty_vec_leak_refuted.
