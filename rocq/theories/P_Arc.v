(** Properties C24, C25, C26: life cycle of Arc and Weak, exclusive access. *)
From Coq Require Import List NArith Bool Arith Lia.
From Verif Require Import M_Arc S_Arc L_Arc L_ArcConc.
Import ListNotations.

(** C24: after any history of operations by one thread (of fewer than 2^61 operations, so that counters do
    not overflow, and without weak trait objects), no fault occurred; the answers of all operations are those
    dictated by the handles alone; the value is there exactly while an Arc exists, and was
    otherwise destroyed once, or given once to the caller of try_into_inner; the memory was released, once, exactly if
    no Arc nor Weak remains. *)
Theorem arc_history_partial : forall ops, no_dyn_weak ops -> (N.of_nat (length ops) < 2 ^ 61)%N ->
  let s := history ops in let o := fst (owners_after ops) in
  bad (blk s) = false /\ arcs s = n_arc o /\ weaks s = n_weak o /\
  map snd (log s) = snd (owners_after ops) /\
  (alive (blk s) = true <-> (0 < n_arc o)%nat) /\
  dropped (blk s) = (match value o with Destroyed => 1 | _ => 0 end) /\
  taken (blk s) = (match value o with Given => 1 | _ => 0 end) /\
  (value o = Held <-> (0 < n_arc o)%nat) /\
  frees (blk s) = (if (n_arc o =? 0) && (n_weak o =? 0) then 1 else 0).
Proof.
  intros ops Hd Hl. cbn zeta. rewrite history_embed by assumption.
  pose proof (sa_held _ (proj1 (owners_after_sane ops))) as Hh.
  unfold embed. cbn [blk bad arcs weaks log alive dropped taken frees]. repeat split; try apply Hh.
  - rewrite map_map. cbn. apply map_id.
  - intros Ha. destruct (value _) eqn:E; try discriminate. now apply Hh.
  - intros Ha. apply Hh in Ha. now rewrite Ha.
Qed.
Print Assumptions arc_history_partial.
Example arc_history_ex :
  let ops := [OClone; ODowngrade; ODropArc; OUpgrade; OUnique GetMut; ODropArc; OUnique MakeMut; OUpgrade; ODropWeak] in
  no_dyn_weak ops /\
  owners_after ops = (Owners 0 0 Destroyed, [Upgraded true; Unique GetMut false; Unique MakeMut false; Upgraded false]) /\
  dropped (blk (history ops)) = 1 /\ frees (blk (history ops)) = 1.
Proof. split; [unfold no_dyn_weak; cbn; intuition discriminate|]. vm_compute. auto. Qed.
Example arc_history_ex2 :
  let ops := [OClone; ODropArc; OUnique IntoInner] in
  no_dyn_weak ops /\ owners_after ops = (Owners 0 0 Given, [Unique IntoInner true]) /\
  dropped (blk (history ops)) = 0 /\ taken (blk (history ops)) = 1 /\ frees (blk (history ops)) = 1.
Proof. split; [unfold no_dyn_weak; cbn; intuition discriminate|]. vm_compute. auto. Qed.

(** C24, false without the bound: nothing prevents the strong count from overflowing (std aborts): after 2^64
    clones whose handles are kept or forgotten, dropping one Arc destroys the value of the others. *)
Theorem arc_overflow_refuted : exists ops, no_dyn_weak ops /\
  let s := history ops in (0 < arcs s)%nat /\ alive (blk s) = false /\ dropped (blk s) = 1.
Proof.
  exists (repeat OClone (N.to_nat (2 ^ 64)) ++ [ODropArc]). split.
  - unfold no_dyn_weak. intros H. apply in_app_or in H. destruct H as [H|[H|[]]]; [|discriminate].
    apply repeat_spec in H. discriminate.
  - apply overflow. apply N2Nat.id.
Qed.
Print Assumptions arc_overflow_refuted.

(** C24, false with weak trait objects: dropping a [Dyn<Weak<()>, _>] decrements the strong count, so it destroys the
    value while an Arc still refers to it. *)
Theorem arc_dyn_weak_refuted : exists ops,
  let s := history ops in (0 < arcs s)%nat /\ alive (blk s) = false /\ dropped (blk s) = 1.
Proof. exists [ODowngrade; ODynWeakDrop]. vm_compute. auto. Qed.
Print Assumptions arc_dyn_weak_refuted.

(** C25: with any number of threads and any interleaving of atomic steps, if at no time two threads are inside upgrade, nor
    one inside upgrade while another is inside is_unique: no fault ever occurs, in particular no Arc refers to a dropped value;
    the value is destroyed or given at most once, the memory is released at most once, and not
    before the handles are gone; and both have happened once all threads are done and no handle is left. *)
Theorem arc_concurrent_partial : forall n sched, (N.of_nat (length sched) < 2 ^ 61)%N ->
  (forall t, ~ In (t, ODynWeakDrop) sched) -> calm_run sched (arc_new n) ->
  let s := run sched (arc_new n) in
  bad (blk s) = false /\
  ((0 < arcs s)%nat -> alive (blk s) = true) /\
  (dropped (blk s) + taken (blk s) <= 1)%nat /\
  (frees (blk s) <= 1)%nat /\
  ((0 < arcs s + weaks s)%nat -> frees (blk s) = 0%nat) /\
  (all_idle s -> arcs s = 0%nat -> (dropped (blk s) + taken (blk s) = 1)%nat) /\
  (all_idle s -> arcs s = 0%nat -> weaks s = 0%nat -> frees (blk s) = 1%nat).
Proof. intros n sched Hl Hd Hc. exact (inv_safe _ _ (inv_run n sched Hl Hd Hc)). Qed.
Print Assumptions arc_concurrent_partial.
(** Two threads: one upgrades while the other drops the last Arc; the value survives until the
    upgraded Arc is dropped. *)
Example arc_concurrent_ex :
  let sched := [(0, ODowngrade); (1, OUpgrade); (0, ODropArc); (1, ORead); (1, ORead); (0, ODropWeak); (1, ODropArc);
                (1, ORead); (1, ORead); (1, ORead)] in
  calm_run sched (arc_new 2) /\ arcs (run (firstn 5 sched) (arc_new 2)) = 1 /\
  arcs (run sched (arc_new 2)) = 0 /\ dropped (blk (run sched (arc_new 2))) = 1 /\ frees (blk (run sched (arc_new 2))) = 1.
Proof. cbn zeta. split; [apply calm_run_b; vm_compute; reflexivity|vm_compute; auto]. Qed.

(** C25 is false in general: two overlapping upgrades and two drops leave an Arc to a destroyed value. *)
Theorem arc_upgrade_race_refuted : exists sched,
  (forall t o, In (t, o) sched -> o = ODowngrade \/ o = OUpgrade \/ o = ODropArc) /\
  let s := run sched (arc_new 3) in (0 < arcs s)%nat /\ alive (blk s) = false /\ dropped (blk s) = 1.
Proof.
  exists [(2, ODowngrade); (0, OUpgrade); (1, OUpgrade); (0, OUpgrade); (0, OUpgrade);
          (2, ODropArc); (2, ODropArc); (2, ODropArc); (1, OUpgrade); (1, OUpgrade)].
  split; [|vm_compute; auto].
  intros t o H. cbn in H. repeat (destruct H as [H|H]; [injection H as <- <-; tauto|]). destruct H.
Qed.
Print Assumptions arc_upgrade_race_refuted.
(** C25 is false in general: an upgrade overlapping another one can store 0 over a count of 1, after
    which the value is never destroyed and the memory never released. *)
Theorem arc_upgrade_leak_refuted : exists sched,
  (forall t o, In (t, o) sched -> o = ODowngrade \/ o = OUpgrade \/ o = ODropArc \/ o = ODropWeak) /\
  let s := run sched (arc_new 3) in
  all_idle s /\ arcs s = 0 /\ weaks s = 0 /\ dropped (blk s) = 0 /\ taken (blk s) = 0 /\ frees (blk s) = 0.
Proof.
  exists [(2, ODowngrade); (0, OUpgrade); (2, ODropArc); (1, OUpgrade); (0, OUpgrade); (0, OUpgrade);
          (1, OUpgrade); (0, ODropArc); (2, ODropWeak)].
  split.
  - intros t o H. cbn in H. repeat (destruct H as [H|H]; [injection H as <- <-; tauto|]). destruct H.
  - split; [|vm_compute; auto 10]. intros p H. vm_compute in H. intuition congruence.
Qed.
Print Assumptions arc_upgrade_leak_refuted.

(** C26: under the same conditions as C25, whenever a thread has been granted mutable access (or is moving the value
    out), the value is there, no Arc nor Weak exists besides the one it uses, and no other thread has or is about to get
    access. *)
Theorem arc_exclusive_partial : forall n sched t p, (N.of_nat (length sched) < 2 ^ 61)%N ->
  (forall u, ~ In (u, ODynWeakDrop) sched) -> calm_run sched (arc_new n) ->
  let s := run sched (arc_new n) in
  nth_error (pcs s) t = Some p -> p = Mutating \/ p = TakeVal ->
  alive (blk s) = true /\ arcs s = 0 /\ weaks s = 0 /\
  forall u q, nth_error (pcs s) u = Some q -> u <> t -> reaches_value q = false.
Proof. intros n sched t p Hl Hd Hc. exact (inv_exclusive _ _ t p (inv_run n sched Hl Hd Hc)). Qed.
Print Assumptions arc_exclusive_partial.
Example arc_exclusive_ex :
  let sched := [(1, OClone); (0, OUnique GetMut); (1, ODropArc); (0, OUnique GetMut); (1, OClone); (0, OUnique GetMut)] in
  calm_run sched (arc_new 2) /\ nth_error (pcs (run sched (arc_new 2))) 0 = Some Mutating.
Proof. cbn zeta. split; [apply calm_run_b; vm_compute; reflexivity|vm_compute; auto]. Qed.

(** C26 is false in general: is_unique reads the two counts one after the other; a Weak upgraded and dropped in between
    leaves another Arc in existence while mutable access is granted. *)
Theorem arc_exclusive_refuted : exists sched,
  (forall t o, In (t, o) sched -> o = ODowngrade \/ o = OUpgrade \/ o = ODropWeak \/ o = OUnique GetMut) /\
  let s := run sched (arc_new 2) in nth_error (pcs s) 0 = Some Mutating /\ (0 < arcs s)%nat.
Proof.
  exists [(0, ODowngrade); (0, OUnique GetMut); (1, OUpgrade); (1, OUpgrade); (1, OUpgrade); (1, ODropWeak);
          (0, OUnique GetMut)].
  split; [|vm_compute; auto].
  intros t o H. cbn in H. repeat (destruct H as [H|H]; [injection H as <- <-; tauto|]). destruct H.
Qed.
Print Assumptions arc_exclusive_refuted.
