(** Property C28: atomic cells of Arcs. *)
From Coq Require Import List Arith Bool Lia.
From Verif Require Import M_Import L_Import M_AtomicArc S_AtomicArc L_AtomicArc.
Import ListNotations.

(** C28, early releases: with any number of threads, allocations and interleavings, if the content of the cell is not replaced while a
    call has read it and not yet counted its own reference, then no Arc, in the cell or not, refers to a dropped value; nor
    after the cell is dropped. *)
Theorem atomic_arc_safe_partial : forall sched, undisturbed sched ->
  no_early_release (arun sched acell_new) /\ no_early_release (acell_drop (arun sched acell_new)).
Proof.
  intros sched Hu. assert (I : ainv false (arun sched acell_new)) by (apply ainv_run; [exact Hu|discriminate]).
  split; [exact (ainv_safe _ _ I)|exact (ainv_safe _ _ (ainv_drop _ _ I))].
Qed.
Print Assumptions atomic_arc_safe_partial.
(** C28, leaks: if moreover no call stores over an Arc, and no exchange that brings an Arc fails, then all values no
    Arc refers to were dropped; also after the cell is dropped. *)
Theorem atomic_arc_no_leak_partial : forall sched, undisturbed sched -> lossless sched ->
  no_leak (arun sched acell_new) /\ no_leak (acell_drop (arun sched acell_new)).
Proof.
  intros sched Hu Hl. assert (I : ainv true (arun sched acell_new)) by (apply ainv_run; auto).
  split; [exact (ainv_no_leak _ I)|exact (ainv_no_leak _ (ainv_drop _ _ I))].
Qed.
Print Assumptions atomic_arc_no_leak_partial.
(** Two threads: one fills the cell, the other loads twice and then exchanges. *)
Example atomic_arc_ex :
  let sched := [(0, ANew); (0, AStore (Some 0)); (1, ALoad); (1, ALoad); (1, ANew); (1, ACas (Some 0) (Some 1));
                (0, ADropArc 0); (1, ADropArc 0)] in
  let s := arun sched acell_new in
  undisturbed sched /\ lossless sched /\ next s = 2 /\ cell s = Some 1 /\ gone s 0 = true /\ gone s 1 = false /\
  gone (acell_drop s) 1 = true /\ got s = [(1, Some 0); (1, Some 0)].
Proof.
  cbn zeta. split; [|split; [|vm_compute; auto 10]].
  - intros k t b. cbn zeta.
    do 9 (destruct k as [|k]; [cbn; try discriminate; try (destruct t as [|[|t]]; cbn; congruence)|]).
    rewrite firstn_all2 by (cbn; lia). cbn. destruct t as [|[|t]]; cbn; congruence.
  - intros k a H.
    do 8 (destruct k as [|k]; [injection H as <-; vm_compute; intuition congruence|]).
    destruct k; discriminate.
Qed.

(** C28 is false of [store]: the Arc that was in the cell is lost. *)
Theorem atomic_arc_store_refuted : exists sched, undisturbed sched /\ ~ no_leak (arun sched acell_new).
Proof.
  exists [(0, ANew); (0, AStore (Some 0)); (0, AStore None)]. split.
  - intros k t b. cbn zeta.
    do 3 (destruct k as [|k]; [cbn; discriminate|]). rewrite firstn_all2 by (cbn; lia). cbn. discriminate.
  - intros H. specialize (H 0). vm_compute in H.
    assert (X : false = true) by (apply H; [lia|reflexivity|discriminate]). discriminate X.
Qed.
Print Assumptions atomic_arc_store_refuted.
(** C28 is false of [compare_exchange]: if it fails, the new Arc is neither stored, nor returned, nor dropped. *)
Theorem atomic_arc_exchange_refuted : exists sched, undisturbed sched /\
  (forall t n, ~ In (t, AStore n) sched) /\ ~ no_leak (arun sched acell_new).
Proof.
  exists [(0, ANew); (0, ANew); (0, ACas (Some 0) (Some 1)); (0, ADropArc 0)]. split; [|split].
  - intros k t b. cbn zeta.
    do 4 (destruct k as [|k]; [cbn; try discriminate; destruct t as [|t]; cbn; discriminate|]).
    rewrite firstn_all2 by (cbn; lia). cbn. destruct t; cbn; discriminate.
  - intros t n H. cbn in H. intuition discriminate.
  - intros H. specialize (H 1). vm_compute in H.
    assert (X : false = true) by (apply H; [lia|reflexivity|discriminate]). discriminate X.
Qed.
Print Assumptions atomic_arc_exchange_refuted.
(** C28 is false of [load]: between its read of the pointer and its increment, another thread can take the Arc out and drop it;
    the load then returns an Arc to a dropped value.  No store is involved. *)
Theorem atomic_arc_load_refuted : exists sched,
  (forall t n, ~ In (t, AStore n) sched) /\ lossless sched /\ ~ no_early_release (arun sched acell_new) /\
  (let s := arun sched acell_new in 0 < hs s 0 /\ gone s 0 = true).
Proof.
  exists [(0, ANew); (0, AClone 0); (0, ACas None (Some 0)); (1, ALoad); (0, ACas (Some 0) None); (0, ADropArc 0); (0, ADropArc 0); (1, ALoad)].
  split; [|split; [|split]].
  - intros t n H. cbn in H. intuition discriminate.
  - intros k a H. do 8 (destruct k as [|k]; [injection H as <-; vm_compute; intuition congruence|]). destruct k; discriminate.
  - intros [H _]. vm_compute in H. discriminate H.
  - vm_compute. auto.
Qed.
Print Assumptions atomic_arc_load_refuted.
