(** Property theorems for C46: wakers are balanced. *)
From Coq Require Import List Arith Bool Lia.
From Verif Require Import M_Waker S_Waker L_Waker.
Import ListNotations.

(** Any history over [StableWaker]s with the default allocator: no released block is used; the wakers woken are those of [S_Waker.spec_run], in order.
    A waker of the executor has been dropped less often than made while something stands for it, exactly as often afterwards.
    When no waker is left and no call is in progress, every block is released.  Missing: other allocators, refuted below. *)
Theorem waker_history_partial : forall ids ops, Forall default_alloc ops ->
  exists s, run (start ids) ops = Some s /\
    wakes (w_log (s_world s)) = woken (spec_run (spec_start ids) ops) /\
    length (s_pool s) = length (pool (spec_run (spec_start ids) ops)) /\
    (forall i, in_use (spec_run (spec_start ids) ops) i -> drops i (w_log (s_world s)) < clones i (w_log (s_world s))) /\
    (forall i, ~ in_use (spec_run (spec_start ids) ops) i -> drops i (w_log (s_world s)) = clones i (w_log (s_world s))) /\
    (s_pool s = [] -> s_frames s = [] -> Forall (fun b => b_freed b = true) (w_blocks (s_world s))).
Proof.
  intros ids ops H. destruct (run_rel ops _ _ (start_rel ids) H) as [s [E R]]. exists s. split; [exact E|]. split; [apply (rl_woken _ _ R)|].
  split; [eapply Forall2_len, rl_pool, R|]. split; [|split].
  - intros i Hi. apply (use_iff _ _ i R) in Hi. pose proof (iv_orig _ _ (rl_inv _ _ R) i). lia.
  - intros i Hi. pose proof (iv_orig _ _ (rl_inv _ _ R) i) as Ho. rewrite (use_iff _ _ i R) in Hi. lia.
  - apply (all_freed _ _ R).
Qed.
Print Assumptions waker_history_partial.
(** A waker cloned twice through two levels of wrapping, used after the calls returned, then woken and dropped. *)
Definition ops_ex : list op :=
  [OpEnter 0 (SOwn 0); OpEnter 0 (SFrame 0); OpClone (SFrame 0); OpClone (SOwn 0); OpWakeRef (SUnder 0); OpExit; OpExit; OpWake 1; OpClone (SOwn 0); OpWake 1; OpDrop 1; OpDrop 0].
Example waker_history_ex : Forall default_alloc ops_ex /\
  (exists s, run (start [7]) ops_ex = Some s /\ wakes (w_log (s_world s)) = [7; 7; 7] /\ clones 7 (w_log (s_world s)) = 3 /\ drops 7 (w_log (s_world s)) = 3 /\
    map b_freed (w_blocks (s_world s)) = [true; true] /\ s_pool s = []) /\
  (exists s, run (start [7]) (firstn 9 ops_ex) = Some s /\ in_use (spec_run (spec_start [7]) (firstn 9 ops_ex)) 7 /\ drops 7 (w_log (s_world s)) < clones 7 (w_log (s_world s))).
Proof.
  split; [repeat constructor|]. split.
  - eexists. split; [vm_compute; reflexivity|]. vm_compute. auto 10.
  - eexists. split; [vm_compute; reflexivity|]. split; [left; vm_compute; auto|vm_compute; auto].
Qed.

(** For a [StableWaker] with another allocator, [with_waker] makes clones that release their block with the default one. *)
Theorem waker_alloc_refuted : exists ids ops, run (start ids) ops = None /\ Forall (fun o => match o with OpEnter a _ => a = 1 | _ => True end) ops.
Proof. exists [7], [OpEnter 1 (SOwn 0); OpClone (SFrame 0); OpDrop 0]. split; [vm_compute; reflexivity|repeat constructor]. Qed.
Print Assumptions waker_alloc_refuted.
