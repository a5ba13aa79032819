(** Properties C61 and C32 (registry in a B-tree): [AtomicArcBTreeSet]. *)
From Coq Require Import List Arith Bool Lia.
From Verif Require Import M_Import L_Import M_ATree S_ATree L_ATree L_ATreeReg.
Import ListNotations.

(** C61: with any number of threads making any calls, whatever the closures do, in any interleaving in which the content is not replaced while another thread
    is between its load of the pointer and its increment of the count (or about to write through an argument that it did not clone), and no address
    is allocated again while a thread compares the pointer with it: the cell behaves as an object whose [edit] and [get] are atomic, no released tree is
    used, and when no call is running the only tree in memory is the content. *)
Theorem tree_edit_partial : forall V L (empty : V) (prog : L -> call V L) ls sched,
  let s := run empty prog sched (cell_new empty ls) in
  calm_run empty prog sched (cell_new empty ls) ->
  atomic empty prog ls s /\ fault s = false /\ no_leak s.
Proof.
  intros V L empty prog ls sched s C.
  destruct (rel_run empty prog sched _ _ _ (rel_new empty ls) (becomes_refl _ _ _) C) as (o & B & R).
  split; [exact (rel_atomic _ _ _ _ _ B R)|]. split; [exact (r_fault _ _ _ R)|exact (rel_no_leak _ _ _ R)].
Qed.
Print Assumptions tree_edit_partial.

(** Threads that insert numbers: the closure of a [set.insert(x)], keeping a clone of its argument or not. *)
Definition inserting (held : bool) (l : list nat) : call (list nat) (list nat) :=
  match l with
  | [] => Stop
  | _ => Edit held (fun l v => match l with [] => (l, None) | x :: l => if existsb (Nat.eqb x) v then (l, None) else (l, Some (x :: v)) end)
  end.
(** Two threads: the exchange of thread 0 fails because thread 1 inserted meanwhile, and it starts again (here its closure consumes a number at each
    call, so that the second call inserts 5). *)
Example tree_edit_ex :
  let sched := [(1, 10); (1, 10); (1, 10); (1, 0); (0, 0); (0, 0); (0, 11); (1, 0); (1, 0); (1, 12); (1, 0); (1, 0); (0, 0); (0, 0); (0, 13); (0, 0); (0, 0)] in
  let s := run [] (inserting false) sched (cell_new [] [[1; 5]; [2; 3]]) in
  calm_run [] (inserting false) sched (cell_new [] [[1; 5]; [2; 3]]) /\ pcs s = [Idle []; Idle []] /\ content [] s (ptr s) = [5; 3; 2] /\
  map (rc s) [10; 11; 12; 13] = [0; 0; 0; 1].
Proof. split; [apply calm_runb_sound; vm_compute; reflexivity|vm_compute; auto]. Qed.

(** C61 is false of overlapping edits, even if no address is used twice: thread 0 copied the tree, and thread 1 then replaced it and dropped the cell's
    reference; thread 0 now has the only reference, so it inserts in place, [edit] sees that the pointer did not change, and returns.  Both calls are over, and
    the insertion of 1 is lost. *)
Theorem tree_edit_lost_refuted : exists sched,
  let s := run [] (inserting false) sched (cell_new [] [[1]; [2; 3]]) in
  NoDup (map snd sched) /\ pcs s = [Idle []; Idle []] /\ content [] s (ptr s) = [3; 2] /\ fault s = false.
Proof.
  exists [(1, 0); (1, 1); (1, 10); (1, 2); (0, 3); (0, 4); (1, 5); (1, 6); (1, 11); (1, 7); (1, 8); (0, 12); (0, 9)].
  split; [|vm_compute; auto]. repeat (constructor; [cbn; intuition discriminate|]). constructor.
Qed.
Print Assumptions tree_edit_lost_refuted.
(** C61 is false when addresses are used again: thread 0 prepared [1; 2] from the tree at 10; thread 1 replaced that tree twice, the second time by one at
    10; the exchange of thread 0 succeeds, and the insertions of 3 and 4 are lost.  Closures keep a clone of their argument. *)
Theorem tree_edit_aba_refuted : exists sched,
  let s := run [] (inserting true) sched (cell_new [] [[1]; [2; 3; 4]]) in
  pcs s = [Idle []; Idle []] /\ content [] s (ptr s) = [1; 2] /\ fault s = false.
Proof.
  exists [(1, 10); (1, 10); (1, 10); (1, 0); (0, 0); (0, 0); (0, 11); (1, 0); (1, 0); (1, 12); (1, 0); (1, 0); (1, 0); (1, 0); (1, 10); (1, 0); (1, 0);
          (0, 0); (0, 0)].
  vm_compute. auto.
Qed.
Print Assumptions tree_edit_aba_refuted.
(** C61 is false of the load: between it and the increment of the count, the tree can be replaced and released by another thread. *)
Theorem tree_edit_released_refuted : exists sched,
  let s := run [] (inserting true) sched (cell_new [] [[1]; [2; 3]]) in NoDup (map snd sched) /\ fault s = true.
Proof.
  exists [(1, 0); (1, 1); (1, 10); (1, 2); (0, 3); (1, 5); (1, 6); (1, 11); (1, 7); (1, 8); (0, 9)].
  split; [|vm_compute; auto]. repeat (constructor; [cbn; intuition discriminate|]). constructor.
Qed.
Print Assumptions tree_edit_released_refuted.
(** C61 is false of the end of the cell: its tree is leaked. *)
Theorem tree_drop_refuted : exists sched,
  let s := run [] (inserting true) sched (cell_new [] [[1]]) in
  calm_run [] (inserting true) sched (cell_new [] [[1]]) /\ no_leak s /\ ~ no_leak (cell_drop s).
Proof.
  exists [(0, 0); (0, 0); (0, 10); (0, 0)]. cbn zeta.
  assert (C : calm_run [] (inserting true) [(0, 0); (0, 0); (0, 10); (0, 0)] (cell_new [] [[1]])) by (apply calm_runb_sound; vm_compute; reflexivity).
  split; [exact C|]. split; [exact (proj2 (proj2 (tree_edit_partial _ _ _ _ _ _ C)))|].
  intros H. specialize (H (fun p Hp => match Hp with or_introl E => ex_intro _ [] (eq_sym E) | or_intror F => match F with end end) 10).
  vm_compute in H. assert (X : None = Some 10) by (apply H; lia). discriminate X.
Qed.
Print Assumptions tree_drop_refuted.

(** C32, registry in a B-tree: with any number of threads registering any vtables, in the interleavings of C61: no call panics, each call returns a
    pointer to a copy of its vtable that is not freed, and calls with equal vtables return the same pointer. *)
Theorem registry_btree_partial : forall K (keq : forall x y : K, {x = y} + {x <> y}) kss sched,
  let s := run [] (reg_prog K keq) sched (cell_new [] (clients K 0 kss)) in
  calm_run [] (reg_prog K keq) sched (cell_new [] (clients K 0 kss)) ->
  interned (map variables (pcs s)) /\ fault s = false.
Proof.
  intros K keq kss sched s C. destruct (tree_edit_partial _ _ _ _ _ _ C) as (A & F & _).
  split; [exact (reg_interned K keq kss s A)|exact F].
Qed.
Print Assumptions registry_btree_partial.
(** Two threads register 7 at the same time; the exchange of the second fails, and it frees its copy. *)
Example registry_btree_ex :
  let sched := [(0, 0); (0, 0); (0, 10); (1, 0); (1, 0); (1, 11); (0, 0); (0, 0); (0, 0); (0, 0); (1, 0); (1, 0); (1, 0); (1, 0);
                (1, 0); (1, 0); (1, 12); (1, 0); (1, 0); (1, 0); (1, 0); (1, 0)] in
  let s := run [] (reg_prog nat Nat.eq_dec) sched (cell_new [] (clients nat 0 [[7]; [7; 8]])) in
  calm_run [] (reg_prog nat Nat.eq_dec) sched (cell_new [] (clients nat 0 [[7]; [7; 8]])) /\
  map (fun p => answers nat (variables p)) (pcs s) = [[(7, (0, 0))]; [(7, (0, 0)); (8, (1, 1))]] /\
  map (fun p => freed nat (variables p)) (pcs s) = [[]; [(1, 0)]].
Proof. split; [apply calm_runb_sound; vm_compute; reflexivity|vm_compute; auto]. Qed.

(** C32 is false of the registry when an address is used again: thread 1 registers 3 twice, and gets two different addresses, because thread 0
    erased the first in between. *)
Theorem registry_btree_refuted : exists sched,
  let s := run [] (reg_prog nat Nat.eq_dec) sched (cell_new [] (clients nat 0 [[1]; [2; 3; 4; 3]])) in
  fault s = false /\ answered (map variables (pcs s)) 3 (1, 1) /\ answered (map variables (pcs s)) 3 (1, 3).
Proof.
  exists ([(1, 10); (1, 10); (1, 10); (1, 0); (1, 0); (1, 0); (1, 0);                 (* 2 is registered, the tree is at 10 *)
           (0, 0); (0, 0); (0, 11);                                                   (* thread 0 prepares a tree with 1 *)
           (1, 0); (1, 0); (1, 12); (1, 0); (1, 0); (1, 0); (1, 0); (1, 0);           (* 3 is registered, the tree is at 12, 10 is free *)
           (1, 0); (1, 0); (1, 10); (1, 0); (1, 0); (1, 0); (1, 0); (1, 0);           (* 4 is registered, the tree is at 10 *)
           (0, 0); (0, 0);                                                            (* thread 0 exchanges *)
           (1, 0); (1, 0); (1, 13); (1, 0); (1, 0); (1, 0); (1, 0); (1, 0)]).         (* 3 is registered again *)
  cbn zeta. split; [vm_compute; reflexivity|].
  split; unfold answered; eexists; (split; [vm_compute; right; left; reflexivity|vm_compute; auto 10]).
Qed.
Print Assumptions registry_btree_refuted.
(** It may panic: the vtable that the thread registered was erased before it looked it up. *)
Theorem registry_btree_panic_refuted : exists sched,
  let s := run [] (reg_prog nat Nat.eq_dec) sched (cell_new [] (clients nat 0 [[1]; [2; 3; 4]])) in
  fault s = false /\ map (fun p => panicked nat (variables p)) (pcs s) = [false; true].
Proof.
  exists ([(1, 10); (1, 10); (1, 10); (1, 0); (1, 0); (1, 0); (1, 0);
           (0, 0); (0, 0); (0, 11);
           (1, 0); (1, 0); (1, 12); (1, 0); (1, 0); (1, 0); (1, 0); (1, 0);
           (1, 0); (1, 0); (1, 10); (1, 0); (1, 0);
           (0, 0); (0, 0);
           (1, 0); (1, 0); (1, 0)]).
  vm_compute. auto.
Qed.
Print Assumptions registry_btree_panic_refuted.
