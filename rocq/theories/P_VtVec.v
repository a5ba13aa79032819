(** Property C32, registry in a vector: [VtVec::insert]. *)
From Coq Require Import List Arith Bool Lia.
From Verif Require Import M_Import M_ATree S_ATree L_ATree M_VtVec S_VtVec L_VtVec.
Import ListNotations.

(** With any number of threads registering any vtables, in any interleaving in which the content is not replaced while another thread is between
    its read of the pointer and its increment of the count: no call panics, each call returns a pointer to a copy of its vtable that is not
    freed, calls with equal vtables return the same pointer, and no released vector is used. *)
Theorem registry_vec_partial : forall K (keq : forall x y : K, {x = y} + {x <> y}) kss sched,
  let s := vrun K keq sched (vcell_new K kss) in
  vcalm keq sched (vcell_new K kss) -> interned (map vvars (vpcs s)) /\ vfault s = false.
Proof.
  intros K keq kss sched s C. pose proof (vinv_run K keq sched _ (vinv_new K keq kss) C) as I.
  split; [exact (vinv_interned K keq _ I)|exact (v_fault K keq _ I)].
Qed.
Print Assumptions registry_vec_partial.
(** Two threads register 7 at the same time: the exchange of the second fails; it finds 7 in the new vector, frees its copy, and returns that
    of the first.  It then registers 8. *)
Example registry_vec_ex :
  let sched := [(0, 0); (0, 0); (0, 0); (0, 0); (1, 0); (1, 0); (1, 0); (1, 0); (0, 10); (1, 11); (1, 0); (1, 0); (0, 0);
                (1, 0); (1, 0); (1, 0); (1, 0); (1, 0); (1, 0); (1, 12); (1, 0); (1, 0)] in
  let s := vrun nat Nat.eq_dec sched (vcell_new nat [[7]; [7; 8]]) in
  vcalm Nat.eq_dec sched (vcell_new nat [[7]; [7; 8]]) /\
  map (fun p => answers nat (vvars p)) (vpcs s) = [[(7, (0, 0))]; [(7, (0, 0)); (8, (1, 1))]] /\
  map (fun p => freed nat (vvars p)) (vpcs s) = [[]; [(1, 0)]].
Proof. split; [apply vcalmb_sound; vm_compute; reflexivity|vm_compute; auto]. Qed.

(** Otherwise the registry may use a released vector: thread 0 reads the pointer; thread 1 replaces the vector, which is released; thread 0
    increments its count. *)
Theorem registry_vec_refuted : exists sched, vfault (vrun nat Nat.eq_dec sched (vcell_new nat [[1]; [2; 3]])) = true.
Proof.
  exists ([(1, 0); (1, 0); (1, 0); (1, 0); (1, 10); (1, 0);
           (0, 0);
           (1, 0); (1, 0); (1, 0); (1, 0); (1, 0); (1, 11); (1, 0); (1, 0);
           (0, 0)]).
  vm_compute. reflexivity.
Qed.
Print Assumptions registry_vec_refuted.
