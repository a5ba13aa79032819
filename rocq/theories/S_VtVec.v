(** Specification of executions of the registry in a vector. *)
From Coq Require Import List Arith Bool.
From Verif Require Import M_Import M_ATree M_VtVec S_ATree.
Import ListNotations.

Section Spec.
Context {K : Type} (keq : forall x y : K, {x = y} + {x <> y}).
(** The variables of a thread. *)
Definition vvars (p : vpc K) : vars K :=
  match p with
  | VIdle x | VFetch x _ _ _ | VHave x _ _ | VCheck x _ _ | VCheck2 x _ _ | VCas x _ _ | VDone x _ _ => x
  end.
(** A thread has read the pointer, and not yet incremented the count. *)
Definition vexposed (p : vpc K) : bool := match p with VFetch _ _ _ _ => true | _ => false end.
(** The content is not replaced while another thread is between its read of the pointer and its increment of the count. *)
Definition vcalm (sched : list (nat * nat)) (s : vcell K) : Prop :=
  forall k t a u q, nth_error sched k = Some (t, a) -> let s' := vrun K keq (firstn k sched) s in
    u <> t -> nth_error (vpcs s') u = Some q -> vptr (vstep K keq s' (t, a)) <> vptr s' -> vexposed q = false.
End Spec.
