(** Properties C34 and C63: the markers Send and Sync. *)
From Coq Require Import List Arith Bool.
From Verif Require Import M_Dyn M_Auto S_Auto.
Import ListNotations.

Definition super_constructible env v v' t (S : super v v') : constructible env v t = true -> constructible env v' t = true.
Proof. destruct S; cbn; intros H; repeat (apply andb_prop in H; destruct H as (? & H)); rewrite ?andb_true_iff; auto. Qed.
Definition hides_constructible env t k v : hides env t k v -> constructible env v t = true.
Proof. induction 1; eauto using super_constructible. Qed.
Definition no_marker_sync v : no_marker v = true -> has_sync v = false.
Proof. induction v; cbn; auto; discriminate. Qed.
Definition has_sync_sound env v t : constructible env v t = true -> has_sync v = true -> impls env Sync t = true.
Proof. induction v; cbn; intros H; try discriminate; auto; apply andb_prop in H; tauto. Qed.
Definition has_send_sound env v t : markers_last v = true -> constructible env v t = true -> has_send v = true -> impls env Send t = true.
Proof.
  induction v; cbn; intros M H; try discriminate; auto; try (apply andb_prop in H; tauto). rewrite (no_marker_sync _ M). discriminate.
Qed.

(** C34, Sync: a trait object is Sync only if each pointer that it may be made from is, except that for Arc and Weak, the traits must include Send too. *)
Theorem dyn_sync_partial : forall env t k v a, hides env t k v ->
  (shares_ownership k = true -> markers_last v = true /\ has_send v = true) ->
  impls env Sync (object k a v) = true -> impls env Sync (pointer k t a) = true.
Proof.
  intros env t k v a H Sh I. apply hides_constructible in H. assert (T : has_sync v = true -> impls env Sync t = true) by (apply has_sync_sound; exact H).
  destruct k; cbn [object impls pointer shares_ownership andb] in *; auto.
  all: apply andb_prop in I; destruct I as (A & I); destruct (Sh eq_refl) as (M & Sd); rewrite (has_send_sound _ _ _ M H Sd), (T I); exact A.
Qed.
Print Assumptions dyn_sync_partial.
(** C34, Send: likewise if the markers come after all traits, and if for &T, Arc and Weak they include Sync. *)
Theorem dyn_send_partial : forall env t k v a, hides env t k v -> markers_last v = true -> (shares k = true -> has_sync v = true) ->
  impls env Send (object k a v) = true -> impls env Send (pointer k t a) = true.
Proof.
  intros env t k v a H M Sh I. apply hides_constructible in H. assert (Y : has_sync v = true -> impls env Sync t = true) by (apply has_sync_sound; exact H).
  assert (D : has_send v = true -> impls env Send t = true) by (apply has_send_sound; assumption).
  destruct k; cbn [object impls pointer shares andb] in *; auto; apply andb_prop in I; destruct I as (A & I); rewrite (D I); auto.
  all: rewrite (Y (Sh eq_refl)); exact A.
Qed.
Print Assumptions dyn_send_partial.
(** Types 0: both markers; 1: Send only (as Cell); 2: Sync only (as MutexGuard). *)
Definition env0 (tr : auto) (i : nat) : bool := match tr, i with Send, 2 | Sync, 1 => false | _, _ => true end.
Example dyn_send_ex : let v := vtable_macro [BTrait 1; BTrait 2; BSend; BSync] in
  hides env0 (Val 0) PArc (vtable_macro [BTrait 1; BSend; BSync]) /\ markers_last (vtable_macro [BTrait 1; BSend; BSync]) = true /\
  impls env0 Send (object PArc Unit v) = true /\ impls env0 Send (object PBox Unit (VTable 2 (VTable 1 VtDrop))) = false /\
  constructible env0 v (Val 1) = false.
Proof. split; [|vm_compute; auto]. apply (hides_super env0 _ PArc (vtable_macro [BTrait 1; BTrait 2; BSend; BSync])); [apply hides_from; reflexivity|constructor]. Qed.

(** A Box of a Sync value that is not Send, as [dyn Sync + A], is Send. *)
Theorem dyn_send_head_refuted : exists t v, hides env0 t PBox v /\ v = vtable_macro [BSync; BTrait 1] /\
  impls env0 Send (object PBox Unit v) = true /\ impls env0 Send (pointer PBox t Unit) = false.
Proof. exists (Val 2), (vtable_macro [BSync; BTrait 1]). split; [apply hides_from; reflexivity|]. vm_compute. auto. Qed.
Print Assumptions dyn_send_head_refuted.
(** A reference to a value that is not Sync, as [dyn A + Send], is Send. *)
Theorem dyn_send_ref_refuted : exists t v, hides env0 t PRef v /\ v = vtable_macro [BTrait 1; BSend] /\
  impls env0 Send (object PRef Unit v) = true /\ impls env0 Send (pointer PRef t Unit) = false.
Proof. exists (Val 1), (vtable_macro [BTrait 1; BSend]). split; [apply hides_from; reflexivity|]. vm_compute. auto. Qed.
Print Assumptions dyn_send_ref_refuted.
(** So is an Arc of it. *)
Theorem dyn_send_arc_refuted : exists t v, hides env0 t PArc v /\ v = vtable_macro [BTrait 1; BSend] /\
  impls env0 Send (object PArc Unit v) = true /\ impls env0 Send (pointer PArc t Unit) = false.
Proof. exists (Val 1), (vtable_macro [BTrait 1; BSend]). split; [apply hides_from; reflexivity|]. vm_compute. auto. Qed.
Print Assumptions dyn_send_arc_refuted.
(** An Arc of a value that is not Send, as [dyn A + Sync], is Sync. *)
Theorem dyn_sync_arc_refuted : exists t v, hides env0 t PArc v /\ v = vtable_macro [BTrait 1; BSync] /\
  impls env0 Sync (object PArc Unit v) = true /\ impls env0 Sync (pointer PArc t Unit) = false.
Proof. exists (Val 2), (vtable_macro [BTrait 1; BSync]). split; [apply hides_from; reflexivity|]. vm_compute. auto. Qed.
Print Assumptions dyn_sync_arc_refuted.

(** C63: for all nestings of references, Box, BoxedSlice, Vec, Arc, Weak, ArcSlice, WeakSlice, AtomicArc, Slice and SliceMut, where the allocators of
    Boxes are Sync: if the type has a marker, then a thread that receives it (resp. a reference to it) only reaches values that may be moved to (resp. shared with)
    it. *)
Theorem containers_partial : forall env tr t, careful env t = true -> impls env tr t = true -> sound env tr t.
Proof.
  intros env tr t C I m i R.
  assert (G : forall m t m' i, reaches m t m' i -> careful env t = true -> impls env (match m with Own => Send | Shr => Sync end) t = true ->
    env (match m' with Own => Send | Shr => Sync end) i = true).
  { clear. induction 1; cbn [careful impls]; intros C I; try discriminate; rewrite ?andb_true_iff in C; auto;
      repeat match goal with H : _ /\ _ |- _ => destruct H end; try (destruct m); rewrite ?andb_true_iff in I;
      repeat match goal with H : _ /\ _ |- _ => destruct H end; auto; try (destruct n; auto);
      apply IHreaches; cbn [careful impls]; rewrite ?andb_true_iff; auto 10. }
  apply (G _ t m i R C). destruct tr; exact I.
Qed.
Print Assumptions containers_partial.
Example containers_ex : let t := Vec (Arc (Boxed (Val 0) Unit) Unit) (Val 0) in
  careful env0 t = true /\ impls env0 Send t = true /\ reaches Own t Shr 0 /\ impls env0 Send (Arc (Val 1) Unit) = false.
Proof. split; [reflexivity|]. split; [reflexivity|]. split; [|reflexivity]. apply r_vec, (r_arc Own Shr), r_box, r_val. Qed.
(** AtomicArcBTreeSet<T> is Send and Sync whatever T is. *)
Theorem atomic_set_markers_refuted : exists t, t = AtomicSet (Val 1) /\ impls env0 Sync t = true /\ ~ sound env0 Sync t.
Proof.
  exists (AtomicSet (Val 1)). split; [reflexivity|]. split; [reflexivity|]. intros H.
  specialize (H Shr 1 (r_atomic_set Shr Shr _ _ _ (r_val Shr 1))). discriminate H.
Qed.
Print Assumptions atomic_set_markers_refuted.
(** CanariedImport<F> is Send and Sync whatever F is. *)
Theorem canaried_markers_refuted : exists t, t = Canaried (Val 1) /\ impls env0 Sync t = true /\ ~ sound env0 Sync t.
Proof.
  exists (Canaried (Val 1)). split; [reflexivity|]. split; [reflexivity|]. intros H.
  specialize (H Shr 1 (r_canaried _ _ _ _ (r_val Shr 1))). discriminate H.
Qed.
Print Assumptions canaried_markers_refuted.
(** Box<T, A> is Sync even if A is not, but Clone shares the allocator. *)
Theorem box_alloc_markers_refuted : exists t, t = Boxed (Val 0) (Val 1) /\ impls env0 Sync t = true /\ ~ sound env0 Sync t.
Proof.
  exists (Boxed (Val 0) (Val 1)). split; [reflexivity|]. split; [reflexivity|]. intros H.
  specialize (H Shr 1 (r_box_alloc _ _ _ _ _ (r_val Shr 1))). discriminate H.
Qed.
Print Assumptions box_alloc_markers_refuted.
(** Result<Ok, Err> is Send and Sync whatever Ok and Err are, as its only field is an array of integers; so are Option (option.rs:22-26, a Result), enums
    in repr(stabby) (enums.rs:542-545) and SingleOrVec (single_or_vec.rs:19-27).  With [Val 1] Send and not Sync (a Cell) and [Val 2] Sync and not Send (a
    MutexGuard), a thread may share the first and own the second. *)
Theorem result_markers_refuted :
  (exists t, t = Res (Val 1) Unit /\ impls env0 Sync t = true /\ ~ sound env0 Sync t) /\
  (exists t, t = Res Unit (Val 2) /\ impls env0 Send t = true /\ ~ sound env0 Send t).
Proof.
  split; [exists (Res (Val 1) Unit)|exists (Res Unit (Val 2))]; (split; [reflexivity|]; split; [reflexivity|]; intros H).
  - specialize (H Shr 1 (r_ok _ _ _ _ _ (r_val Shr 1))). discriminate H.
  - specialize (H Own 2 (r_err _ _ _ _ _ (r_val Own 2))). discriminate H.
Qed.
Print Assumptions result_markers_refuted.
