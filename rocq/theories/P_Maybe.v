(** Property theorems for C47: a resolved future yields its output once. *)
From Coq Require Import List Arith NArith Bool Lia.
From Verif Require Import M_Layout M_Result M_Enum M_Maybe S_Layout S_Maybe L_Struct L_Maybe.
Import ListNotations.

(** Histories of polls are those of [S_Maybe.steps].  Missing: layouts with mismatched payloads (C07), layouts where a guard sets the
    tag again after the object was emptied ([not_set]), futures that overwrite the tag hidden in their unused bits ([keeps_tag]); all are refuted below. *)
Theorem maybe_resolved_history_partial : forall T F fut g n s st,
  wf (TResult T (TResult TUnit F)) -> behaves T F fut g -> keeps_tag T F fut -> holds T F s st ->
  match st with
  | Resolved _ => forall d, outer_det T F d -> not_set true d = true
  | Empty => True
  | Pending _ => forall d, inner_det F d -> not_set false d = true
  end ->
  exists tr s', maybe_polls T F fut n s = Some (tr, s') /\
    Forall2 (fun e e' => same_output T (fst e) (fst e') /\ same_drop F (snd e) (snd e')) tr (fst (steps g n st)) /\
    holds T F s' (snd (steps g n st)).
Proof. intros T F fut g n s st W B K H Hs. exact (polls_steps T F fut g n W B K s st Hs H). Qed.
Print Assumptions maybe_resolved_history_partial.

(** At most one output, exactly one destruction of the future (counting the final drop); the output is handed out or destroyed, not both. *)
Theorem maybe_resolved_once_partial : forall T F fut g n s st tr s',
  wf (TResult T (TResult TUnit F)) -> behaves T F fut g -> keeps_tag T F fut -> holds T F s st ->
  match st with
  | Resolved _ => forall d, outer_det T F d -> not_set true d = true
  | Empty => True
  | Pending _ => forall d, inner_det F d -> not_set false d = true
  end ->
  maybe_polls T F fut n s = Some (tr, s') ->
  outputs tr <= 1 /\
  destroyed 2 tr (maybe_drop T F s') = match st with Pending _ => 1 | _ => 0 end /\
  match st with Resolved _ => outputs tr + destroyed 0 tr (maybe_drop T F s') = 1 | _ => destroyed 0 tr (maybe_drop T F s') = 0 end.
Proof.
  intros T F fut g n s st tr s' W B K H Hs E.
  destruct (polls_steps T F fut g n W B K s st Hs H) as [tr1 [s1 [E1 [Ht Hf]]]]. rewrite E in E1. injection E1 as <- <-.
  exact (once_counts T F g n st tr s' W Ht Hf).
Qed.
Print Assumptions maybe_resolved_once_partial.

Definition u32 : ty := TPlain 4 4.
(** A future whose state is a [bool]: ready with 7 once it is [true]. *)
Definition bool_future : future := fun f => if list_eq_dec N.eq_dec f [1%N] then (Some [7; 0; 0; 0]%N, f) else (None, [1%N]).
Definition bool_vfuture : vfuture := fun x => match x with VBool true => (Some (VRaw [7; 0; 0; 0]%N), x) | _ => (None, VBool true) end.
Example bool_behaves : behaves u32 TBool bool_future bool_vfuture.
Proof.
  intros f x H. assert (f = [0%N] /\ x = VBool false \/ f = [1%N] /\ x = VBool true) as [[-> ->]|[-> ->]]; [|vm_compute; auto|vm_compute; auto].
  destruct f as [|b [|c f]]; try discriminate H. cbn in H. destruct (b <? 256)%N; [|discriminate]. cbn in H.
  destruct b as [|[b|b|]]; try discriminate H; injection H as <-; auto.
Qed.
Example bool_keeps : keeps_tag u32 TBool bool_future.
Proof.
  apply keeps_tag_same. intros f v f'. unfold bool_future. destruct (list_eq_dec N.eq_dec f [1%N]); intros E; [|discriminate].
  injection E as <- <-. reflexivity.
Qed.
Example maybe_resolved_ex : wf (TResult u32 (TResult TUnit TBool)) /\ behaves u32 TBool bool_future bool_vfuture /\ keeps_tag u32 TBool bool_future /\
  (forall d, inner_det TBool d -> not_set false d = true) /\
  (exists s tr s', maybe_new u32 TBool 2 [0%N] = Some s /\ holds u32 TBool s (Pending (VBool false)) /\
    maybe_polls u32 TBool bool_future 4 s = Some (tr, s') /\ map fst tr = [None; Some [7; 0; 0; 0]%N; None; None] /\ outputs tr = 1 /\
    map snd tr = [None; Some (2, [1%N]); None; None]).
Proof.
  split; [vm_compute; reflexivity|]. split; [apply bool_behaves|]. split; [apply bool_keeps|]. split.
  - intros d [b [p [E1 [E2 ->]]]]. vm_compute in E1. injection E1 as <-. vm_compute in E2. injection E2 as <-. reflexivity.
  - eexists. eexists. eexists. split; [vm_compute; reflexivity|]. split; [vm_compute; reflexivity|]. split; [vm_compute; reflexivity|].
    split; [vm_compute; reflexivity|]. split; vm_compute; reflexivity.
Qed.

(** Exactly when a resolved future stops being ready: when the tag of [Resolved] is not something its guard writes. *)
Theorem maybe_resolved_stops_iff_partial : forall T F fut s v d,
  wf (TResult T (TResult TUnit F)) -> outer_det T F d -> holds T F s (Resolved v) ->
  exists r1 r2, maybe_poll T F fut s = Some r1 /\ same_output T (ready r1) (Some v) /\ maybe_poll T F fut (after r1) = Some r2 /\
    (ready r2 = None <-> not_set true d = true).
Proof. intros T F fut s v d W Hd H. exact (resolved_exact T F fut s v d W Hd H). Qed.
Print Assumptions maybe_resolved_stops_iff_partial.
(** Both sides occur: with a [bool]-like future the tag is a forbidden value, with a [u32]-like one it is a byte of its own used as a bit. *)
Example maybe_resolved_stops_ex : (exists d, outer_det u32 TBool d /\ not_set true d = true) /\ (exists d, outer_det u32 u32 d /\ not_set true d = false) /\
  (exists s, maybe_new u32 u32 0 [1; 0; 0; 0]%N = Some s /\ holds u32 u32 s (Resolved (VRaw [1; 0; 0; 0]%N))).
Proof.
  split; [|split].
  - eexists. split; [eexists; eexists; eexists; split; [vm_compute; reflexivity|split; [vm_compute; reflexivity|split; [vm_compute; reflexivity|reflexivity]]]|vm_compute; reflexivity].
  - eexists. split; [eexists; eexists; eexists; split; [vm_compute; reflexivity|split; [vm_compute; reflexivity|split; [vm_compute; reflexivity|reflexivity]]]|vm_compute; reflexivity].
  - eexists. split; [vm_compute; reflexivity|vm_compute; reflexivity].
Qed.

(** The full statement fails: [MaybeResolved<u32, F>] with [F] four plain bytes hands its output out on each poll. *)
Theorem maybe_resolved_once_refuted : exists T F fut s tr s', wf (TResult T (TResult TUnit F)) /\ keeps_tag T F fut /\
  holds T F s (Resolved (VRaw [1; 0; 0; 0]%N)) /\ maybe_polls T F fut 3 s = Some (tr, s') /\ outputs tr = 3.
Proof.
  exists u32, u32, (fun f => (None, f)), [2; 0; 0; 0; 1; 0; 0; 0]%N. eexists. eexists. split; [vm_compute; reflexivity|].
  split; [apply keeps_tag_same; intros f v f' E; discriminate|].
  split; [vm_compute; reflexivity|]. split; [vm_compute; reflexivity|vm_compute; reflexivity].
Qed.
Print Assumptions maybe_resolved_once_refuted.

(** A pending future is polled again after it was ready and destroyed, and destroyed again. *)
Definition out3 : ty := struct_ty [TPlain 1 1; TPlain 2 2].
Definition fut8 : ty := struct_ty [TPlain 1 1; TPlain 4 4].
Definition always_ready : future := fun f => (Some [5; 0; 6; 0]%N, f).
Theorem maybe_future_destroyed_twice_refuted : exists T F fut s x tr s', wf (TResult T (TResult TUnit F)) /\ keeps_tag T F fut /\
  maybe_new T F 2 [1; 0; 0; 0; 2; 0; 0; 0]%N = Some s /\ holds T F s (Pending x) /\
  maybe_polls T F fut 3 s = Some (tr, s') /\ outputs tr = 3 /\ destroyed 2 tr None = 3.
Proof.
  exists out3, fut8, always_ready. eexists. eexists. eexists. eexists. split; [vm_compute; reflexivity|].
  split; [apply keeps_tag_same; unfold always_ready; intros f v f' E; congruence|].
  split; [vm_compute; reflexivity|]. split; [vm_compute; reflexivity|].
  split; [vm_compute; reflexivity|]. split; vm_compute; reflexivity.
Qed.
Print Assumptions maybe_future_destroyed_twice_refuted.

(** A future that writes its own padding when it becomes ready: an output that never existed is destroyed, instead of the future. *)
Definition pad_future : future := fun f => (Some [5; 0; 6; 0]%N, map (fun _ => 255%N) f).
Theorem maybe_tag_overwritten_refuted : exists T F fut s x r, wf (TResult T (TResult TUnit F)) /\
  (forall f y, decode F f = Some y -> exists y', decode F (snd (fut f)) = Some y') /\
  maybe_new T F 2 [1; 0; 0; 0; 2; 0; 0; 0]%N = Some s /\ holds T F s (Pending x) /\
  maybe_poll T F fut s = Some r /\ dropped r = Some (0, [255; 255; 255; 255]%N).
Proof.
  exists out3, fut8, pad_future. eexists. eexists. eexists. split; [vm_compute; reflexivity|].
  split.
  - intros f y E. destruct (layout fut8) as [d|] eqn:El; [|vm_compute in El; discriminate].
    pose proof (decode_len _ _ _ _ El E) as L. vm_compute in El. injection El as <-. cbn [dsize] in L.
    do 9 (destruct f as [|? f]; try discriminate L). eexists. vm_compute. reflexivity.
  - split; [vm_compute; reflexivity|]. split; [vm_compute; reflexivity|].
    split; vm_compute; reflexivity.
Qed.
Print Assumptions maybe_tag_overwritten_refuted.
