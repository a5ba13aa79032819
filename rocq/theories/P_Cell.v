(** C66: interior mutation of the payload of a Result keeps its variant. *)
From Coq Require Import List Arith NArith Bool.
From Verif Require Import M_Layout M_Result M_Cell S_Layout S_Cell L_Cell.
Import ListNotations.

(** C66: overwriting the payload through a shared reference gives the same variant with the new value, if the
    write keeps the bits that the payload does not use.  Missing: writes that change them (refuted below). *)
Theorem shared_write_ok_partial : forall a b da db p s x0 v x,
  wf (TResult a b) -> layout a = Some da -> layout b = Some db -> provider_of da db = Some p ->
  decode (TResult a b) s = Some (VOk x0) -> decode a v = Some x ->
  (forall old, slice s (ok_offset da db p) (dsize da) = Some old -> keeps_unused (dub da) old v) ->
  exists s', ok_shared_write da db p s v = Some s' /\ decode (TResult a b) s' = Some (VOk x).
Proof. exact shared_ok. Qed.
Print Assumptions shared_write_ok_partial.
Theorem shared_write_err_partial : forall a b da db p s x0 v x,
  wf (TResult a b) -> layout a = Some da -> layout b = Some db -> provider_of da db = Some p ->
  decode (TResult a b) s = Some (VErr x0) -> decode b v = Some x ->
  (forall old, slice s (err_offset da db p) (dsize db) = Some old -> keeps_unused (dub db) old v) ->
  exists s', err_shared_write da db p s v = Some s' /\ decode (TResult a b) s' = Some (VErr x).
Proof. exact shared_err. Qed.
Print Assumptions shared_write_err_partial.
(** In particular, payloads without unused bits can be overwritten at will. *)
Theorem shared_write_unpadded_partial : forall a b da db p s x0 v x,
  wf (TResult a b) -> layout a = Some da -> layout b = Some db -> provider_of da db = Some p ->
  (dub da = [] -> decode (TResult a b) s = Some (VOk x0) -> decode a v = Some x ->
   exists s', ok_shared_write da db p s v = Some s' /\ decode (TResult a b) s' = Some (VOk x)) /\
  (dub db = [] -> decode (TResult a b) s = Some (VErr x0) -> decode b v = Some x ->
   exists s', err_shared_write da db p s v = Some s' /\ decode (TResult a b) s' = Some (VErr x)).
Proof.
  intros a b da db p s x0 v x W La Lb Hp. split; intros U D V.
  - apply (shared_ok a b da db p s x0 v x W La Lb Hp D V). intros old _. rewrite U. intros o c c' i _ _ [w [[] _]].
  - apply (shared_err a b da db p s x0 v x W La Lb Hp D V). intros old _. rewrite U. intros o c c' i _ _ [w [[] _]].
Qed.
Print Assumptions shared_write_unpadded_partial.
(** [Result<(u8, u16), ()>]: the tag is a bit of the padding; the write keeps it.
    Below, [Result<&T, ()>], whose payload has no unused bit. *)
Example shared_write_ex :
  let a := struct_ty [TPlain 1 1; TPlain 2 2] in
  exists da p, wf (TResult a TUnit) /\ layout a = Some da /\ provider_of da unit_d = Some p /\
  decode (TResult a TUnit) [7; 0; 1; 2]%N <> None /\ decode a [9; 0; 3; 4]%N <> None /\
  keeps_unused (dub da) [7; 0; 1; 2]%N [9; 0; 3; 4]%N /\
  ok_shared_write da unit_d p [7; 0; 1; 2]%N [9; 0; 3; 4]%N = Some [9; 0; 3; 4]%N.
Proof.
  eexists. eexists. split; [vm_compute; reflexivity|]. split; [vm_compute; reflexivity|]. split; [vm_compute; reflexivity|].
  split; [discriminate|]. split; [discriminate|]. split; [|vm_compute; reflexivity].
  intros o b b' i H1 H2 [v [[E|[]] _]]. injection E as <- _. cbn in H1, H2. congruence.
Qed.
Example shared_write_unpadded_ex :
  let a := TRef 8 in exists da p, wf (TResult a TUnit) /\ layout a = Some da /\ provider_of da unit_d = Some p /\ dub da = [] /\
  ok_shared_write da unit_d p [1; 0; 0; 0; 0; 0; 0; 0]%N [0; 2; 0; 0; 0; 0; 0; 0]%N = Some [0; 2; 0; 0; 0; 0; 0; 0]%N.
Proof. eexists. eexists. repeat split; vm_compute; reflexivity. Qed.

(** C66, refuted as stated: a write of a whole value through [UnsafeCell::get] writes the padding too, which then holds any byte.  A [Result<UnsafeCell<(u8, u16)>, ()>]
    that is [Ok], whose payload is overwritten by the same value, becomes [Err]. *)
Theorem shared_write_refuted : exists a da p s v x,
  wf (TResult a TUnit) /\ layout a = Some da /\ provider_of da unit_d = Some p /\
  decode (TResult a TUnit) s = Some (VOk x) /\ decode a v = Some x /\
  exists s', ok_shared_write da unit_d p s v = Some s' /\ decode (TResult a TUnit) s' = Some (VErr VUnit).
Proof.
  exists (struct_ty [TPlain 1 1; TPlain 2 2]). eexists. eexists. exists [7; 0; 1; 2]%N, [7; 1; 1; 2]%N. eexists.
  split; [vm_compute; reflexivity|]. split; [vm_compute; reflexivity|]. split; [vm_compute; reflexivity|].
  split; [vm_compute; reflexivity|]. split; [vm_compute; reflexivity|].
  eexists. split; vm_compute; reflexivity.
Qed.
Print Assumptions shared_write_refuted.
