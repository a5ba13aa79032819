(** Property C68: the API of [Result] is that of core's. *)
From Coq Require Import List Arith NArith Bool Lia Permutation.
From Verif Require Import M_Layout M_Result S_Layout L_Layout L_Result L_LayoutThms L_LayoutApi M_ResApi S_ResApi L_ResApi.
Import ListNotations.

(** C68: in any history of uses of a variable of type [Result<a, b>], its bytes are those of the value that core's Result would have; payloads are moved and
    destroyed, and panics happen, when they would with core's.  Missing: payloads whose sizes do not match their alignments (C06, C07), for which it fails. *)
Theorem result_uses_partial : forall a b us us', wf (TResult a b) -> Forall2 (same_use a b) us us' ->
  exists da db p s ev, layout a = Some da /\ layout b = Some db /\ provider_of da db = Some p /\
    use_run da db p None us = Some (s, ev) /\ same_var a b s (fst (core_run None us')) /\ Forall2 (same_event a b) ev (snd (core_run None us')).
Proof.
  intros a b us us' W U. destruct (result_provider a b W) as (da & db & p & Ea & Eb & Ep & _).
  destruct (run_value a b da db p W Ea Eb Ep us us' U None None I) as (s & ev & E & S & F). exists da, db, p, s, ev. auto 7.
Qed.
Print Assumptions result_uses_partial.
(** For others it fails: making an [Ok] of [Result<(u8, u8, u8), u16>] writes out of bounds. *)
Theorem result_uses_refuted : exists a b us us' da db p, grammar (TResult a b) /\ Forall2 (same_use a b) us us' /\
  layout a = Some da /\ layout b = Some db /\ provider_of da db = Some p /\ use_run da db p None us = None.
Proof.
  exists (struct_ty [TPlain 1 1; TPlain 1 1; TPlain 1 1]), (TPlain 2 2), [SetOk [1; 2; 3]%N]. eexists. do 3 eexists.
  split; [vm_compute; reflexivity|]. split; [constructor; [|constructor]|].
  - apply su_set_ok. vm_compute. reflexivity.
  - do 3 (split; [vm_compute; reflexivity|]). vm_compute. reflexivity.
Qed.
Print Assumptions result_uses_refuted.
(** A Result<bool, NonZeroU16>, where a forbidden value of bool is the tag. *)
Example result_uses_ex :
  let a := TBool in let b := TNonZero 2 2 in
  let us := [SetOk [1]; MutOk [0]; MutErr [7; 0]; CloneSelf (fun ok => if ok then [0] else [1; 0]); AndThen (inr [9; 0]); MutErr [8; 1]; MapOk [1]; Unwrap; SetOk [1]; DropIt]%N in
  let us' := [SetOk (VBool true); MutOk (VBool false); MutErr (VRaw [7; 0]); CloneSelf (fun ok => if ok then VBool false else VRaw [1; 0]); AndThen (inr (VRaw [9; 0]));
    MutErr (VRaw [8; 1]); MapOk (VBool true); Unwrap; SetOk (VBool true); DropIt]%N in
  wf (TResult a b) /\ Forall2 (same_use a b) us us' /\
  exists da db p, layout a = Some da /\ layout b = Some db /\ provider_of da db = Some p /\
    use_run da db p None us = Some (None, [Destroys true [1]; Destroys false [8; 1]; Panics; Destroys false [9; 0]; Moves true [0]; Destroys true [0]; Destroys true [1]])%N.
Proof.
  cbv zeta. split; [vm_compute; reflexivity|]. split.
  { repeat (constructor; [constructor; try reflexivity; try (intros [|]; reflexivity)|]). constructor. }
  do 3 eexists. split; [vm_compute; reflexivity|]. split; [vm_compute; reflexivity|]. split; vm_compute; reflexivity.
Qed.

(** C68: so each payload brought in is at any time in one place: the variable, moved out once, or destroyed once. *)
Theorem result_payloads_once_partial : forall a b us us', wf (TResult a b) -> Forall2 (same_use a b) us us' ->
  exists da db p s ev x ev', layout a = Some da /\ layout b = Some db /\ provider_of da db = Some p /\
    use_run da db p None us = Some (s, ev) /\ same_var a b s x /\ Forall2 (same_event a b) ev ev' /\
    Permutation (brought None us') ((match x with Some x => [payload x] | None => [] end) ++ flat_map leaves ev').
Proof.
  intros a b us us' W U. destruct (result_uses_partial a b us us' W U) as (da & db & p & s & ev & Ea & Eb & Ep & E & S & F).
  exists da, db, p, s, ev, (fst (core_run None us')), (snd (core_run None us')). repeat (split; [assumption|]).
  exact (run_balance us' None).
Qed.
Print Assumptions result_payloads_once_partial.
Example result_payloads_once_ex : brought None [SetOk VUnit; MutOk (VBool true); MutErr VUnit; SetErr (VBool false); IntoOk] =
    [(true, VUnit); (true, VBool true); (false, VBool false)] /\
  core_run None [SetOk VUnit; MutOk (VBool true); MutErr VUnit; SetErr (VBool false); IntoOk] =
    (None, [Destroys false (VBool false); Destroys true (VBool true); Destroys true VUnit]).
Proof. split; reflexivity. Qed.

(** C68: == is that of core's Result, for any == of the payloads; and equal Results feed the same to a hasher, if equal payloads do.  Missing: as above. *)
Theorem result_eq_hash_partial : forall a b eqa eqb ha hb qa qb s s' x x', wf (TResult a b) ->
  decode (TResult a b) s = Some (match x with inl v => VOk v | inr v => VErr v end) ->
  decode (TResult a b) s' = Some (match x' with inl v => VOk v | inr v => VErr v end) ->
  (forall v w y z, decode a v = Some y -> decode a w = Some z -> eqa v w = qa y z) ->
  (forall v w y z, decode b v = Some y -> decode b w = Some z -> eqb v w = qb y z) ->
  exists da db p, layout a = Some da /\ layout b = Some db /\ provider_of da db = Some p /\
    result_eq da db p eqa eqb s s' = Some (match x, x' with inl y, inl z => qa y z | inr y, inr z => qb y z | _, _ => false end) /\
    ((forall v w, eqa v w = true -> ha v = ha w) -> (forall v w, eqb v w = true -> hb v = hb w) ->
     result_eq da db p eqa eqb s s' = Some true -> exists h, result_hash da db p ha hb s = Some h /\ result_hash da db p ha hb s' = Some h).
Proof.
  intros a b eqa eqb ha hb qa qb s s' x x' W D D' QA QB. destruct (result_provider a b W) as (da & db & p & Ea & Eb & Ep & _).
  exists da, db, p. repeat (split; [assumption|]).
  destruct (split_value a b da db p Ea Eb Ep s x D) as (w & P & O & S). destruct (split_value a b da db p Ea Eb Ep s' x' D') as (w' & P' & O' & S').
  unfold result_eq, result_hash, is_payload in *. rewrite O, O'. destruct x as [x|x], x' as [x'|x']; cbn [payload fst snd] in *; rewrite ?S, ?S'.
  - split; [rewrite (QA _ _ _ _ P P'); reflexivity|]. intros HA HB [= E]. exists (1%N :: ha w). split; [reflexivity|]. cbn. rewrite (HA _ _ E). reflexivity.
  - split; [reflexivity|]. intros _ _ [=].
  - split; [reflexivity|]. intros _ _ [=].
  - split; [rewrite (QB _ _ _ _ P P'); reflexivity|]. intros HA HB [= E]. exists (0%N :: hb w). split; [reflexivity|]. cbn. rewrite (HB _ _ E). reflexivity.
Qed.
Print Assumptions result_eq_hash_partial.
(** Two Results over bool and (u8, u32), with different padding. *)
Example result_eq_ex :
  let a := struct_ty [TPlain 1 1; TPlain 4 4] in let b := TBool in
  let eqa v w := (nth 0 v 0 =? nth 0 w 0)%N && (nth 4 v 0 =? nth 4 w 0)%N && (nth 7 v 0 =? nth 7 w 0)%N in let eqb v w := (nth 0 v 0 =? nth 0 w 0)%N in
  wf (TResult a b) /\ exists da db p s s', layout a = Some da /\ layout b = Some db /\ provider_of da db = Some p /\
    mk_ok da db p [1; 9; 9; 9; 2; 0; 0; 3]%N = Some s /\ mk_ok da db p [1; 6; 6; 6; 2; 0; 0; 3]%N = Some s' /\ s <> s' /\ result_eq da db p eqa eqb s s' = Some true.
Proof.
  cbv zeta. split; [vm_compute; reflexivity|]. do 5 eexists. split; [vm_compute; reflexivity|]. split; [vm_compute; reflexivity|]. split; [vm_compute; reflexivity|].
  split; [vm_compute; reflexivity|]. split; [vm_compute; reflexivity|]. split; [discriminate|vm_compute; reflexivity].
Qed.
