(** C107: [StableLike]. *)
From Coq Require Import List Arith NArith Bool Lia.
From Verif Require Import M_Layout M_Result M_Like S_Layout S_Core S_Like L_Like P_Layout.
Import ListNotations.
Ltac Zify.zify_post_hook ::= idtac.

(** The checks of [new] make the claims about sizes and alignments true, in all types that contain a [StableLike]. *)
Theorem like_layout_true : forall l, checked l = true -> rust_size_align l = size_align (claimed l).
Proof. exact like_layout. Qed.
Print Assumptions like_layout_true.
Definition point : ty := struct_ty [TPlain 1 1; TPlain 8 8].
Definition flagged : ty := struct_ty [TBool; TPlain 8 8].
Example like_layout_ex : let l := LStruct (LPair (LOf TBool) (LLike point (no_niches 16 8))) in
  checked l = true /\ rust_size_align l = Some (24, 8) /\
  checked (LLike point (no_niches 12 4)) = false /\ rust_size_align (LLike point (no_niches 12 4)) <> size_align (no_niches 12 4).
Proof. cbn. repeat split. discriminate. Qed.

(** What is put in a [Result] made of types with [StableLike]s, at construction or through a guard, is what is read.
    Missing: [StableLike]s that do not tell the truth; [Result]s of types with sizes that do not match (C07). *)
Theorem like_partial : forall a b, wf (claimed (LResult a b)) -> honest a -> honest b ->
  (forall v x, ldecode a v = Some x -> exists s w, like_ok a b v = Some s /\ like_match a b s = Some (inl w) /\
     ldecode a w = Some x /\ ldecode (LResult a b) s = Some (VOk x)) /\
  (forall v x, ldecode b v = Some x -> exists s w, like_err a b v = Some s /\ like_match a b s = Some (inr w) /\
     ldecode b w = Some x /\ ldecode (LResult a b) s = Some (VErr x)) /\
  (forall s x0 v x, ldecode (LResult a b) s = Some (VOk x0) -> ldecode a v = Some x ->
     exists s', like_set_ok a b s v = Some s' /\ ldecode (LResult a b) s' = Some (VOk x)) /\
  (forall s x0 v x, ldecode (LResult a b) s = Some (VErr x0) -> ldecode b v = Some x ->
     exists s', like_set_err a b s v = Some s' /\ ldecode (LResult a b) s' = Some (VErr x)).
Proof.
  intros a b W Ha Hb. destruct (like_round_trip a b W Ha Hb) as [H1 H2]. destruct (like_guards a b W Ha Hb) as [H3 H4]. auto.
Qed.
Print Assumptions like_partial.
(** A struct of a [bool] and of a reference described as a [NonZeroU64], which it is as far as bytes go. *)
Example like_ex : let a := LStruct (LPair (LOf TBool) (LLike (TRef 8) (TNonZero 8 8))) in let b := LOf TUnit in
  let v := ([1] ++ repeat 0 7 ++ repeat 3 8)%N in let x := VPair (VBool true) (VRaw (repeat 3%N 8)) in
  wf (claimed (LResult a b)) /\ honest a /\ ldecode a v = Some x /\
  exists s, like_ok a b v = Some s /\ ldecode (LResult a b) s = Some (VOk x).
Proof.
  cbn [honest]. split; [vm_compute; reflexivity|]. split; [split; [exact I|intros _ w x E; exists x; split; [exact E|intros w' E'; exact E']]|].
  split; [vm_compute; reflexivity|]. eexists. split; vm_compute; reflexivity.
Qed.

(** With [NoNiches], as advised, no trust is needed. Missing: sizes that do not match. *)
Theorem like_advised_partial : forall a b, wf (claimed (LResult a b)) -> advised a -> advised b ->
  (forall v x, ldecode a v = Some x -> exists s, like_ok a b v = Some s /\ ldecode (LResult a b) s = Some (VOk x)) /\
  (forall v x, ldecode b v = Some x -> exists s, like_err a b v = Some s /\ ldecode (LResult a b) s = Some (VErr x)).
Proof.
  intros a b W A B. destruct (like_partial a b W (advised_honest a A) (advised_honest b B)) as (H1 & H2 & _).
  split; intros v x E; [destruct (H1 v x E) as (s & w & ?) | destruct (H2 v x E) as (s & w & ?)]; exists s; tauto.
Qed.
Print Assumptions like_advised_partial.
Example like_advised_ex : let a := LLike flagged (no_niches 16 8) in let b := LOf (TRef 8) in
  wf (claimed (LResult a b)) /\ advised a /\ ldecode a ([1] ++ repeat 0 7 ++ repeat 3 8)%N = Some (VPair (VBool true) (VRaw (repeat 3 8)))%N /\
  exists s, like_ok a b ([1] ++ repeat 0 7 ++ repeat 3 8)%N = Some s /\ ldecode (LResult a b) s = Some (VOk (VPair (VBool true) (VRaw (repeat 3 8))))%N.
Proof.
  split; [vm_compute; reflexivity|]. split; [exists 16, 8; reflexivity|]. split; [vm_compute; reflexivity|]. eexists. split; vm_compute; reflexivity.
Qed.

(** [new] is a safe function, and its checks pass for a [u8] described as a [bool]: an [Ok] is then read as an [Err]. *)
Theorem like_refuted : exists a b v x s,
  wf (claimed (LResult a b)) /\ checked a = true /\ checked b = true /\ ldecode a v = Some x /\ like_ok a b v = Some s /\
  like_match a b s = Some (inr []).
Proof.
  exists (LLike (TPlain 1 1) TBool), (LOf TUnit), [2%N], (VRaw [2%N]). eexists.
  split; [vm_compute; reflexivity|]. split; [vm_compute; reflexivity|]. split; [vm_compute; reflexivity|]. split; [vm_compute; reflexivity|].
  split; vm_compute; reflexivity.
Qed.
Print Assumptions like_refuted.
(** Fields where the described type has padding are overwritten. *)
Theorem like_fields_refuted : exists a b v w s,
  wf (claimed (LResult a b)) /\ checked a = true /\ checked b = true /\ ldecode a v <> None /\ like_ok a b v = Some s /\
  like_match a b s = Some (inl w) /\ ldecode a w <> None /\ ldecode a w <> ldecode a v.
Proof.
  exists (LLike (struct_ty [TPlain 1 1; TPlain 1 1; TPlain 2 2]) (struct_ty [TPlain 1 1; TPlain 2 2])), (LOf TUnit), [1; 255; 3; 4]%N. do 2 eexists.
  split; [vm_compute; reflexivity|]. split; [vm_compute; reflexivity|]. split; [vm_compute; reflexivity|]. split; [vm_compute; discriminate|].
  split; [vm_compute; reflexivity|]. split; [vm_compute; reflexivity|]. split; vm_compute; discriminate.
Qed.
Print Assumptions like_fields_refuted.
(** So safe code makes references out of numbers: any address. *)
Theorem like_forges : forall addr r, decode (TRef 8) addr = Some r ->
  let a := LLike point flagged in let b := LOf (TRef 8) in let v := [2; 0; 0; 0; 0; 0; 0; 0]%N ++ addr in
  wf (claimed (LResult a b)) /\ checked a = true /\ ldecode a v = Some (VPair (VRaw [2%N]) (VRaw addr)) /\
  exists s, like_ok a b v = Some s /\ like_match a b s = Some (inr addr) /\ ldecode (LResult a b) s = Some (VErr r).
Proof.
  intros addr r E. cbn zeta. split; [vm_compute; reflexivity|]. split; [vm_compute; reflexivity|].
  assert (D := E). cbn [decode layout ref_d dsize] in E. destruct (negb (Nat.eqb (length addr) 8 && forallb (fun b => N.ltb b 256) addr)) eqn:G; [discriminate|].
  apply negb_false_iff, andb_prop in G. destruct G as [G1 G2]. apply Nat.eqb_eq in G1.
  do 8 (destruct addr as [|? addr]; [discriminate|]). destruct addr; [|discriminate]. clear G1.
  cbn [forallb] in G2. repeat (apply andb_prop in G2; destruct G2 as [? G2]).
  set (addr := [n; n0; n1; n2; n3; n4; n5; n6]) in *.
  split.
  - cbv -[N.ltb]. rewrite H, H0, H1, H2, H3, H4, H5, H6. vm_compute. reflexivity.
  - exists ([2; 0; 0; 0; 0; 0; 0; 0]%N ++ addr). split; [vm_compute; reflexivity|].
    assert (M : like_match (LLike point flagged) (LOf (TRef 8)) ([2; 0; 0; 0; 0; 0; 0; 0]%N ++ addr) = Some (inr addr)) by (vm_compute; reflexivity).
    split; [exact M|]. cbn [ldecode]. rewrite M.
    replace (lguard (LResult (LLike point flagged) (LOf (TRef 8))) ([2; 0; 0; 0; 0; 0; 0; 0]%N ++ addr)) with true
      by (cbv -[N.ltb]; rewrite H, H0, H1, H2, H3, H4, H5, H6; vm_compute; reflexivity).
    replace (lguard (LOf (TRef 8)) addr) with true
      by (cbv -[N.ltb]; rewrite H, H0, H1, H2, H3, H4, H5, H6; vm_compute; reflexivity).
    cbn [negb]. rewrite D. reflexivity.
Qed.
Print Assumptions like_forges.
Example like_forges_ex : decode (TRef 8) [52; 18; 0; 0; 0; 0; 0; 0]%N = Some (VRaw [52; 18; 0; 0; 0; 0; 0; 0]%N).
Proof. reflexivity. Qed.

(** Plain old data made with [StableLike]s holds no pointer. Missing: pointers described as integers. *)
Theorem like_pod_partial : forall l copy, open_about_pointers l -> like_pod l copy = true -> lpointer l = false.
Proof.
  intros l copy O P. unfold like_pod in P. destruct (layout (claimed l)) as [d|] eqn:L; [|discriminate]. apply andb_prop in P. destruct P as [_ P].
  apply negb_true_iff in P. rewrite (indirections_are_pointers _ _ L) in P. destruct (lpointer l) eqn:E; [|reflexivity].
  rewrite (pointers_claimed l O E) in P. discriminate.
Qed.
Print Assumptions like_pod_partial.
Example like_pod_ex : let l := LStruct (LPair (LOf TBool) (LLike point (no_niches 16 8))) in
  open_about_pointers l /\ like_pod l true = true /\ like_pod (LStruct (LPair (LOf (TRef 8)) (LLike point (no_niches 16 8)))) true = false.
Proof. split; [split; [exact I|discriminate]|]. split; vm_compute; reflexivity. Qed.
(** stabby's own [VtDrop], a function pointer, is plain old data. *)
Theorem like_pod_refuted : exists l, checked l = true /\ like_pod l true = true /\ lpointer l = true.
Proof. exists vt_drop. split; [|split]; vm_compute; reflexivity. Qed.
Print Assumptions like_pod_refuted.
