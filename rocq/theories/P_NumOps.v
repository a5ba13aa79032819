(** Property C112: computing with narrow integers. *)
From Coq Require Import NArith ZArith List Bool Lia.
From Verif Require Import M_Num S_Num L_Num M_NumOps S_NumOps L_NumOps.

(** With overflow checks, an expression of [uN] panics exactly if it has no value; otherwise [get] gives that value, and it is what is formatted. *)
Theorem numops_unsigned : forall w n e, (n <= w)%N ->
  match ueval true w n e with
  | None => uvalue n e = None
  | Some x => exists v, uvalue n e = Some v /\ fits_u n v /\ um_get w n x = v /\ um_fmt x = v
  end.
Proof.
  intros w n e H. destruct (ueval_checked w n e H) as [-> L]. destruct (uvalue n e) as [v|]; [|reflexivity].
  exists v. specialize (L v eq_refl). repeat split; [exact L|now apply um_get_lt].
Qed.
Print Assumptions numops_unsigned.
(** (u6::MAX & 0xb5) - u6::new(4).unwrap() | u6::new(2).unwrap() *)
Definition u_ex : uexp := UOr (USub (UAndBase UMax 181) (UNew 4)) (UNew 2).
Example numops_unsigned_ex : ueval true 8 6 u_ex = Some 51%N /\ uvalue 6 u_ex = Some 51%N /\ ueval true 8 6 (USub UMin u_ex) = None.
Proof. repeat split; reflexivity. Qed.
(** With overflow checks, expressions are equal and ordered as their values. *)
Theorem numops_unsigned_order : forall w n e e' x y v u, (n <= w)%N -> ueval true w n e = Some x -> ueval true w n e' = Some y ->
  uvalue n e = Some v -> uvalue n e' = Some u -> um_eq x y = N.eqb v u /\ um_cmp x y = N.compare v u.
Proof.
  intros w n e e' x y v u H X Y V U. rewrite (proj1 (ueval_checked w n e H)), V in X. rewrite (proj1 (ueval_checked w n e' H)), U in Y.
  injection X as <-. injection Y as <-. split; reflexivity.
Qed.
Print Assumptions numops_unsigned_order.
Example numops_unsigned_order_ex : ueval true 8 6 u_ex = Some 51%N /\ ueval true 8 6 UMax = Some 63%N /\ um_cmp 51 63 = Lt.
Proof. repeat split; reflexivity. Qed.
(** Without overflow checks, [get] gives the value modulo 2^n. *)
Theorem numops_unsigned_release : forall w n e, (n <= w)%N -> ubase w e ->
  match ueval false w n e with
  | None => uvalue_mod n e = None
  | Some x => uvalue_mod n e = Some (um_get w n x)
  end.
Proof.
  intros w n e H B. pose proof (ueval_unchecked w n e H B) as U. destruct (ueval false w n e) as [x|], (uvalue_mod n e) as [v|]; try contradiction; [|reflexivity].
  destruct U as [_ <-]. now rewrite um_get_mod.
Qed.
Print Assumptions numops_unsigned_release.
Example numops_unsigned_release_ex : ubase 8 (USub UMin u_ex) /\ ueval false 8 6 (USub UMin u_ex) = Some 205%N /\ um_get 8 6 205 = 13%N /\
  uvalue_mod 6 (USub UMin u_ex) = Some 13%N.
Proof. split; [cbn; unfold fits_u; repeat split; reflexivity|]. repeat split; reflexivity. Qed.
(** But another integer is formatted. *)
Theorem numops_unsigned_fmt_refuted : exists w n e x, (n <= w)%N /\ ubase w e /\ ueval false w n e = Some x /\ um_fmt x <> um_get w n x /\ ~ fits_u n (um_fmt x).
Proof.
  exists 8%N, 6%N, (USub (UNew 1) (UNew 2)), 255%N. split; [discriminate|]. split; [split; reflexivity|]. split; [reflexivity|].
  split; [vm_compute; discriminate|]. intros H. vm_compute in H. discriminate H.
Qed.
Print Assumptions numops_unsigned_fmt_refuted.

(** [get] of an expression of [iN] gives its value, if [MAX] is not used and masks are values of [iN]. *)
Theorem numops_signed_partial : forall w n e x, (0 < n < w)%Z -> iplain true n e -> ieval w n e = Some x -> im_get w n x = ivalue n e.
Proof. exact ieval_get. Qed.
Print Assumptions numops_signed_partial.
(** (i6::MIN | i6::new(-11).unwrap()) & 13 *)
Definition i_ex : iexp := IAndBase (IOr IMin (INew (-11))) 13.
Example numops_signed_ex : iplain true 6 i_ex /\ ieval 8 6 i_ex = Some 5%Z /\ ivalue 6 i_ex = 5%Z /\ ivalue 6 (IOr IMin (INew (-11))) = (-11)%Z.
Proof. split; [cbn; unfold fits_i; repeat split; lia|]. repeat split; reflexivity. Qed.
(** Without [MIN], that is also what is formatted, and expressions are equal and ordered as their values. *)
Theorem numops_signed_fmt_partial : forall w n e e' x y, (0 < n < w)%Z -> iplain false n e -> iplain false n e' ->
  ieval w n e = Some x -> ieval w n e' = Some y ->
  im_get w n x = im_fmt x /\ im_eq x y = Z.eqb (ivalue n e) (ivalue n e') /\ im_cmp x y = Z.compare (ivalue n e) (ivalue n e').
Proof.
  intros w n e e' x y H P P' E E'. pose proof (ieval_get w n e x H (iplain_min n e P) E) as G.
  apply (ieval_stored w n e x H P) in E. apply (ieval_stored w n e' y H P') in E'. rewrite G, E, E'. repeat split.
Qed.
Print Assumptions numops_signed_fmt_partial.
Example numops_signed_fmt_ex : iplain false 6 (IAnd (INew (-11)) (INew (-3))) /\ ieval 8 6 (IAnd (INew (-11)) (INew (-3))) = Some (-11)%Z.
Proof. split; [cbn; tauto|reflexivity]. Qed.
(** [i6::MIN], whose value is -32, is formatted as 32, which is no value of [i6]. *)
Theorem numops_signed_fmt_refuted : exists w n e x, (0 < n < w)%Z /\ iplain true n e /\ ieval w n e = Some x /\
  im_get w n x = (-32)%Z /\ im_fmt x = 32%Z /\ ~ fits_i n (im_fmt x).
Proof.
  exists 8%Z, 6%Z, IMin, 32%Z. split; [lia|]. split; [reflexivity|]. split; [reflexivity|]. split; [reflexivity|]. split; [reflexivity|].
  unfold fits_i, im_fmt. cbn. lia.
Qed.
Print Assumptions numops_signed_fmt_refuted.
(** It always is: [MIN] is formatted as 2^(n-1). *)
Theorem numops_signed_min_fmt : forall w n, (0 < n < w)%Z -> ieval w n IMin = Some (2 ^ (n - 1))%Z /\ im_fmt (2 ^ (n - 1)) = (- ivalue n IMin)%Z.
Proof. intros w n H. cbn [ieval ivalue]. rewrite im_min_val by exact H. split; [reflexivity|unfold im_fmt; lia]. Qed.
Print Assumptions numops_signed_min_fmt.
Example numops_signed_min_ex : ieval 32 26 IMin = Some 33554432%Z.
Proof. reflexivity. Qed.
(** [MAX] has its value exactly if the base type has twice as many bits. *)
Theorem numops_signed_max : forall w n x, (0 < n < w)%Z -> ieval w n IMax = Some x -> (im_get w n x = ivalue n IMax <-> w = (2 * n)%Z).
Proof. intros w n x H E. cbn [ieval] in E. injection E as <-. now apply im_max_iff. Qed.
Print Assumptions numops_signed_max.
Example numops_signed_max_ex : ieval 8 4 IMax = Some 7%Z /\ im_get 8 4 7 = 7%Z /\ ieval 8 6 IMax = Some 1%Z.
Proof. repeat split; reflexivity. Qed.
(** A mask that is no value of [iN] gives something that is formatted as the masked integer, while [get] gives another one. *)
Theorem numops_signed_mask_refuted : exists w n a r x, (0 < n < w)%Z /\ fits_i w r /\ ieval w n (IAndBase a r) = Some x /\
  im_get w n x <> ivalue n (IAndBase a r) /\ im_fmt x = ivalue n (IAndBase a r).
Proof.
  exists 8%Z, 6%Z, (INew (-3)), 127%Z, 125%Z. split; [lia|]. split; [unfold fits_i; cbn; lia|]. split; [reflexivity|]. split; [vm_compute; discriminate|reflexivity].
Qed.
Print Assumptions numops_signed_mask_refuted.
