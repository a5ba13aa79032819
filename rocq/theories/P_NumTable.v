(** Property C113: which narrow integers there are. *)
From Coq Require Import String List NArith ZArith Bool Lia.
From Verif Require Import M_Num S_Num L_Num M_NumTable S_NumTable L_NumTable.
Import ListNotations.
Ltac Zify.zify_post_hook ::= idtac.
Local Open Scope N_scope.

(** There are [uN] and [iN] exactly for the numbers of bits below 128 that Rust lacks. *)
Theorem numtable_names : forall s,
  (find_type umasks s <> None <-> exists n, missing n /\ s = int_name "u" n) /\
  (find_type imasks s <> None <-> exists n, missing n /\ s = int_name "i" n).
Proof.
  intros s. split; apply table_names; [exact u_tab|exact (proj2 (proj1 (andb_true_iff _ _) umasks_ok))|exact i_tab|exact (proj2 (proj1 (andb_true_iff _ _) imasks_ok))].
Qed.
Print Assumptions numtable_names.
Example numtable_names_ex : int_name "u" 17 = "u17"%string /\ find_type umasks "u17" = Some (Narrow "u17" "u32" 17) /\ find_type imasks "i16" = None.
Proof. repeat split; reflexivity. Qed.
(** No name is declared twice. *)
Theorem numtable_once : NoDup (map nname (umasks ++ imasks)).
Proof. apply nodup_names_spec. vm_compute. reflexivity. Qed.
Print Assumptions numtable_once.
Example numtable_once_ex : length (map nname (umasks ++ imasks)) = 246%nat.
Proof. reflexivity. Qed.
(** [uN] is stored in the smallest integer with N bits, holds exactly the integers of N bits, and gives them back. *)
Theorem numtable_unsigned : forall n, missing n -> exists d w, find_type umasks (int_name "u" n) = Some d /\
  nbase d = int_name "u" w /\ smallest n w /\ u_get d (u_max d) = 2 ^ n - 1 /\
  (forall v, u_new d v <> None <-> fits_u n v) /\ (forall v x, u_new d v = Some x -> u_get d x = v).
Proof.
  intros n M. destruct (table_entry "u" umasks u_tab n M) as (d & w & F & T & B & W & L & S). exists d, w. do 3 (split; [assumption|]).
  unfold u_get, u_max, u_new, fits_u. rewrite T, W. split; [|split].
  - rewrite um_max_val, um_get_mod by lia. apply N.mod_small. pose proof (pow2_pos n). lia.
  - intros v. rewrite um_new_spec by lia. destruct (N.ltb_spec v (2 ^ n)); split; intros; try congruence; lia.
  - intros v x E. apply (um_round w n v x); [lia|exact E].
Qed.
Print Assumptions numtable_unsigned.
Example numtable_unsigned_ex : missing 33 /\ option_map (fun d => (nbase d, u_new d 8589934591, u_new d 8589934592)) (find_type umasks "u33") = Some ("u64"%string, Some 8589934591, None).
Proof. split; [split; [lia|cbn; lia]|reflexivity]. Qed.
(** [iN] is stored in the smallest integer with N bits, [MIN] is right, and what is accepted fits and is given back. *)
Theorem numtable_signed_partial : forall n, missing n -> exists d w, find_type imasks (int_name "i" n) = Some d /\
  nbase d = int_name "i" w /\ smallest n w /\ i_get d (i_min d) = (- 2 ^ (Z.of_N n - 1))%Z /\
  (forall v x, i_new d v = Some x -> fits_i (Z.of_N n) v /\ i_get d x = v).
Proof.
  intros n M. destruct (table_entry "i" imasks i_tab n M) as (d & w & F & T & B & W & L & S). exists d, w. do 3 (split; [assumption|]).
  destruct M as [R _]. unfold i_get, i_min, i_new. rewrite T, W. split; [apply im_get_min; lia|]. intros v x. apply im_new_sound. lia.
Qed.
Print Assumptions numtable_signed_partial.
Example numtable_signed_ex : missing 26 /\ option_map (fun d => (nbase d, i_get d (i_min d), i_new d (-33554432)%Z)) (find_type imasks "i26") = Some ("i32"%string, (-33554432)%Z, Some (-33554432)%Z).
Proof. split; [split; [lia|cbn; lia]|reflexivity]. Qed.
(** Of the 123 [iN], [i4] is the only one with the right [MAX], and the only one that holds all integers of N bits. *)
Theorem numtable_signed_i4 : forall n d, missing n -> find_type imasks (int_name "i" n) = Some d ->
  (i_get d (i_max d) = (2 ^ (Z.of_N n - 1) - 1)%Z <-> n = 4) /\
  ((forall v, fits_i (Z.of_N n) v -> i_new d v <> None) <-> n = 4).
Proof.
  intros n d M F. destruct (table_entry "i" imasks i_tab n M) as (d' & w & F' & T & B & W & L & S). rewrite F in F'. injection F' as <-.
  assert (P : (0 < Z.of_N n < Z.of_N w)%Z) by (destruct M as [R _]; lia).
  assert (Q : i_get d (i_max d) = (2 ^ (Z.of_N n - 1) - 1)%Z <-> n = 4).
  { unfold i_get, i_max. rewrite T, W, im_max_iff by exact P. rewrite <- (missing_double n w M S). lia. }
  split; [exact Q|]. rewrite <- Q. unfold i_get, i_max, i_new, fits_i. rewrite T, W.
  assert (A : forall k, (0 < k)%Z -> (0 < 2 ^ (k - 1))%Z) by (intros k K; apply Z.pow_pos_nonneg; lia). pose proof (A (Z.of_N n) ltac:(lia)).
  split.
  - intros V. specialize (V (2 ^ (Z.of_N n - 1) - 1)%Z ltac:(lia)). apply im_new_iff in V; [|exact P].
    apply Z.le_antisymm; [|apply V]. assert (J : im_new (Z.of_N w) (Z.of_N n) (im_get (Z.of_N w) (Z.of_N n) (im_max (Z.of_N w) (Z.of_N n))) <> None) by (apply im_new_iff; [exact P|lia]).
    destruct (im_new _ _ _) as [x|] eqn:E in J; [|congruence]. apply im_new_sound in E as [[_ E] _]; [lia|exact P].
  - intros E v V. apply im_new_iff; [exact P|]. rewrite E. lia.
Qed.
Print Assumptions numtable_signed_i4.
Example numtable_signed_i4_ex : missing 4 /\ option_map (fun d => i_get d (i_max d)) (find_type imasks "i4") = Some 7%Z /\
  option_map (fun d => i_get d (i_max d)) (find_type imasks "i5") = Some 3%Z.
Proof. split; [split; [lia|cbn; lia]|split; reflexivity]. Qed.
(** [i1] does not even hold 0. *)
Theorem numtable_signed_refuted : exists n d, missing n /\ find_type imasks (int_name "i" n) = Some d /\ fits_i (Z.of_N n) 0 /\ i_new d 0 = None.
Proof. exists 1, (Narrow "i1" "i8" 1). split; [split; [lia|cbn; lia]|]. split; [reflexivity|]. split; [unfold fits_i; cbn; lia|reflexivity]. Qed.
Print Assumptions numtable_signed_refuted.
