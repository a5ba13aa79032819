(** C106: restricted integers given to another library. *)
From Coq Require Import List NArith ZArith Bool String.
From Verif Require Import M_Report M_Decl M_NumRep S_NumRep L_NumRep.
Import ListNotations.

(** Reports tell all integer types and structs of them apart, but not what is forbidden. *)
Theorem int_reports_exact : forall a t t', honest t -> honest t' -> (rty_report a t = rty_report a t' <-> alike t t').
Proof. intros a t t' H H'. split; [apply reports_alike; auto | apply alike_reports]. Qed.
Print Assumptions int_reports_exact.
Example int_reports_ex : let t := RS (lit "P") (lit "m") 0 [(lit "x", RI (RNonMax W8)); (lit "y", RI (RNonX true W16 (-1)))] in
  honest t /\ rty_report 16 t <> rty_report 16 (RS (lit "P") (lit "m") 0 [(lit "x", RI (RNonMax W8)); (lit "y", RI (RNonX false W16 1))]).
Proof.
  cbv zeta. split; [|vm_compute; discriminate]. constructor; [vm_compute; discriminate | vm_compute; discriminate|].
  apply Forall_cons; [constructor|]. apply Forall_cons; [constructor | apply Forall_nil].
Qed.

(** [NonMax] and [NonX] are reported under the names they have in [stabby_abi::num]; the number in the name is the number of bits, which values take up. *)
Theorem int_names : forall pw a w s f, w <> WSize ->
  rint_report a (RNonMax w) = Rep (sized_name "NonMax" false (bits pw w)) (lit "stabby_abi::num") 0 KStruct [] /\
  rint_report a (RNonX s w f) = Rep (sized_name "NonX" s (bits pw w)) (lit "stabby_abi::num") 0 KStruct [].
Proof. intros pw a w s f W. destruct w; [..|congruence]; destruct s; split; reflexivity. Qed.
Print Assumptions int_names.
Example int_names_ex : sized_name "NonX" true 16 = lit "NonXI16" /\ rint_report 16 (RNonX true W16 3) = Rep (lit "NonXI16") (lit "stabby_abi::num") 0 KStruct [].
Proof. split; reflexivity. Qed.

(** A value handed to a library that knows a type of the same report (perhaps by another compiler) is read there, and is the same exactly if the same is forbidden. *)
Theorem int_cross_exact : forall pw a a' t t' v m, (0 < pw)%N -> honest t -> honest t' -> typed pw t -> typed pw t' ->
  rty_report a t = rty_report a' t' -> rty_store pw t v = Some m ->
  exists v', rty_load pw t' m = Some v' /\ (v' = v <-> forbidden t = forbidden t').
Proof. intros pw a a' t t' v m PW H H' T T' R E. eapply cross; eauto. eapply reports_alike; eauto. Qed.
Print Assumptions int_cross_exact.
(** In particular [NonZero], [NonMax] and primitive integers are. Missing: [NonX] where the libraries forbid different values. *)
Theorem int_cross_partial : forall pw a a' t t' v m, (0 < pw)%N -> honest t -> honest t' -> typed pw t -> typed pw t' ->
  rty_report a t = rty_report a' t' -> forbidden t = forbidden t' -> rty_store pw t v = Some m -> rty_load pw t' m = Some v.
Proof.
  intros pw a a' t t' v m PW H H' T T' R F E. destruct (int_cross_exact pw a a' t t' v m PW H H' T T' R E) as (v' & L & Q).
  rewrite L. f_equal. apply Q. auto.
Qed.
Print Assumptions int_cross_partial.
Example int_cross_ex : let t := RS (lit "P") (lit "m") 0 [(lit "x", RI (RNonMax W8)); (lit "y", RI (RNonX true W16 (-1))); (lit "z", RI (RNonZero true WSize))] in
  typed 64 t /\ rty_store 64 t (VS [VI 254; VI (-32768); VI (-1)]) = Some (MS [MI 1; MI 32769; MI (2 ^ 64 - 1)]) /\
  rty_load 64 t (MS [MI 1; MI 32769; MI (2 ^ 64 - 1)]) = Some (VS [VI 254; VI (-32768); VI (-1)]).
Proof.
  cbv zeta. split; [|split; vm_compute; reflexivity]. constructor. apply Forall_cons; [constructor; exact I|]. apply Forall_cons; [constructor; reflexivity|].
  apply Forall_cons; [constructor; exact I | apply Forall_nil].
Qed.
(** [NonXU8<5>] and [NonXU8<3>] pass for each other; 3, which the second forbids, becomes 1. *)
Theorem int_cross_refuted : exists t t' v m v', honest t /\ honest t' /\ typed 64 t /\ typed 64 t' /\
  is_compatible (rty_report 16 t) (rty_report 16 t') = true /\ rty_report 16 t = rty_report 16 t' /\
  rty_store 64 t v = Some m /\ rty_load 64 t' m = Some v' /\ v' <> v /\ rty_store 64 t' v = None.
Proof.
  exists (RI (RNonX false W8 5)), (RI (RNonX false W8 3)), (VI 3). do 2 eexists.
  split; [constructor|]. split; [constructor|]. split; [constructor; reflexivity|]. split; [constructor; reflexivity|].
  split; [vm_compute; reflexivity|]. split; [reflexivity|]. split; [vm_compute; reflexivity|]. split; [vm_compute; reflexivity|]. split; [discriminate | vm_compute; reflexivity].
Qed.
Print Assumptions int_cross_refuted.
