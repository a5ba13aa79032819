(** C99: the constructors and match functions of [#[repr(stabby)]] enums, whatever the names (stabby-macros/src/enums.rs:433-531, 611-649). *)
From Coq Require Import String.
From Coq Require Import List Arith NArith Bool.
From Verif Require Import M_Enum M_EnumNames S_EnumNames L_EnumNames.
Import ListNotations.
Local Open Scope string_scope.
Local Open Scope list_scope.

Definition prelude : list string := ["Some"; "None"; "Ok"; "Err"].
(** Rust accepts the declaration, and the macro is documented to take it: two variants or more, one of them with a payload, one field at most each, no discriminants. *)
Definition offered (e : enum) : Prop :=
  legal e /\ (2 <= length (e_variants e))%nat /\ existsb carries (e_variants e) = true /\ forallb simple (e_variants e) = true.

(** The macro gives working code for exactly these enums: variants with one unnamed field or none, at least two and one with a field, no discriminants, and names that meet
    neither a constant, static, unit or tuple struct or variant in scope, nor the names that the generated code uses. *)
Theorem enum_names_exact_partial sc e : legal e -> (works sc e <-> supported sc e).
Proof. exact (names_exact sc e). Qed.
Print Assumptions enum_names_exact_partial.

Definition shapes : enum :=
  Enum ["T"] [Variant "Empty" Unit false; Variant "One" (Tuple [["T"]]) false; Variant "Many" (Tuple [["Vec"; "T"]]) false; Variant "a" Unit false; Variant "Pair" (Tuple [["u8"]]) false].
Example shapes_legal : legal shapes.
Proof. split; apply nodup_NoDup; reflexivity. Qed.
Example shapes_supported : supported prelude shapes.
Proof.
  constructor.
  - reflexivity.
  - vm_compute. auto 10.
  - reflexivity.
  - intros v H X. apply (in_map v_name) in H. cbn in H, X. intuition congruence.
  - cbn. intuition congruence.
  - intros v H X. apply (in_map v_name) in H. cbn in H, X. intuition congruence.
  - intros i v H E. apply nth_error_In, (in_map v_name) in H. rewrite E in H. cbn in H. intuition congruence.
  - intros v H E. cbn in H. repeat (destruct H as [<-|H]; [reflexivity || discriminate E|]). destruct H.
  - intros x H. split; intros X; cbn in H, X; intuition congruence.
Qed.
(** Hence it works; here is what the third variant does. *)
Example shapes_works : works prelude shapes.
Proof. apply enum_names_exact_partial; [exact shapes_legal|exact shapes_supported]. Qed.
Example shapes_run : exists g d, expand shapes = Some g /\ construct g "Many" 7 = Some d /\ d = DErr (DOk (DPay 7)) /\
  call_match g "match_owned_ctx" [3%N] 5 d = Some (2, [BCtx 3; BData (DPay 7)]) /\ call_match g "match_mut" [] 5 d = Some (2, [BData (DPay 7)]).
Proof. eexists. eexists. split; [vm_compute; reflexivity|]. split; [vm_compute; reflexivity|]. vm_compute. auto. Qed.

(** ** Outside it *)
Ltac is_offered := split; [split; apply nodup_NoDup; reflexivity|]; split; [vm_compute; auto 10|]; split; reflexivity.

(** A variant with the name of one of the prelude's: [enum Lookup { None, Found(u32) }] does not compile. *)
Theorem enum_names_prelude_refuted : exists e,
  e = Enum [] [Variant "None" Unit false; Variant "Found" (Tuple [["u32"]]) false] /\ offered e /\ works [] e /\ ~ works prelude e.
Proof.
  eexists. split; [reflexivity|]. split; [|split].
  - is_offered.
  - apply names_exact; [split; apply nodup_NoDup; reflexivity|]. constructor; try reflexivity.
    + intros v _ [].
    + cbn. tauto.
    + intros v H X. apply (in_map v_name) in H. cbn in H, X. intuition congruence.
    + intros i v H E. apply nth_error_In, (in_map v_name) in H. rewrite E in H. cbn in H. intuition congruence.
    + intros v H E. cbn in H. repeat (destruct H as [<-|H]; [reflexivity || discriminate E|]). destruct H.
    + intros x H. split; intros X; cbn in H, X; intuition congruence.
  - apply not_supported; [split; apply nodup_NoDup; reflexivity|]. intros S. apply (s_scope _ _ S (Variant "None" Unit false)); cbn; auto.
Qed.
Print Assumptions enum_names_prelude_refuted.

(** A variant with the name of the tuple struct it holds: [struct Circle(f32); enum Shape { Circle(Circle), Square(Square) }]. *)
Theorem enum_names_struct_refuted : exists sc e,
  sc = "Circle" :: prelude /\ e = Enum [] [Variant "Circle" (Tuple [["Circle"]]) false; Variant "Square" (Tuple [["Square"]]) false] /\ offered e /\ ~ works sc e.
Proof.
  eexists. eexists. split; [reflexivity|]. split; [reflexivity|]. split; [is_offered|].
  apply not_supported; [split; apply nodup_NoDup; reflexivity|]. intros S.
  apply (s_scope _ _ S (Variant "Circle" (Tuple [["Circle"]]) false)); cbn; auto.
Qed.
Print Assumptions enum_names_struct_refuted.

(** A variant called as a variable of the generated code, [this] or [a], or as a function or parameter, does not work. *)
Theorem enum_names_own_refuted : exists e1 e2 e3 e4,
  (e1 = Enum [] [Variant "U" Unit false; Variant "this" (Tuple [["u8"]]) false; Variant "V" Unit false] /\ offered e1 /\ ~ works prelude e1) /\
  (e2 = Enum [] [Variant "a" (Tuple [["u8"]]) false; Variant "b" Unit false] /\ offered e2 /\ ~ works prelude e2) /\
  (e3 = Enum [] [Variant "stabby_ctx" (Tuple [["u8"]]) false; Variant "b" Unit false] /\ offered e3 /\ ~ works prelude e3) /\
  (e4 = Enum [] [Variant "match_ref" (Tuple [["u8"]]) false; Variant "b" Unit false] /\ offered e4 /\ ~ works prelude e4).
Proof.
  do 4 eexists. split; [|split; [|split]]; (split; [reflexivity|split; [is_offered|]]);
    (apply not_supported; [split; apply nodup_NoDup; reflexivity|]); intros S.
  - apply (s_this _ _ S 1 _ eq_refl eq_refl). vm_compute. auto.
  - pose proof (s_a _ _ S _ (or_introl eq_refl) eq_refl) as H. discriminate H.
  - apply (s_fns _ _ S _ (or_introl eq_refl)). cbn. tauto.
  - apply (s_fns _ _ S _ (or_introl eq_refl)). cbn. tauto.
Qed.
Print Assumptions enum_names_own_refuted.
(** [this] is fine where its half holds nothing else, and [a] without payload. *)
Example enum_names_this_ex : exists g d,
  expand (Enum [] [Variant "this" (Tuple [["u8"]]) false; Variant "a" Unit false; Variant "V" Unit false]) = Some g /\
  construct g "this" 7 = Some d /\ call_match g "match_mut" [] 3 d = Some (0, [BData (DPay 7)]).
Proof. eexists. eexists. split; [vm_compute; reflexivity|]. split; [vm_compute; reflexivity|]. vm_compute. reflexivity. Qed.

(** Parameters or types called as those of the generated code: [enum E<StabbyOut>], or a payload of a type [LeftFn] next to a variant [Left]. *)
Theorem enum_names_types_refuted : exists e1 e2,
  (e1 = Enum ["StabbyOut"] [Variant "A" (Tuple [["StabbyOut"]]) false; Variant "B" Unit false] /\ offered e1 /\ ~ works prelude e1) /\
  (e2 = Enum [] [Variant "Left" (Tuple [["LeftFn"]]) false; Variant "Right" (Tuple [["u8"]]) false] /\ offered e2 /\ ~ works prelude e2).
Proof.
  do 2 eexists. split; (split; [reflexivity|split; [is_offered|]]);
    (apply not_supported; [split; apply nodup_NoDup; reflexivity|]); intros S.
  - apply (proj1 (s_types _ _ S "StabbyOut" ltac:(cbn; tauto))). cbn. tauto.
  - apply (proj2 (s_types _ _ S "LeftFn" ltac:(cbn; tauto))). cbn. tauto.
Qed.
Print Assumptions enum_names_types_refuted.

(** Enums of Rust that the macro panics on: variants of two fields or of named ones, discriminants, one variant, none with a field. *)
Theorem enum_names_shapes_refuted : exists es,
  es = [Enum [] [Variant "A" (Tuple [["u8"]; ["u8"]]) false; Variant "B" Unit false];
        Enum [] [Variant "A" Named false; Variant "B" Unit false];
        Enum [] [Variant "A" (Tuple [["u8"]]) true; Variant "B" Unit false];
        Enum [] [Variant "A" (Tuple [["u8"]]) false];
        Enum [] [Variant "A" Unit false; Variant "B" Unit false]] /\
  Forall legal es /\ Forall (fun e => expand e = None) es.
Proof.
  eexists. split; [reflexivity|]. split; repeat (apply Forall_cons; [|]); try apply Forall_nil; try reflexivity; (split; apply nodup_NoDup; reflexivity).
Qed.
Print Assumptions enum_names_shapes_refuted.
