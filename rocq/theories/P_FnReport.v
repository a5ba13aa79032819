(** C73: loading functions with reports. *)
From Coq Require Import String.
From Coq Require Import List Arith NArith Bool Lia.
From Verif Require Import M_Report S_Report L_Report M_Trait M_FnReport S_FnReport L_FnReport.
Import ListNotations.

(** The report of a primitive type. *)
Definition prim (s : string) : report := Rep (bytes_of s) (bytes_of "stabby_abi::stable_impls") 0 KStruct [].

(** C73, if no type is called [stabby::signature]: a function is handed over exactly if it has the
    calling convention, the safety, the number of inputs asked for, and inputs and an output whose
    reports agree with those asked for; otherwise the loader gets an error. *)
Theorem get_stabbied_partial : forall F a b (f : F),
  (forall r, In r (fn_output a :: fn_output b :: fn_inputs a ++ fn_inputs b) ->
     path r <> (bytes_of "signature", bytes_of "stabby")) ->
  length (fn_inputs a) <= 15 -> length (fn_inputs b) <= 15 ->
  (get_stabbied a f b = Some (Some f) /\ same_fn a b) \/ (get_stabbied a f b = Some None /\ ~ same_fn a b).
Proof. intros F a b f. exact (get_stabbied_iff a b f). Qed.
Print Assumptions get_stabbied_partial.
Example get_stabbied_ex :
  let f := Fn false false [prim "u8"; prim "u16"] (prim "u32") in
  let g := Fn false false [prim "u8"; prim "u16"; prim "u64"] (prim "u32") in
  (forall r, In r (fn_output f :: fn_output g :: fn_inputs f ++ fn_inputs g) ->
     path r <> (bytes_of "signature", bytes_of "stabby")) /\
  get_stabbied f 7 f = Some (Some 7) /\ get_stabbied f 7 g = Some None /\ get_stabbied g 7 f = Some None /\
  get_stabbied f 7 (Fn true false [prim "u8"; prim "u16"] (prim "u32")) = Some None.
Proof.
  cbn zeta. split; [|repeat split; vm_compute; reflexivity].
  intros r Hr. cbn in Hr. repeat (destruct Hr as [<-|Hr]; [vm_compute; discriminate|]). destruct Hr.
Qed.
(** C73, refuted: with [#[stabby(module = "stabby")] struct signature;] a function of one input is
    handed over to a loader that calls it with two. *)
Theorem get_stabbied_refuted : exists a b (f : nat),
  fn_inputs a = [macro_report (bytes_of "signature") (bytes_of "stabby") 0 KStruct []] /\
  length (fn_inputs b) = 2 /\ get_stabbied a f b = Some (Some f).
Proof.
  exists (Fn false false [macro_report (bytes_of "signature") (bytes_of "stabby") 0 KStruct []] (prim "u32")),
         (Fn false false [prim "u8"; prim "u16"] (prim "u32")), 0.
  repeat split; vm_compute; reflexivity.
Qed.
Print Assumptions get_stabbied_refuted.
(** C73: equal types have equal reports: a function is handed over to loaders that ask for its
    type. *)
Theorem get_stabbied_itself : forall F a (f : F), length (fn_inputs a) <= 15 -> get_stabbied a f a = Some (Some f).
Proof.
  intros F a f H. apply fn_report_some in H. unfold get_stabbied, stabbied.
  destruct (fn_report a) as [r|]; [|congruence]. rewrite compat_refl. reflexivity.
Qed.
Print Assumptions get_stabbied_itself.
Example get_stabbied_itself_ex : let f := Fn true false [prim "u8"; prim "u16"; prim "bool"] (prim "u32") in
  length (fn_inputs f) <= 15 /\ get_stabbied f 7 f = Some (Some 7).
Proof. split; [cbn; repeat constructor|vm_compute; reflexivity]. Qed.
