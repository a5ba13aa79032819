(** C100: closures as trait objects (stabby-macros/src/gen_closures.rs:16-141). *)
From Coq Require Import String.
From Coq Require Import List Arith NArith Bool Lia.
From Verif Require Import M_Report M_Trait M_Closure S_Closure L_Closure.
Import ListNotations.
Local Open Scope list_scope.

(** Calls through a trait object, of any of the three kinds, of a closure of up to nine inputs, do to what the closure has captured and return what calls of the closure itself
    would on the same arguments in the same order; nothing else can be called: other types, other numbers of arguments, or a second time for [FnOnce]. *)
Theorem closure_calls : forall (S V : Type) k ts (f : closure S V) vss s r, vss <> [] ->
  (calls k ts f vss s = Some r <->
   length ts < 10 /\ cl_types f = ts /\ Forall (fun vs => map fst vs = ts) vss /\ (k = Once -> length vss = 1) /\ r = direct (cl_run f) vss s).
Proof. intros. apply calls_iff. assumption. Qed.
Print Assumptions closure_calls.
(** [move |a, b| { sum += a; sum - b }], called twice. *)
Definition counter : closure nat nat := Cl [4; 5]%N (fun s l => match l with [a; b] => (s + a, s + a - b) | _ => (0, 0) end).
Example closure_calls_ex :
  calls Mut [4; 5]%N counter [[(4%N, 10); (5%N, 1)]; [(4%N, 5); (5%N, 2)]] 0 = Some (15, [9; 13]) /\
  calls Once [4; 5]%N counter [[(4%N, 10); (5%N, 1)]] 0 = Some (10, [9]) /\
  calls Once [4; 5]%N counter [[(4%N, 10); (5%N, 1)]; [(4%N, 5); (5%N, 2)]] 0 = None /\
  calls Mut [4; 5]%N counter [[(5%N, 1); (4%N, 10)]] 0 = None /\ calls Mut [4; 5]%N counter [[(4%N, 1)]] 0 = None.
Proof. vm_compute. auto. Qed.

(** A function with ten inputs is a closure of Rust, but there is no trait for it. *)
Theorem closure_arity_refuted : exists (f : closure nat nat), length (cl_types f) = 10 /\
  forall k vs s, call k (cl_types f) f vs s = None.
Proof.
  exists (Cl (repeat 4%N 10) (fun s _ => (s, 0))). split; [reflexivity|]. intros k vs s. destruct (call _ _ _ _ _) as [r|] eqn:C; [|reflexivity].
  apply call_iff in C. destruct C as (H & _). cbn in H. lia.
Qed.
Print Assumptions closure_arity_refuted.

(** The names of what is generated differ, and each [dyn Fn..] has the vtable that is generated for it. *)
Definition all_generated : list gen := flat_map (fun i => [generate Once i; generate Mut i; generate Shared i]) (seq 0 10).
Theorem closure_names : NoDup (map g_trait all_generated) /\ NoDup (map g_vtable all_generated) /\
  forall k i g, generated k i = Some g -> In g all_generated /\ g_dyn g = g_vtable g.
Proof.
  split; [|split].
  - apply nodup_dec. vm_compute. reflexivity.
  - apply nodup_dec. vm_compute. reflexivity.
  - intros k i g H. unfold generated in H. destruct (Nat.ltb_spec i 10) as [L|L]; [|discriminate H]. injection H as <-. split.
    + unfold all_generated. apply in_flat_map. exists i. split; [apply in_seq; lia|]. destruct k; cbn [In]; auto.
    + destruct k; reflexivity.
Qed.
Print Assumptions closure_names.
Example closure_names_ex : exists g, generated Mut 3 = Some g /\ g_trait g = "CallMut3"%string /\ g_dyn g = "StabbyVtableCallMut3"%string /\ g_params g = ["_0"; "_1"; "_2"]%string.
Proof. eexists. split; [reflexivity|]. vm_compute. auto. Qed.

(** The trait object is [IStable] exactly if it is no [FnOnce] or its output is stable: inputs are not looked at, nor the output of the others. *)
Theorem closure_stable_partial : forall st t, object_stable st t <-> length (f_in t) < 10 /\ (f_kind t = Once -> st (f_out t)).
Proof. exact stable_iff. Qed.
Print Assumptions closure_stable_partial.
(** In particular closures that exchange stable types only are stable. *)
Example closure_stable_ex : object_stable (fun n => n = 4%N) (Fn Once [4; 4]%N 4%N) /\ ~ object_stable (fun n => n = 4%N) (Fn Once [4; 4]%N 5%N) /\
  all_stable (fun n => n = 4%N) (Fn Once [4; 4]%N 4%N).
Proof.
  split; [apply stable_iff; split; [cbn; lia|reflexivity]|]. split.
  - intros H. apply stable_iff in H. destruct H as [_ H]. specialize (H eq_refl). discriminate H.
  - split; [repeat constructor|reflexivity].
Qed.
(** Refuted: that a stable trait object exchanges stable types only, for each of the three. *)
Theorem closure_stable_refuted : exists st t1 t2 t3,
  f_kind t1 = Once /\ f_kind t2 = Mut /\ f_kind t3 = Shared /\
  Forall (fun t => object_stable st t /\ ~ Forall st (f_in t)) [t1; t2; t3] /\ st (f_out t1) /\ ~ st (f_out t2) /\ ~ st (f_out t3).
Proof.
  exists (fun n => n = 4%N), (Fn Once [5]%N 4%N), (Fn Mut [5]%N 5%N), (Fn Shared [5]%N 5%N).
  split; [reflexivity|]. split; [reflexivity|]. split; [reflexivity|]. split; [|repeat split; discriminate].
  assert (X : forall k o, (k = Once -> o = 4%N) -> object_stable (fun n => n = 4%N) (Fn k [5%N] o) /\ ~ Forall (fun n => n = 4%N) [5%N]).
  { intros k o Ho. split; [apply stable_iff; split; [cbn; lia|exact Ho]|]. intros F. inversion F as [|? ? A _]. discriminate A. }
  repeat apply Forall_cons; try apply Forall_nil; apply X; intros H; congruence.
Qed.
Print Assumptions closure_stable_refuted.

(** Reports tell the kind and the number of inputs. *)
Theorem closure_report_partial : forall t t' r r', object_report t = Some r -> object_report t' = Some r' ->
  (r = r' <-> f_kind t = f_kind t' /\ length (f_in t) = length (f_in t')).
Proof.
  intros t t' r r' H H'. unfold object_report, generated in *.
  destruct (Nat.ltb_spec (length (f_in t)) 10) as [L|L]; [|discriminate H].
  destruct (Nat.ltb_spec (length (f_in t')) 10) as [L'|L']; [|discriminate H'].
  destruct (fields (f_kind t) (length (f_in t))) as [fs|] eqn:E; [|discriminate H].
  destruct (fields (f_kind t') (length (f_in t'))) as [fs'|] eqn:E'; [|discriminate H'].
  split.
  - intros ->. apply (report_kind _ _ _ _ fs fs' L L' E E'). congruence.
  - intros [K N]. rewrite K, N in *. congruence.
Qed.
Print Assumptions closure_report_partial.
Example closure_report_ex : exists r r', object_report (Fn Once [4]%N 4%N) = Some r /\ object_report (Fn Once [4; 4]%N 4%N) = Some r' /\ is_compatible r r' = false.
Proof. eexists. eexists. split; [reflexivity|]. split; [reflexivity|]. vm_compute. reflexivity. Qed.
(** Refuted: that they tell the types: [dyn FnOnce(u32)] and [dyn FnOnce(&String) -> u8] are the same to a loader. *)
Theorem closure_report_refuted : exists t t' r r', f_in t <> f_in t' /\ f_out t <> f_out t' /\
  object_report t = Some r /\ object_report t' = Some r' /\ is_compatible r r' = true.
Proof.
  exists (Fn Once [1]%N 2%N), (Fn Once [3]%N 4%N). eexists. eexists. split; [discriminate|]. split; [discriminate|].
  split; [reflexivity|]. split; [reflexivity|]. vm_compute. reflexivity.
Qed.
Print Assumptions closure_report_refuted.
