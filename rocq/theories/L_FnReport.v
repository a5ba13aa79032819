(** Lemmas for C73. *)
From Coq Require Import String.
From Coq Require Import List Arith NArith Bool Lia.
From Verif Require Import M_Report S_Report L_Report M_Trait S_Trait L_Trait M_FnReport S_FnReport.
Import ListNotations.

Lemma fn_name_inj u s u' s' : fn_name u s = fn_name u' s' -> u = u' /\ s = s'.
Proof. destruct u, s, u', s'; try (split; reflexivity); vm_compute; discriminate. Qed.

Lemma agree_fields n m v k fs n' m' v' k' fs' :
  agree (Rep n m v k fs) (Rep n' m' v' k' fs') <->
  n = n' /\ m = m' /\ v = v' /\ k = k' /\
  (forall i x y, nth_error fs i = Some x -> nth_error fs' i = Some y -> fst x = fst y /\ agree (snd x) (snd y)).
Proof. apply agree_inv. Qed.
Lemma agree_aggregate l r l' r' : agree (aggregate l r) (aggregate l' r') <-> agree l l' /\ agree r r'.
Proof.
  unfold aggregate. rewrite agree_fields. split.
  - intros (_ & _ & _ & _ & H). split.
    + apply (H 0 (bytes_of "_", l) (bytes_of "_", l')); reflexivity.
    + apply (H 1 (bytes_of "_", r) (bytes_of "_", r')); reflexivity.
  - intros [A B]. split; [reflexivity|]. split; [reflexivity|]. split; [reflexivity|]. split; [reflexivity|].
    intros i x y Hx Hy. destruct i as [|[|i]]; cbn [nth_error] in Hx, Hy.
    + injection Hx as <-. injection Hy as <-. split; [reflexivity|assumption].
    + injection Hx as <-. injection Hy as <-. split; [reflexivity|assumption].
    + destruct i; discriminate.
Qed.
Lemma agree_path a b : agree a b -> path a = path b.
Proof. destruct 1; reflexivity. Qed.

Lemma agree_union o ins o' ins' :
  (forall r, In r (ins ++ ins') -> path r <> (bytes_of "signature", bytes_of "stabby")) ->
  path o <> (bytes_of "signature", bytes_of "stabby") ->
  path o' <> (bytes_of "signature", bytes_of "stabby") ->
  agree (union o ins) (union o' ins') <-> agree o o' /\ Forall2 agree ins ins'.
Proof.
  revert o o' ins'; induction ins as [|a ins IH]; intros o o' ins' N No No'; destruct ins' as [|a' ins']; cbn [union].
  - split; [auto|tauto].
  - split; [intros H; apply agree_path in H; exfalso; apply No; exact H|intros [_ H]; inversion H].
  - split; [intros H; apply agree_path in H; exfalso; apply No'; symmetry; exact H|intros [_ H]; inversion H].
  - rewrite agree_aggregate, IH.
    + split; [intros (A & B & C); auto|intros [A B]; inversion B; auto].
    + intros r Hr. apply N. cbn. rewrite in_app_iff in *. cbn. tauto.
    + apply N. left; reflexivity.
    + apply N. apply in_app_iff. right; left; reflexivity.
Qed.

Lemma fn_reports a b ra rb :
  (forall r, In r (fn_output a :: fn_output b :: fn_inputs a ++ fn_inputs b) ->
     path r <> (bytes_of "signature", bytes_of "stabby")) ->
  fn_report a = Some ra -> fn_report b = Some rb ->
  is_compatible ra rb = true <-> same_fn a b.
Proof.
  unfold fn_report, same_fn. intros N Ha Hb.
  destruct (15 <? length (fn_inputs a)); [discriminate|]. destruct (15 <? length (fn_inputs b)); [discriminate|].
  injection Ha as <-. injection Hb as <-. rewrite compat_agree, agree_fields.
  assert (U : agree (union (fn_output a) (fn_inputs a)) (union (fn_output b) (fn_inputs b)) <->
    agree (fn_output a) (fn_output b) /\ Forall2 agree (fn_inputs a) (fn_inputs b)).
  { apply agree_union; [intros r Hr; apply N; right; right; assumption|apply N; left; reflexivity|
      apply N; right; left; reflexivity]. }
  split.
  - intros (A & _ & _ & _ & H). apply fn_name_inj in A. destruct A as [-> ->].
    destruct (H 0 (bytes_of "inner", union (fn_output a) (fn_inputs a))
      (bytes_of "inner", union (fn_output b) (fn_inputs b)) eq_refl eq_refl) as [_ K].
    cbn [snd] in K. apply U in K. tauto.
  - intros (-> & -> & A & B). split; [reflexivity|]. split; [reflexivity|]. split; [reflexivity|]. split; [reflexivity|].
    intros i x y Hx Hy. destruct i as [|i]; cbn [nth_error] in Hx, Hy; [|destruct i; discriminate].
    injection Hx as <-. injection Hy as <-. split; [reflexivity|]. cbn [snd]. apply U. auto.
Qed.
Lemma fn_report_some f : fn_report f <> None <-> length (fn_inputs f) <= 15.
Proof.
  unfold fn_report. destruct (15 <? length (fn_inputs f)) eqn:E.
  - apply Nat.ltb_lt in E. split; [congruence|lia].
  - apply Nat.ltb_ge in E. split; [auto|congruence].
Qed.
Lemma get_stabbied_iff {F} a b (f : F) :
  (forall r, In r (fn_output a :: fn_output b :: fn_inputs a ++ fn_inputs b) ->
     path r <> (bytes_of "signature", bytes_of "stabby")) ->
  length (fn_inputs a) <= 15 -> length (fn_inputs b) <= 15 ->
  (get_stabbied a f b = Some (Some f) /\ same_fn a b) \/ (get_stabbied a f b = Some None /\ ~ same_fn a b).
Proof.
  intros N La Lb. apply fn_report_some in La, Lb. unfold get_stabbied, stabbied.
  destruct (fn_report a) as [ra|] eqn:Ea; [|congruence]. destruct (fn_report b) as [rb|] eqn:Eb; [|congruence].
  pose proof (fn_reports a b ra rb N Ea Eb) as K.
  destruct (is_compatible ra rb); [left|right]; (split; [reflexivity|]); rewrite <- K; [reflexivity|discriminate].
Qed.
