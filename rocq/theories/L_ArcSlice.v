(** Lemmas on shared slices. *)
From Coq Require Import List NArith Bool Arith Lia ZifyBool ZifyN ZifyNat.
From Verif Require Import M_Alloc M_Vec S_Vec L_Vec M_Arc S_Arc L_Arc M_ArcSlice S_ArcSlice.
Import ListNotations.
Local Open Scope N_scope.

Section Slice.
Context {E : Type} (v : vec E) (l : list E).
Hypothesis Hl : get_slots 0 (vlen v) (slots v) = Some l.

Definition sembed (o : owners) (d : list E) (ans : list answer) : shared E :=
  Shared (slots v) (vlen v) (vcap v)
    (match value o with Given => 1 | _ => N.of_nat (n_arc o) end)
    (match value o with Given => 1 | _ => N.of_nat (n_weak o) + (if (n_arc o =? 0)%nat then 0 else 1) end)
    true (n_arc o) (n_weak o)
    (match value o with Held => true | _ => false end) d
    (match value o with Given => Some v | _ => None end)
    (match value o with Given => 0 | _ => if ((n_arc o =? 0) && (n_weak o =? 0))%nat%bool then 1 else 0 end)
    false ans.

Definition R (m : list (option E)) (n : nat) (c st we : N) (a w : nat) (t : bool) (d : list E) (f : nat) (g : list answer) : shared E :=
  Shared m n c st we true a w t d None f false g.
Lemma a_counts_R : forall st' we' m n c st we a w t d g,
  a_counts st' we' (R m n c st we a w t d 0 g) = R m n c st' we' a w t d 0 g.
Proof. reflexivity. Qed.
Lemma a_handles_R : forall a' w' g' m n c st we a w t d f g,
  a_handles a' w' g' (R m n c st we a w t d f g) = R m n c st we a' w' t d f (g ++ g').
Proof. reflexivity. Qed.
Lemma weak_release_R : forall m n c st we a w t d g,
  weak_release (R m n c st we a w t d 0 g) =
  if we =? 1 then R m n c st (dec we) a w t d 1 g else R m n c st (dec we) a w t d 0 g.
Proof. intros. unfold weak_release. cbn [a_weak R]. destruct (we =? 1); reflexivity. Qed.
Lemma strong_release_R : forall c st we a w d g,
  strong_release (R (slots v) (vlen v) c st we a w true d 0 g) =
  if st =? 1 then weak_release (R (slots v) (vlen v) c (dec st) we a w false (d ++ l) 0 g)
  else R (slots v) (vlen v) c (dec st) we a w true d 0 g.
Proof.
  intros. unfold strong_release. cbn [a_strong R]. destruct (st =? 1); [|reflexivity].
  rewrite !a_counts_R. unfold slice_read. cbn -[get_slots]. rewrite Hl. reflexivity.
Qed.
Lemma upgrade_R : forall m n c st we a w t d g,
  slice_upgrade (R m n c st we a w t d 0 g) =
  if (st =? 0) || (st =? top_bit) then R m n c 0 we a w t d 0 (g ++ [Upgraded false])
  else R m n c (clear_top (inc (set_top st))) we (S a) w t d 0 (g ++ [Upgraded true]).
Proof. intros. unfold slice_upgrade. cbn [a_strong R]. destruct (_ || _); reflexivity. Qed.
Lemma to_vec_R : forall c st we a w t d g,
  vec_of_slice (R (slots v) (vlen v) c st we a w t d 0 g) =
  if (st =? 1) && (we =? 1) then
    Shared (slots v) (vlen v) c st we true (pred a) w false d (Some (Vec (slots v) (vlen v) c)) 0 false (g ++ [Unique IntoInner true])
  else R (slots v) (vlen v) c st we a w t d 0 (g ++ [Unique IntoInner false]).
Proof. intros. unfold vec_of_slice, slice_unique. cbn [a_strong a_weak R]. destruct (_ && _); reflexivity. Qed.
Lemma force_R : forall m n c st we a w t d g,
  force_upgrade (R m n c st we a w t d 0 g) =
  if (st =? 0) || (st =? top_bit) then R m n c (inc st) (inc we) (S a) w true d 0 g
  else R m n c (inc st) we (S a) w true d 0 g.
Proof. intros. unfold force_upgrade. cbn [a_strong R]. destruct (_ || _); reflexivity. Qed.
Ltac sl_unfold := unfold slice_op.
Ltac norm :=
  repeat first [rewrite a_counts_R | rewrite weak_release_R | rewrite strong_release_R | rewrite upgrade_R
    | rewrite to_vec_R | rewrite force_R | rewrite a_handles_R].
Ltac sl_cbn :=
  cbn -[N.of_nat N.add N.sub N.eqb inc dec set_top clear_top N.pow get_slots].
Ltac sl_end :=
  rewrite ?app_nil_r;
  match goal with |- Shared _ _ _ ?a ?b _ _ _ _ _ _ _ _ _ = Shared _ _ _ ?a' ?b' _ _ _ _ _ _ _ _ _ =>
    replace a with a' by lia; replace b with b' by lia; try reflexivity end.

Definition newly (o o' : owners) : list E :=
  match value o, value o' with Held, Destroyed => l | _, _ => [] end.

Lemma slice_op_effect : forall op o d ans, op <> ODynWeakDrop -> op <> OUnique MakeMut -> sane o -> small o ->
  slice_op (sembed o d ans) op =
  sembed (fst (effect op o)) (d ++ newly o (fst (effect op o))) (ans ++ snd (effect op o)).
Proof.
  intros op [a w f] d ans Hop Hop2 [Hh Hg] [Ha Hw]. cbn [n_arc n_weak value] in *.
  assert (Hf : a <> 0%nat -> f = Held) by (intros; apply Hh; lia).
  assert (Hf0 : a = 0%nat -> f <> Held) by (intros -> X; apply Hh in X; lia).
  clear Hh.
  destruct a as [|[|a]]; [clear Hf; specialize (Hf0 eq_refl)|specialize (Hf ltac:(lia)); clear Hf0; subst f..].
  all: destruct w as [|[|w]].
  all: try (destruct f; [congruence| |]); try (specialize (Hg eq_refl); discriminate Hg).
  all: destruct op; try destruct k; try congruence.
  all: unfold newly, effect, sole, lose_arc, sembed; cbn [n_arc n_weak value].
  all: try match goal with |- context [Shared ?m ?n ?c ?st ?we true ?a ?w ?t ?d None ?f false ?g] =>
    change (Shared m n c st we true a w t d None f false g) with (R m n c st we a w t d f g) end.
  all: unfold slice_op; cbn [a_arcs a_weaks a_strong a_weak R Nat.eqb andb].
  all: norm.
  all: eqb_facts; cbn [andb orb negb]; norm; eqb_facts; norm; eqb_facts.
  all: cbn [fst snd n_arc n_weak value Nat.eqb andb pred negb].
  all: rewrite ?app_nil_r; unfold R.
  all: try reflexivity.
  all: try (sl_end; fail).
  all: try match goal with |- context [slice_read] => unfold slice_read; cbn -[get_slots N.of_nat N.add]; rewrite Hl; sl_end end.
  all: try match goal with |- context [slice_unique] =>
    unfold slice_unique; cbn [a_strong a_weak]; eqb_facts; cbn [andb]; sl_end end.
  all: try (replace (Vec (slots v) (vlen v) (vcap v)) with v by (now destruct v); sl_end; fail).
  all: try (replace (N.of_nat (S (S w)) + 1) with (N.of_nat (S (S (S w)))) by lia; reflexivity).
Qed.

Lemma force_effect : forall o d ans, sane o -> small o ->
  copy_slice_op (sembed o d ans) None = sembed (copy_effect None o) d ans.
Proof.
  intros [a w f] d ans [Hh Hg] [Ha Hw]. cbn [n_arc n_weak value] in *.
  assert (Hf : a <> 0%nat -> f = Held) by (intros; apply Hh; lia).
  assert (Hf0 : a = 0%nat -> f <> Held) by (intros -> X; apply Hh in X; lia).
  clear Hh. unfold copy_slice_op, copy_effect, sembed. cbn [a_weaks n_weak n_arc value].
  destruct w as [|w]; [reflexivity|].
  destruct f; [| |specialize (Hg eq_refl); discriminate].
  - destruct a as [|a]; [destruct (Hf0 eq_refl eq_refl)|]. cbn [Nat.eqb andb].
    change (force_upgrade _) with (force_upgrade (R (slots v) (vlen v) (vcap v) (N.of_nat (S a)) (N.of_nat (S w) + 1) (S a) (S w) true d 0 ans)).
    rewrite force_R. eqb_facts. cbn [orb Nat.eqb andb value n_arc n_weak]. unfold R. sl_end.
  - destruct a as [|a]; [|specialize (Hf ltac:(lia)); discriminate]. cbn [Nat.eqb andb].
    change (force_upgrade _) with (force_upgrade (R (slots v) (vlen v) (vcap v) (N.of_nat 0) (N.of_nat (S w) + 0) 0 (S w) false d 0 ans)).
    rewrite force_R. eqb_facts. cbn [orb Nat.eqb andb value n_arc n_weak]. unfold R. sl_end.
Qed.

Lemma copy_effect_sane : forall f o, sane o -> sane (copy_effect f o).
Proof.
  intros [p|] o Ho; [now apply effect_sane|]. cbn. destruct (Nat.eqb_spec (n_weak o) 0); [exact Ho|].
  constructor; cbn; [split; [lia|reflexivity]|discriminate].
Qed.
Lemma copy_effect_small : forall f o, (n_arc (copy_effect f o) <= S (n_arc o))%nat /\
  (n_weak (copy_effect f o) <= S (n_weak o))%nat.
Proof.
  intros [p|] o; [apply effect_small|]. cbn. destruct (n_weak o =? 0)%nat; cbn; lia.
Qed.
Lemma copy_after_sane : forall ops, sane (copy_owners_after ops) /\
  (n_arc (copy_owners_after ops) <= S (length ops))%nat /\ (n_weak (copy_owners_after ops) <= length ops)%nat.
Proof.
  intros ops. induction ops as [|o ops IH] using rev_ind.
  - cbn. split; [constructor; cbn; intuition (try lia; try discriminate)|lia].
  - unfold copy_owners_after in *. rewrite fold_left_app. cbn [fold_left]. rewrite app_length. cbn [length].
    set (x := fold_left _ ops _) in *. destruct IH as (I1 & I2 & I3).
    destruct (copy_effect_small o x). split; [now apply copy_effect_sane|lia].
Qed.

Variable zst : bool.
Hypothesis Hcap : vcap v <> 0 \/ (zst = true /\ slots v = [] /\ vcap v = 0).

Lemma slice_of_vec_embed : slice_of_vec zst v = sembed (Owners 1 0 Held) [] [].
Proof.
  unfold slice_of_vec, sembed. cbn [value n_arc n_weak Nat.eqb andb].
  destruct Hcap as [H|(-> & -> & ->)]; [|reflexivity].
  destruct (N.eqb_spec (vcap v) 0); [contradiction|reflexivity].
Qed.

Lemma owners_given_app : forall ops o, value (fst (owners_after ops)) = Given ->
  value (fst (owners_after (ops ++ [o]))) = Given.
Proof.
  intros ops o H. rewrite owners_after_app. cbn [fst].
  destruct (owners_after_sane ops) as ([S1 S2] & _). specialize (S2 H).
  destruct (fst (owners_after ops)) as [a w f]. cbn in *. subst.
  destruct a; [|destruct S1 as [_ S1]; specialize (S1 ltac:(lia)); discriminate].
  destruct o; reflexivity.
Qed.

Lemma slice_history_embed : forall ops, slice_ops ops -> N.of_nat (length ops) < 2 ^ 61 ->
  slice_history zst v ops =
  sembed (fst (owners_after ops)) (match value (fst (owners_after ops)) with Destroyed => l | _ => [] end)
    (snd (owners_after ops)).
Proof.
  intros ops. induction ops as [|o ops IH] using rev_ind; intros [Hd Hm] Hlen.
  - apply slice_of_vec_embed.
  - unfold slice_history in *. rewrite fold_left_app. cbn [fold_left]. rewrite IH.
    2: { split; intros Hin; [apply Hd|apply Hm]; apply in_or_app; now left. }
    2: { rewrite app_length in Hlen; lia. }
    rewrite app_length in Hlen. cbn [length] in Hlen.
    destruct (owners_after_sane ops) as (I1 & I2 & I3).
    rewrite slice_op_effect; [|intros ->; apply Hd; apply in_or_app; right; now left
      |intros ->; apply Hm; apply in_or_app; right; now left|exact I1|split; lia].
    rewrite owners_after_app. cbn [fst snd]. f_equal.
    unfold newly. pose proof (effect_sane o _ I1) as I1'.
    destruct (fst (owners_after ops)) as [a w f]. cbn [value].
    destruct f; cbn [value] in *.
    + destruct (value (fst (effect o {| n_arc := a; n_weak := w; value := Held |}))); reflexivity.
    + assert (a = 0)%nat by (destruct I1 as [[_ X] _]; cbn in X; destruct a; [reflexivity|specialize (X ltac:(lia)); discriminate]).
      subst a. rewrite app_nil_r. destruct o; destruct w; reflexivity.
    + assert (a = 0 /\ w = 0)%nat as [-> ->].
      { destruct I1 as [[_ X] Y]; cbn in *. split; [destruct a; [reflexivity|specialize (X ltac:(lia)); discriminate]|now apply Y]. }
      destruct o; reflexivity.
Qed.

Lemma copy_history_embed : forall ops, copy_slice_ops ops -> N.of_nat (length ops) < 2 ^ 61 ->
  exists d ans, fold_left copy_slice_op ops (slice_of_vec zst v) = sembed (copy_owners_after ops) d ans.
Proof.
  intros ops. induction ops as [|o ops IH] using rev_ind; intros [Hd Hm] Hlen.
  - exists [], []. apply slice_of_vec_embed.
  - rewrite app_length in Hlen. cbn [length] in Hlen. destruct IH as (d & ans & IH).
    { split; intros Hin; [apply Hd|apply Hm]; apply in_or_app; now left. }
    { lia. }
    rewrite fold_left_app. cbn [fold_left]. rewrite IH.
    destruct (copy_after_sane ops) as (I1 & I2 & I3).
    unfold copy_owners_after in *. rewrite fold_left_app. cbn [fold_left].
    set (x := fold_left _ ops _) in *.
    destruct o as [o|].
    + cbn [copy_slice_op copy_effect]. rewrite slice_op_effect; [eauto|intros ->; apply Hd; apply in_or_app; right; now left
        |intros ->; apply Hm; apply in_or_app; right; now left|exact I1|split; lia].
    + rewrite force_effect; [eauto|exact I1|split; lia].
Qed.
End Slice.
