(** Lemmas on Arc and Weak. *)
From Coq Require Import List NArith Bool Arith Lia ZifyBool ZifyN ZifyNat.
From Verif Require Import M_Arc S_Arc.
Import ListNotations.
Local Open Scope N_scope.

(** * Counters *)
Lemma inc_small : forall x, x + 1 < 2 ^ 64 -> inc x = x + 1.
Proof. intros. unfold inc, usize_mod. now rewrite N.mod_small. Qed.
Lemma dec_pos : forall x, 0 < x < 2 ^ 64 -> dec x = x - 1.
Proof.
  intros. unfold dec, usize_mod. replace (x + (2 ^ 64 - 1)) with (x - 1 + 1 * 2 ^ 64) by lia.
  rewrite N.mod_add by lia. rewrite N.mod_small; lia.
Qed.
Lemma set_top_small : forall x, x < 2 ^ 63 -> set_top x = x + 2 ^ 63.
Proof.
  intros. unfold set_top, top_bit. symmetry. rewrite N.add_nocarry_lxor.
  - rewrite N.lxor_lor; [reflexivity|].
    apply N.bits_inj_0. intros n. rewrite N.land_spec, N.pow2_bits_eqb.
    destruct (N.eqb_spec 63 n) as [<-|]; [|now rewrite andb_false_r].
    rewrite andb_true_r. destruct (N.eq_dec x 0) as [->|]; [apply N.bits_0|].
    apply N.bits_above_log2. apply N.log2_lt_pow2; lia.
  - apply N.bits_inj_0. intros n. rewrite N.land_spec, N.pow2_bits_eqb.
    destruct (N.eqb_spec 63 n) as [<-|]; [|now rewrite andb_false_r].
    rewrite andb_true_r. destruct (N.eq_dec x 0) as [->|]; [apply N.bits_0|].
    apply N.bits_above_log2. apply N.log2_lt_pow2; lia.
Qed.
Lemma clear_top_eq : forall x, clear_top x = x mod 2 ^ 63.
Proof.
  intros. unfold clear_top, top_bit. replace (2 ^ 63 - 1) with (N.ones 63) by reflexivity.
  apply N.land_ones.
Qed.
Lemma clear_top_big : forall x, x < 2 ^ 63 -> clear_top (x + 2 ^ 63) = x.
Proof.
  intros. rewrite clear_top_eq. replace (x + 2 ^ 63) with (x + 1 * 2 ^ 63) by lia.
  rewrite N.mod_add by lia. now apply N.mod_small.
Qed.

(** * One thread *)
Definition embed (o : owners) (l : list answer) : sys :=
  Sys (Block (match value o with Given => 1 | _ => N.of_nat (n_arc o) end)
        (N.of_nat (n_weak o) + (if (n_arc o =? 0)%nat then 0 else 1))
        (match value o with Held => true | _ => false end)
        (match value o with Destroyed => 1 | _ => 0 end)
        (match value o with Given => 1 | _ => 0 end)
        (if ((n_arc o =? 0) && (n_weak o =? 0))%nat%bool then 1 else 0)
        false)
    [Idle] (n_arc o) (n_weak o) (map (fun a => (0%nat, a)) l).

Record sane (o : owners) : Prop := {
  sa_held : value o = Held <-> (0 < n_arc o)%nat;
  sa_given : value o = Given -> n_weak o = 0%nat
}.
Definition small (o : owners) : Prop := N.of_nat (n_arc o) < 2 ^ 62 /\ N.of_nat (n_weak o) < 2 ^ 62.

Lemma effect_sane : forall op o, sane o -> sane (fst (effect op o)).
Proof.
  intros op [a w f] [H1 H2]. cbn [n_arc n_weak value] in *.
  unfold effect. cbn [n_arc n_weak value].
  destruct (Nat.eqb_spec a 0).
  - subst a. destruct op; try destruct k; destruct f; destruct w; cbn; constructor; cbn in *;
      intuition (try lia; try discriminate).
  - unfold sole, lose_arc. cbn [n_arc n_weak value].
    destruct f; [|exfalso; destruct H1 as [_ H1]; specialize (H1 ltac:(lia)); discriminate..].
    destruct op; try destruct k; destruct a as [|[|a]]; destruct w; cbn; constructor; cbn in *;
      intuition (try lia; try discriminate).
Qed.

Lemma effect_small : forall op o, (n_arc (fst (effect op o)) <= S (n_arc o))%nat /\
  (n_weak (fst (effect op o)) <= S (n_weak o))%nat.
Proof.
  intros op [a w f]. unfold effect, lose_arc, sole. cbn [n_arc n_weak value].
  destruct op; try destruct k; destruct a as [|[|a]]; destruct w; cbn; lia.
Qed.

Ltac eqb_facts :=
  repeat match goal with
  | |- context [N.eqb ?x ?y] =>
      first [ replace (N.eqb x y) with true by (symmetry; apply N.eqb_eq; unfold top_bit; lia)
            | replace (N.eqb x y) with false by (symmetry; apply N.eqb_neq; unfold top_bit; lia) ]
  | |- context [inc ?x] => rewrite (inc_small x) by lia
  | |- context [dec ?x] => rewrite (dec_pos x) by lia
  | |- context [set_top ?x] => rewrite (set_top_small x) by lia
  | |- context [clear_top (?x + 2 ^ 63 + 1)] =>
      replace (x + 2 ^ 63 + 1) with (x + 1 + 2 ^ 63) by lia; rewrite (clear_top_big (x + 1)) by lia
  end.
Ltac seq_step :=
  cbn -[N.of_nat N.add N.sub N.eqb inc dec set_top clear_top N.pow finish step];
  unfold step, start, drop_weak, drop_strong, with_weaks, with_arcs, free, destroy, move_out, use, touch, set_strong, set_weak, spare_weak;
  cbn -[N.of_nat N.add N.sub N.eqb inc dec set_top clear_top N.pow finish step];
  eqb_facts.
Ltac seq_done :=
  cbn -[N.of_nat N.add N.sub N.eqb inc dec set_top clear_top N.pow];
  rewrite ?map_app; cbn [map app]; rewrite ?app_nil_r;
  match goal with |- Sys (Block ?a ?b _ _ _ _ _) _ _ _ _ = Sys (Block ?a' ?b' _ _ _ _ _) _ _ _ _ =>
    replace a with a' by lia; replace b with b' by lia; try reflexivity end.

Lemma finish_idle : forall n o b a w l, finish n o (Sys b [Idle] a w l) = Sys b [Idle] a w l.
Proof. destruct n; reflexivity. Qed.
Lemma finish_busy : forall n o b p a w l, p <> Idle ->
  finish (S n) o (Sys b [p] a w l) = finish n o (step (Sys b [p] a w l) (0%nat, o)).
Proof. intros. destruct p; try reflexivity. congruence. Qed.

Lemma whole_effect : forall op o l, op <> ODynWeakDrop -> sane o -> small o ->
  whole (embed o l) op = embed (fst (effect op o)) (l ++ snd (effect op o)).
Proof.
  intros op [a w f] l Hop [Hh Hg] [Ha Hw]. cbn [n_arc n_weak value] in *.
  assert (Hf : a <> 0%nat -> f = Held) by (intros; apply Hh; lia).
  assert (Hf0 : a = 0%nat -> f <> Held) by (intros -> E; apply Hh in E; lia).
  clear Hh.
  destruct a as [|[|a]]; [clear Hf; specialize (Hf0 eq_refl)|specialize (Hf ltac:(lia)); clear Hf0; subst f..].
  all: destruct w as [|[|w]].
  all: try (destruct f; [congruence| |]); try (specialize (Hg eq_refl); discriminate Hg).
  all: destruct op; try destruct k; try congruence.
  all: unfold embed, whole; cbn [n_arc n_weak value].
  all: do 2 seq_step.
  all: repeat (rewrite finish_busy by discriminate; do 2 seq_step).
  all: rewrite finish_idle.
  all: unfold effect, sole, lose_arc; seq_done.
  all: try (replace (N.of_nat (S (S w)) + 1) with (N.of_nat (S (S (S w)))) by lia; reflexivity).
Qed.

Lemma owners_after_app : forall ops o,
  owners_after (ops ++ [o]) =
  (fst (effect o (fst (owners_after ops))),
   snd (owners_after ops) ++ snd (effect o (fst (owners_after ops)))).
Proof.
  intros. unfold owners_after. rewrite fold_left_app. cbn [fold_left].
  destruct (effect o _) as [x y] eqn:E. reflexivity.
Qed.

Lemma owners_after_sane : forall ops, sane (fst (owners_after ops)) /\
  (n_arc (fst (owners_after ops)) <= S (length ops))%nat /\
  (n_weak (fst (owners_after ops)) <= length ops)%nat.
Proof.
  intros ops. induction ops as [|o ops IH] using rev_ind.
  - cbn. split; [constructor; cbn; intuition (try lia; try discriminate)|lia].
  - rewrite owners_after_app. cbn [fst]. rewrite app_length. cbn [length].
    destruct IH as (I1 & I2 & I3). destruct (effect_small o (fst (owners_after ops))).
    split; [now apply effect_sane|lia].
Qed.

Lemma history_app : forall ops o, history (ops ++ [o]) = whole (history ops) o.
Proof. intros. unfold history. now rewrite fold_left_app. Qed.

Lemma history_embed : forall ops, no_dyn_weak ops -> N.of_nat (length ops) < 2 ^ 61 ->
  history ops = embed (fst (owners_after ops)) (snd (owners_after ops)).
Proof.
  intros ops. induction ops as [|o ops IH] using rev_ind; intros Hd Hl.
  - reflexivity.
  - rewrite history_app, IH.
    + rewrite owners_after_app. cbn [fst snd]. rewrite app_length in Hl. cbn [length] in Hl.
      destruct (owners_after_sane ops) as (I1 & I2 & I3).
      apply whole_effect; [|exact I1|split; lia].
      intros ->. apply Hd. apply in_or_app. right. now left.
    + intros Hin. apply Hd. apply in_or_app. now left.
    + rewrite app_length in Hl. lia.
Qed.

(** Overflow of the strong count. *)
Lemma clones : forall k b a w l, N.of_nat k <= 2 ^ 64 ->
  (frees b = 0)%nat -> bad b = false -> strong b < 2 ^ 64 ->
  fold_left whole (repeat OClone k) (Sys b [Idle] (S a) w l) =
  Sys (set_strong ((strong b + N.of_nat k) mod 2 ^ 64) b) [Idle] (k + S a) w l.
Proof.
  induction k as [|k IH]; intros b a w l Hk Hf Hb Hs.
  - cbn [repeat fold_left Nat.add]. rewrite N.add_0_r, N.mod_small by exact Hs. now destruct b.
  - cbn [repeat fold_left].
    replace (whole (Sys b [Idle] (S a) w l) OClone) with
      (Sys (set_strong (inc (strong b)) b) [Idle] (S (S a)) w l).
    2: { unfold whole. replace (step (Sys b [Idle] (S a) w l) (0%nat, OClone)) with
           (Sys (set_strong (inc (strong b)) b) [Idle] (S (S a)) w l).
         - now rewrite finish_idle.
         - unfold step, start, touch. cbn [nth_error pcs blk arcs weaks log set_strong strong].
           destruct b; cbn in *. subst. reflexivity. }
    rewrite IH; cbn [strong set_strong frees bad]; try assumption; try lia.
    2: unfold inc, usize_mod; apply N.mod_lt; lia.
    replace (k + S (S a))%nat with (S k + S a)%nat by lia.
    unfold inc, usize_mod. rewrite N.add_mod_idemp_l by lia.
    replace (strong b + 1 + N.of_nat k) with (strong b + N.of_nat (S k)) by lia.
    reflexivity.
Qed.

Lemma overflow : forall k, N.of_nat k = 2 ^ 64 ->
  let s := history (repeat OClone k ++ [ODropArc]) in
  (0 < arcs s)%nat /\ alive (blk s) = false /\ dropped (blk s) = 1%nat.
Proof.
  intros k Hk. cbn zeta. rewrite history_app. unfold history, arc_new. cbn [repeat].
  rewrite clones; [|lia|reflexivity|reflexivity|cbn [strong]; lia].
  rewrite Hk. cbn [strong].
  replace ((1 + 2 ^ 64) mod 2 ^ 64) with 1 by (vm_compute; reflexivity).
  destruct k as [|k]; [discriminate|]. clear Hk. rewrite Nat.add_comm. cbn [Nat.add].
  unfold set_strong. cbn [weak alive dropped taken frees bad].
  unfold whole, step, start, drop_strong, with_arcs, touch. cbn -[dec finish N.eqb].
  replace (1 =? 1) with true by reflexivity.
  rewrite finish_busy by discriminate. unfold step. cbn -[dec finish N.eqb].
  rewrite finish_busy by discriminate. unfold step, drop_weak, touch. cbn -[dec finish N.eqb].
  replace (1 =? 1) with true by reflexivity.
  rewrite finish_busy by discriminate. unfold step. cbn -[dec finish N.eqb].
  rewrite finish_idle. cbn. repeat split. lia.
Qed.
