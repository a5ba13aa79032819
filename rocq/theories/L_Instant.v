(** Lemmas for C77. *)
From Coq Require Import List NArith ZArith Bool Arith Lia.
From Verif Require Import M_Time S_Time L_Time M_Instant S_Instant.
Import ListNotations.
Local Open Scope N_scope.
Ltac Zify.zify_post_hook ::= Z.to_euclidean_division_equations.

Definition encc (n : N) : Z := (Z.of_N (n / 1000000000) * 1048576 + Z.of_N (n mod 1000000000 / 1000))%Z.
Lemma limit : LIMIT = 8796093022208000000000. Proof. reflexivity. Qed.
Lemma store_enc : forall d, fits d -> ai_store d = Some (encc (value d)).
Proof.
  intros d [[A B] L]. rewrite limit in L. unfold ai_store, ad_store. unfold value in *. rewrite d2i; [|change (2 ^ 43) with 8796093022208; lia|exact B].
  f_equal. unfold encc. rewrite Z.mul_1_l. replace ((secs d * 1000000000 + nanos d) / 1000000000) with (secs d) by lia.
  replace ((secs d * 1000000000 + nanos d) mod 1000000000) with (nanos d) by lia. reflexivity.
Qed.
Lemma load_enc : forall n, n < LIMIT -> exists d, ai_load (encc n) = Some d /\ normal d /\ value d = us n.
Proof.
  intros n L. rewrite limit in L. unfold ai_load, ad_load, encc.
  pose proof (i2d (Z.of_N (n / 1000000000)) (Z.of_N (n mod 1000000000 / 1000)) Positive) as H. cbv iota in H. rewrite Z.mul_1_l in H.
  rewrite H by lia. cbn [option_map fst]. eexists. split; [reflexivity|]. unfold normal, value, us. cbn [secs nanos]. rewrite p64. rewrite !N2Z.id. lia.
Qed.
Lemma now_value : forall n, n < LIMIT -> fits (inst_now n) /\ value (inst_now n) = n.
Proof.
  intros n L. unfold fits. rewrite limit in *. unfold inst_now, inst_from_std. destruct (Z.ltb_spec (Z.of_N n) 0); [lia|]. unfold dur_from_core, normal, value. cbn [secs nanos c_secs c_nanos]. rewrite p64. lia.
Qed.

Record sim (s : ai_state) (r : reg) : Prop := {
  sim_clock : r_clock r = clock s;
  sim_cells : cells s = map encc (r_written r);
  sim_some : r_written r <> [];
  sim_fit : Forall (fun n => n < LIMIT) (r_written r);
  sim_view : forall t, r_view r t = view s t;
  sim_pend : forall t, match pending s t with Some d => fits d /\ r_pending r t = Some (value d) | None => r_pending r t = None end }.

Lemma last_map : forall l, l <> [] -> last (map encc l) 0%Z = encc (last l 0).
Proof. induction l as [|x l IH]; intro N; [congruence|]. destruct l as [|y l]; [reflexivity|]. cbn [map last] in *. apply IH. discriminate. Qed.
Lemma last_in : forall (l : list N), l <> [] -> In (last l 0) l.
Proof. induction l as [|x l IH]; intro N; [congruence|]. destruct l as [|y l]; [left; reflexivity|]. right. apply IH. discriminate. Qed.
Lemma sim_swap : forall s r t d, sim s r -> fits d -> exists s' e, swap_last s t d = Next s' (Some (t, e)) /\ sim s' (fst (r_swap r t (value d))) /\
  normal e /\ snd (r_swap r t (value d)) = Some (t, value e) /\ clock s' = clock s.
Proof.
  intros s r t d S F. destruct S as [C L N B V P]. unfold swap_last, ai_swap, ad_swap. rewrite L, last_map by exact N.
  pose proof (store_enc d F) as E. unfold ai_store, ad_store in E. rewrite E.
  destruct (load_enc (last (r_written r) 0)) as (e & E1 & E2 & E3); [exact (proj1 (Forall_forall _ _) B _ (last_in _ N))|].
  unfold ai_load, ad_load in E1. destruct (i64_to_duration (encc (last (r_written r) 0))) as [[e' sg]|]; [|discriminate]. cbn in E1. injection E1 as ->.
  eexists _, e. split; [reflexivity|]. cbn [fst snd r_swap]. split; [|rewrite E3; auto].
  constructor; cbn [clock cells view pending r_clock r_written r_view r_pending]; auto.
  - rewrite map_app. reflexivity.
  - intro X. apply app_eq_nil in X. destruct X; discriminate.
  - apply Forall_app. split; [exact B|]. constructor; [exact (proj2 F)|constructor].
  - intro u. unfold r_set, upd. rewrite map_length. destruct (Nat.eqb u t); auto.
  - intro u. unfold r_set, upd. destruct (Nat.eqb u t); [reflexivity|apply P].
Qed.

Definition act_fits (n : N) (a : ai_action) : Prop := match a with Store _ d | Swap _ d => fits d | _ => True end.
Lemma sim_step : forall s r a, sim s r -> clock s < LIMIT -> act_fits (clock s) a ->
  match ai_step s a with
  | Blocked => r_step r a = None
  | Panics => False
  | Next s' o => exists r', sim s' r' /\ r_step r a = Some (r', option_map (fun p => (fst p, value (snd p))) o) /\ clock s' = (match a with Tick n => clock s + n | _ => clock s end)
      /\ (forall t d, o = Some (t, d) -> normal d)
  end.
Proof.
  intros s r a S K F. destruct a as [n|t i|t d|t d|t|t]; cbn [ai_step r_step].
  - eexists. split; [|split; [reflexivity|split; [reflexivity|discriminate]]]. destruct S. constructor; cbn; auto. congruence.
  - rewrite (sim_view _ _ S). destruct (Nat.leb (view s t) i); [|reflexivity]. rewrite (sim_cells _ _ S), nth_error_map.
    destruct (nth_error (r_written r) i) as [n|] eqn:E; cbn [option_map]; [|reflexivity].
    destruct (load_enc n) as (d & D1 & D2 & D3). { apply nth_error_In in E. exact (proj1 (Forall_forall _ _) (sim_fit _ _ S) _ E). }
    rewrite D1. eexists. split; [|split; [cbn [option_map fst snd]; rewrite D3; reflexivity|split; [reflexivity|intros ? ? Q; injection Q as <- <-; exact D2]]].
    destruct S as [C L N B V P]. constructor; cbn [clock cells view pending r_clock r_written r_view r_pending]; auto. intro u. unfold r_set, upd. destruct (Nat.eqb u t); auto.
  - cbn [act_fits] in F. rewrite (store_enc d F). eexists. split; [|split; [reflexivity|split; [reflexivity|discriminate]]].
    destruct S as [C L N B V P]. constructor; cbn [clock cells view pending r_clock r_written r_view r_pending]; auto.
    + rewrite L, map_app. reflexivity.
    + intro X. apply app_eq_nil in X. destruct X; discriminate.
    + apply Forall_app. split; [exact B|]. constructor; [exact (proj2 F)|constructor].
    + intro u. unfold r_set, upd. rewrite L, map_length. destruct (Nat.eqb u t); auto.
  - destruct (sim_swap s r t d S F) as (s' & e & E & S' & N' & Q & C'). rewrite E. eexists. split; [exact S'|]. split; [|split; [exact C'|intros ? ? X; injection X as <- <-; exact N']].
    destruct (r_swap r t (value d)) as [x y] eqn:W. cbn [snd fst option_map] in *. rewrite Q. reflexivity.
  - eexists. split; [|split; [reflexivity|split; [reflexivity|discriminate]]]. destruct (now_value (clock s) K) as [N1 N2].
    destruct S as [C L N B V P]. constructor; cbn [clock cells view pending r_clock r_written r_view r_pending]; auto.
    intro u. unfold r_set, upd. destruct (Nat.eqb u t); [|apply P]. rewrite N2, C. auto.
  - pose proof (sim_pend _ _ S t) as Pt. destruct (pending s t) as [d|] eqn:E; [|rewrite Pt; reflexivity]. destruct Pt as [F' Pt]. rewrite Pt.
    destruct (sim_swap s r t d S F') as (s' & e & E' & S' & N' & Q & C'). rewrite E'. eexists. split; [exact S'|]. split; [|split; [exact C'|intros ? ? X; injection X as <- <-; exact N']].
    destruct (r_swap r t (value d)) as [x y] eqn:W. cbn [snd fst option_map] in *. rewrite Q. reflexivity.
Qed.

Lemma sim_run : forall l s r, sim s r -> in_range (clock s) l ->
  match ai_run s l with
  | None => r_run r l = None
  | Some None => False
  | Some (Some (s', os)) => exists r', sim s' r' /\ r_run r l = Some (r', map valued os) /\ Forall (fun o => normal (snd (fst o))) os
  end.
Proof.
  induction l as [|a l IH]; intros s r S G; cbn [ai_run r_run].
  - exists r. auto.
  - assert (K : clock s < LIMIT) by apply G.
    assert (F : act_fits (clock s) a) by (destruct a; cbn in G |- *; tauto).
    pose proof (sim_step s r a S K F) as H. destruct (ai_step s a) as [| |s' o]; [rewrite H; reflexivity|exact H|].
    destruct H as (r' & S' & E & C & N). rewrite E.
    assert (G' : in_range (clock s') l) by (rewrite C; destruct a; cbn in G; tauto).
    specialize (IH s' r' S' G'). destruct (ai_run s' l) as [[[s'' os]|]|]; [|exact IH|rewrite IH; reflexivity].
    destruct IH as (r'' & S'' & R & NN). rewrite R. exists r''. split; [exact S''|]. split.
    + destruct o as [[t d]|]; [|reflexivity]. cbn [option_map fst snd map valued]. rewrite (sim_clock _ _ S'). reflexivity.
    + destruct o as [[t d]|]; [|exact NN]. constructor; [exact (N t d eq_refl)|exact NN].
Qed.
Lemma sim_new : forall n d, fits d -> exists s, ai_new n d = Some s /\ clock s = n /\ sim s (r_new n (value d)).
Proof.
  intros n d F. unfold ai_new. rewrite (store_enc d F). eexists. split; [reflexivity|]. split; [reflexivity|]. constructor; cbn; auto.
  - discriminate.
  - constructor; [exact (proj2 F)|constructor].
Qed.

(** ** Nothing from the future *)
Lemma us_le : forall n, us n <= n. Proof. intro n. unfold us. lia. Qed.
Lemma us_mono : forall a b, a <= b -> us a <= us b.
Proof. intros a b H. unfold us. apply N.mul_le_mono_r. apply N.div_le_mono; lia. Qed.
Definition past_inv (r : reg) : Prop := r_written r <> [] /\ Forall (fun n => n <= r_clock r) (r_written r) /\ forall t n, r_pending r t = Some n -> n <= r_clock r.
Lemma past_swap : forall r t n, past_inv r -> n <= r_clock r -> past_inv (fst (r_swap r t n)) /\ us (last (r_written r) 0) <= r_clock r.
Proof.
  intros r t n (A & B & C) L. split; [split; [|split]|]; cbn [fst r_swap r_written r_clock r_pending].
  - intro X. apply app_eq_nil in X. destruct X; discriminate.
  - apply Forall_app. split; [exact B|]. constructor; [exact L|constructor].
  - intros u m. unfold r_set. destruct (Nat.eqb u t); [discriminate|apply C].
  - pose proof (proj1 (Forall_forall _ _) B _ (last_in _ A)). pose proof (us_le (last (r_written r) 0)). cbn beta in *. lia.
Qed.
Lemma past_run : forall l r r' os, past_inv r -> past (r_clock r) l -> r_run r l = Some (r', os) -> Forall (fun o => snd (fst o) <= snd o) os.
Proof.
  induction l as [|a l IH]; intros r r' os I P H; cbn [r_run] in H; [injection H as <- <-; constructor|].
  destruct (r_step r a) as [[r1 o]|] eqn:E; [|discriminate]. destruct (r_run r1 l) as [[r2 os']|] eqn:R; [|discriminate]. injection H as <- <-.
  destruct a as [n|t i|t d|t d|t|t]; cbn [r_step past] in *.
  - injection E as <- <-. apply (IH _ _ _) in R; auto. destruct I as (A & B & C). split; [exact A|]. split; cbn.
    + eapply Forall_impl; [|exact B]. cbn beta. intros; lia.
    + intros t m Q. apply C in Q. lia.
  - destruct (Nat.leb (r_view r t) i); [|discriminate]. destruct (nth_error (r_written r) i) as [n|] eqn:En; [|discriminate]. injection E as <- <-.
    constructor; [|apply (IH _ _ _) in R; auto]. cbn [fst snd r_clock]. pose proof (us_le n). apply nth_error_In in En. destruct I as (_ & B & _).
    pose proof (proj1 (Forall_forall _ _) B _ En). cbn beta in *. lia.
  - injection E as <- <-. destruct P as [L P]. apply (IH _ _ _) in R; auto. destruct I as (A & B & C). split; [|split]; cbn.
    + intro X. apply app_eq_nil in X. destruct X; discriminate.
    + apply Forall_app. split; [exact B|]. constructor; [exact L|constructor].
    + exact C.
  - destruct P as [L P]. destruct (past_swap r t (value d) I L) as [I' U]. injection E as <- <-. constructor; [exact U|]. exact (IH _ _ _ I' P R).
  - injection E as <- <-. apply (IH _ _ _) in R; auto. destruct I as (A & B & C). split; [|split]; cbn; auto.
    intros u m. unfold r_set. destruct (Nat.eqb u t); [intro Q; injection Q as <-; lia|apply C].
  - destruct (r_pending r t) as [n|] eqn:Pn; [|discriminate]. assert (L : n <= r_clock r) by (apply I in Pn; exact Pn).
    destruct (past_swap r t n I L) as [I' U]. injection E as <- <-. constructor; [exact U|]. exact (IH _ _ _ I' P R).
Qed.

(** ** One updater *)
Definition mono_inv (w : nat) (r : reg) : Prop :=
  r_written r <> [] /\
  (forall i j a b, (i <= j)%nat -> nth_error (r_written r) i = Some a -> nth_error (r_written r) j = Some b -> a <= b) /\
  (forall n, r_pending r w = Some n -> last (r_written r) 0 <= n /\ n <= r_clock r) /\
  last (r_written r) 0 <= r_clock r /\
  (forall t, (r_view r t < length (r_written r))%nat).
Lemma last_nth : forall (l : list N), l <> [] -> nth_error l (length l - 1) = Some (last l 0).
Proof. induction l as [|x l IH]; intro H; [congruence|]. destruct l as [|y l]; [reflexivity|]. cbn [length Nat.sub] in *. rewrite Nat.sub_0_r in *. apply IH. discriminate. Qed.
Definition above (lo : nat -> N) (r : reg) : Prop := forall t n, nth_error (r_written r) (r_view r t) = Some n -> lo t <= us n.
Lemma monotone_cons : forall t a c os, monotone os -> (forall b cb, In (t, b, cb) os -> a <= b) -> monotone ((t, a, c) :: os).
Proof.
  intros t a c os M H i j u x y cx cy L A B. destruct j as [|j]; [lia|]. destruct i as [|i].
  - cbn in A. injection A as -> -> ->. cbn in B. apply nth_error_In in B. eauto.
  - cbn in A, B. eapply (M i j); eauto. lia.
Qed.
Lemma mono_run : forall w l r r' os, mono_inv w r -> Forall (one_updater w) l -> r_run r l = Some (r', os) ->
  monotone os /\ forall lo, above lo r -> forall t n c, In (t, n, c) os -> lo t <= n.
Proof.
  intros w. induction l as [|a l IH]; intros r r' os I O H; cbn [r_run] in H.
  - injection H as <- <-. split; [|intros ? ? ? ? ? []]. intros i j t x y cx cy _ X. destruct i; discriminate.
  - destruct (r_step r a) as [[r1 o]|] eqn:E; [|discriminate]. destruct (r_run r1 l) as [[r2 os']|] eqn:R; [|discriminate]. injection H as <- <-.
    assert (Oa : one_updater w a) by (inversion O; auto). assert (Ol : Forall (one_updater w) l) by (inversion O; auto).
    destruct I as (I1 & I2 & I3 & I4 & I5). destruct a as [n|t i|t d|t d|t|t]; cbn [r_step one_updater] in *; try contradiction.
    + injection E as <- <-. apply IH in R; auto.
      split; [|split; [|split; [|split]]]; cbn [r_written r_view r_pending r_clock]; auto; [|lia]. intros m Q. apply I3 in Q. lia.
    + destruct (Nat.leb_spec (r_view r t) i) as [Lv|]; [|discriminate]. destruct (nth_error (r_written r) i) as [n|] eqn:En; [|discriminate]. injection E as <- <-.
      assert (Li : (i < length (r_written r))%nat) by (apply nth_error_Some; congruence).
      apply IH in R; [|split; [|split; [|split; [|split]]]; cbn [r_written r_view r_pending r_clock]; auto; intro u; unfold r_set; destruct (Nat.eqb u t); auto|exact Ol].
      destruct R as [M A]. split.
      * apply monotone_cons; [exact M|]. intros b cb B. apply (A (fun u => if Nat.eqb u t then us n else 0)) in B; [rewrite Nat.eqb_refl in B; exact B|].
        intros u m Q. cbn [r_written r_view] in Q. unfold r_set in Q. destruct (Nat.eqb u t); [|lia]. rewrite En in Q. injection Q as <-. lia.
      * intros lo Ab u m c [B|B].
        -- injection B as <- <- <-. destruct (nth_error (r_written r) (r_view r t)) as [v|] eqn:Ev; [|apply nth_error_None in Ev; specialize (I5 t); lia].
           pose proof (Ab t v Ev). pose proof (us_mono v n (I2 _ _ _ _ Lv Ev En)). lia.
        -- apply (A lo) in B; [exact B|]. intros x y Q. cbn [r_written r_view] in Q. unfold r_set in Q. destruct (Nat.eqb_spec x t) as [->|]; [|exact (Ab x y Q)].
           rewrite En in Q. injection Q as <-. destruct (nth_error (r_written r) (r_view r t)) as [v|] eqn:Ev; [|apply nth_error_None in Ev; specialize (I5 t); lia].
           pose proof (Ab t v Ev). pose proof (us_mono v n (I2 _ _ _ _ Lv Ev En)). lia.
    + subst t. injection E as <- <-. apply IH in R; auto.
      split; [|split; [|split; [|split]]]; cbn [r_written r_view r_pending r_clock]; auto. unfold r_set. rewrite Nat.eqb_refl. intros m Q. injection Q as <-. lia.
    + subst t. destruct (r_pending r w) as [n|] eqn:Pn; [|discriminate]. destruct (I3 n eq_refl) as [L1 L2]. injection E as <- <-.
      assert (Z : forall i a, nth_error (r_written r) i = Some a -> a <= last (r_written r) 0).
      { intros i x Q. assert (i < length (r_written r))%nat by (apply nth_error_Some; congruence). apply (I2 i (length (r_written r) - 1)%nat x _); [lia|exact Q|apply last_nth; exact I1]. }
      assert (NL : nth_error (r_written r ++ [n]) (length (r_written r)) = Some n) by (rewrite nth_error_app2, Nat.sub_diag by lia; reflexivity).
      assert (Z' : forall i x, nth_error (r_written r ++ [n]) i = Some x -> (nth_error (r_written r) i = Some x) \/ (i = length (r_written r) /\ x = n)).
      { intros i x Q. destruct (lt_dec i (length (r_written r))) as [Lt|Ge]; [rewrite nth_error_app1 in Q by exact Lt; auto|].
        rewrite nth_error_app2 in Q by lia. destruct (i - length (r_written r))%nat as [|k] eqn:D; [|destruct k; discriminate]. cbn in Q. injection Q as <-. right. split; [lia|reflexivity]. }
      apply IH in R; [|split; [|split; [|split; [|split]]]; cbn [r_written r_view r_pending r_clock]|exact Ol].
      * destruct R as [M A].
        assert (G : forall lo, above lo r -> above (fun u => if Nat.eqb u w then us (last (r_written r) 0) else lo u) (fst (r_swap r w n))).
        { intros lo Ab u m Q. cbn [fst r_swap r_written r_view] in Q. unfold r_set in Q. destruct (Nat.eqb_spec u w) as [->|]; [rewrite NL in Q; injection Q as <-; apply us_mono; lia|].
          rewrite nth_error_app1 in Q by apply I5. exact (Ab u m Q). }
        split.
        -- apply monotone_cons; [exact M|]. intros b cb B. apply (A _ (G (fun _ => 0) ltac:(intros ? ? ?; lia))) in B. cbn beta in B. rewrite Nat.eqb_refl in B. exact B.
        -- intros lo Ab u m c B. assert (Lw : lo w <= us (last (r_written r) 0)).
           { destruct (nth_error (r_written r) (r_view r w)) as [v|] eqn:Ev; [|apply nth_error_None in Ev; specialize (I5 w); lia]. pose proof (Ab w v Ev). pose proof (us_mono _ _ (Z _ _ Ev)). lia. }
           destruct B as [B|B]; [injection B as <- <- <-; exact Lw|]. apply (A _ (G lo Ab)) in B. cbn beta in B. destruct (Nat.eqb_spec u w) as [->|]; lia.
      * intro X. apply app_eq_nil in X. destruct X; discriminate.
      * intros i j x y Lij Qi Qj. destruct (Z' _ _ Qi) as [Q1|[-> ->]], (Z' _ _ Qj) as [Q2|[-> ->]]; [eauto| |apply nth_error_Some in Q2 || idtac|lia].
        -- pose proof (Z _ _ Q1). lia.
        -- assert (j < length (r_written r))%nat by (apply nth_error_Some; congruence). lia.
      * unfold r_set. rewrite Nat.eqb_refl. discriminate.
      * rewrite last_last. lia.
      * intro u. rewrite app_length. cbn [length]. unfold r_set. destruct (Nat.eqb u w); [lia|]. specialize (I5 u). lia.
Qed.
