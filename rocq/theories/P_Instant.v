(** C77: [Instant] and [AtomicInstant] shared between threads. *)
From Coq Require Import List NArith ZArith Bool Arith Lia.
From Verif Require Import M_Time S_Time L_Time M_Instant S_Instant L_Instant.
Import ListNotations.
Local Open Scope N_scope.

(** C77: instants at or after the epoch are converted both ways without loss, keep their order, and added durations move them by their length. Missing: instants
    before the epoch. *)
Theorem instant_round_trip_partial : forall t, (0 <= t < 1000000000 * 2 ^ 64)%Z ->
  inst_into_std (inst_from_std t) = Some t /\ value (inst_from_std t) = Z.to_N t /\
  (forall u, (0 <= u < 1000000000 * 2 ^ 64)%Z -> dur_cmp (inst_from_std t) (inst_from_std u) = Z.compare t u) /\
  (forall d, normal d -> match dur_add (inst_from_std t) d with
                         | Some e => inst_into_std e = Some (t + Z.of_N (value d))%Z
                         | None => (1000000000 * 2 ^ 64 <= t + Z.of_N (value d))%Z
                         end).
Proof.
  intros t T. change inst_from_std with systime_from_std. change inst_into_std with systime_into_std.
  assert (N : normal (systime_from_std t) /\ value (systime_from_std t) = Z.to_N t).
  { unfold systime_from_std. destruct (Z.ltb_spec t 0); [lia|]. unfold dur_from_core, normal, value. cbn [secs nanos c_secs c_nanos]. rewrite p64.
    change (2 ^ 64)%Z with 18446744073709551616%Z in T. lia. }
  destruct N as [N V]. split; [rewrite systime_round by lia; rewrite Z.max_r by lia; reflexivity|]. split; [exact V|]. split.
  - intros u U. apply systime_nonneg; assumption.
  - intros d D. pose proof (dur_add_value _ d N D) as A. destruct (dur_add (systime_from_std t) d) as [e|].
    + destruct A as [Ne Ve]. unfold systime_into_std. pose proof (core_value e) as C. unfold dur_wf in C. destruct Ne as [N1 N2].
      assert (W : secs e < 2 ^ 64 /\ nanos e < 2 ^ 32) by (rewrite p32; lia). specialize (C W). destruct (dur_into_core e) as [c|].
      * cbn [option_map]. f_equal. lia.
      * exfalso. unfold value in C. rewrite p64 in *. lia.
    + rewrite V in A. change (2 ^ 64)%Z with 18446744073709551616%Z in *. change (2 ^ 64) with 18446744073709551616 in *. lia.
Qed.
Print Assumptions instant_round_trip_partial.
Example instant_round_trip_ex : inst_into_std (inst_from_std 86400123456789) = Some 86400123456789%Z /\
  option_map inst_into_std (dur_add (inst_from_std 86400123456789) (Dur 2 999999999)) = Some (Some 86403123456788%Z).
Proof. vm_compute. auto. Qed.
(** C77, refuted: instants before the epoch all become the epoch. *)
Theorem instant_round_trip_refuted : exists a b, (a < b)%Z /\ inst_from_std a = inst_from_std b /\ inst_into_std (inst_from_std a) <> Some a.
Proof. exists (-2000000000)%Z, (-1)%Z. repeat split; vm_compute; congruence. Qed.
Print Assumptions instant_round_trip_refuted.

(** C77: whatever threads do with an [AtomicInstant], it is a register of instants read to the microsecond, in which swaps and updates take the place of what they
    return.  Missing: instants beyond 2^43 seconds (C45). *)
Theorem atomic_instant_history_partial : forall n d l, fits d -> in_range n l ->
  exists s, ai_new n d = Some s /\
    match ai_run s l with
    | None => r_run (r_new n (value d)) l = None
    | Some None => False
    | Some (Some (_, os)) => option_map snd (r_run (r_new n (value d)) l) = Some (map valued os) /\ Forall (fun o => normal (snd (fst o))) os
    end.
Proof.
  intros n d l F R. destruct (sim_new n d F) as (s & E & C & S). exists s. split; [exact E|]. rewrite <- C in R. pose proof (sim_run l s _ S R) as H.
  destruct (ai_run s l) as [[[s' os]|]|]; auto. destruct H as (r' & _ & H & N). rewrite H. auto.
Qed.
Print Assumptions atomic_instant_history_partial.

(** C77: given instants of the past, it never returns one of the future. *)
Theorem atomic_instant_past_partial : forall n d l s s' os, fits d -> value d <= n -> in_range n l -> past n l ->
  ai_new n d = Some s -> ai_run s l = Some (Some (s', os)) -> forall t e c, In (t, e, c) os -> value e <= c.
Proof.
  intros n d l s s' os F V R P E H t e c I. destruct (sim_new n d F) as (s0 & E0 & C & S). rewrite E in E0. injection E0 as <-. rewrite <- C in R.
  pose proof (sim_run l s _ S R) as G. rewrite H in G. destruct G as (r' & _ & G & _).
  apply past_run in G; [|split; [discriminate|split; [repeat constructor; exact V|discriminate]]|exact P].
  apply (in_map valued) in I. exact (proj1 (Forall_forall _ _) G _ I).
Qed.
Print Assumptions atomic_instant_past_partial.

(** C77: if one thread updates it, what any thread sees never goes back. *)
Theorem atomic_instant_monotone_partial : forall w n d l s s' os, fits d -> value d <= n -> in_range n l -> Forall (one_updater w) l ->
  ai_new n d = Some s -> ai_run s l = Some (Some (s', os)) -> monotone (map valued os).
Proof.
  intros w n d l s s' os F V R O E H. destruct (sim_new n d F) as (s0 & E0 & C & S). rewrite E in E0. injection E0 as <-. rewrite <- C in R.
  pose proof (sim_run l s _ S R) as G. rewrite H in G. destruct G as (r' & _ & G & _).
  apply (mono_run w) in G; [exact (proj1 G)| |exact O]. split; [discriminate|]. cbn [r_new r_written r_view r_pending r_clock]. split; [|split; [discriminate|split; [exact V|auto]]].
  intros i j a b _ A B. destruct i as [|[|]]; [|discriminate..]. destruct j as [|[|]]; [|discriminate..]. cbn in A, B. assert (a = b) by congruence. lia.
Qed.
Print Assumptions atomic_instant_monotone_partial.

(** Thread 0 updates, threads 1 and 2 load; thread 2 reads an old value. *)
Definition hist : list ai_action :=
  [Tick 1500; UpdRead 0; Tick 2000000; UpdSwap 0; Load 1 1; UpdRead 0; Tick 100; UpdSwap 0; Load 2 0; Load 1 2; Load 2 2].
Example hist_ok : fits (inst_now 1000000700) /\ value (inst_now 1000000700) <= 1000000700 /\ in_range 1000000700 hist /\ Forall (one_updater 0) hist /\ past 1000000700 hist.
Proof. repeat split; try (vm_compute; congruence). repeat constructor. Qed.
Example hist_run : match ai_new 1000000700 (inst_now 1000000700) with
  | Some s => match ai_run s hist with Some (Some (_, os)) => map valued os | _ => [] end
  | None => []
  end = [(0%nat, 1000000000, 1002002200); (1%nat, 1000002000, 1002002200); (0%nat, 1000002000, 1002002300); (2%nat, 1000000000, 1002002300);
         (1%nat, 1002002000, 1002002300); (2%nat, 1002002000, 1002002300)].
Proof. vm_compute. reflexivity. Qed.

(** C77, refuted for two threads that update: [update] reads the clock before it swaps, so that it can return an instant after the one it writes, and the cell goes back. *)
Theorem atomic_instant_monotone_refuted : exists l s s' os,
  ai_new 1000000 (Dur 0 0) = Some s /\ ai_run s l = Some (Some (s', os)) /\ in_range 1000000 l /\ past 1000000 l /\ ~ monotone (map valued os) /\
  l = [UpdRead 0; Tick 5000; UpdRead 1; UpdSwap 1; Load 2 1; UpdSwap 0; Load 2 2].
Proof.
  eexists [UpdRead 0; Tick 5000; UpdRead 1; UpdSwap 1; Load 2 1; UpdSwap 0; Load 2 2]%nat, _, _, _.
  split; [vm_compute; reflexivity|]. split; [vm_compute; reflexivity|]. split; [repeat split; vm_compute; congruence|]. split; [exact I|]. split; [|reflexivity].
  intro M. specialize (M 1%nat 3%nat 2%nat 1005000 1000000 1005000 1005000 ltac:(lia) eq_refl eq_refl). lia.
Qed.
Print Assumptions atomic_instant_monotone_refuted.
