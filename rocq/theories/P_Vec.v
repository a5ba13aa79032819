(** C18-C22: vectors, drains and boxed slices. *)
From Coq Require Import NArith Arith List Bool Lia Permutation.
From Verif Require Import M_Vec S_Vec L_Vec.
Import ListNotations.

(** ** C18: a vector is a list.
    Partial: iterators given to [extend] must give a right [size_hint], and byte counts
    must stay below [2^64] (see the refutations). *)
Theorem vec_refines_list_partial : forall E (s : N) (h : list (vop E * (N -> bool))), s <> 0%N ->
  Forall (fun x => honest (fst x)) h -> fits s (weights h) ->
  exists v l ret dr, v_run s h v_new = Some (v, ret, dr) /\ v_as_slice v = Some l /\
    lrun h [] l ret dr /\ vlen v = length l /\ (N.of_nat (vlen v) <= vcap v)%N.
Proof.
  intros E s h Hs Ho F. destruct (v_run_spec s h v_new [] Hs (holds_new s) Ho F) as (v & l & a & b & E1 & E2 & E3).
  exists v, l, a, b. destruct (holds_cap s v l E2) as [C _]. pose proof E2 as (r & _ & Hl & _).
  rewrite Hl. repeat split; auto. apply (v_as_slice_spec s); auto.
Qed.
Print Assumptions vec_refines_list_partial.

(** A history of nine operations, in one of which the allocator refuses. *)
Definition yes (_ : N) := true.
Definition hist : list (vop nat * (N -> bool)) :=
  [(Push 1, yes); (Extend [2; 3; 4] 1 (Some 5)%N, yes); (CopyExtend [5; 6], yes); (Remove 1, yes);
   (SwapRemove 0, yes); (Swap 0 2, yes); (TryPush 7, fun _ => false); (Reserve 40, fun _ => false); (Truncate 3, yes)].
Example vec_refines_list_ex :
  Forall (fun x => honest (fst x)) hist /\ fits 4 (weights hist) /\
  match v_run 4 hist v_new with
  | Some (v, ret, dr) => v_as_slice v = Some [4; 3; 6] /\ ret = [2; 1] /\ dr = [5; 7] /\ vcap v = 8%N
  | None => False
  end.
Proof. split; [repeat constructor; vm_compute; congruence | split; [reflexivity | repeat split; reflexivity]]. Qed.

(** After [reserve], the room asked for is there. *)
Theorem vec_reserve_room : forall E s ok n (v : vec E) l, s <> 0%N -> holds s v l ->
  (s * (N.of_nat (length l) + n) < 2 ^ 64)%N ->
  let r := v_try_reserve s ok n v in
  holds s (snd r) l /\ (fst r = true -> (N.of_nat (length l) + n <= vcap (snd r))%N).
Proof. intros. destruct (v_try_reserve_spec s ok n v l) as (A & B & _); auto. Qed.
Print Assumptions vec_reserve_room.

(** A clone holds the clones in order. *)
Theorem vec_clone : forall E s ok f (v : vec E) l, s <> 0%N -> holds s v l ->
  (exists v', v_clone s ok f v = Done v' [] [] /\ holds s v' (map f l) /\ vcap v' = N.of_nat (length l)) \/
  ((exists k, ok k = false) /\ v_clone s ok f v = Panicked v_new [] []).
Proof. intros E s ok f v l Hs H. exact (v_clone_spec s ok f v l Hs H). Qed.
Print Assumptions vec_clone.

Definition three : vec nat := Vec [Some 10; Some 20; Some 30; None] 3 4.
Example three_holds : holds 8 three [10; 20; 30].
Proof. exists [None]. repeat split. Qed.
Example vec_reserve_room_ex : vcap (snd (v_try_reserve 8 yes 5 three)) = 8%N /\ vcap (snd (v_try_reserve 8 yes 1 three)) = 4%N.
Proof. split; reflexivity. Qed.
Example vec_clone_ex : v_clone 8 yes S three = Done (Vec [Some 11; Some 21; Some 31] 3 3) [] [].
Proof. reflexivity. Qed.

(** An iterator that yields more than its [size_hint] (possible in safe code) makes
    [extend] write outside its memory. *)
Theorem vec_extend_hint_refuted : exists (v : vec nat) l es lo hi, holds 8 v l /\ fits 8 (N.of_nat (length l + length es) + hi) /\
  v_extend 8 yes es lo (Some hi) v = UB.
Proof.
  exists (Vec [Some 1] 1 1), [1], [2; 3], 1%N, 1%N. split; [exists []; repeat split|].
  split; reflexivity.
Qed.
Print Assumptions vec_extend_hint_refuted.

(** With a right hint whose upper bound is [usize::MAX] (e.g. a filtered range), the new
    capacity wraps to 0 on a vector of length 1: the next write is outside memory. *)
Theorem vec_extend_overflow_refuted : exists (v : vec nat) l es lo hi, holds 8 v l /\ honest (Extend es lo (Some hi)) /\
  (hi < 2 ^ 64)%N /\ v_extend 8 yes es lo (Some hi) v = UB.
Proof.
  exists (Vec [Some 1] 1 1), [1], [2], 0%N, (2 ^ 64 - 1)%N.
  split; [exists []; repeat split|]. split; [cbn; split; lia|]. split; [lia | reflexivity].
Qed.
Print Assumptions vec_extend_overflow_refuted.

(** Reserving [2^61] elements of 8 bytes asks the allocator for no bytes, and the push that
    follows writes outside. *)
Theorem vec_reserve_overflow_refuted : exists (n : N) (v1 : vec nat),
  v_reserve 8 yes n v_new = Done v1 [] [] /\ (n <= vcap v1)%N /\ v_push 8 yes 1 v1 = UB.
Proof. exists (2 ^ 61)%N, (Vec [] 0 (2 ^ 61)%N). split; [reflexivity|]. split; [reflexivity | reflexivity]. Qed.
Print Assumptions vec_reserve_overflow_refuted.

(** ** C19: failing allocations change nothing. *)
Theorem vec_try_push_failure : forall E s ok (e : E) v r,
  v_try_push s ok e v = (false, r) -> r = Done v [e] [].
Proof.
  intros E s ok e v r. unfold v_try_push, v_try_grow, v_try_reserve.
  repeat match goal with |- context [if ?b then _ else _] => destruct b end; intros [= <-]; reflexivity.
Qed.
Print Assumptions vec_try_push_failure.

Theorem vec_try_reserve_failure : forall E s ok n (v v' : vec E),
  v_try_reserve s ok n v = (false, v') -> v' = v /\ exists k, ok k = false.
Proof.
  intros E s ok n v v'. unfold v_try_reserve.
  destruct (N.ltb _ _); [destruct (ok _) eqn:Q|]; intros [= <-]; eauto.
Qed.
Print Assumptions vec_try_reserve_failure.

Theorem vec_try_copy_extend_failure : forall E s ok es (v : vec E) r,
  v_try_copy_extend s ok es v = (false, r) -> r = Done v [] [].
Proof.
  intros E s ok es v r. unfold v_try_copy_extend, v_try_reserve. destruct es; [discriminate|].
  repeat match goal with |- context [if ?b then _ else _] => destruct b end; intros [= <-]; reflexivity.
Qed.
Print Assumptions vec_try_copy_extend_failure.

(** The panicking forms leave the vector as it was too, and drop the element. *)
Theorem vec_push_failure : forall E s ok (e : E) v v' ret dr,
  v_push s ok e v = Panicked v' ret dr -> v' = v /\ ret = [] /\ dr = [e].
Proof.
  intros E s ok e v v' ret dr. unfold v_push, v_try_grow, v_try_reserve.
  repeat match goal with |- context [if ?b then _ else _] => destruct b end; try destruct (v_write_end _ _); intros [=]; subst; auto.
Qed.
Print Assumptions vec_push_failure.

(** They fail when, and only when, memory is needed and refused. *)
Theorem vec_try_push_fails_only_when_refused : forall E s ok (v : vec E) l e, s <> 0%N -> holds s v l ->
  fits s (N.of_nat (length l)) ->
  (exists v', v_try_push s ok e v = (true, Done v' [] []) /\ holds s v' (l ++ [e])) \/
  ((exists k, ok k = false) /\ v_try_push s ok e v = (false, Done v [e] [])).
Proof. intros E s ok v l e. exact (v_try_push_spec s ok v l e). Qed.
Print Assumptions vec_try_push_fails_only_when_refused.

Definition full : vec nat := Vec [Some 10; Some 20] 2 2.
Example vec_failures_ex :
  v_try_push 8 (fun _ => false) 5 full = (false, Done full [5] []) /\
  v_try_reserve 8 (fun n => (n <? 10)%N) 20 full = (false, full) /\
  v_try_copy_extend 8 (fun _ => false) [1; 2] full = (false, Done full [] []) /\
  v_push 8 (fun _ => false) 5 full = Panicked full [] [5].
Proof. repeat split. Qed.

(** ** C20: ownership.
    Partial in the same way as C18; [copy_extend] is left out since it copies. *)
Theorem vec_conserves_ownership_partial : forall E (s : N) (h : list (vop E * (N -> bool))), s <> 0%N ->
  Forall (fun x => honest (fst x)) h -> Forall (fun x => moving (fst x)) h -> fits s (weights h) ->
  exists v ret dr, v_run s h v_new = Some (v, ret, dr) /\
    exists held, v_drop v = Some (held, negb (N.eqb (vcap v) 0)) /\
      Permutation (givens h) (ret ++ dr ++ held).
Proof.
  intros E s h Hs Ho M F. destruct (v_run_spec s h v_new [] Hs (holds_new s) Ho F) as (v & l & a & b & E1 & E2 & E3).
  exists v, a, b. split; [auto|]. exists l. split; [apply (v_drop_spec s); auto|].
  pose proof (lrun_conserves h [] l a b M E3) as P. cbn [app] in P. etransitivity; [exact P|].
  rewrite (app_assoc a b l). apply Permutation_app_comm.
Qed.
Print Assumptions vec_conserves_ownership_partial.

(** Turning the vector into an iterator, taking [k] elements and dropping it. *)
Theorem vec_into_iter_owns : forall E s k (v : vec E) l, holds s v l ->
  exists it, ii_takes k (II v 0) = Some (firstn k l, it) /\
    ii_drop it = Some (skipn k l, negb (N.eqb (vcap v) 0)).
Proof.
  intros E s k v l H. eexists. split; [apply (ii_takes_spec s k v l 0 H)|].
  cbn [Nat.leb Nat.add]. rewrite (ii_drop_spec s v l _ H) by lia.
  destruct (Nat.le_gt_cases k (length l)).
  - rewrite Nat.min_l by lia. reflexivity.
  - rewrite Nat.min_r, !skipn_all2 by lia. reflexivity.
Qed.
Print Assumptions vec_into_iter_owns.

Definition hist2 : list (vop nat * (N -> bool)) :=
  [(Extend [1; 2; 3] 3 None, yes); (Push 4, fun _ => false); (Push 5, yes); (Pop, yes); (Truncate 1, yes); (TryPush 6, yes)].
Example vec_conserves_ownership_ex :
  Forall (fun x => honest (fst x)) hist2 /\ Forall (fun x => moving (fst x)) hist2 /\ fits 4 (weights hist2) /\
  givens hist2 = [1; 2; 3; 4; 5; 6] /\
  match v_run 4 hist2 v_new with
  | Some (v, ret, dr) => ret = [5] /\ dr = [4; 2; 3] /\ v_drop v = Some ([1; 6], true)
  | None => False
  end.
Proof.
  split; [repeat constructor; vm_compute; congruence|]. split; [repeat constructor|].
  repeat split; reflexivity.
Qed.
Example vec_into_iter_owns_ex : exists it, ii_takes 2 (II three 0) = Some ([10; 20], it) /\ ii_drop it = Some ([30], true).
Proof. eexists. split; reflexivity. Qed.

(** ** C21: drains.
    Partial: only [drain], and for bounds below [usize::MAX]. *)
Theorem vec_drain_range_partial : forall E s (v : vec E) l b1 b2, holds s v l -> small_bound b1 -> small_bound b2 ->
  let f := N.to_nat (lower b1) in let t := N.to_nat (upper (length l) b2) in
  (v_drain b1 b2 v = None <-> ~ (f <= t <= length l)) /\
  forall d, v_drain b1 b2 v = Some d ->
    holds s (d_vec d) (firstn f l) /\
    forall k, exists d', d_takes k d = Some (firstn k (range l f t), d') /\
      d_len d' = t - f - k /\
      (exists v', d_drop d' = Some (v', skipn k (range l f t)) /\ holds s v' (firstn f l ++ skipn t l)) /\
      (exists v', d_stop d' = Some (v', []) /\ holds s v' (firstn f l ++ skipn (Nat.min (f + k) t) l)).
Proof. intros E s v l b1 b2. exact (drain_all s v l b1 b2). Qed.
Print Assumptions vec_drain_range_partial.

(** A double-ended drain used from the front only. *)
Theorem vec_double_drain_front_partial : forall E s (v : vec E) l b1 b2 d k, holds s v l -> small_bound b1 -> small_bound b2 ->
  let f := N.to_nat (lower b1) in let t := N.to_nat (upper (length l) b2) in
  v_drain b1 b2 v = Some d ->
  exists d', dd_takes k (d_double_ended d) = Some (firstn k (range l f t), d') /\
    dd_len d' = t - f - k /\ dd_size_hint d' = t - f - k /\
    exists v', dd_drop d' = Some (v', skipn k (range l f t)) /\ holds s v' (firstn f l ++ skipn t l).
Proof. intros E s v l b1 b2 d k. exact (drain_double_all s v l b1 b2 d k). Qed.
Print Assumptions vec_double_drain_front_partial.

Definition five : vec nat := Vec [Some 0; Some 1; Some 2; Some 3; Some 4] 5 5.
Example vec_drain_ex :
  exists d d' v', v_drain (Included 1) (Excluded 4) five = Some d /\ d_takes 2 d = Some ([1; 2], d') /\
    d_drop d' = Some (v', [3]) /\ v_as_slice v' = Some [0; 4] /\
    v_drain (Included 3) (Excluded 6) five = None /\
    (exists dd v2, dd_takes 1 (d_double_ended d) = Some ([1], dd) /\ dd_drop dd = Some (v2, [2; 3]) /\
       v_as_slice v2 = Some [0; 4]).
Proof. do 3 eexists. repeat split; try reflexivity. do 2 eexists. repeat split; reflexivity. Qed.

(** Taking from the back yields the element after the range, which stays in the vector
    (owned twice), while the last element of the range is lost. *)
Theorem vec_next_back_refuted : exists (v : vec nat) l d e d' v' dr,
  holds 8 v l /\ v_drain (Included 1) (Excluded 3) v = Some d /\
  dd_next_back (d_double_ended d) = Some (Some e, d') /\ ~ In e (range l 1 3) /\
  dd_drop d' = Some (v', dr) /\ v_as_slice v' = Some [0; 3; 4] /\ e = 3 /\ ~ In 2 (e :: dr ++ [0; 3; 4]).
Proof.
  exists five, [0; 1; 2; 3; 4]. do 5 eexists. split; [exists []; repeat split|].
  split; [reflexivity|]. split; [reflexivity|]. split; [cbn; intuition discriminate|].
  split; [reflexivity|]. split; [reflexivity|]. split; [reflexivity|]. cbn. intuition discriminate.
Qed.
Print Assumptions vec_next_back_refuted.

(** Taking from the back of a drain of a full vector up to its end reads outside memory. *)
Theorem vec_next_back_out_of_bounds_refuted : exists (v : vec nat) l d, holds 8 v l /\
  v_drain Unbounded Unbounded v = Some d /\ dd_next_back (d_double_ended d) = None.
Proof. exists full, [10; 20]. eexists. split; [exists []; repeat split|]. split; reflexivity. Qed.
Print Assumptions vec_next_back_out_of_bounds_refuted.

(** After [next_back], [size_hint] is wrong. *)
Theorem vec_double_drain_hint_refuted : exists (v : vec nat) l d e d', holds 8 v l /\
  v_drain (Included 1) (Excluded 4) v = Some d /\ dd_next_back (d_double_ended d) = Some (Some e, d') /\
  dd_len d' = 2 /\ dd_size_hint d' = 3.
Proof. exists five, [0; 1; 2; 3; 4]. do 3 eexists. split; [exists []; repeat split|]. repeat split. Qed.
Print Assumptions vec_double_drain_hint_refuted.

(** [try_drain] refuses every valid range... *)
Theorem vec_try_drain_refuted : forall E s (v : vec E) l b1 b2, holds s v l -> small_bound b1 -> small_bound b2 ->
  (lower b1 <= upper (length l) b2 <= N.of_nat (length l))%N -> v_try_drain b1 b2 v = None.
Proof.
  intros E s v l b1 b2 H B1 B2 [L1 L2]. pose proof (v_drain_spec s v l b1 b2 H B1 B2) as Q.
  unfold v_drain in Q. unfold v_try_drain. cbv zeta in *.
  replace (N.leb (lower b1) (upper (length l) b2)) with true in Q by (symmetry; apply N.leb_le; auto).
  replace (N.leb (upper (length l) b2) (N.of_nat (length l))) with true in Q by (symmetry; apply N.leb_le; auto).
  cbn [andb] in Q. destruct (N.leb (bound_from b1) (bound_to (vlen v) b2)); [reflexivity | discriminate].
Qed.
Print Assumptions vec_try_drain_refuted.
Example vec_try_drain_ex : v_try_drain (Included 1) (Excluded 4) five = None /\ v_drain (Included 1) (Excluded 4) five <> None.
Proof. split; [reflexivity | discriminate]. Qed.

(** ... and accepts an invalid one, whose vector then claims elements it does not have. *)
Theorem vec_try_drain_unsound_refuted : exists (v : vec nat) l d, holds 8 v l /\
  v_try_drain (Included 10) (Excluded 9) v = Some d /\ d_drop d = None /\ v_as_slice (d_vec d) = None.
Proof. exists full, [10; 20]. eexists. split; [exists []; repeat split|]. repeat split. Qed.
Print Assumptions vec_try_drain_unsound_refuted.

(** [drain(..=usize::MAX)] is accepted as the empty range (without overflow checks). *)
Theorem vec_drain_bound_refuted : exists (v : vec nat) l d, holds 8 v l /\
  (upper (length l) (Included (2 ^ 64 - 1)) > N.of_nat (length l))%N /\
  v_drain Unbounded (Included (2 ^ 64 - 1)) v = Some d /\ d_len d = 0.
Proof. exists full, [10; 20]. eexists. split; [exists []; repeat split|]. repeat split. Qed.
Print Assumptions vec_drain_bound_refuted.

(** ** C22: boxed slices.
    Partial: non-empty slices. *)
Theorem boxed_round_trip_partial : forall E s (v : vec E) l, holds s v l -> l <> [] -> vec_of_bs (bs_of_vec v) = Some v.
Proof. intros E s v l. exact (bs_round_trip s v l). Qed.
Print Assumptions boxed_round_trip_partial.

Theorem boxed_drop_partial : forall E s (v : vec E) l, holds s v l -> l <> [] -> bs_drop (bs_of_vec v) = Some (l, true).
Proof. intros E s v l. exact (bs_drop_spec s v l). Qed.
Print Assumptions boxed_drop_partial.

(** Pushing on the slice of an allocated vector accepts exactly what there is room for, and
    converting back gives a vector of the same capacity with the elements. *)
Theorem boxed_push_partial : forall E s es (v : vec E) l, holds s v l -> vcap v <> 0%N -> l ++ es <> [] ->
  let room := N.to_nat (vcap v) - length l in
  exists b v', bs_pushes es (bs_of_vec v) = Some (skipn room es, b) /\ vec_of_bs b = Some v' /\
    holds s v' (l ++ firstn room es) /\ vcap v' = vcap v.
Proof.
  intros E s es v l H C0 N0. cbv zeta. destruct (bs_pushes_spec s es v l H C0) as (v' & E1 & E2 & E3).
  exists (bs_of_vec v'), v'. split; [exact E1|]. split; [|auto].
  apply (bs_round_trip s v' _ E2). destruct (holds_cap s v l H) as [C _].
  destruct l as [|x l]; [|discriminate]. destruct es as [|e es]; [destruct N0; reflexivity|].
  destruct (N.to_nat (vcap v) - length []) eqn:Q; [cbn in Q; lia | discriminate].
Qed.
Print Assumptions boxed_push_partial.

Example boxed_ex :
  vec_of_bs (bs_of_vec three) = Some three /\ bs_drop (bs_of_vec three) = Some ([10; 20; 30], true) /\
  exists b, bs_pushes [40; 50] (bs_of_vec three) = Some ([50], b) /\
            vec_of_bs b = Some (Vec [Some 10; Some 20; Some 30; Some 40] 4 4).
Proof. split; [reflexivity|]. split; [reflexivity|]. eexists. split; reflexivity. Qed.

(** An empty slice with reserved memory is not freed when dropped... *)
Theorem boxed_empty_leak_refuted : exists (v : vec nat), holds 8 v [] /\ vcap v = 4%N /\
  v_drop v = Some ([], true) /\ bs_drop (bs_of_vec v) = Some ([], false).
Proof. exists (Vec [None; None; None; None] 0 4). split; [eexists; repeat split|]. repeat split. Qed.
Print Assumptions boxed_empty_leak_refuted.

(** ... nor after it is converted back into a vector, which has lost its capacity. *)
Theorem boxed_empty_round_trip_refuted : exists (v v' : vec nat), holds 8 v [] /\ vcap v = 4%N /\
  vec_of_bs (bs_of_vec v) = Some v' /\ vcap v' = 0%N /\ v_drop v' = Some ([], false).
Proof. exists (Vec [None; None; None; None] 0 4). eexists. split; [eexists; repeat split|]. repeat split. Qed.
Print Assumptions boxed_empty_round_trip_refuted.

(** [try_push] on the slice of a vector that never allocated reads the prefix of a dangling
    pointer. *)
Theorem boxed_push_dangling_refuted : bs_try_push 1 (bs_of_vec (@v_new nat)) = None.
Proof. reflexivity. Qed.
Print Assumptions boxed_push_dangling_refuted.
