(** Lemmas for C18-C22. *)
From Coq Require Import NArith List Bool Lia ZifyBool ZifyN ZifyNat Permutation Arith.
From Verif Require Import M_Alloc M_Vec S_Vec L_Alloc.
Import ListNotations.

(** ** Slots *)
Lemma get_slot_some : forall {E} (l : list E) rest i e, nth_error l i = Some e ->
  get_slot i (map Some l ++ rest) = Some e.
Proof.
  intros E l rest i e H. unfold get_slot.
  rewrite nth_error_app1 by (rewrite map_length; apply nth_error_Some; congruence).
  rewrite nth_error_map, H. reflexivity.
Qed.

Lemma get_slots_some : forall {E} n (l : list E) rest i, i + n <= length l ->
  get_slots i n (map Some l ++ rest) = Some (firstn n (skipn i l)).
Proof.
  intros E n. induction n as [|n IH]; intros l rest i H; cbn [get_slots]; [reflexivity|].
  destruct (nth_error l i) as [e|] eqn:Ee.
  - rewrite (get_slot_some l rest i e Ee). rewrite IH by lia.
    destruct (nth_error_split l i Ee) as (l1 & l2 & -> & <-).
    replace (skipn (S (length l1)) (l1 ++ e :: l2)) with l2.
    + rewrite skipn_app, skipn_all, Nat.sub_diag. reflexivity.
    + change (e :: l2) with ([e] ++ l2). rewrite app_assoc.
      replace (S (length l1)) with (length (l1 ++ [e])) by (rewrite app_length; cbn; lia).
      rewrite skipn_app, skipn_all, Nat.sub_diag. reflexivity.
  - apply nth_error_None in Ee. lia.
Qed.

Lemma set_slot_at : forall {E} (m1 : list (option E)) y m2 x,
  set_slot (length m1) x (m1 ++ y :: m2) = Some (m1 ++ x :: m2).
Proof. intros E m1. induction m1; intros; cbn; auto. rewrite IHm1. reflexivity. Qed.

Lemma set_slot_end : forall {E} (l : list E) y rest x,
  set_slot (length l) x (map Some l ++ y :: rest) = Some (map Some l ++ x :: rest).
Proof. intros. rewrite <- (set_slot_at (map Some l) y rest x), map_length. reflexivity. Qed.

Lemma set_slot_nth : forall {E} (m : list (option E)) i x, i < length m ->
  exists m', set_slot i x m = Some m' /\ length m' = length m /\ nth_error m' i = Some x /\
    forall k, k <> i -> nth_error m' k = nth_error m k.
Proof.
  intros E m. induction m as [|y m IH]; intros i x H; cbn [length] in H; [lia|].
  destruct i as [|i]; cbn [set_slot].
  - eexists. split; [reflexivity|]. split; [reflexivity|]. split; [reflexivity|].
    intros [|k] Hk; [congruence | reflexivity].
  - destruct (IH i x) as (m' & E1 & E2 & E3 & E4); [lia|]. rewrite E1.
    eexists. split; [reflexivity|]. cbn [length nth_error]. split; [lia|]. split; [auto|].
    intros [|k] Hk; [reflexivity|]. cbn [nth_error]. apply E4. lia.
Qed.

(** A list of slots, given by its elements. *)
Lemma some_prefix : forall {E} (m : list (option E)) n (f : forall k, k < n -> exists e, nth_error m k = Some (Some e)),
  exists l rest, m = map Some l ++ rest /\ length l = n.
Proof.
  intros E m n. revert m. induction n as [|n IH]; intros m f.
  - exists [], m. auto.
  - destruct m as [|[e|] m].
    + destruct (f 0) as [e He]; [lia | discriminate].
    + destruct (IH m) as (l & rest & -> & <-).
      { intros k Hk. destruct (f (S k)) as [e' He']; [lia|]. exists e'. exact He'. }
      exists (e :: l), rest. auto.
    + destruct (f 0) as [e He]; [lia | discriminate].
Qed.

Lemma set_slots_app : forall {E} (es : list E) (l : list E) rest, length es <= length rest ->
  set_slots (length l) es (map Some l ++ rest) = Some (map Some (l ++ es) ++ skipn (length es) rest).
Proof.
  intros E es. induction es as [|e es IH]; intros l rest H; cbn [set_slots].
  - rewrite app_nil_r. reflexivity.
  - destruct rest as [|y rest]; cbn [length] in H; [lia|].
    rewrite set_slot_end.
    replace (map Some l ++ Some e :: rest) with (map Some (l ++ [e]) ++ rest)
      by (rewrite map_app, <- app_assoc; reflexivity).
    replace (S (length l)) with (length (l ++ [e])) by (rewrite app_length; cbn; lia).
    rewrite IH by lia. rewrite <- app_assoc. reflexivity.
Qed.

Lemma holds_new : forall {E} s, holds s (@v_new E) [].
Proof. intros. exists []. cbn. repeat split. lia. Qed.

Lemma holds_cap : forall {E} s (v : vec E) l, holds s v l -> (N.of_nat (length l) <= vcap v)%N /\ (vcap v < 2 ^ 64 \/ s = 0)%N.
Proof.
  intros E s v l (rest & H1 & H2 & H3 & H4). split.
  - rewrite <- H3, H1, app_length, map_length. lia.
  - destruct (N.eq_dec s 0); [right; auto|]. left.
    assert (1 * vcap v <= s * vcap v)%N by (apply N.mul_le_mono_r; lia). lia.
Qed.

Lemma v_remaining_eq : forall {E} s (v : vec E) l, s <> 0%N -> holds s v l ->
  v_remaining v = (vcap v - N.of_nat (length l))%N.
Proof.
  intros E s v l Hs H. destruct (holds_cap s v l H) as [H1 [H2 | H2]]; [|congruence].
  destruct H as (rest & _ & Hl & _ & _). unfold v_remaining. rewrite Hl.
  replace (vcap v + 2 ^ 64 - N.of_nat (length l))%N with (vcap v - N.of_nat (length l) + 1 * 2 ^ 64)%N by lia.
  rewrite N.mod_add by (apply N.pow_nonzero; lia). apply N.mod_small. lia.
Qed.

Lemma v_resize_grow : forall {E} s n (m : list (option E)), s <> 0%N -> (s * n < 2 ^ 64)%N ->
  (N.of_nat (length m) <= n)%N ->
  exists k, v_resize s n m = m ++ repeat None k /\ N.of_nat (length (v_resize s n m)) = n.
Proof.
  intros E s n m Hs H L. unfold v_resize. rewrite usz_small by auto.
  rewrite (N.mul_comm s n), N.div_mul by auto.
  exists (N.to_nat n - length m). rewrite firstn_all2 by lia. split; [reflexivity|].
  rewrite app_length, repeat_length. lia.
Qed.

(** [try_reserve]. *)
Lemma v_try_reserve_spec : forall {E} s ok n (v : vec E) l, s <> 0%N -> holds s v l ->
  (s * (N.of_nat (length l) + n) < 2 ^ 64)%N ->
  let r := v_try_reserve s ok n v in
  holds s (snd r) l /\
  (fst r = true -> (N.of_nat (length l) + n <= vcap (snd r))%N) /\
  (fst r = false -> snd r = v /\ exists k, ok k = false) /\
  (vcap (snd r) = vcap v \/ vcap (snd r) = N.of_nat (length l) + n)%N.
Proof.
  intros E s ok n v l Hs H Hn. cbv zeta. unfold v_try_reserve.
  rewrite (v_remaining_eq s v l Hs H).
  destruct (holds_cap s v l H) as [C _].
  assert (B : (N.of_nat (length l) + n < 2 ^ 64)%N).
  { assert (1 * (N.of_nat (length l) + n) <= s * (N.of_nat (length l) + n))%N by (apply N.mul_le_mono_r; lia). lia. }
  assert (Hl : vlen v = length l) by (destruct H as (r & _ & Hl & _); auto).
  destruct (N.ltb_spec (vcap v - N.of_nat (length l)) n) as [L | L].
  - rewrite Hl, usz_small by auto. destruct (ok _) eqn:Eok; cbn [fst snd].
    + split; [|split; [intros _; cbn [vcap]; lia | split; [discriminate | right; reflexivity]]].
      destruct H as (rest & H1 & H2 & H3 & H4).
      destruct (v_resize_grow s (N.of_nat (length l) + n)%N (slots v) Hs Hn) as (k & E1 & E2); [lia|].
      exists (rest ++ repeat None k). cbn [slots vlen vcap]. split; [|split; [auto | split; auto]].
      rewrite E1, H1, <- app_assoc. reflexivity.
    + split; [auto|]. split; [discriminate|]. split; [intros _; split; [reflexivity | eexists; eauto] | auto].
  - cbn [fst snd]. split; [auto|]. split; [intros; lia|]. split; [discriminate | auto].
Qed.

Lemma first_capacity_bounds : forall s, (1 <= first_capacity s <= 8)%N.
Proof.
  intro s. unfold first_capacity. generalize (1024 / s)%N. intro q.
  destruct (N.eqb_spec q 0); [lia|]. destruct (N.leb_spec q 8); lia.
Qed.

Lemma fits_le : forall s a b, (a <= b)%N -> fits s b -> fits s a.
Proof. unfold fits. intros s a b H F. eapply N.le_lt_trans; [|exact F]. apply N.mul_le_mono_l. lia. Qed.

Lemma fits_mul : forall s a b, (a <= 2 * b + 8)%N -> fits s b -> (s * a < 2 ^ 64)%N.
Proof. unfold fits. intros s a b H F. eapply N.le_lt_trans; [|exact F]. apply N.mul_le_mono_l. lia. Qed.

(** [try_grow] on a full vector. *)
Lemma v_try_grow_spec : forall {E} s ok (v : vec E) l, s <> 0%N -> holds s v l -> fits s (N.of_nat (length l)) ->
  N.of_nat (length l) = vcap v ->
  let r := v_try_grow s ok v in
  holds s (snd r) l /\
  (fst r = true -> (N.of_nat (length l) < vcap (snd r))%N) /\
  (fst r = false -> snd r = v /\ exists k, ok k = false).
Proof.
  intros E s ok v l Hs H F Full. cbv zeta. unfold v_try_grow.
  destruct (N.eqb_spec (vcap v) 0) as [Z | Z].
  - pose proof (first_capacity_bounds s) as B.
    destruct (v_try_reserve_spec s ok (first_capacity s) v l Hs H) as (A1 & A2 & A3 & _).
    { eapply fits_mul; [|exact F]. lia. }
    split; [auto|]. split; [intro K; specialize (A2 K); lia | auto].
  - destruct (v_try_reserve_spec s ok (N.max (N.div2 (vcap v)) 1) v l Hs H) as (A1 & A2 & A3 & _).
    { eapply fits_mul; [|exact F]. rewrite N.div2_div. assert (vcap v / 2 <= vcap v)%N by (apply N.div_le_upper_bound; lia). lia. }
    split; [auto|]. split; [intro K; specialize (A2 K); lia | auto].
Qed.

Lemma v_write_end_spec : forall {E} s (v : vec E) l e, holds s v l -> (N.of_nat (length l) < vcap v)%N ->
  exists v', v_write_end v e = Some v' /\ holds s v' (l ++ [e]) /\ vcap v' = vcap v.
Proof.
  intros E s v l e (rest & H1 & H2 & H3 & H4) L.
  rewrite H1, app_length, map_length in H3.
  destruct rest as [|y rest]; [cbn in H3; lia|].
  unfold v_write_end. rewrite H1, H2.
  rewrite set_slot_end. eexists. split; [reflexivity|]. split; [|reflexivity].
  exists rest. cbn [slots vlen vcap]. rewrite map_app, <- app_assoc. split; [reflexivity|].
  split; [rewrite app_length; cbn; lia|]. split; [|auto].
  rewrite app_length, map_length. cbn [length] in *. lia.
Qed.

(** Making room for one element, as [push] and [try_push] do. *)
Lemma push_room : forall {E} s ok (v : vec E) l, s <> 0%N -> holds s v l -> fits s (N.of_nat (length l)) ->
  let r := if N.eqb (N.of_nat (vlen v)) (vcap v) then v_try_grow s ok v else (true, v) in
  holds s (snd r) l /\
  (fst r = true -> (N.of_nat (length l) < vcap (snd r))%N) /\
  (fst r = false -> snd r = v /\ exists k, ok k = false).
Proof.
  intros E s ok v l Hs H F. cbv zeta.
  assert (Hl : vlen v = length l) by (destruct H as (r & _ & Hl & _); auto).
  rewrite Hl. destruct (N.eqb_spec (N.of_nat (length l)) (vcap v)) as [Q | Q].
  - apply v_try_grow_spec; auto.
  - cbn [fst snd]. destruct (holds_cap s v l H). split; [auto|]. split; [intros; lia | discriminate].
Qed.

Lemma v_push_spec : forall {E} s ok (v : vec E) l e, s <> 0%N -> holds s v l -> fits s (N.of_nat (length l)) ->
  (exists v', v_push s ok e v = Done v' [] [] /\ holds s v' (l ++ [e])) \/
  ((exists k, ok k = false) /\ v_push s ok e v = Panicked v [] [e]).
Proof.
  intros E s ok v l e Hs H F. destruct (push_room s ok v l Hs H F) as (A & B & C).
  unfold v_push. destruct (if N.eqb _ _ then _ else _) as [g v1] eqn:Eg. cbn [fst snd] in *.
  destruct g.
  - left. destruct (v_write_end_spec s v1 l e A (B eq_refl)) as (v' & E1 & E2 & _).
    rewrite E1. exists v'. auto.
  - right. destruct (C eq_refl) as [-> D]. auto.
Qed.

Lemma v_try_push_spec : forall {E} s ok (v : vec E) l e, s <> 0%N -> holds s v l -> fits s (N.of_nat (length l)) ->
  (exists v', v_try_push s ok e v = (true, Done v' [] []) /\ holds s v' (l ++ [e])) \/
  ((exists k, ok k = false) /\ v_try_push s ok e v = (false, Done v [e] [])).
Proof.
  intros E s ok v l e Hs H F. destruct (push_room s ok v l Hs H F) as (A & B & C).
  unfold v_try_push. destruct (if N.eqb _ _ then _ else _) as [g v1] eqn:Eg. cbn [fst snd] in *.
  destruct g.
  - left. destruct (v_write_end_spec s v1 l e A (B eq_refl)) as (v' & E1 & E2 & _).
    rewrite E1. exists v'. auto.
  - right. destruct (C eq_refl) as [-> D]. auto.
Qed.

Lemma v_write_all_spec : forall {E} s es (v : vec E) l, holds s v l ->
  (N.of_nat (length l + length es) <= vcap v)%N ->
  exists v', v_write_all es v = Some v' /\ holds s v' (l ++ es).
Proof.
  intros E s es. induction es as [|e es IH]; intros v l H L; cbn [v_write_all].
  - exists v. rewrite app_nil_r. auto.
  - cbn [length] in L. destruct (v_write_end_spec s v l e H) as (v1 & E1 & E2 & E3); [lia|].
    rewrite E1. destruct (IH v1 (l ++ [e]) E2) as (v' & E4 & E5).
    { rewrite E3, app_length. cbn. lia. }
    exists v'. rewrite <- app_assoc in E5. auto.
Qed.

Lemma v_push_all_spec : forall {E} s ok es (v : vec E) l, s <> 0%N -> holds s v l ->
  fits s (N.of_nat (length l + length es)) ->
  (exists v', v_push_all s ok es v = Done v' [] [] /\ holds s v' (l ++ es)) \/
  ((exists k, ok k = false) /\ exists es1 es2 v', es = es1 ++ es2 /\
     v_push_all s ok es v = Panicked v' [] es2 /\ holds s v' (l ++ es1)).
Proof.
  intros E s ok es. induction es as [|e es IH]; intros v l Hs H F; cbn [v_push_all].
  - left. exists v. rewrite app_nil_r. auto.
  - cbn [length] in F. destruct (v_push_spec s ok v l e Hs H) as [(v1 & E1 & E2) | [K E1]].
    { eapply fits_le; [|exact F]. lia. }
    + rewrite E1. destruct (IH v1 (l ++ [e]) Hs E2) as [(v' & E3 & E4) | (K & es1 & es2 & v' & -> & E3 & E4)].
      { eapply fits_le; [|exact F]. rewrite app_length. cbn. lia. }
      * left. exists v'. rewrite <- app_assoc in E4. auto.
      * right. split; [auto|]. exists (e :: es1), es2, v'. rewrite <- app_assoc in E4. auto.
    + rewrite E1. right. split; [auto|]. exists [], (e :: es), v. rewrite app_nil_r. auto.
Qed.

Lemma map_Some_inj : forall {E} (a b : list E), map Some a = map Some b -> a = b.
Proof. intros E a. induction a; intros [|y b] H; cbn in H; try discriminate; auto. injection H as -> H. f_equal; auto. Qed.

Lemma v_swap_spec : forall {E} s (v : vec E) l a b, holds s v l -> a < length l -> b < length l ->
  exists v' l', v_swap a b v = Done v' [] [] /\ holds s v' l' /\ exchanged a b l l' /\ vlen v' = vlen v.
Proof.
  intros E s v l a b (rest & H1 & H2 & H3 & H4) Ha Hb. unfold v_swap. rewrite H2.
  replace (Nat.ltb a (length l)) with true by (symmetry; apply Nat.ltb_lt; auto).
  replace (Nat.ltb b (length l)) with true by (symmetry; apply Nat.ltb_lt; auto). cbn [andb].
  unfold swap_slots.
  destruct (nth_error l a) as [x|] eqn:Ex; [|apply nth_error_None in Ex; lia].
  destruct (nth_error l b) as [y|] eqn:Ey; [|apply nth_error_None in Ey; lia].
  assert (Sx : nth_error (slots v) a = Some (Some x)).
  { rewrite H1, nth_error_app1 by (rewrite map_length; auto). rewrite nth_error_map, Ex. reflexivity. }
  assert (Sy : nth_error (slots v) b = Some (Some y)).
  { rewrite H1, nth_error_app1 by (rewrite map_length; auto). rewrite nth_error_map, Ey. reflexivity. }
  rewrite Sx, Sy.
  assert (La : a < length (slots v)) by (apply nth_error_Some; congruence).
  assert (Lb : b < length (slots v)) by (apply nth_error_Some; congruence).
  destruct (set_slot_nth (slots v) a (Some y) La) as (m1 & F1 & F2 & F3 & F4). rewrite F1.
  destruct (set_slot_nth m1 b (Some x)) as (m2 & G1 & G2 & G3 & G4); [lia|]. rewrite G1.
  assert (Na : nth_error m2 a = Some (Some y)).
  { destruct (Nat.eq_dec a b) as [-> | N]; [|rewrite G4; auto].
    rewrite G3. congruence. }
  assert (Nk : forall k, k <> a -> k <> b -> nth_error m2 k = nth_error (slots v) k).
  { intros k K1 K2. rewrite G4, F4; auto. }
  destruct (some_prefix m2 (length l)) as (l' & rest' & E1 & E2).
  { intros k Hk. destruct (Nat.eq_dec k b) as [-> | Kb]; [eauto|].
    destruct (Nat.eq_dec k a) as [-> | Ka]; [eauto|].
    rewrite (Nk k Ka Kb), H1. rewrite nth_error_app1 by (rewrite map_length; auto).
    rewrite nth_error_map. destruct (nth_error l k) eqn:Ek; [cbn; eauto | apply nth_error_None in Ek; lia]. }
  assert (Nl : forall k, k < length l -> nth_error m2 k = option_map Some (nth_error l' k)).
  { intros k Hk. rewrite E1, nth_error_app1, nth_error_map by (rewrite map_length; lia). reflexivity. }
  eexists. exists l'. split; [reflexivity|]. split; [|split; [|cbn [vlen]; lia]].
  - exists rest'. cbn [slots vlen vcap]. split; [auto|]. split; [lia|]. split; [lia|auto].
  - split; [auto|]. split; [|split].
    + pose proof (Nl a Ha) as Q. rewrite Na in Q. rewrite Ey.
      destruct (nth_error l' a); cbn in Q; congruence.
    + pose proof (Nl b Hb) as Q. rewrite G3 in Q. rewrite Ex.
      destruct (nth_error l' b); cbn in Q; congruence.
    + intros k K1 K2. destruct (Nat.lt_ge_cases k (length l)) as [L | L].
      * pose proof (Nl k L) as Q. rewrite (Nk k K1 K2), H1, nth_error_app1, nth_error_map in Q by (rewrite map_length; auto).
        destruct (nth_error l' k), (nth_error l k); cbn in Q; congruence.
      * replace (nth_error l k) with (@None E) by (symmetry; apply nth_error_None; auto).
        apply nth_error_None. lia.
Qed.

Lemma v_pop_spec : forall {E} s (v : vec E) l e, holds s v (l ++ [e]) ->
  exists v', v_pop v = Done v' [e] [] /\ holds s v' l.
Proof.
  intros E s v l e (rest & H1 & H2 & H3 & H4). unfold v_pop.
  rewrite app_length in H2. cbn in H2. rewrite H2. replace (length l + 1) with (S (length l)) by lia.
  rewrite H1. rewrite (get_slot_some (l ++ [e]) rest (length l) e).
  - eexists. split; [reflexivity|]. exists (Some e :: rest). cbn [slots vlen vcap v_set_len].
    split; [rewrite H1, map_app, <- app_assoc; reflexivity|]. split; [reflexivity|]. auto.
  - rewrite nth_error_app2, Nat.sub_diag by lia. reflexivity.
Qed.

(** Moving a tail down. *)
Lemma copy_slots_tail : forall {E} (a b c : list E) rest,
  copy_slots (length a + length b) (length a) (length c) (map Some (a ++ b ++ c) ++ rest) =
  Some (map Some (a ++ c) ++ skipn (length a + length c) (map Some (a ++ b ++ c) ++ rest)).
Proof.
  intros E a b c rest. unfold copy_slots.
  set (m := map Some (a ++ b ++ c) ++ rest).
  assert (L : length m = length a + length b + length c + length rest).
  { unfold m. rewrite app_length, map_length, !app_length. lia. }
  replace (Nat.leb (length a + length b + length c) (length m)) with true by (symmetry; apply Nat.leb_le; lia).
  replace (Nat.leb (length a + length c) (length m)) with true by (symmetry; apply Nat.leb_le; lia).
  cbn [andb]. f_equal. rewrite map_app, <- app_assoc. f_equal; [|f_equal].
  - unfold m. rewrite map_app, <- app_assoc, firstn_app, map_length, Nat.sub_diag, firstn_O, app_nil_r.
    apply firstn_all2. rewrite map_length. lia.
  - unfold m. rewrite !map_app, <- !app_assoc, app_assoc.
    replace (length a + length b) with (length (map (@Some E) a ++ map Some b)) by (rewrite app_length, !map_length; reflexivity).
    rewrite skipn_app, skipn_all, Nat.sub_diag. cbn [app skipn].
    replace (length c) with (length (map (@Some E) c)) by apply map_length.
    rewrite firstn_app, Nat.sub_diag, firstn_O, app_nil_r, firstn_all. reflexivity.
Qed.

Lemma list_at : forall {E} (l : list E) i, i < length l -> exists a e b, l = a ++ e :: b /\ length a = i.
Proof.
  intros E l i H. destruct (nth_error l i) as [e|] eqn:Q; [|apply nth_error_None in Q; lia].
  destruct (nth_error_split l i Q) as (a & b & -> & <-). eauto.
Qed.

Lemma skipn_len_le : forall {E} n (l : list E), length (skipn n l) = length l - n.
Proof. intros. apply skipn_length. Qed.

Lemma v_remove_spec : forall {E} s (v : vec E) a e b, holds s v (a ++ e :: b) ->
  exists v', v_remove (length a) v = Done v' [e] [] /\ holds s v' (a ++ b).
Proof.
  intros E s v a e b (rest & H1 & H2 & H3 & H4). unfold v_remove.
  rewrite app_length in H2. cbn [length] in H2. rewrite H2.
  replace (Nat.ltb (length a) (length a + S (length b))) with true by (symmetry; apply Nat.ltb_lt; lia).
  rewrite H1.
  rewrite (get_slot_some (a ++ e :: b) rest (length a) e) by (rewrite nth_error_app2, Nat.sub_diag by lia; reflexivity).
  replace (length a + S (length b) - S (length a)) with (length b) by lia.
  pose proof (copy_slots_tail a [e] b rest) as C. cbn [length app] in C.
  replace (S (length a)) with (length a + 1) by lia. rewrite C.
  eexists. split; [reflexivity|]. eexists. cbn [slots vlen vcap]. split; [reflexivity|].
  split; [rewrite app_length; lia|]. split; [|auto].
  rewrite <- H3, H1. rewrite !app_length, !map_length, skipn_length, !app_length, !map_length, !app_length.
  cbn [length]. lia.
Qed.

Lemma v_truncate_spec : forall {E} s (v : vec E) l n, holds s v l ->
  exists v', v_truncate n v = Done v' [] (skipn n l) /\ holds s v' (firstn n l).
Proof.
  intros E s v l n H. pose proof H as (rest & H1 & H2 & H3 & H4). unfold v_truncate. rewrite H2.
  destruct (Nat.leb_spec (length l) n) as [L | L].
  - exists v. rewrite skipn_all2, firstn_all2 by auto. auto.
  - rewrite H1, get_slots_some by lia.
    replace (firstn (length l - n) (skipn n l)) with (skipn n l) by (rewrite firstn_all2; auto; rewrite skipn_length; lia).
    eexists. split; [reflexivity|]. exists (map Some (skipn n l) ++ rest). cbn [slots vlen vcap v_set_len].
    split; [|split; [rewrite firstn_length; lia | auto]].
    rewrite app_assoc, <- map_app, firstn_skipn. auto.
Qed.

Lemma v_try_copy_extend_spec : forall {E} s ok (v : vec E) l es, s <> 0%N -> holds s v l ->
  fits s (N.of_nat (length l + length es)) ->
  (exists v', v_try_copy_extend s ok es v = (true, Done v' [] []) /\ holds s v' (l ++ es)) \/
  ((exists k, ok k = false) /\ v_try_copy_extend s ok es v = (false, Done v [] [])).
Proof.
  intros E s ok v l es Hs H F. unfold v_try_copy_extend. destruct es as [|e es].
  - left. exists v. rewrite app_nil_r. auto.
  - destruct (v_try_reserve_spec s ok (N.of_nat (length (e :: es))) v l Hs H) as (A & B & C & _).
    { eapply fits_mul; [|exact F]. lia. }
    destruct (v_try_reserve s ok _ v) as [g v1]. cbn [fst snd] in *. destruct g.
    + left. specialize (B eq_refl). destruct A as (rest & H1 & H2 & H3 & H4).
      rewrite H1, app_length, map_length in H3. rewrite H2, H1.
      rewrite set_slots_app by lia.
      eexists. split; [reflexivity|]. eexists. cbn [slots vlen vcap]. split; [reflexivity|].
      split; [rewrite app_length; reflexivity|]. split; [|auto].
      rewrite <- H3, app_length, map_length, app_length, skipn_length. lia.
    + right. destruct (C eq_refl) as [-> K]. auto.
Qed.

Lemma v_extend_spec : forall {E} s ok (v : vec E) l es lo hi, s <> 0%N -> holds s v l ->
  honest (Extend es lo hi) -> fits s (N.of_nat (length l) + weight (Extend es lo hi)) ->
  (exists v', v_extend s ok es lo hi v = Done v' [] [] /\ holds s v' (l ++ es)) \/
  ((exists k, ok k = false) /\ exists es1 es2 v', es = es1 ++ es2 /\
     v_extend s ok es lo hi v = Panicked v' [] es2 /\ holds s v' (l ++ es1)).
Proof.
  intros E s ok v l es lo hi Hs H Ho F. cbn [honest weight] in *. destruct Ho as [Ho1 Ho2].
  unfold v_extend, v_reserve. destruct hi as [h|].
  - destruct (v_try_reserve_spec s ok h v l Hs H) as (A & B & C & _).
    { eapply fits_mul; [|exact F]. lia. }
    destruct (v_try_reserve s ok h v) as [g v1]. cbn [fst snd] in *. destruct g.
    + left. destruct (v_write_all_spec s es v1 l A) as (v' & E1 & E2); [specialize (B eq_refl); lia|].
      rewrite E1. eauto.
    + right. destruct (C eq_refl) as [-> K]. split; [auto|].
      exists [], es, v. rewrite app_nil_r. auto.
  - destruct (v_try_reserve_spec s ok lo v l Hs H) as (A & B & C & _).
    { eapply fits_mul; [|exact F]. lia. }
    destruct (v_try_reserve s ok lo v) as [g v1]. cbn [fst snd] in *. destruct g.
    + apply v_push_all_spec; auto. eapply fits_le; [|exact F]. lia.
    + right. destruct (C eq_refl) as [-> K]. split; [auto|].
      exists [], es, v. rewrite app_nil_r. auto.
Qed.

Lemma nth_ext_eq : forall {E} (l l' : list E), (forall k, nth_error l k = nth_error l' k) -> l = l'.
Proof.
  intros E l. induction l as [|x l IH]; intros [|y l'] H; auto.
  - specialize (H 0). discriminate.
  - specialize (H 0). discriminate.
  - pose proof (H 0) as H0. injection H0 as ->. f_equal. apply IH. intro k. exact (H (S k)).
Qed.

Lemma exchanged_last : forall {E} (a : list E) e b z l', exchanged (length a) (length a + S (length b)) (a ++ e :: b ++ [z]) l' ->
  l' = a ++ z :: b ++ [e].
Proof.
  intros E a e b z l' (L & X & Y & K).
  apply nth_ext_eq. intro k.
  destruct (Nat.eq_dec k (length a)) as [-> | Ka].
  - rewrite X. rewrite !nth_error_app2 by lia. rewrite Nat.sub_diag.
    replace (length a + S (length b) - length a) with (S (length b)) by lia.
    cbn [nth_error]. rewrite nth_error_app2, Nat.sub_diag by lia. reflexivity.
  - destruct (Nat.eq_dec k (length a + S (length b))) as [-> | Kb].
    + rewrite Y. rewrite !nth_error_app2 by lia. rewrite Nat.sub_diag.
      replace (length a + S (length b) - length a) with (S (length b)) by lia.
      cbn [nth_error]. rewrite nth_error_app2, Nat.sub_diag by lia. reflexivity.
    + rewrite K by auto. destruct (Nat.lt_ge_cases k (length a)).
      * rewrite !nth_error_app1 by auto. reflexivity.
      * rewrite !nth_error_app2 by lia. destruct (k - length a) as [|j] eqn:Ej; [lia|].
        cbn [nth_error]. destruct (Nat.lt_ge_cases j (length b)).
        -- rewrite !nth_error_app1 by auto. reflexivity.
        -- rewrite !nth_error_app2 by lia. destruct (j - length b) as [|i] eqn:Ei; [lia|].
           destruct i; reflexivity.
Qed.

Lemma exchanged_same : forall {E} (a : nat) (l l' : list E), exchanged a a l l' -> l' = l.
Proof.
  intros E a l l' (L & X & Y & K). apply nth_ext_eq. intro k.
  destruct (Nat.eq_dec k a) as [-> |]; auto.
Qed.

Lemma v_swap_remove_spec : forall {E} s ok (v : vec E) l i, holds s v l ->
  exists v' l' ret, v_swap_remove i v = Done v' ret [] /\ holds s v' l' /\ lstep ok (SwapRemove i) l l' ret [] false.
Proof.
  intros E s ok v l i H. pose proof H as (rest & H1 & H2 & H3 & H4). unfold v_swap_remove. rewrite H2.
  destruct (Nat.leb_spec (length l) i) as [L | L].
  - exists v, l, []. split; [auto|]. split; [auto|]. apply ls_swap_remove_none; auto.
  - destruct (v_swap_spec s v l i (length l - 1) H L) as (v1 & l1 & E1 & E2 & E3 & _); [lia|]. rewrite E1.
    destruct (list_at l i L) as (a & e & b & -> & <-).
    rewrite app_length in E3. cbn [length] in E3.
    destruct (rev b) as [|z rb] eqn:Eb.
    + assert (b = []) as -> by (rewrite <- (rev_involutive b), Eb; reflexivity). cbn [length] in E3.
      replace (length a + 1 - 1) with (length a) in E3 by lia.
      apply exchanged_same in E3. subst l1.
      destruct (v_pop_spec s v1 a e E2) as (v' & P1 & P2). rewrite P1.
      exists v', a, [e]. split; [auto|]. split; [auto|]. apply ls_swap_remove_last.
    + assert (b = rev rb ++ [z]) as -> by (rewrite <- (rev_involutive b), Eb; reflexivity).
      rewrite app_length in E3. cbn [length] in E3.
      replace (length a + S (length (rev rb) + 1) - 1) with (length a + S (length (rev rb))) in E3 by lia.
      apply exchanged_last in E3. subst l1.
      replace (a ++ z :: rev rb ++ [e]) with ((a ++ z :: rev rb) ++ [e]) in E2 by (rewrite <- app_assoc; reflexivity).
      destruct (v_pop_spec s v1 _ e E2) as (v' & P1 & P2). rewrite P1.
      exists v', (a ++ z :: rev rb), [e]. split; [auto|]. split; [auto|]. apply ls_swap_remove.
Qed.

(** One operation. *)
Lemma v_run1_spec : forall {E} s ok o (v : vec E) l, s <> 0%N -> holds s v l -> honest o ->
  fits s (N.of_nat (length l) + weight o) ->
  exists v' l' a b p, (v_run1 s ok o v = if p : bool then Panicked v' a b else Done v' a b) /\
    holds s v' l' /\ lstep ok o l l' a b p.
Proof.
  intros E s ok o v l Hs H Ho F. pose proof H as (rest & H1 & H2 & H3 & H4).
  destruct o; cbn [v_run1 honest weight] in *.
  - destruct (v_push_spec s ok v l e Hs H) as [(v' & E1 & E2) | [[k K] E1]]; [eapply fits_le; [|exact F]; lia| |]; rewrite E1.
    + exists v', (l ++ [e]), [], [], false. repeat split; auto. constructor.
    + exists v, l, [], [e], true. repeat split; auto. econstructor; eauto.
  - destruct (v_try_push_spec s ok v l e Hs H) as [(v' & E1 & E2) | [[k K] E1]]; [eapply fits_le; [|exact F]; lia| |]; rewrite E1; cbn [snd].
    + exists v', (l ++ [e]), [], [], false. repeat split; auto. constructor.
    + exists v, l, [e], [], false. repeat split; auto. econstructor; eauto.
  - destruct (rev l) as [|e r] eqn:El.
    + assert (l = []) as -> by (rewrite <- (rev_involutive l), El; reflexivity).
      exists v, [], [], [], false. unfold v_pop. rewrite H2. repeat split; auto. constructor.
    + assert (l = rev r ++ [e]) as -> by (rewrite <- (rev_involutive l), El; reflexivity).
      destruct (v_pop_spec s v _ e H) as (v' & E1 & E2).
      exists v', (rev r), [e], [], false. repeat split; auto. constructor.
  - destruct (Nat.lt_ge_cases i (length l)) as [L | L].
    + destruct (list_at l i L) as (a & e & b & -> & <-).
      destruct (v_remove_spec s v a e b H) as (v' & E1 & E2).
      exists v', (a ++ b), [e], [], false. repeat split; auto. constructor.
    + exists v, l, [], [], false. unfold v_remove. rewrite H2.
      replace (Nat.ltb i (length l)) with false by (symmetry; apply Nat.ltb_ge; auto).
      repeat split; auto. apply ls_remove_none; auto.
  - destruct (Nat.lt_ge_cases a (length l)) as [L | L]; [destruct (Nat.lt_ge_cases b (length l)) as [L' | L']|].
    + destruct (v_swap_spec s v l a b H L L') as (v' & l' & E1 & E2 & E3 & _).
      exists v', l', [], [], false. repeat split; auto. constructor; auto.
    + exists v, l, [], [], true. unfold v_swap. rewrite H2.
      replace (Nat.ltb b (length l)) with false by (symmetry; apply Nat.ltb_ge; auto).
      rewrite andb_false_r. repeat split; auto. constructor; auto.
    + exists v, l, [], [], true. unfold v_swap. rewrite H2.
      replace (Nat.ltb a (length l)) with false by (symmetry; apply Nat.ltb_ge; auto).
      repeat split; auto. constructor; auto.
  - destruct (v_swap_remove_spec s ok v l i H) as (v' & l' & ret & E1 & E2 & E3).
    exists v', l', ret, [], false. repeat split; auto.
  - destruct (v_truncate_spec s v l n H) as (v' & E1 & E2).
    exists v', (firstn n l), [], (skipn n l), false. repeat split; auto. constructor.
  - destruct (v_try_reserve_spec s ok n v l Hs H) as (A & B & C & _); [eapply fits_mul; [|exact F]; lia|].
    unfold v_reserve. destruct (v_try_reserve s ok n v) as [g v1]. cbn [fst snd] in *. destruct g.
    + exists v1, l, [], [], false. repeat split; auto. constructor.
    + destruct (C eq_refl) as [_ [k K]]. exists v1, l, [], [], true. repeat split; auto. econstructor; eauto.
  - destruct (v_try_reserve_spec s ok n v l Hs H) as (A & B & C & _); [eapply fits_mul; [|exact F]; lia|].
    eexists. exists l, [], [], false. repeat split; eauto. constructor.
  - unfold v_copy_extend.
    destruct (v_try_copy_extend_spec s ok v l es Hs H) as [(v' & E1 & E2) | [[k K] E1]]; [eapply fits_le; [|exact F]; lia| |]; rewrite E1.
    + exists v', (l ++ es), [], [], false. repeat split; auto. constructor.
    + exists v, l, [], [], true. repeat split; auto. econstructor; eauto.
  - destruct (v_try_copy_extend_spec s ok v l es Hs H) as [(v' & E1 & E2) | [[k K] E1]]; [eapply fits_le; [|exact F]; lia| |]; rewrite E1; cbn [snd].
    + exists v', (l ++ es), [], [], false. repeat split; auto. constructor.
    + exists v, l, [], [], false. repeat split; auto. econstructor; eauto.
  - destruct (v_extend_spec s ok v l es lo hi Hs H Ho F) as [(v' & E1 & E2) | ([k K] & es1 & es2 & v' & -> & E1 & E2)]; rewrite E1.
    + exists v', (l ++ es), [], [], false. repeat split; auto. constructor.
    + exists v', (l ++ es1), [], es2, true. repeat split; auto. econstructor; eauto.
Qed.

Lemma lstep_length : forall {E} ok o (l l' a b : list E) p, honest o -> lstep ok o l l' a b p ->
  (N.of_nat (length l') <= N.of_nat (length l) + weight o)%N.
Proof.
  intros E ok o l l' a b p Ho H. destruct H; cbn [weight honest] in *; rewrite ?app_length; cbn [length]; try lia.
  - destruct H1 as [H1 _]. lia.
  - rewrite app_length. cbn. lia.
  - rewrite firstn_length. lia.
  - destruct Ho as [_ Ho]. destruct hi; lia.
  - destruct Ho as [_ Ho]. rewrite app_length in *. destruct hi; lia.
Qed.

Lemma v_run_spec : forall {E} s h (v : vec E) l, s <> 0%N -> holds s v l ->
  Forall (fun x => honest (fst x)) h -> fits s (N.of_nat (length l) + weights h) ->
  exists v' l' a b, v_run s h v = Some (v', a, b) /\ holds s v' l' /\ lrun h l l' a b.
Proof.
  intros E s h. induction h as [|[o ok] h IH]; intros v l Hs H Ho F.
  - exists v, l, [], []. repeat split; auto. constructor.
  - inversion Ho as [|x y Ho1 Ho2]; subst. cbn [fst weights] in *.
    destruct (v_run1_spec s ok o v l Hs H Ho1) as (v1 & l1 & a & b & p & E1 & E2 & E3).
    { eapply fits_le; [|exact F]. lia. }
    destruct (IH v1 l1 Hs E2 Ho2) as (v2 & l2 & c & d & E4 & E5 & E6).
    { eapply fits_le; [|exact F]. pose proof (lstep_length _ _ _ _ _ _ _ Ho1 E3). lia. }
    exists v2, l2, (a ++ c), (b ++ d). split; [|split; [auto | econstructor; eauto]].
    cbn [v_run]. rewrite E1. destruct p; rewrite E4; reflexivity.
Qed.

(** ** Ownership *)
Lemma exchanged_perm : forall {E} a b (l l' : list E), a < length l -> b < length l -> exchanged a b l l' -> Permutation l l'.
Proof.
  intros E a b. assert (W : forall a b (l l' : list E), a < b -> b < length l -> exchanged a b l l' -> Permutation l l').
  { clear a b. intros a b l l' L Hb X.
    destruct (list_at l a) as (p & x & r & -> & <-); [lia|].
    rewrite app_length in Hb. cbn [length] in Hb.
    destruct (list_at r (b - S (length p))) as (q & y & t & -> & Lq); [lia|].
    assert (l' = p ++ y :: q ++ x :: t).
    { destruct X as (L0 & X & Y & K). apply nth_ext_eq. intro k.
      assert (Bq : b = length p + S (length q)) by lia. subst b. clear Lq Hb.
      assert (G : forall u w, nth_error (p ++ u :: q ++ w :: t) (length p) = Some u).
      { intros. rewrite nth_error_app2, Nat.sub_diag by lia. reflexivity. }
      assert (G' : forall u w, nth_error (p ++ u :: q ++ w :: t) (length p + S (length q)) = Some w).
      { intros. rewrite nth_error_app2 by lia. replace (length p + S (length q) - length p) with (S (length q)) by lia.
        cbn [nth_error]. rewrite nth_error_app2, Nat.sub_diag by lia. reflexivity. }
      destruct (Nat.eq_dec k (length p)) as [-> | Ka]; [rewrite X, G, G'; reflexivity|].
      destruct (Nat.eq_dec k (length p + S (length q))) as [-> | Kb]; [rewrite Y, G, G'; reflexivity|].
      rewrite K by auto. destruct (Nat.lt_ge_cases k (length p)).
      - rewrite !nth_error_app1 by auto. reflexivity.
      - rewrite !nth_error_app2 by lia. destruct (k - length p) as [|j] eqn:Ej; [lia|]. cbn [nth_error].
        destruct (Nat.lt_ge_cases j (length q)).
        + rewrite !nth_error_app1 by auto. reflexivity.
        + rewrite !nth_error_app2 by lia. destruct (j - length q) eqn:Ei; [lia|]. reflexivity. }
    subst l'. apply Permutation_app_head.
    apply (Permutation_trans (l' := y :: x :: q ++ t)).
    - apply (Permutation_trans (l' := x :: y :: q ++ t)); [|apply perm_swap].
      constructor. symmetry. apply Permutation_middle.
    - constructor. apply Permutation_middle. }
  intros l l' Ha Hb X. destruct (Nat.lt_trichotomy a b) as [L | [-> | L]].
  - apply (W a b); auto.
  - apply exchanged_same in X. subst. reflexivity.
  - apply (W b a); auto. destruct X as (X1 & X2 & X3 & X4). split; [auto|]. split; [auto|]. split; [auto|].
    intros. apply X4; auto.
Qed.

Lemma lstep_conserves : forall {E} ok o (l l' a b : list E) p, moving o -> lstep ok o l l' a b p ->
  Permutation (l ++ given o) (l' ++ a ++ b).
Proof.
  intros E ok o l l' a b p M H. destruct H; cbn [given moving] in *; try contradiction;
    rewrite ?app_nil_r; cbn [app]; try reflexivity.
  - rewrite <- app_assoc. apply Permutation_app_head. cbn. apply Permutation_cons_append.
  - apply exchanged_perm in H1; auto.
  - rewrite <- app_assoc. apply Permutation_app_head. cbn [app].
    apply (Permutation_trans (l' := z :: e :: b)).
    + apply (Permutation_trans (l' := e :: z :: b)); [|apply perm_swap].
      constructor. symmetry. apply Permutation_cons_append.
    + constructor. apply Permutation_cons_append.
  - rewrite firstn_skipn. reflexivity.
  - rewrite <- app_assoc. reflexivity.
Qed.

Lemma lrun_conserves : forall {E} h (l l' a b : list E), Forall (fun x => moving (fst x)) h -> lrun h l l' a b ->
  Permutation (l ++ givens h) (l' ++ a ++ b).
Proof.
  intros E h l l' a b M H. induction H.
  - cbn. rewrite app_nil_r. reflexivity.
  - inversion M; subst. cbn [fst] in *. unfold givens. cbn [flat_map fst]. fold (givens h).
    pose proof (lstep_conserves _ _ _ _ _ _ _ H3 H) as P1.
    pose proof (IHlrun H4) as P2.
    rewrite app_assoc. apply (Permutation_trans (l' := (l1 ++ a ++ b) ++ givens h)).
    + apply Permutation_app_tail. auto.
    + rewrite <- app_assoc.
      apply (Permutation_trans (l' := (a ++ b) ++ l1 ++ givens h)).
      { rewrite !app_assoc. apply Permutation_app_tail. rewrite <- app_assoc.
        apply Permutation_app_comm. }
      apply (Permutation_trans (l' := (a ++ b) ++ l2 ++ c ++ d)); [apply Permutation_app_head; auto|].
      rewrite (app_assoc (a ++ b) l2). 
      apply (Permutation_trans (l' := (l2 ++ a ++ b) ++ c ++ d)).
      { apply Permutation_app_tail. apply Permutation_app_comm. }
      rewrite <- !app_assoc. apply Permutation_app_head. apply Permutation_app_head.
      rewrite !app_assoc. apply Permutation_app_tail. apply Permutation_app_comm.
Qed.

Lemma v_drop_spec : forall {E} s (v : vec E) l, holds s v l -> v_drop v = Some (l, negb (N.eqb (vcap v) 0)).
Proof.
  intros E s v l (rest & H1 & H2 & H3 & H4). unfold v_drop, v_as_slice. rewrite H1, H2.
  rewrite get_slots_some by lia. cbn [skipn]. rewrite firstn_all. reflexivity.
Qed.

Lemma v_as_slice_spec : forall {E} s (v : vec E) l, holds s v l -> v_as_slice v = Some l.
Proof.
  intros E s v l (rest & H1 & H2 & H3 & H4). unfold v_as_slice. rewrite H1, H2.
  rewrite get_slots_some by lia. cbn [skipn]. rewrite firstn_all. reflexivity.
Qed.

(** ** Iterators and drains *)
Lemma ii_takes_spec : forall {E} s k (v : vec E) l i, holds s v l ->
  ii_takes k (II v i) = Some (firstn k (skipn i l), II v (if Nat.leb i (length l) then Nat.min (i + k) (length l) else i)).
Proof.
  intros E s k. induction k as [|k IH]; intros v l i H.
  - cbn. destruct (Nat.leb_spec i (length l)); repeat f_equal; lia.
  - pose proof H as (rest & H1 & H2 & H3 & H4). cbn [ii_takes]. unfold ii_next. cbn [ii_vec ii_index].
    rewrite H2. destruct (Nat.ltb_spec i (length l)) as [L | L].
    + destruct (nth_error l i) as [e|] eqn:Ee; [|apply nth_error_None in Ee; lia].
      rewrite H1, (get_slot_some l rest i e Ee). rewrite (IH v l (S i) H).
      replace (skipn i l) with (e :: skipn (S i) l).
      * cbn [firstn]. replace (Nat.leb (S i) (length l)) with true by (symmetry; apply Nat.leb_le; lia).
        replace (Nat.leb i (length l)) with true by (symmetry; apply Nat.leb_le; lia).
        replace (i + S k) with (S i + k) by lia. reflexivity.
      * destruct (nth_error_split l i Ee) as (a & b & -> & <-).
        replace (skipn (S (length a)) (a ++ e :: b)) with b.
        -- rewrite skipn_app, skipn_all, Nat.sub_diag. reflexivity.
        -- change (e :: b) with ([e] ++ b). rewrite app_assoc.
           replace (S (length a)) with (length (a ++ [e])) by (rewrite app_length; cbn; lia).
           rewrite skipn_app, skipn_all, Nat.sub_diag. reflexivity.
    + rewrite (IH v l i H). rewrite skipn_all2 by lia. rewrite !firstn_nil.
      destruct (Nat.leb_spec i (length l)); [|reflexivity].
      replace (Nat.min (i + k) (length l)) with (length l) by lia.
      replace (Nat.min (i + S k) (length l)) with (length l) by lia. reflexivity.
Qed.

Lemma firstn_skipn_all : forall {E} (l : list E) i, firstn (length l - i) (skipn i l) = skipn i l.
Proof. intros. apply firstn_all2. rewrite skipn_length. lia. Qed.

Lemma ii_drop_spec : forall {E} s (v : vec E) l i, holds s v l -> i <= length l ->
  ii_drop (II v i) = Some (skipn i l, negb (N.eqb (vcap v) 0)).
Proof.
  intros E s v l i (rest & H1 & H2 & H3 & H4) L. unfold ii_drop. cbn [ii_vec ii_index].
  rewrite H2, H1, get_slots_some by lia. rewrite firstn_skipn_all.
  cbn [v_drop v_as_slice v_set_len vlen slots get_slots vcap]. unfold v_drop, v_as_slice.
  cbn [v_set_len vlen slots get_slots vcap]. rewrite app_nil_r. reflexivity.
Qed.

Lemma v_drain_spec : forall {E} s (v : vec E) l b1 b2, holds s v l -> small_bound b1 -> small_bound b2 ->
  v_drain b1 b2 v =
  (if ((lower b1 <=? upper (length l) b2) && (upper (length l) b2 <=? N.of_nat (length l)))%N%bool
   then let f := N.to_nat (lower b1) in let t := N.to_nat (upper (length l) b2) in
        Some (Drain (v_set_len v f) f t f (length l)) else None).
Proof.
  intros E s v l b1 b2 (rest & H1 & H2 & H3 & H4) B1 B2. unfold v_drain. rewrite H2.
  replace (bound_from b1) with (lower b1).
  2:{ destruct b1; cbn [bound_from lower small_bound] in *; auto. rewrite usz_small; auto. lia. }
  replace (bound_to (length l) b2) with (upper (length l) b2).
  2:{ destruct b2; cbn [bound_to upper small_bound] in *; auto. rewrite usz_small; auto. lia. }
  reflexivity.
Qed.

Lemma skipn_cons_nth : forall {E} (l : list E) i e, nth_error l i = Some e -> skipn i l = e :: skipn (S i) l.
Proof.
  intros E l. induction l as [|x l IH]; intros [|i] e H; cbn in H; try discriminate.
  - injection H as ->. reflexivity.
  - cbn [skipn]. rewrite (IH i e H). reflexivity.
Qed.

(** [k] nexts of a drain. *)
Lemma d_takes_spec : forall {E} k (w : vec E) l rest f t i o, slots w = map Some l ++ rest -> t <= length l -> i <= t ->
  d_takes k (Drain w f t i o) = Some (firstn k (range l i t), Drain w f t (Nat.min (i + k) t) o).
Proof.
  intros E k. induction k as [|k IH]; intros w l rest f t i o H Ht Hi.
  - cbn. repeat f_equal. lia.
  - cbn [d_takes]. unfold d_next. cbn [d_index d_to d_vec d_from d_orig].
    destruct (Nat.ltb_spec i t) as [L | L].
    + destruct (nth_error l i) as [e|] eqn:Ee; [|apply nth_error_None in Ee; lia].
      rewrite H, (get_slot_some l rest i e Ee), (IH w l rest f t (S i) o H Ht L).
      unfold range. rewrite (skipn_cons_nth l i e Ee).
      replace (t - i) with (S (t - S i)) by lia. cbn [firstn].
      replace (i + S k) with (S i + k) by lia. reflexivity.
    + rewrite (IH w l rest f t i o H Ht Hi). unfold range.
      replace (t - i) with 0 by lia. cbn [firstn]. rewrite !firstn_nil.
      replace (Nat.min (i + k) t) with t by lia. replace (Nat.min (i + S k) t) with t by lia. reflexivity.
Qed.

Lemma dd_takes_spec : forall {E} k (w : vec E) l rest f t i o, slots w = map Some l ++ rest -> t <= length l -> i <= t ->
  dd_takes k (DDrain w f t o i t) = Some (firstn k (range l i t), DDrain w f t o (Nat.min (i + k) t) t).
Proof.
  intros E k. induction k as [|k IH]; intros w l rest f t i o H Ht Hi.
  - cbn. repeat f_equal. lia.
  - cbn [dd_takes]. unfold dd_next. cbn [dd_l dd_r dd_to dd_vec dd_from dd_orig].
    destruct (Nat.ltb_spec i t) as [L | L].
    + destruct (nth_error l i) as [e|] eqn:Ee; [|apply nth_error_None in Ee; lia].
      rewrite H, (get_slot_some l rest i e Ee), (IH w l rest f t (S i) o H Ht L).
      unfold range. rewrite (skipn_cons_nth l i e Ee).
      replace (t - i) with (S (t - S i)) by lia. cbn [firstn].
      replace (i + S k) with (S i + k) by lia. reflexivity.
    + rewrite (IH w l rest f t i o H Ht Hi). unfold range.
      replace (t - i) with 0 by lia. cbn [firstn]. rewrite !firstn_nil.
      replace (Nat.min (i + k) t) with t by lia. replace (Nat.min (i + S k) t) with t by lia. reflexivity.
Qed.

Lemma skipn_skipn' : forall {E} (l : list E) a b, skipn a (skipn b l) = skipn (a + b) l.
Proof.
  intros E l. induction l as [|x l IH]; intros a b; [rewrite !skipn_nil; reflexivity|].
  destruct b as [|b]; [rewrite Nat.add_0_r; reflexivity|].
  rewrite Nat.add_succ_r. cbn [skipn]. apply IH.
Qed.

Lemma skipn_range : forall {E} (l : list E) f t k, f <= t -> t <= length l ->
  skipn k (range l f t) = range l (Nat.min (f + k) t) t.
Proof.
  intros E l f t k H1 H2. unfold range. rewrite skipn_firstn_comm.
  destruct (Nat.le_gt_cases (f + k) t) as [L | L].
  - rewrite Nat.min_l by lia. rewrite skipn_skipn'. replace (t - f - k) with (t - (f + k)) by lia.
    replace (k + f) with (f + k) by lia. reflexivity.
  - rewrite Nat.min_r by lia. replace (t - f - k) with 0 by lia. replace (t - t) with 0 by lia. reflexivity.
Qed.

Lemma range_length : forall {E} (l : list E) f t, f <= t -> t <= length l -> length (range l f t) = t - f.
Proof. intros. unfold range. rewrite firstn_length, skipn_length. lia. Qed.

Lemma drop_range_spec : forall {E} s (v : vec E) l f t i r, holds s v l -> f <= t -> t <= length l -> i <= r -> r <= length l ->
  exists v', drop_range (v_set_len v f) f t i r (length l) = Some (v', range l i r) /\
    holds s v' (firstn f l ++ skipn t l) /\ vcap v' = vcap v.
Proof.
  intros E s v l f t i r (rest & H1 & H2 & H3 & H4) L1 L2 L3 L4. unfold drop_range.
  cbn [v_set_len slots vcap]. rewrite H1, get_slots_some by lia. fold (range l i r).
  pose proof (copy_slots_tail (firstn f l) (range l f t) (skipn t l) rest) as C.
  assert (D : firstn f l ++ range l f t ++ skipn t l = l).
  { unfold range. transitivity (firstn f l ++ skipn f l); [|apply firstn_skipn]. f_equal.
    rewrite <- (firstn_skipn (t - f) (skipn f l)) at 2. f_equal. rewrite skipn_skipn'.
    f_equal. lia. }
  assert (Lf : length (firstn f l) = f) by (rewrite firstn_length; lia).
  rewrite D, range_length in C by lia. rewrite skipn_length, Lf in C.
  replace (f + (t - f)) with t in C by lia. rewrite C.
  eexists. split; [reflexivity|]. split; [|reflexivity].
  eexists. cbn [slots vlen vcap]. split; [reflexivity|].
  split; [rewrite app_length, skipn_length, Lf; lia|]. split; [|auto].
  rewrite <- H3, H1. rewrite app_length, map_length, (app_length (firstn f l)), Lf, !skipn_length, !app_length, !map_length. lia.
Qed.

Lemma holds_cut : forall {E} s (v : vec E) l f, holds s v l -> f <= length l -> holds s (v_set_len v f) (firstn f l).
Proof.
  intros E s v l f (rest & H1 & H2 & H3 & H4) L. exists (map Some (skipn f l) ++ rest). cbn [v_set_len slots vlen vcap].
  split; [rewrite app_assoc, <- map_app, firstn_skipn; auto|]. split; [rewrite firstn_length; lia | auto].
Qed.

Lemma drain_all : forall {E} s (v : vec E) l b1 b2, holds s v l -> small_bound b1 -> small_bound b2 ->
  let f := N.to_nat (lower b1) in let t := N.to_nat (upper (length l) b2) in
  (v_drain b1 b2 v = None <-> ~ (f <= t <= length l)) /\
  forall d, v_drain b1 b2 v = Some d ->
    holds s (d_vec d) (firstn f l) /\
    forall k, exists d', d_takes k d = Some (firstn k (range l f t), d') /\
      d_len d' = t - f - k /\
      (exists v', d_drop d' = Some (v', skipn k (range l f t)) /\ holds s v' (firstn f l ++ skipn t l)) /\
      (exists v', d_stop d' = Some (v', []) /\ holds s v' (firstn f l ++ skipn (Nat.min (f + k) t) l)).
Proof.
  intros E s v l b1 b2 H B1 B2. cbv zeta. rewrite (v_drain_spec s v l b1 b2 H B1 B2). cbv zeta.
  destruct (N.leb_spec (lower b1) (upper (length l) b2)) as [L1 | L1];
  destruct (N.leb_spec (upper (length l) b2) (N.of_nat (length l))) as [L2 | L2]; cbn [andb].
  2,3,4: split; [split; [intros _; lia | reflexivity] | discriminate].
  split; [split; [discriminate | intro Q; exfalso; apply Q; lia]|].
  intros d Q. injection Q as <-.
  remember (N.to_nat (lower b1)) as f eqn:Ef. remember (N.to_nat (upper (length l) b2)) as t eqn:Et.
  assert (Lf : f <= t) by lia. assert (Lt : t <= length l) by lia. clear Ef Et L1 L2 B1 B2 b1 b2.
  split; [cbn [d_vec]; apply holds_cut; auto; lia|].
  intro k. pose proof H as (rest & H1 & H2 & H3 & H4).
  eexists. split.
  { apply (d_takes_spec k (v_set_len v f) l rest f t f (length l)); auto. }
  unfold d_len, d_stop, d_drop. cbn [d_to d_index d_vec d_from d_orig].
  split; [lia|]. split.
  - destruct (drop_range_spec s v l f t (Nat.min (f + k) t) t H) as (v' & E1 & E2 & _); try lia.
    exists v'. rewrite skipn_range by lia. auto.
  - destruct (drop_range_spec s v l f (Nat.min (f + k) t) (Nat.min (f + k) t) (Nat.min (f + k) t) H) as (v' & E1 & E2 & _); try lia.
    exists v'. rewrite E1. unfold range. rewrite Nat.sub_diag. auto.
Qed.

Lemma drain_double_all : forall {E} s (v : vec E) l b1 b2 d k, holds s v l -> small_bound b1 -> small_bound b2 ->
  let f := N.to_nat (lower b1) in let t := N.to_nat (upper (length l) b2) in
  v_drain b1 b2 v = Some d ->
  exists d', dd_takes k (d_double_ended d) = Some (firstn k (range l f t), d') /\
    dd_len d' = t - f - k /\ dd_size_hint d' = t - f - k /\
    exists v', dd_drop d' = Some (v', skipn k (range l f t)) /\ holds s v' (firstn f l ++ skipn t l).
Proof.
  intros E s v l b1 b2 d k H B1 B2. cbv zeta. rewrite (v_drain_spec s v l b1 b2 H B1 B2). cbv zeta.
  destruct (N.leb_spec (lower b1) (upper (length l) b2)) as [L1 | L1];
  destruct (N.leb_spec (upper (length l) b2) (N.of_nat (length l))) as [L2 | L2]; cbn [andb]; try discriminate.
  intro Q. injection Q as <-.
  remember (N.to_nat (lower b1)) as f eqn:Ef. remember (N.to_nat (upper (length l) b2)) as t eqn:Et.
  assert (Lf : f <= t) by lia. assert (Lt : t <= length l) by lia. clear Ef Et L1 L2 B1 B2 b1 b2.
  unfold d_double_ended. cbn [d_to d_index d_vec d_from d_orig]. pose proof H as (rest & H1 & H2 & H3 & H4).
  eexists. split.
  { apply (dd_takes_spec k (v_set_len v f) l rest f t f (length l)); auto. }
  unfold dd_len, dd_size_hint, dd_drop. cbn [dd_to dd_l dd_r dd_vec dd_from dd_orig].
  split; [lia|]. split; [lia|].
  destruct (drop_range_spec s v l f t (Nat.min (f + k) t) t H) as (v' & E1 & E2 & _); try lia.
  exists v'. rewrite skipn_range by lia. auto.
Qed.

(** ** Boxed slices *)
Lemma bs_round_trip : forall {E} s (v : vec E) l, holds s v l -> l <> [] -> vec_of_bs (bs_of_vec v) = Some v.
Proof.
  intros E s v l H N0. destruct (holds_cap s v l H) as [C _]. destruct H as (rest & H1 & H2 & H3 & H4).
  unfold vec_of_bs, bs_capacity, bs_of_vec. cbn [bs_len bs_slots bs_prefix].
  destruct l as [|e l]; [congruence|]. cbn [length] in *. rewrite H2.
  destruct (N.eqb_spec (vcap v) 0); [lia|]. rewrite <- H2. destruct v; reflexivity.
Qed.

Lemma bs_drop_spec : forall {E} s (v : vec E) l, holds s v l -> l <> [] -> bs_drop (bs_of_vec v) = Some (l, true).
Proof.
  intros E s v l (rest & H1 & H2 & H3 & H4) N0. unfold bs_drop, bs_of_vec. cbn [bs_len bs_slots].
  rewrite H1, H2, get_slots_some by lia. cbn [skipn]. rewrite firstn_all.
  destruct l; [congruence | reflexivity].
Qed.

Lemma bs_try_push_spec : forall {E} s (v : vec E) l e, holds s v l -> vcap v <> 0%N ->
  ((N.of_nat (length l) < vcap v)%N /\ exists v', bs_try_push e (bs_of_vec v) = Some (true, bs_of_vec v') /\
     holds s v' (l ++ [e]) /\ vcap v' = vcap v) \/
  (N.of_nat (length l) = vcap v /\ bs_try_push e (bs_of_vec v) = Some (false, bs_of_vec v)).
Proof.
  intros E s v l e H C0. destruct (holds_cap s v l H) as [C _].
  assert (Hl : vlen v = length l) by (destruct H as (r & _ & Hl & _); auto).
  destruct (N.leb_spec (vcap v) (N.of_nat (length l))) as [L | L].
  - right. split; [lia|]. unfold bs_try_push, bs_of_vec. cbn [bs_len bs_prefix]. rewrite Hl.
    destruct (N.eqb_spec (vcap v) 0) as [Z | _]; [congruence|].
    destruct (N.leb_spec (vcap v) (N.of_nat (length l))); [reflexivity | lia].
  - left. split; [auto|]. destruct (v_write_end_spec s v l e H L) as (v' & E1 & E2 & E3).
    exists v'. split; [|auto]. unfold v_write_end in E1. rewrite Hl in E1.
    unfold bs_try_push, bs_of_vec. cbn [bs_slots bs_len bs_prefix]. rewrite Hl, E3.
    destruct (N.eqb_spec (vcap v) 0) as [Z | _]; [congruence|].
    destruct (N.leb_spec (vcap v) (N.of_nat (length l))); [lia|].
    destruct (set_slot (length l) (Some e) (slots v)) as [m|]; [|discriminate].
    injection E1 as <-. reflexivity.
Qed.

Lemma bs_pushes_spec : forall {E} s es (v : vec E) l, holds s v l -> vcap v <> 0%N ->
  let room := N.to_nat (vcap v) - length l in
  exists v', bs_pushes es (bs_of_vec v) = Some (skipn room es, bs_of_vec v') /\
    holds s v' (l ++ firstn room es) /\ vcap v' = vcap v.
Proof.
  intros E s es. induction es as [|e es IH]; intros v l H C0; cbv zeta.
  - exists v. cbn [bs_pushes]. rewrite skipn_nil, firstn_nil, app_nil_r. auto.
  - cbn [bs_pushes]. destruct (bs_try_push_spec s v l e H C0) as [(L & v1 & E1 & E2 & E3) | (L & E1)]; rewrite E1.
    + destruct (IH v1 (l ++ [e]) E2) as (v' & F1 & F2 & F3); [congruence|]. rewrite F1.
      replace (N.to_nat (vcap v1) - length (l ++ [e])) with (N.to_nat (vcap v) - length l - 1) in *
        by (rewrite app_length, E3; cbn; lia).
      destruct (N.to_nat (vcap v) - length l) as [|r] eqn:Er; [lia|].
      cbn [skipn firstn]. replace (S r - 1) with r in * by lia.
      exists v'. split; [reflexivity|]. rewrite <- app_assoc in F2. split; [exact F2 | congruence].
    + destruct (IH v l H C0) as (v' & F1 & F2 & F3). rewrite F1.
      replace (N.to_nat (vcap v) - length l) with 0 in * by lia. cbn [skipn firstn] in *.
      exists v'. auto.
Qed.

Lemma v_clone_spec : forall {E} s ok f (v : vec E) l, s <> 0%N -> holds s v l -> 
  (exists v', v_clone s ok f v = Done v' [] [] /\ holds s v' (map f l) /\ vcap v' = N.of_nat (length l)) \/
  ((exists k, ok k = false) /\ v_clone s ok f v = Panicked v_new [] []).
Proof.
  intros E s ok f v l Hs H. pose proof H as (rest & H1 & H2 & H3 & H4). unfold v_clone, v_reserve. rewrite H2.
  destruct (holds_cap s v l H) as [C _].
  destruct (v_try_reserve_spec s ok (N.of_nat (length l)) (@v_new E) [] Hs (holds_new s)) as (A & B & D & W).
  { cbn [length]. eapply N.le_lt_trans; [|exact H4]. apply N.mul_le_mono_l. lia. }
  destruct (v_try_reserve s ok _ v_new) as [g v1]. cbn [fst snd length vcap v_new] in *. destruct g.
  - left. rewrite (v_as_slice_spec s v l H). specialize (B eq_refl).
    destruct A as (r1 & A1 & A2 & A3 & A4). cbn [map app] in A1.
    pose proof (set_slots_app (map f l) [] r1) as Q. cbn [map app length] in Q. rewrite <- A1 in Q.
    rewrite Q by (rewrite map_length; lia).
    eexists. split; [reflexivity|]. split; [|cbn [vcap]; lia].
    eexists. cbn [slots vlen vcap]. split; [reflexivity|]. split; [rewrite map_length; auto|].
    split; [|auto]. rewrite app_length, !map_length, skipn_length, A1. rewrite A1 in A3. lia.
  - right. destruct (D eq_refl) as [-> K]. auto.
Qed.
