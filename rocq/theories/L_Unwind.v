(** Lemmas for C75. *)
From Coq Require Import NArith List Bool Lia ZifyBool ZifyN ZifyNat Permutation Arith.
From Verif Require Import M_Alloc M_Vec S_Vec L_Alloc L_Vec M_Unwind S_Unwind.
Import ListNotations.

Lemma panics_some : forall bad n c, panics bad c n <> 0 -> exists i, c <= i < c + n /\ bad i = true.
Proof.
  intros bad n. induction n as [|n IH]; intros c H; cbn in H; [congruence|].
  destruct (bad c) eqn:B; [exists c; split; [lia|auto]|]. destruct (IH (S c) H) as (i & A & C). exists i. split; [lia|auto].
Qed.

(** The three ways [destroying] ends. *)
Lemma destroying_cases : forall bad c n, 
  (panics bad c n = 0 /\ destroying bad c n false = Returns /\ destroying bad c n true = Unwinds) \/
  (panics bad c n = 1 /\ destroying bad c n false = Unwinds /\ destroying bad c n true = Aborts) \/
  (panics bad c n > 1 /\ destroying bad c n false = Aborts /\ destroying bad c n true = Aborts).
Proof.
  intros bad c n. unfold destroying. destruct (panics bad c n) as [|[|k]]; cbn [Nat.add]; [left|right; left|right; right]; repeat split; lia.
Qed.

Definition good_step {E} bad c s ok (o : uop E) l (r : uout E) : Prop :=
  exists v' l' a b lk mk p q, r = Goes v' a b p q /\ holds s v' l' /\ ustep bad c ok o l l' a b lk mk p /\ (q = true -> p = true).

Lemma ending_unwound : forall {E} bad c s ok (o : uop E) l v' l' a b, holds s v' l' -> ustep bad c ok o l l' a b [] [] true ->
  good_step bad c s ok o l (ending_with (destroying bad c (length b) true) v' a b false) \/
  (ending_with (destroying bad c (length b) true) v' a b false = Aborted /\ exists i, bad i = true).
Proof.
  intros E bad c s ok o l v' l' a b H U. destruct (destroying_cases bad c (length b)) as [(P & _ & ->)|[(P & _ & ->)|(P & _ & ->)]]; cbn [ending_with].
  - left. exists v', l', a, b, [], [], true, false. auto.
  - right. destruct (panics_some bad (length b) c) as (i & _ & B); [lia|]. eauto.
  - right. destruct (panics_some bad (length b) c) as (i & _ & B); [lia|]. eauto.
Qed.

Lemma u_drop_spec : forall {E} bad c u s (v : vec E) l, holds s v l ->
  u_drop bad c u v = Some (l, destroying bad c (length l) u, Nat.eqb (panics bad c (length l)) 0 || N.eqb (vcap v) 0).
Proof. intros E bad c u s v l H. unfold u_drop. rewrite (v_as_slice_spec s v l H). reflexivity. Qed.

Lemma clone_loop_spec : forall {E} (cl : nat -> option E) n l' rest, n <= length rest ->
  (exists l2, length l2 = n /\ map cl (seq (length l') n) = map Some l2 /\
     clone_loop cl (length l') n (map Some l' ++ rest) l' =
       Copy (Vec (map Some (l' ++ l2) ++ skipn n rest) (length l' + n) (N.of_nat (length l' + length rest)))) \/
  (exists l2, length l2 < n /\ map cl (seq (length l') (length l2)) = map Some l2 /\ cl (length l' + length l2) = None /\
     clone_loop cl (length l') n (map Some l' ++ rest) l' = Interrupted (l' ++ l2)).
Proof.
  intros E cl n. induction n as [|n IH]; intros l' rest L.
  - left. exists []. cbn. rewrite app_nil_r, Nat.add_0_r, app_length, map_length. repeat split.
  - cbn [clone_loop seq map]. destruct (cl (length l')) as [e|] eqn:C.
    + destruct rest as [|y rest]; [cbn in L; lia|]. rewrite set_slot_end.
      assert (Q : map Some l' ++ Some e :: rest = map Some (l' ++ [e]) ++ rest) by (rewrite map_app, <- app_assoc; reflexivity). rewrite Q.
      assert (Z : length (l' ++ [e]) = S (length l')) by (rewrite app_length; cbn; lia).
      destruct (IH (l' ++ [e]) rest) as [(l2 & A & B & D)|(l2 & A & B & D & F)]; [cbn in L; lia| |]; rewrite Z in *.
      * left. exists (e :: l2). cbn [length map]. rewrite A, B. split; [reflexivity|]. split; [reflexivity|]. rewrite D, <- app_assoc. cbn [app skipn].
        f_equal. f_equal; [lia|]. f_equal. lia.
      * right. exists (e :: l2). cbn [length map seq]. rewrite B, C. split; [lia|]. split; [reflexivity|]. split; [rewrite <- D; f_equal; lia|].
        rewrite F, <- app_assoc. reflexivity.
    + right. exists []. cbn. rewrite Nat.add_0_r, app_nil_r, C. repeat split; lia.
Qed.

Lemma u_clone_spec : forall {E} s ok cl (v : vec E) l, s <> 0%N -> holds s v l ->
  (exists v' l', u_clone s ok cl v = Copy v' /\ holds s v' l' /\ map cl (seq 0 (length l)) = map Some l') \/
  (exists l', u_clone s ok cl v = Interrupted l' /\ length l' < length l /\ map cl (seq 0 (length l')) = map Some l' /\ cl (length l') = None) \/
  (exists k, ok k = false /\ u_clone s ok cl v = Interrupted []).
Proof.
  intros E s ok cl v l Hs H. pose proof H as (rest & H1 & H2 & H3 & H4). destruct (holds_cap s v l H) as [Hc _].
  assert (Hb : (s * N.of_nat (length l) < 2 ^ 64)%N) by (eapply N.le_lt_trans; [apply N.mul_le_mono_l; exact Hc | exact H4]).
  unfold u_clone. rewrite H2.
  destruct (v_try_reserve_spec s ok (N.of_nat (length l)) (@v_new E) [] Hs (holds_new s)) as (A & B & C & _); [cbn [length]; replace (N.of_nat 0 + N.of_nat (length l))%N with (N.of_nat (length l)) by lia; exact Hb|].
  unfold v_reserve. destruct (v_try_reserve s ok (N.of_nat (length l)) v_new) as [g v1]. cbn [fst snd] in *. destruct g.
  2:{ destruct (C eq_refl) as [_ [k K]]. right. right. exists k. auto. }
  specialize (B eq_refl). cbn [length] in B. change (N.of_nat 0) with 0%N in B. rewrite N.add_0_l in B. destruct A as (r1 & A1 & A2 & A3 & A4). cbn [map app] in A1.
  rewrite (v_as_slice_spec s v l H).
  destruct (clone_loop_spec cl (length l) [] (slots v1)) as [(l2 & X & Y & Z)|(l2 & X & Y & Y' & Z)]; [lia| |]; cbn [map app length Nat.add] in *; rewrite Z.
  - left. eexists. exists l2. split; [reflexivity|]. cbn [slots vlen]. split; [|exact Y]. exists (skipn (length l) (slots v1)).
    cbn [slots vlen vcap]. split; [reflexivity|]. split; [auto|]. split; [|exact A4].
    rewrite app_length, map_length, skipn_length, X, <- A3. lia.
  - right. left. exists l2. auto.
Qed.

Lemma u_step_spec : forall {E} bad c s ok o (v : vec E) l, s <> 0%N -> holds s v l -> honest' o -> fits s (N.of_nat (length l) + weight' o) ->
  good_step bad c s ok o l (u_step bad c s ok o v) \/ (u_step bad c s ok o v = Aborted /\ exists i, bad i = true) \/ hazard bad c o l.
Proof.
  intros E bad c s ok o v l Hs H Ho F. pose proof H as (rest & H1 & H2 & H3 & H4).
  destruct o as [o|es rs lo hi|b1 b2 k e|k|cl|].
  - (* Plain *) cbn [honest' weight'] in *.
    assert (G : (exists n, o = Truncate n) \/ u_step bad c s ok (Plain o) v =
      match v_run1 s ok o v with Done v' a b => Goes v' a b false false
      | Panicked v' a b => ending_with (destroying bad c (length b) true) v' a b false | UB => Broken end) by (destruct o; eauto).
    destruct G as [[n ->]|G].
    + cbn [u_step hazard]. unfold u_truncate. rewrite H2. destruct (Nat.leb_spec (length l) n) as [L|L].
      * left. exists v, l, [], [], [], [], false, false. split; [reflexivity|]. split; [exact H|]. split; [|discriminate].
        constructor. replace l with (firstn n l) at 2 by (apply firstn_all2; lia). replace (@nil E) with (skipn n l) at 2 by (apply skipn_all2; lia). constructor.
      * destruct (v_truncate_spec s v l n H) as (v' & E1 & E2). unfold v_truncate in E1. rewrite H2 in E1.
        replace (Nat.leb (length l) n) with false in E1 by (symmetry; apply Nat.leb_gt; lia).
        destruct (get_slots n (length l - n) (slots v)) as [d|]; [|discriminate]. injection E1 as <- ->.
        rewrite skipn_length. destruct (destroying_cases bad c (length l - n)) as [(P & -> & _)|[(P & _ & _)|(P & _ & _)]].
        -- left. cbn [ending_with]. exists (v_set_len v n), (firstn n l), [], (skipn n l), [], [], false, false.
           split; [reflexivity|]. split; [exact E2|]. split; [|discriminate]. constructor. constructor.
        -- right. right. lia.
        -- right. right. lia.
    + rewrite G. destruct (v_run1_spec s ok o v l Hs H Ho F) as (v' & l' & a & b & p & E1 & E2 & E3). rewrite E1.
      destruct p.
      * destruct (ending_unwound bad c s ok (Plain o) l v' l' a b E2 (us_plain bad c ok o l l' a b true E3)) as [A|A]; auto.
      * left. exists v', l', a, b, [], [], false, false. split; [reflexivity|]. split; [exact E2|]. split; [constructor; exact E3|discriminate].
  - (* ExtendPanic *) cbn [honest' weight' u_step] in *. unfold u_extend.
    destruct (v_extend_spec s ok v l es lo hi Hs H Ho F) as [(v' & E1 & E2) | ([k K] & es1 & es2 & v' & -> & E1 & E2)]; rewrite E1.
    + destruct (ending_unwound bad c s ok (ExtendPanic es rs lo hi) l v' (l ++ es) [] rs E2 (us_extend bad c ok es rs lo hi l)) as [A|A]; auto.
    + destruct (ending_unwound bad c s ok (ExtendPanic (es1 ++ es2) rs lo hi) l v' (l ++ es1) [] (es2 ++ rs) E2
        (us_extend_fail bad c ok es1 es2 rs lo hi l k K)) as [A|A]; auto.
  - (* UDrain *) cbn [honest' u_step] in *. destruct Ho as [B1 B2]. rewrite (v_drain_spec s v l b1 b2 H B1 B2). cbv zeta.
    destruct (N.leb_spec (lower b1) (upper (length l) b2)) as [L1 | L1];
    destruct (N.leb_spec (upper (length l) b2) (N.of_nat (length l))) as [L2 | L2]; cbn [andb].
    2,3,4: left; exists v, l, [], [], [], [], true, false; split; [reflexivity|]; split; [exact H|]; split; [|auto]; constructor; lia.
    remember (N.to_nat (lower b1)) as f eqn:Ef. remember (N.to_nat (upper (length l) b2)) as t eqn:Et.
    assert (Lf : f <= t) by lia. assert (Lt : t <= length l) by lia.
    assert (Hl : l = firstn f l ++ range l f t ++ skipn t l).
    { unfold range. rewrite <- (firstn_skipn f l) at 1. f_equal. rewrite <- (firstn_skipn (t - f) (skipn f l)) at 1. f_equal. rewrite skipn_skipn'. f_equal. lia. }
    assert (A1 : lower b1 = N.of_nat (length (firstn f l))) by (rewrite firstn_length; lia).
    assert (A2 : upper (length l) b2 = N.of_nat (length (firstn f l ++ range l f t))) by (rewrite app_length, firstn_length, range_length by lia; lia).
    rewrite (d_takes_spec k (v_set_len v f) l rest f t f (length l)) by auto.
    assert (HK : skipn k (range l f t) = range l (Nat.min (f + k) t) t) by (apply skipn_range; lia).
    destruct e.
    + unfold u_d_drop. cbn [d_index d_to d_vec]. cbn [v_set_len slots].
      rewrite H1, get_slots_some by lia. fold (range l (Nat.min (f + k) t) t). rewrite <- HK.
      destruct (destroying_cases bad c (length (skipn k (range l f t)))) as [(P & -> & _)|[(P & -> & _)|(P & -> & _)]].
      * unfold d_drop. cbn [d_to d_index d_vec d_from d_orig].
        destruct (drop_range_spec s v l f t (Nat.min (f + k) t) t H) as (v' & E1 & E2 & _); try lia. rewrite E1. cbn [ending_with].
        left. exists v', (firstn f l ++ skipn t l), (firstn k (range l f t)), (skipn k (range l f t)), [], [], false, false.
        split; [reflexivity|]. split; [exact E2|]. split; [|discriminate]. pose proof (us_drain bad c ok b1 b2 k (firstn f l) (range l f t) (skipn t l) A1) as U. rewrite <- Hl in U. exact (U A2).
      * cbn [ending_with]. left. exists (v_set_len v f), (firstn f l), (firstn k (range l f t)), (skipn k (range l f t)), (skipn t l), [], true, false.
        split; [reflexivity|]. split; [apply holds_cut; auto; lia|]. split; [|discriminate].
        pose proof (us_drain_panic bad c ok b1 b2 k (firstn f l) (range l f t) (skipn t l) A1) as U. rewrite <- Hl in U. apply (U A2). lia.
      * right. left. cbn [ending_with]. split; [reflexivity|]. destruct (panics_some bad (length (skipn k (range l f t))) c) as (i & _ & B); [lia|]. eauto.
    + unfold d_stop, d_drop. cbn [d_to d_index d_vec d_from d_orig].
      destruct (drop_range_spec s v l f (Nat.min (f + k) t) (Nat.min (f + k) t) (Nat.min (f + k) t) H) as (v' & E1 & E2 & _); try lia. rewrite E1.
      unfold range at 2. rewrite Nat.sub_diag. cbn [firstn].
      left. exists v', (firstn f l ++ skipn (Nat.min (f + k) t) l), (firstn k (range l f t)), [], [], [], false, false.
      split; [reflexivity|]. split; [exact E2|]. split; [|discriminate].
      assert (Q : skipn (Nat.min (f + k) t) l = skipn k (range l f t) ++ skipn t l).
      { rewrite HK. unfold range. rewrite <- (firstn_skipn (t - Nat.min (f + k) t) (skipn (Nat.min (f + k) t) l)) at 1. f_equal. rewrite skipn_skipn'. f_equal. lia. }
      rewrite Q. pose proof (us_drain_stop bad c ok b1 b2 k (firstn f l) (range l f t) (skipn t l) A1) as U. rewrite <- Hl in U. exact (U A2).
    + left. exists (v_set_len v f), (firstn f l), (firstn k (range l f t)), [], (skipn k (range l f t) ++ skipn t l), [], false, false.
      split; [reflexivity|]. split; [apply holds_cut; auto; lia|]. split; [|discriminate].
      pose proof (us_drain_forget bad c ok b1 b2 k (firstn f l) (range l f t) (skipn t l) A1) as U. rewrite <- Hl in U. exact (U A2).
  - (* UInto *) cbn [u_step hazard]. rewrite (ii_takes_spec s k v l 0 H). cbn [Nat.leb skipn Nat.add].
    unfold u_ii_drop. cbn [ii_vec ii_index]. rewrite H2, H1, get_slots_some by lia. rewrite firstn_skipn_all.
    assert (Q : skipn (Nat.min k (length l)) l = skipn k l).
    { destruct (Nat.le_gt_cases k (length l)); [rewrite Nat.min_l by lia; auto|]. rewrite Nat.min_r by lia. rewrite !skipn_all2 by lia. auto. }
    rewrite Q, skipn_length. destruct (destroying_cases bad c (length l - k)) as [(P & -> & _)|[(P & _ & _)|(P & _ & _)]]; [|right; right; lia|right; right; lia].
    rewrite (u_drop_spec bad (c + (length l - k)) false s (v_set_len v 0) []) by (apply (holds_cut s v l 0 H); lia).
    cbn [length panics]. rewrite app_nil_r. cbn. left. exists v_new, [], (firstn k l), (skipn k l), [], [], false, false.
    split; [reflexivity|]. split; [apply holds_new|]. split; [constructor|discriminate].
  - (* UClone *) cbn [u_step]. destruct (u_clone_spec s ok cl v l Hs H) as [(v' & l' & E1 & E2 & E3)|[(l' & E1 & E2 & E3 & E4)|(n & K & E1)]]; rewrite E1.
    + rewrite (u_drop_spec bad c false s v l H).
      pose proof (us_clone bad c ok cl l l' E3) as U.
      destruct (destroying_cases bad c (length l)) as [(P & -> & _)|[(P & -> & _)|(P & -> & _)]]; cbn [ending_with]; rewrite P in U || idtac.
      * left. rewrite P. cbn [Nat.eqb orb negb] in *. exists v', l', [], l, [], l', false, false. auto.
      * left. rewrite P. cbn [Nat.eqb orb negb] in *. exists v', l', [], l, [], l', true, (negb (N.eqb (vcap v) 0)). auto.
      * right. left. split; [reflexivity|]. destruct (panics_some bad (length l) c) as (i & _ & B); [lia|]. eauto.
    + left. exists v, l, [], [], l', l', true, false. split; [reflexivity|]. split; [exact H|]. split; [|auto]. apply us_clone_panic; auto.
    + left. exists v, l, [], [], [], [], true, false. split; [reflexivity|]. split; [exact H|]. split; [|auto]. apply (us_clone_fail bad c ok cl l n K).
  - (* UDrop *) cbn [u_step]. rewrite (u_drop_spec bad c false s v l H).
    pose proof (us_drop bad c ok l) as U.
    destruct (destroying_cases bad c (length l)) as [(P & -> & _)|[(P & -> & _)|(P & -> & _)]]; cbn [ending_with]; rewrite P in U || idtac.
    * left. rewrite P. cbn [Nat.eqb orb negb] in *. exists v_new, [], [], l, [], [], false, false. split; [reflexivity|]. split; [apply holds_new|auto].
    * left. rewrite P. cbn [Nat.eqb orb negb] in *. exists v_new, [], [], l, [], [], true, (negb (N.eqb (vcap v) 0)). split; [reflexivity|]. split; [apply holds_new|auto].
    * right. left. split; [reflexivity|]. destruct (panics_some bad (length l) c) as (i & _ & B); [lia|]. eauto.
Qed.

Lemma map_Some_length : forall {E A} (f : A -> option E) (x : list A) (l : list E), map f x = map Some l -> length l = length x.
Proof. intros E A f x l H. apply (f_equal (@length _)) in H. rewrite !map_length in H. auto. Qed.

Lemma ustep_length : forall {E} bad c ok o (l l' a b k m : list E) p, honest' o -> ustep bad c ok o l l' a b k m p ->
  (N.of_nat (length l') <= N.of_nat (length l) + weight' o)%N.
Proof.
  intros E bad c ok o l l' a b k m p Ho H. destruct H; cbn [weight' honest'] in *;
    try match goal with Q : map _ _ = map Some _ |- _ => apply map_Some_length in Q; rewrite seq_length in Q end;
    rewrite ?app_length; try rewrite !app_length in *; try rewrite skipn_length; cbn [length]; try lia.
  - eapply lstep_length; eauto.
  - destruct hi; cbn [weight]; destruct Ho; cbn in *; lia.
  - destruct hi; cbn [weight]; destruct Ho; cbn in *; rewrite ?app_length in *; lia.
Qed.

(** Permutations of concatenations. *)
Ltac rot := etransitivity; [|apply Permutation_app_comm]; rewrite <- ?app_assoc.
Ltac canc n := rewrite <- ?app_assoc; first [reflexivity | match goal with |- Permutation (?x ++ ?a) (?x ++ ?b) => apply Permutation_app_head; canc 9 end
  | match n with S ?k => rot; canc k end].

Lemma ustep_conserves : forall {E} bad c ok o (l l' a b k m : list E) p, moving' o -> ustep bad c ok o l l' a b k m p ->
  Permutation (l ++ given' o ++ m) (l' ++ a ++ b ++ k).
Proof.
  intros E bad c ok o l l' a b k m p M H. destruct H; cbn [given' moving'] in *; rewrite ?app_nil_r; cbn [app]; try reflexivity;
    try (rewrite <- (firstn_skipn k r) at 1; canc 9).
  - apply (lstep_conserves _ _ _ _ _ _ _ M H).
  - canc 9.
  - canc 9.
  - rewrite firstn_skipn. reflexivity.
  - canc 9.
Qed.

Lemma urun_conserves : forall {E} bad c h (l l' a b k m : list E) p, Forall (fun x => moving' (fst x)) h -> urun bad c h l l' a b k m p ->
  Permutation (l ++ givens' h ++ m) (l' ++ a ++ b ++ k).
Proof.
  intros E bad c h l l' a b k m p M H. induction H.
  - cbn. rewrite !app_nil_r. reflexivity.
  - inversion M as [|x y M1 M2]; subst. cbn [fst] in M1. pose proof (ustep_conserves bad c ok o l l1 a b k m p M1 H) as P1. specialize (IHurun M2).
    cbn [givens' flat_map fst]. fold (givens' h).
    transitivity ((l ++ given' o ++ m) ++ (givens' h ++ m')); [canc 9|].
    rewrite P1. transitivity ((l1 ++ givens' h ++ m') ++ (a ++ b ++ k)); [canc 9|].
    rewrite IHurun. canc 9.
Qed.

(** Programs, up to the first hazard or abortion. *)
Lemma u_run_spec : forall {E} bad s h c (v : vec E) l, s <> 0%N -> holds s v l ->
  Forall (fun x => honest' (fst x)) h -> fits s (N.of_nat (length l) + weights' h) ->
  exists h1 h2 v' l' a b k m p q, h = h1 ++ h2 /\ u_run bad c s h1 v = Goes v' a b p q /\ holds s v' l' /\ urun bad c h1 l l' a b k m p /\
    (q = true -> p = true) /\
    (h2 = [] \/ exists o ok h3, h2 = (o, ok) :: h3 /\
       ((u_step bad (c + length b) s ok o v' = Aborted /\ exists i, bad i = true) \/ hazard bad (c + length b) o l')).
Proof.
  intros E bad s h. induction h as [|[o ok] h IH]; intros c v l Hs H Ho F.
  - exists [], [], v, l, [], [], [], [], false, false. repeat split; auto. constructor.
  - inversion Ho as [|x y Ho1 Ho2]; subst. cbn [fst] in Ho1. cbn [weights'] in F.
    assert (F1 : fits s (N.of_nat (length l) + weight' o)) by (eapply fits_le; [|exact F]; lia).
    destruct (u_step_spec bad c s ok o v l Hs H Ho1 F1) as [(v1 & l1 & a & b & k & m & p & q & E1 & E2 & E3 & E4)|St].
    + destruct (IH (c + length b) v1 l1 Hs E2 Ho2) as (h1 & h2 & v2 & l2 & a' & b' & k' & m' & p' & q' & -> & R & H' & U & Q & T).
      { eapply fits_le; [|exact F]. pose proof (ustep_length _ _ _ _ _ _ _ _ _ _ _ Ho1 E3). lia. }
      exists ((o, ok) :: h1), h2, v2, l2, (a ++ a'), (b ++ b'), (k ++ k'), (m ++ m'), (p || p'), (q || q').
      split; [reflexivity|]. split; [cbn [u_run]; rewrite E1, R; reflexivity|]. split; [exact H'|].
      split; [econstructor; eauto|]. split; [destruct q; [rewrite E4 by auto; auto|]; cbn; intro; rewrite Q by auto; apply orb_true_r|].
      rewrite app_length, Nat.add_assoc. exact T.
    + exists [], ((o, ok) :: h), v, l, [], [], [], [], false, false. cbn [length]. rewrite Nat.add_0_r.
      repeat split; auto; [constructor|]. right. exists o, ok, h. split; [reflexivity|]. destruct St; auto.
Qed.

Lemma NoDup_left : forall {A} (a b : list A), NoDup (a ++ b) -> NoDup a.
Proof.
  intros A a. induction a as [|x a IH]; intros b H; [constructor|]. inversion H as [|y z N1 N2]; subst.
  constructor; [intro I; apply N1, in_or_app; auto|eauto].
Qed.

(** Nothing is leaked but by panics and forgotten drains. *)
Definition forgets {E} (o : uop E) : Prop := match o with UDrain _ _ _ Forgotten => True | _ => False end.
Lemma urun_leaks : forall {E} bad c h (l l' a b k m : list E) p, urun bad c h l l' a b k m p ->
  p = false -> Forall (fun x => ~ forgets (fst x)) h -> k = [].
Proof.
  intros E bad c h l l' a b k m p H. induction H; intros P F; [reflexivity|]. apply orb_false_iff in P. destruct P as [-> ->].
  inversion F as [|x y F1 F2]; subst. rewrite (IHurun eq_refl F2), app_nil_r.
  inversion H; subst; try reflexivity. exfalso. apply F1. exact I.
Qed.
