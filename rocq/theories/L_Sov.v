(** Lemmas for C23. *)
From Coq Require Import NArith List Bool Lia ZifyBool ZifyN ZifyNat Arith.
From Verif Require Import M_Alloc M_Layout M_Vec S_Vec M_Sov S_Sov L_Alloc L_Vec.
Import ListNotations.

Lemma with_capacity_spec : forall {E} s ok n, s <> 0%N -> (s * n < 2 ^ 64)%N ->
  (exists v : vec E, v_try_with_capacity s ok n = Some v /\ holds s v [] /\ (n <= vcap v)%N) \/
  ((exists k, ok k = false) /\ @v_try_with_capacity E s ok n = None).
Proof.
  intros E s ok n Hs Hn. unfold v_try_with_capacity.
  destruct (v_try_reserve_spec s ok n (@v_new E) [] Hs (holds_new s)) as (A & B & C & _); [cbn; auto|].
  destruct (v_try_reserve s ok n v_new) as [g v]. cbn [fst snd length] in *. destruct g.
  - left. exists v. specialize (B eq_refl). split; [auto|]. split; [auto | lia].
  - right. destruct (C eq_refl) as [_ K]. auto.
Qed.

(** A push with room does not allocate. *)
Lemma push_with_room : forall {E} s ok (v : vec E) l e, holds s v l -> (N.of_nat (length l) < vcap v)%N ->
  exists v', v_push s ok e v = Done v' [] [] /\ holds s v' (l ++ [e]) /\ vcap v' = vcap v.
Proof.
  intros E s ok v l e H L. assert (Hl : vlen v = length l) by (destruct H as (r & _ & Hl & _); auto).
  unfold v_push. rewrite Hl. destruct (N.eqb_spec (N.of_nat (length l)) (vcap v)); [lia|].
  destruct (v_write_end_spec s v l e H L) as (v' & E1 & E2 & E3). rewrite E1. eauto.
Qed.

Lemma s_try_push_spec : forall {E} s ok (st : sov E) l e, s <> 0%N -> sholds s st l -> fits s (N.of_nat (length l)) ->
  (exists st', s_try_push s ok e st = (true, SDone st' [] []) /\ sholds s st' (l ++ [e])) \/
  ((exists k, ok k = false) /\ s_try_push s ok e st = (false, SDone st [e] [])).
Proof.
  intros E s ok st l e Hs H F. destruct st as [value | v |]; cbn [sholds] in H; [| |contradiction].
  - subst l. unfold s_try_push. destruct (@with_capacity_spec E s ok 8 Hs) as [(v & E1 & E2 & E3) | [K E1]].
    { eapply fits_mul; [|exact F]. lia. }
    + rewrite E1. destruct (push_with_room s ok v [] value E2) as (v1 & F1 & F2 & F3); [cbn; lia|].
      rewrite F1. destruct (push_with_room s ok v1 _ e F2) as (v2 & G1 & G2 & G3); [cbn; lia|].
      rewrite G1. left. eexists. split; [reflexivity | exact G2].
    + rewrite E1. right. auto.
  - unfold s_try_push. destruct (N.eqb_spec (vcap v) 0) as [Z | Z].
    + left. eexists. split; [reflexivity|]. cbn. destruct (holds_cap s v l H) as [C _].
      destruct l; [reflexivity | cbn in C; lia].
    + destruct (v_try_push_spec s ok v l e Hs H F) as [(v' & E1 & E2) | [K E1]]; rewrite E1; cbn [on_vec].
      * left. eauto.
      * right. auto.
Qed.

Lemma s_push_spec : forall {E} s ok (st : sov E) l e, s <> 0%N -> sholds s st l -> fits s (N.of_nat (length l)) ->
  (exists st', s_push s ok e st = SDone st' [] [] /\ sholds s st' (l ++ [e])) \/
  ((exists k, ok k = false) /\ s_push s ok e st = SPanic st [] [e]).
Proof.
  intros E s ok st l e Hs H F. unfold s_push.
  destruct (s_try_push_spec s ok st l e Hs H F) as [(st' & E1 & E2) | [K E1]]; rewrite E1; eauto.
Qed.

Lemma s_push_all_spec : forall {E} s ok es (st : sov E) l, s <> 0%N -> sholds s st l ->
  fits s (N.of_nat (length l + length es)) ->
  (exists st', s_push_all s ok es st = SDone st' [] [] /\ sholds s st' (l ++ es)) \/
  ((exists k, ok k = false) /\ exists es1 es2 st', es = es1 ++ es2 /\
     s_push_all s ok es st = SPanic st' [] es2 /\ sholds s st' (l ++ es1)).
Proof.
  intros E s ok es. induction es as [|e es IH]; intros st l Hs H F; cbn [s_push_all].
  - left. exists st. rewrite app_nil_r. auto.
  - cbn [length] in F. destruct (s_push_spec s ok st l e Hs H) as [(v1 & E1 & E2) | [K E1]].
    { eapply fits_le; [|exact F]. lia. }
    + rewrite E1. destruct (IH v1 (l ++ [e]) Hs E2) as [(v' & E3 & E4) | (K & es1 & es2 & v' & -> & E3 & E4)].
      { eapply fits_le; [|exact F]. rewrite app_length. cbn. lia. }
      * left. exists v'. rewrite <- app_assoc in E4. auto.
      * right. split; [auto|]. exists (e :: es1), es2, v'. rewrite <- app_assoc in E4. auto.
    + rewrite E1. right. split; [auto|]. exists [], (e :: es), st. rewrite app_nil_r. auto.
Qed.

(** When allocated, a [SingleOrVec] stays a vector. *)
Definition allocated {E} (st : sov E) : Prop := match st with Many v => vcap v <> 0%N | _ => False end.

Lemma s_try_reserve_spec : forall {E} d s ok n (st : sov E) l, s <> 0%N -> sholds s st l ->
  fits s (N.of_nat (length l) + n) ->
  (reasserts d = false /\ (forall k, ok k = true)) \/ (exists v, st = Many v) ->
  (exists st', s_try_reserve d s ok n st = (true, SDone st' [] []) /\ sholds s st' l) \/
  ((exists k, ok k = false) /\ s_try_reserve d s ok n st = (false, SDone st [] [])).
Proof.
  intros E d s ok n st l Hs H F C. destruct st as [value | v |]; cbn [sholds] in H; [| |contradiction].
  - destruct C as [[R K] | [v C]]; [|discriminate]. subst l. left. unfold s_try_reserve. cbn [length] in F.
    assert (B : (1 + n < 2 ^ 64 - 1)%N).
    { unfold fits in F. change (N.of_nat 1) with 1%N in F.
      assert (1 * (2 * (1 + n) + 8) <= s * (2 * (1 + n) + 8))%N by (apply N.mul_le_mono_r; lia). lia. }
    rewrite usz_small by lia.
    destruct (@with_capacity_spec E s ok (1 + n) Hs) as [(v & E1 & E2 & E3) | [[k K'] _]]; [|  |congruence].
    { eapply fits_mul; [|exact F]. lia. }
    rewrite E1. destruct (push_with_room s ok v [] value E2) as (v1 & F1 & F2 & F3); [cbn; lia|].
    rewrite F1. replace (negb (N.eqb (1 + n) (2 ^ 64 - 1))) with true by (symmetry; apply negb_true_iff, N.eqb_neq; lia).
    unfold after_ok_guard. rewrite R. eexists. split; [reflexivity | exact F2].
  - unfold s_try_reserve. destruct (v_try_reserve_spec s ok n v l Hs H) as (A & B & D & _).
    { eapply fits_mul; [|exact F]. lia. }
    destruct (v_try_reserve s ok n v) as [g v1]. cbn [fst snd] in *. destruct g.
    + left. eauto.
    + right. destruct (D eq_refl) as [-> K]. auto.
Qed.

Lemma s_truncate_spec : forall {E} d s n (st : sov E) l, sholds s st l ->
  (reasserts d = false \/ n <> 0) \/ (exists v, st = Many v) ->
  exists st', s_truncate d n st = SDone st' [] (skipn n l) /\ sholds s st' (firstn n l).
Proof.
  intros E d s n st l H C. destruct st as [value | v |]; cbn [sholds] in H; [| |contradiction].
  - subst l. destruct C as [C | [v C]]; [|discriminate]. unfold s_truncate, after_ok_guard. destruct n as [|n].
    + destruct C as [-> | C]; [|congruence]. eexists. split; [reflexivity|]. cbn. apply holds_new.
    + exists (Single value). split; [|cbn; destruct n; reflexivity]. cbn [skipn]. rewrite skipn_nil. reflexivity.
  - unfold s_truncate. destruct (v_truncate_spec s v l n H) as (v' & E1 & E2). rewrite E1. cbn [on_vec]. eauto.
Qed.

Definition safe_at {E} (d : det) (x : sop E * (N -> bool)) (st : sov E) : Prop := careful d x \/ allocated st.

Lemma s_run1_spec : forall {E} d s ok (o : sop E) (st : sov E) l, s <> 0%N -> sholds s st l -> honest (as_vop o) ->
  fits s (N.of_nat (length l) + weight (as_vop o)) -> safe_at d (o, ok) st ->
  exists st' l' a b p, (s_run1 d s ok o st = if p : bool then SPanic st' a b else SDone st' a b) /\
    sholds s st' l' /\ lstep ok (as_vop o) l l' a b p.
Proof.
  intros E d s ok o st l Hs H Ho F S.
  assert (AV : allocated st -> exists v, st = Many v) by (destruct st; cbn; try contradiction; eauto).
  destruct o; cbn [s_run1 as_vop honest weight] in *.
  - destruct (s_push_spec s ok st l e Hs H) as [(v' & E1 & E2) | [[k K] E1]]; [eapply fits_le; [|exact F]; lia| |]; rewrite E1.
    + exists v', (l ++ [e]), [], [], false. repeat split; auto. constructor.
    + exists st, l, [], [e], true. repeat split; auto. econstructor; eauto.
  - destruct (s_try_push_spec s ok st l e Hs H) as [(v' & E1 & E2) | [[k K] E1]]; [eapply fits_le; [|exact F]; lia| |]; rewrite E1; cbn [snd].
    + exists v', (l ++ [e]), [], [], false. repeat split; auto. constructor.
    + exists st, l, [e], [], false. repeat split; auto. econstructor; eauto.
  - destruct (s_truncate_spec d s n st l H) as (v' & E1 & E2).
    { destruct S as [S | S]; [left; exact S | right; auto]. }
    exists v', (firstn n l), [], (skipn n l), false. repeat split; auto. constructor.
  - unfold s_reserve. destruct (s_try_reserve_spec d s ok n st l Hs H F) as [(v' & E1 & E2) | [[k K] E1]].
    { destruct S as [S | S]; [left; exact S | right; auto]. }
    + rewrite E1. exists v', l, [], [], false. repeat split; auto. constructor.
    + rewrite E1. exists st, l, [], [], true. repeat split; auto. econstructor; eauto.
  - destruct (s_try_reserve_spec d s ok n st l Hs H F) as [(v' & E1 & E2) | [[k K] E1]].
    { destruct S as [S | S]; [left; exact S | right; auto]. }
    + rewrite E1. exists v', l, [], [], false. repeat split; auto. constructor.
    + rewrite E1. exists st, l, [], [], false. repeat split; auto. constructor.
  - destruct Ho as [Ho _]. unfold s_extend, s_reserve.
    destruct (s_try_reserve_spec d s ok lo st l Hs H) as [(v' & E1 & E2) | [[k K] E1]].
    { eapply fits_le; [|exact F]. lia. }
    { destruct S as [S | S]; [left; exact S | right; auto]. }
    + rewrite E1. destruct (s_push_all_spec s ok es v' l Hs E2) as [(v2 & F1 & F2) | ([k K] & es1 & es2 & v2 & -> & F1 & F2)].
      { eapply fits_le; [|exact F]. lia. }
      * rewrite F1. exists v2, (l ++ es), [], [], false. repeat split; auto. constructor.
      * rewrite F1. exists v2, (l ++ es1), [], es2, true. repeat split; auto. econstructor; eauto.
    + rewrite E1. exists st, (l ++ []), [], es, true. rewrite app_nil_r. repeat split; auto.
      pose proof (ls_extend_fail ok [] es lo None l k K) as Q. rewrite app_nil_r in Q. exact Q.
Qed.

Lemma s_run_spec : forall {E} d s h (st : sov E) l, s <> 0%N -> sholds s st l ->
  Forall (fun x => honest (as_vop (fst x))) h -> fits s (N.of_nat (length l) + weights (as_history h)) ->
  Forall (careful d) h ->
  exists st' l' a b, s_run d s h st = Some (st', a, b) /\ sholds s st' l' /\ lrun (as_history h) l l' a b.
Proof.
  intros E d s h. induction h as [|[o ok] h IH]; intros st l Hs H Ho F C.
  - exists st, l, [], []. repeat split; auto. constructor.
  - inversion Ho as [|x y Ho1 Ho2]; subst. inversion C as [|x y C1 C2]; subst. cbn [fst] in *.
    unfold as_history in *. cbn [map fst snd weights] in *.
    destruct (s_run1_spec d s ok o st l Hs H Ho1) as (v1 & l1 & a & b & p & E1 & E2 & E3).
    { eapply fits_le; [|exact F]. lia. }
    { left; auto. }
    destruct (IH v1 l1 Hs E2 Ho2) as (v2 & l2 & c & dd & E4 & E5 & E6).
    { eapply fits_le; [|exact F]. pose proof (lstep_length _ _ _ _ _ _ _ Ho1 E3). lia. }
    { auto. }
    exists v2, l2, (a ++ c), (b ++ dd). split; [|split; [auto | econstructor; eauto]].
    cbn [s_run]. rewrite E1. destruct p; rewrite E4; reflexivity.
Qed.

(** From an allocated state everything is well. *)
Lemma cap_grows : forall {E} s ok n (v : vec E) l, s <> 0%N -> holds s v l -> fits s (N.of_nat (length l) + n) -> vcap v <> 0%N ->
  vcap (snd (v_try_reserve s ok n v)) <> 0%N.
Proof.
  intros E s ok n v l Hs H F C. destruct (v_try_reserve_spec s ok n v l Hs H) as (A & _ & _ & B).
  { eapply fits_mul; [|exact F]. lia. }
  destruct (holds_cap s _ l A) as [D _].
  unfold v_try_reserve in *. rewrite (v_remaining_eq s v l Hs H) in *.
  destruct (N.ltb_spec (vcap v - N.of_nat (length l)) n) as [L | L]; [|exact C].
  destruct (ok _); [|exact C]. cbn [snd vcap] in *. destruct B; lia.
Qed.

Lemma s_push_allocated : forall {E} s ok (v : vec E) l e, s <> 0%N -> holds s v l -> fits s (N.of_nat (length l)) -> vcap v <> 0%N ->
  (exists v', s_push s ok e (Many v) = SDone (Many v') [] [] /\ holds s v' (l ++ [e]) /\ vcap v' <> 0%N) \/
  ((exists k, ok k = false) /\ s_push s ok e (Many v) = SPanic (Many v) [] [e]).
Proof.
  intros E s ok v l e Hs H F C. unfold s_push, s_try_push.
  destruct (N.eqb_spec (vcap v) 0) as [Z | _]; [congruence|].
  destruct (v_try_push_spec s ok v l e Hs H F) as [(v' & E1 & E2) | [K E1]]; rewrite E1; cbn [on_vec].
  - left. exists v'. split; [auto|]. split; [auto|]. destruct (holds_cap s v' _ E2) as [D _].
    rewrite app_length in D. cbn in D. lia.
  - right. auto.
Qed.

Lemma s_push_all_allocated : forall {E} s ok es (v : vec E) l, s <> 0%N -> holds s v l ->
  fits s (N.of_nat (length l + length es)) -> vcap v <> 0%N ->
  match s_push_all s ok es (Many v) with SDone st _ _ | SPanic st _ _ => allocated st | SUB => False end.
Proof.
  intros E s ok es. induction es as [|e es IH]; intros v l Hs H F C; cbn [s_push_all].
  - exact C.
  - cbn [length] in F. destruct (s_push_allocated s ok v l e Hs H) as [(v' & E1 & E2 & E3) | [K E1]]; auto.
    { eapply fits_le; [|exact F]. lia. }
    + rewrite E1. apply (IH v' (l ++ [e])); auto. rewrite app_length. cbn.
      eapply fits_le; [|exact F]. lia.
    + rewrite E1. exact C.
Qed.

Lemma s_run1_allocated : forall {E} d s ok (o : sop E) (v : vec E) l, s <> 0%N -> holds s v l -> honest (as_vop o) ->
  fits s (N.of_nat (length l) + weight (as_vop o)) -> vcap v <> 0%N ->
  match s_run1 d s ok o (Many v) with SDone st _ _ | SPanic st _ _ => allocated st | SUB => False end.
Proof.
  intros E d s ok o v l Hs H Ho F C. destruct o; cbn [s_run1 as_vop honest weight] in *.
  - destruct (s_push_allocated s ok v l e Hs H) as [(v' & E1 & E2 & E3) | [K E1]]; auto;
      [eapply fits_le; [|exact F]; lia| |]; rewrite E1; auto.
  - destruct (s_push_allocated s ok v l e Hs H) as [(v' & E1 & E2 & E3) | [K E1]]; auto;
      [eapply fits_le; [|exact F]; lia| |]; unfold s_push in E1;
      destruct (s_try_push s ok e (Many v)) as [[] []]; cbn [snd]; try discriminate; injection E1; intros; subst; auto.
  - cbn [s_truncate]. pose proof (v_truncate_spec s v l n H) as (v' & E1 & _).
    unfold v_truncate in *. destruct (Nat.leb (vlen v) n); [exact C|].
    destruct (get_slots n (vlen v - n) (slots v)); [exact C | discriminate].
  - unfold s_reserve, s_try_reserve. pose proof (cap_grows s ok n v l Hs H F C) as G.
    destruct (v_try_reserve s ok n v) as [[] v1]; exact G.
  - unfold s_try_reserve. pose proof (cap_grows s ok n v l Hs H F C) as G.
    destruct (v_try_reserve s ok n v) as [[] v1]; exact G.
  - destruct Ho as [Ho _]. unfold s_extend, s_reserve, s_try_reserve.
    assert (F' : fits s (N.of_nat (length l) + lo)) by (eapply fits_le; [|exact F]; lia).
    pose proof (cap_grows s ok lo v l Hs H F' C) as G.
    destruct (v_try_reserve_spec s ok lo v l Hs H) as (A & _); [eapply fits_mul; [|exact F']; lia|].
    destruct (v_try_reserve s ok lo v) as [[] v1]; cbn [fst snd] in *.
    + apply (s_push_all_allocated s ok es v1 l); auto. eapply fits_le; [|exact F]. lia.
    + exact G.
Qed.

Lemma s_run_allocated : forall {E} d s h (v : vec E) l, s <> 0%N -> holds s v l -> vcap v <> 0%N ->
  Forall (fun x => honest (as_vop (fst x))) h -> fits s (N.of_nat (length l) + weights (as_history h)) ->
  exists st' l' a b, s_run d s h (Many v) = Some (st', a, b) /\ sholds s st' l' /\ lrun (as_history h) l l' a b.
Proof.
  intros E d s h. induction h as [|[o ok] h IH]; intros v l Hs H C Ho F.
  - exists (Many v), l, [], []. repeat split; auto. constructor.
  - inversion Ho as [|x y Ho1 Ho2]; subst. cbn [fst] in *.
    unfold as_history in *. cbn [map fst snd weights] in *.
    assert (F1 : fits s (N.of_nat (length l) + weight (as_vop o))) by (eapply fits_le; [|exact F]; lia).
    destruct (s_run1_spec d s ok o (Many v) l Hs H Ho1 F1) as (v1 & l1 & a & b & p & E1 & E2 & E3); [right; exact C|].
    pose proof (s_run1_allocated d s ok o v l Hs H Ho1 F1 C) as A. rewrite E1 in A.
    assert (A' : allocated v1) by (destruct p; exact A).
    destruct v1 as [|v1|]; cbn in A'; try contradiction.
    destruct (IH v1 l1 Hs E2 A' Ho2) as (v2 & l2 & c & dd & E4 & E5 & E6).
    { eapply fits_le; [|exact F]. pose proof (lstep_length _ _ _ _ _ _ _ Ho1 E3). lia. }
    exists v2, l2, (a ++ c), (b ++ dd). split; [|split; [auto | econstructor; eauto]].
    cbn [s_run]. rewrite E1. destruct p; rewrite E4; reflexivity.
Qed.

(** ** [IterMut] *)
Definition im_inv (n : N) (i : iter_mut) : Prop := (im_end i <= n)%N.

Lemma im_run1_spec : forall o i, (im_start i + match o with INth n => n | _ => 0 end < 2 ^ 64)%N ->
  let '(x, i') := im_run1 o i in
  (im_start i <= im_start i')%N /\ (im_end i' <= im_end i)%N /\
  match x with
  | None => (im_start i' <= im_start i + match o with INth n => n | _ => 0 end)%N
  | Some p => (im_start i <= p)%N /\ (p < im_end i)%N /\ (p < im_start i' \/ im_end i' <= p)%N /\
              (im_start i' <= im_end i)%N
  end.
Proof.
  intros o [a b] H. destruct o; cbn [im_run1 im_start im_end] in *;
    unfold im_nth, im_next, im_nth_back, im_next_back; cbn [im_start im_end]; rewrite ?usz_small by lia.
  - destruct (N.ltb_spec a b); cbn [im_start im_end]; lia.
  - destruct (N.ltb_spec (a + n) b); cbn [im_start im_end]; lia.
  - destruct (N.ltb_spec a b); cbn [im_start im_end]; lia.
  - destruct (N.ltb_spec a (b - n)); cbn [im_start im_end]; lia.
Qed.

Lemma im_run_spec : forall h i, (im_end i < 2 ^ 64)%N -> (N.max (im_start i) (im_end i) + im_skips h < 2 ^ 64)%N ->
  let '(xs, i') := im_run h i in
  NoDup xs /\ Forall (fun p => im_start i <= p < im_end i)%N xs.
Proof.
  intro h. induction h as [|o h IH]; intros i B S; cbn [im_run].
  - split; constructor.
  - cbn [im_skips fold_right] in S. fold (im_skips h) in S.
    pose proof (im_run1_spec o i) as P.
    destruct (im_run1 o i) as [x i1]. specialize (IH i1).
    destruct (im_run h i1) as [xs i2].
    assert (Q : (im_start i + match o with INth n => n | _ => 0 end < 2 ^ 64)%N) by (destruct o; lia).
    specialize (P Q). destruct P as (P1 & P2 & P3).
    assert (R : (N.max (im_start i1) (im_end i1) + im_skips h < 2 ^ 64)%N).
    { destruct x; destruct o; lia. }
    specialize (IH ltac:(lia) R). destruct IH as [I1 I2].
    assert (W : Forall (fun p => im_start i <= p < im_end i)%N xs).
    { eapply Forall_impl; [|exact I2]. cbn. intros. lia. }
    destruct x as [p|]; [|auto]. split.
    + constructor; [|auto]. intro In. rewrite Forall_forall in I2. specialize (I2 p In). cbn in I2. lia.
    + constructor; [lia | auto].
Qed.
