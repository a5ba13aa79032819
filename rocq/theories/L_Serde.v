(** Lemmas for P_Serde. *)
From Coq Require Import NArith Arith List Bool Lia.
From Verif Require Import M_Vec S_Vec L_Vec M_String M_Serde S_Serde.
Import ListNotations.

Lemma abandon_holds : forall {E} s (v : vec E) l more f, holds s v l -> abandon v more f = f (l ++ more).
Proof. intros E s v l more f H. unfold abandon. rewrite (v_drop_spec s v l H). reflexivity. Qed.

Lemma read_loop_spec : forall {E} s ok (os : list (outcome E)) (v : vec E) l0, s <> 0%N -> holds s v l0 ->
  fits s (N.of_nat (length l0 + length os)) ->
  exists pre rest, os = map Got pre ++ rest /\
    ((rest = [] /\ exists v', read_loop s ok v os = Whole v' /\ holds s v' (l0 ++ pre)) \/
     (exists r, rest = Refused :: r /\ read_loop s ok v os = Stopped (l0 ++ pre)) \/
     (exists r, rest = Panics :: r /\ read_loop s ok v os = Unwound (l0 ++ pre)) \/
     (exists r, rest = Undefined :: r /\ read_loop s ok v os = Broken) \/
     (exists e r k, rest = Got e :: r /\ ok k = false /\ read_loop s ok v os = Unwound (l0 ++ pre ++ [e]))).
Proof.
  intros E s ok os. induction os as [|o os IH]; intros v l0 Hs H F.
  - exists [], []. split; [reflexivity|]. left. split; [reflexivity|]. exists v. rewrite app_nil_r. split; [reflexivity|exact H].
  - cbn [read_loop]. destruct o as [e| | |].
    + destruct (v_push_spec s ok v l0 e Hs H) as [(v1 & E1 & E2) | [[k K] E1]].
      * eapply fits_le; [|exact F]. lia.
      * rewrite E1. destruct (IH v1 (l0 ++ [e]) Hs E2) as (pre & rest & Eq & C).
        { eapply fits_le; [|exact F]. rewrite app_length. cbn [length]. lia. }
        exists (e :: pre), rest. split. { cbn [map]. rewrite Eq. reflexivity. }
        replace (l0 ++ e :: pre) with ((l0 ++ [e]) ++ pre) by (rewrite <- app_assoc; reflexivity).
        destruct C as [C|[C|[C|[C|(e' & r & k & A & B & C)]]]]; auto.
        do 4 right. exists e', r, k. split; [exact A|]. split; [exact B|]. rewrite C. cbn [app]. rewrite <- app_assoc. reflexivity.
      * rewrite E1. exists [], (Got e :: os). split; [reflexivity|]. do 4 right. exists e, os, k. split; [reflexivity|].
        split; [exact K|]. rewrite (abandon_holds s v l0 [e] Unwound H). reflexivity.
    + exists [], (Refused :: os). split; [reflexivity|]. right; left. exists os. split; [reflexivity|].
      rewrite (abandon_holds s v l0 [] Stopped H). reflexivity.
    + exists [], (Panics :: os). split; [reflexivity|]. do 2 right; left. exists os. split; [reflexivity|].
      rewrite (abandon_holds s v l0 [] Unwound H). reflexivity.
    + exists [], (Undefined :: os). split; [reflexivity|]. do 3 right; left. exists os. split; reflexivity.
Qed.

Definition hint_val (h : option N) : N := match h with Some h => h | None => 0%N end.

Lemma visit_seq_spec : forall {E} s ok h (os : list (outcome E)), s <> 0%N -> fits s (hint_val h + N.of_nat (length os)) ->
  (exists k, ok k = false /\ visit_seq s ok h os = Unwound []) \/
  exists pre rest, os = map Got pre ++ rest /\
    ((rest = [] /\ exists v', visit_seq s ok h os = Whole v' /\ holds s v' pre) \/
     (exists r, rest = Refused :: r /\ visit_seq s ok h os = Stopped pre) \/
     (exists r, rest = Panics :: r /\ visit_seq s ok h os = Unwound pre) \/
     (exists r, rest = Undefined :: r /\ visit_seq s ok h os = Broken) \/
     (exists e r k, rest = Got e :: r /\ ok k = false /\ visit_seq s ok h os = Unwound (pre ++ [e]))).
Proof.
  intros E s ok h os Hs F. unfold visit_seq. fold (hint_val h). unfold v_reserve.
  destruct (v_try_reserve_spec s ok (hint_val h) (@v_new E) [] Hs (holds_new s)) as (A & B & C & _).
  { eapply fits_mul; [|exact F]. cbn [length]. lia. }
  destruct (v_try_reserve s ok (hint_val h) (@v_new E)) as [g v1] eqn:Eg. cbn [fst snd] in *. destruct g.
  - right. apply (read_loop_spec s ok os v1 [] Hs A). eapply fits_le; [|exact F]. cbn [length]. lia.
  - destruct (C eq_refl) as [_ [k K]]. left. exists k. split; [exact K|]. apply (abandon_holds s v1 [] [] Unwound A).
Qed.

Lemma elements_holds : forall {E} s b (v : vec E) l, holds s v l -> elements b v = Got l.
Proof.
  intros E s b v l H. unfold elements. pose proof (v_as_slice_spec s v l H) as A. unfold v_as_slice in A.
  destruct b; cbn [bs_of_vec bs_len bs_slots]; unfold v_as_slice; rewrite A; reflexivity.
Qed.

Lemma string_of_spec : forall ok b s, fits 1 (N.of_nat (length s)) ->
  (exists k, ok k = false /\ string_of ok b s = Panics) \/ string_of ok b s = Got s.
Proof.
  intros ok b s F. unfold string_of, v_copy_extend.
  destruct (v_try_copy_extend_spec 1 ok v_new [] s) as [(v & E1 & E2) | [[k K] E1]]; [lia|apply holds_new|exact F| |].
  - rewrite E1. right. apply (elements_holds 1). exact E2.
  - rewrite E1. left. exists k. split; [exact K|reflexivity].
Qed.

Definition refusing (w : world) : Prop := exists k, provides w k = false.

Lemma all_app : forall {A} (pre : list A) r, all (map Some pre ++ r) = option_map (app pre) (all r).
Proof.
  intros A pre r. induction pre as [|a pre IH]; cbn [map app all]; [destruct (all r); reflexivity|].
  rewrite IH. destruct (all r); reflexivity.
Qed.

Lemma de_main : forall {doc} w (fmt : request -> doc -> visit doc), sized w -> sober w fmt -> forall t d,
  (de w fmt t d = Panics /\ refusing w) \/
  (exists v, de w fmt t d = Got v /\ std_de fmt t d = Some v) \/
  (de w fmt t d = Refused /\ (lending fmt -> std_de fmt t d = None)).
Proof.
  intros doc w fmt Hz [Hq Hs]. induction t as [|b| | |b t IH|t IH|t IHt e IHe]; intros d; cbn [de std_de].
  - destruct (fmt RNum d); eauto 6.
  - destruct (fmt RStr d) as [n|o s|o s|h l| | |d'|k d'|] eqn:Ef; try (do 2 right; split; [reflexivity|]; auto; fail).
    + destruct o; [|do 2 right; split; [reflexivity|]; intros (L & _); discriminate (L _ _ _ Ef)..].
      destruct (string_of_spec (provides w) b s) as [(k & K & E1) | E1].
      { unfold fits. specialize (Hs _ _ _ Ef). lia. }
      * left. rewrite E1. split; [reflexivity|exists k; exact K].
      * right; left. rewrite E1. eexists; split; reflexivity.
    + do 2 right. split; [reflexivity|]. intros (_ & L & _). destruct (L _ _ _ Ef).
  - destruct (fmt RStr d) as [n|o s|o s|h l| | |d'|k d'|] eqn:Ef; try (do 2 right; split; [reflexivity|]; auto; fail).
    + destruct o; [right; left; eexists; split; reflexivity|do 2 right; split; [reflexivity|auto]..].
    + do 2 right. split; [destruct o; reflexivity|]. intros (_ & L & _). destruct (L _ _ _ Ef).
  - destruct (fmt RBytes d) as [n|o s|o s|h l| | |d'|k d'|] eqn:Ef; try (do 2 right; split; [reflexivity|]; auto; fail).
    + do 2 right. split; [destruct o; reflexivity|]. intros (_ & _ & L). destruct (L _ _ _ Ef).
    + destruct o; [right; left; eexists; split; reflexivity|do 2 right; split; [reflexivity|auto]..].
  - destruct (fmt RSeq d) as [n|o s|o s|h items| | |d'|k d'|] eqn:Ef; try (do 2 right; split; [reflexivity|]; auto; fail).
    set (f := fun i : option doc => match i with Some d => de w fmt t d | None => Refused end).
    set (g := fun i : option doc => match i with Some d => std_de fmt t d | None => None end).
    assert (Fg : forall i, (f i = Panics /\ refusing w) \/ (exists v, f i = Got v /\ g i = Some v) \/
                           (f i = Refused /\ (lending fmt -> g i = None))).
    { intros [d'|]; [apply IH|]. do 2 right. split; [reflexivity|]. intros _. reflexivity. }
    assert (Pg : forall pre its, map f its = map Got pre -> map g its = map Some pre).
    { intros pre. induction pre as [|p pre IHp]; intros [|i its] E1; cbn [map] in E1; try discriminate; [reflexivity|].
      injection E1 as E2 E3. cbn [map]. rewrite (IHp its E3). f_equal.
      destruct (Fg i) as [[A _]|[(v & A & B)|[A _]]]; rewrite E2 in A; try discriminate. injection A as <-. exact B. }
    assert (Sp : forall pre its r, map f its = map Got pre ++ r -> exists i1 i2, its = i1 ++ i2 /\ map f i1 = map Got pre /\ map f i2 = r).
    { intros pre its r E1. exists (firstn (length pre) its), (skipn (length pre) its). split; [symmetry; apply firstn_skipn|].
      rewrite <- firstn_map, <- skipn_map, E1. replace (length pre) with (length (map (@Got sval) pre)) by apply map_length.
      rewrite firstn_app, skipn_app, Nat.sub_diag, firstn_all, skipn_all. cbn [firstn skipn app]. rewrite app_nil_r. split; reflexivity. }
    destruct (visit_seq_spec (size w t) (provides w) h (map f items) (Hz t)) as [(k & K & E1)|(pre & rest & Eq & C)].
    { rewrite map_length. exact (Hq t _ _ _ Ef). }
    + left. rewrite E1. split; [reflexivity|exists k; exact K].
    + destruct (Sp pre items rest Eq) as (i1 & i2 & Ei & E1 & E2).
      destruct C as [(-> & v' & E3 & H)|[(r & -> & E3)|[(r & -> & E3)|[(r & -> & E3)|(e & r & k & -> & K & E3)]]]]; rewrite E3; cbn [finish].
      * right; left. rewrite (elements_holds _ b v' pre H). exists (XSeq pre). split; [reflexivity|].
        destruct i2; [|discriminate]. rewrite app_nil_r in Ei. subst items. rewrite (Pg pre i1 E1).
        rewrite <- (app_nil_r (map Some pre)), all_app. cbn [all option_map]. rewrite app_nil_r. reflexivity.
      * do 2 right. split; [reflexivity|]. intros L. destruct i2 as [|i i2]; [discriminate|]. cbn [map] in E2. injection E2 as E2 _.
        subst items. rewrite map_app, (Pg pre i1 E1), all_app. cbn [map all].
        destruct (Fg i) as [[A _]|[(v & A & B)|[A B]]]; try congruence. rewrite (B L). reflexivity.
      * left. split; [reflexivity|]. destruct i2 as [|i i2]; [discriminate|]. cbn [map] in E2. injection E2 as E2 _.
        destruct (Fg i) as [[A B]|[(v & A & B)|[A B]]]; congruence.
      * exfalso. destruct i2 as [|i i2]; [discriminate|]. cbn [map] in E2. injection E2 as E2 _.
        destruct (Fg i) as [[A B]|[(v & A & B)|[A B]]]; congruence.
      * left. split; [reflexivity|exists k; exact K].
  - destruct (fmt ROption d) as [n|o s|o s|h l| | |d'|k d'|] eqn:Ef; eauto 6.
    destruct (IH d') as [[A B]|[(v & A & B)|[A B]]]; rewrite A; cbn [then_].
    + left; auto.
    + right; left. rewrite B. eexists; split; reflexivity.
    + do 2 right. split; [reflexivity|]. intros L. rewrite (B L). reflexivity.
  - destruct (fmt REnum d) as [n|o s|o s|h l| | |d'|k d'|] eqn:Ef; eauto 6. destruct k.
    + destruct (IHt d') as [[A B]|[(v & A & B)|[A B]]]; rewrite A; cbn [then_].
      * left; auto.
      * right; left. rewrite B. eexists; split; reflexivity.
      * do 2 right. split; [reflexivity|]. intros L. rewrite (B L). reflexivity.
    + destruct (IHe d') as [[A B]|[(v & A & B)|[A B]]]; rewrite A; cbn [then_].
      * left; auto.
      * right; left. rewrite B. eexists; split; reflexivity.
      * do 2 right. split; [reflexivity|]. intros L. rewrite (B L). reflexivity.
Qed.

Lemma map_forall2 : forall {A B} (f : A -> B) (R : A -> B -> Prop) l, Forall (fun a => R a (f a)) l -> Forall2 R l (map f l).
Proof. intros A B f R l H. induction H; cbn [map]; constructor; auto. Qed.

Fixpoint sval_ind' (P : sval -> Prop) (H0 : forall n, P (XNum n)) (H1 : forall s, P (XText s)) (H2 : forall s, P (XBytes s))
  (H3 : forall l, Forall P l -> P (XSeq l)) (H4 : P XNone) (H5 : forall v, P v -> P (XSome v)) (H6 : forall v, P v -> P (XOk v))
  (H7 : forall v, P v -> P (XErr v)) (v : sval) : P v :=
  let rec := sval_ind' P H0 H1 H2 H3 H4 H5 H6 H7 in
  match v with
  | XNum n => H0 n | XText s => H1 s | XBytes s => H2 s
  | XSeq l => H3 l ((fix go l : Forall P l := match l with [] => Forall_nil P | x :: r => Forall_cons x (rec x) (go r) end) l)
  | XNone => H4 | XSome v => H5 v (rec v) | XOk v => H6 v (rec v) | XErr v => H7 v (rec v)
  end.

Lemma ser_std : forall v c, std_ser v c <-> ser v = c.
Proof.
  assert (A : forall v, std_ser v (ser v)).
  { intros v. induction v using sval_ind'; cbn [ser]; constructor; auto.
    - apply map_forall2. apply Forall_forall. auto.
    - apply map_forall2. exact H. }
  assert (B : forall v c, std_ser v c -> ser v = c).
  { intros v. induction v using sval_ind'; intros c K; inversion K; subst; cbn [ser]; try reflexivity; try (f_equal; auto; fail).
    - f_equal. match goal with X : Forall2 _ s _ |- _ => clear -X; induction X; cbn [map]; [reflexivity|]; subst; f_equal; auto end.
    - f_equal. match goal with Y : Forall _ ?vs, X : Forall2 _ ?vs ?m |- _ =>
        clear -X Y; revert m X; induction Y as [|x l' Hx Hl IH]; intros m X; inversion X; subst; cbn [map]; [reflexivity|] end.
      f_equal; auto. }
  intros v c. split; [apply B|intros <-; apply A].
Qed.
