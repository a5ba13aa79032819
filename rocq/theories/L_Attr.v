From Coq Require Import List Arith NArith Bool Lia.
From Verif Require Import M_Layout M_Result M_Core M_Attr S_Layout S_Core S_Attr L_Layout L_Struct L_Core.
Import ListNotations.

Lemma find_repr_in l x : find_repr l = Some x -> exists a, In a l /\ parse_allowed a = Some x.
Proof.
  induction l as [|a l IH]; cbn [find_repr]; [discriminate|]. destruct (parse_allowed a) as [y|] eqn:P.
  - intros [= <-]. exists a. split; [now left|assumption].
  - intros H. destruct (IH H) as (b & I & Q). exists b. split; [now right|assumption].
Qed.
Lemma parse_C a : parse_allowed a = Some AC -> items a = [C].
Proof. destruct a as [its tr]. cbn. destruct its as [|[| | | | | |] [|? ?]]; try discriminate; destruct tr; try discriminate; auto. Qed.
Lemma parse_T a : parse_allowed a = Some ATransparent -> items a = [Transparent].
Proof. destruct a as [its tr]. cbn. destruct its as [|[| | | | | |] [|? ?]]; try discriminate; destruct tr; try discriminate; auto. Qed.
Lemma parse_A a n : parse_allowed a = Some (AAlign n) -> a = Attr [Align n] false.
Proof. destruct a as [its tr]. cbn. destruct its as [|[| | | | | |] [|? ?]]; try discriminate; destruct tr; try discriminate; intros [= ->]; reflexivity. Qed.

Lemma said_app l l' : said (l ++ l') = said l ++ said l'.
Proof. unfold said. apply flat_map_app. Qed.
Lemma in_said a i l : In a l -> In i (items a) -> In i (said l).
Proof. intros. unfold said. apply in_flat_map. eauto. Qed.

Lemma existsb_T l : existsb (fun i => match i with Transparent => true | _ => false end) l = true <-> In Transparent l.
Proof. rewrite existsb_exists. split; [intros (x & I & E); destruct x; try discriminate; assumption|intros I; now exists Transparent]. Qed.
Lemma existsb_C l : existsb (fun i => match i with C => true | _ => false end) l = true <-> In C l.
Proof. rewrite existsb_exists. split; [intros (x & I & E); destruct x; try discriminate; assumption|intros I; now exists C]. Qed.

Lemma align_loop_pow k : forall fuel acc, k <= fuel -> align_loop fuel (2 ^ k) acc = 2 ^ k * acc.
Proof.
  induction k as [|k IH]; intros [|f] acc L; try lia; cbn [align_loop].
  - cbn. lia.
  - change (1 <? 2 ^ 0) with false. cbn. lia.
  - assert (2 ^ k <> 0) by (apply Nat.pow_nonzero; lia). cbn [Nat.pow]. replace (1 <? 2 * 2 ^ k) with true by (symmetry; apply Nat.ltb_lt; lia).
    rewrite Nat.mul_comm, Nat.div_mul by lia. rewrite IH by lia. lia.
Qed.
Lemma align_loop_id n : power_of_two n -> align_loop n n 1 = n.
Proof. intros [k ->]. rewrite align_loop_pow; [lia|]. pose proof (Nat.pow_gt_lin_r 2 k). lia. Qed.

Lemma fold_max_le l : forall k b, fold_left Nat.max l k <= b <-> k <= b /\ Forall (fun x => x <= b) l.
Proof.
  induction l as [|x l IH]; intros k b; cbn [fold_left]; [split; [auto|intros [? _]; assumption]|].
  rewrite IH, Nat.max_lub_iff. split; [intros [[? ?] ?]; auto|]. intros [? H]. inversion H; auto.
Qed.
Lemma c_offsets_total fs : Forall (fun f => 0 < snd f) fs -> forall start, exists os fin, c_offsets start fs os fin.
Proof.
  induction 1 as [|[s a] fs P _ IH]; intros start; [exists [], start; constructor|].
  destruct (IH (nmo start a + s)) as (os & fin & H). exists (nmo start a :: os), fin. constructor; [apply nmo_first; exact P|assumption].
Qed.
Lemma c_offsets_len fs : forall start os fin, c_offsets start fs os fin -> length os = length fs.
Proof. induction fs as [|[s a] fs IH]; intros start os fin H; inversion H; subst; cbn; [reflexivity|]. f_equal. eauto. Qed.
Lemma c_offsets_at start fs os fin : c_offsets start fs os fin -> start = 0 -> at_c_offsets fs os.
Proof. intros H ->. exists os, fin. repeat split; auto. intros. congruence. Qed.
(** Fields without size do not move the next one. *)
Lemma c_offsets_skip before : forall f after os fin, Forall (fun g => g = (0, 1)) before -> c_offsets 0 (before ++ f :: after) os fin ->
  nth_error os (length before) = Some 0.
Proof.
  induction before as [|g before IH]; intros f after os fin Z H; cbn [app length nth_error] in *.
  - destruct f as [s a]. inversion H; subst. f_equal. eapply first_multiple_unique; [eassumption|apply first_multiple_0].
  - inversion Z as [|? ? -> Z']; subst. inversion H as [|? ? ? o ? ? ? F H']; subst. cbn.
    assert (o = 0) by (eapply first_multiple_unique; [eassumption|apply first_multiple_0]). subst o. eapply IH; eauto.
Qed.
Lemma bounded_same l fs gs : (forall n, ~ In (Packed n) l) -> Forall2 (bounded l) fs gs -> gs = fs.
Proof.
  intros N. induction 1 as [|[s a] [s' a'] fs gs B _ IH]; [reflexivity|]. destruct B as (E & _ & [E'|I] & _); cbn in *; [subst; f_equal; assumption|].
  now apply N in I.
Qed.

Lemma fields_pos ds : Forall (fun d => 0 < dalign d) ds -> Forall (fun f => 0 < snd f) (map sa ds).
Proof. induction 1; constructor; auto. Qed.

Lemma declared_c l ts ds d : Forall2 (fun t d => layout t = Some d) ts ds -> Forall (fun d => 0 < dalign d) ds -> layout (struct_declared l ts) = Some d ->
  (forall n, find_repr l <> Some (AAlign n)) -> exists os, c_struct 1 (map sa ds) os (dsize d) (dalign d).
Proof.
  intros F P L N. assert (L' : layout (struct_ty ts) = Some d).
  { unfold struct_declared in L. destruct (find_repr l) as [[| |n]|]; auto. now destruct (N n). }
  inversion F as [|t d0 ts' ds' H0 F']; subst.
  - cbn in L'. injection L' as <-. exists []. split; [reflexivity|]. exists 0. split; [constructor|apply first_multiple_0].
  - destruct (struct_c t ts' d0 ds' H0 F' P) as (d' & os & E & S). rewrite L' in E. injection E as <-. eauto.
Qed.

Lemma struct_repr l ts ds d os size al :
  Forall2 (fun t d => layout t = Some d) ts ds -> Forall (fun d => 0 < dalign d) ds -> layout (struct_declared l ts) = Some d ->
  compiled_struct (said (struct_attrs l)) (map sa ds) os size al ->
  (In C (said l) \/ forall n, ~ In (Attr [Align n] false) l) ->
  id_check d size al = true -> at_c_offsets (map sa ds) os.
Proof.
  intros F P L (Leg & S) H K. unfold id_check in K. apply andb_prop in K as [K1 K2]. apply Nat.eqb_eq in K1, K2.
  destruct (existsb _ (said (struct_attrs l))) eqn:T in S.
  - destruct S as (before & f & after & E & Z & -> & -> & _ & Lo & N0).
    destruct (c_offsets_total (map sa ds) (fields_pos ds P) 0) as (os' & fin & O). exists os', fin. split; [assumption|]. split; [rewrite Lo; symmetry; eapply c_offsets_len; eauto|].
    intros i g o o' Hg Pg Ho Ho'. rewrite E in O, Hg.
    assert (i = length before).
    { destruct (Nat.lt_trichotomy i (length before)) as [C1|[C1|C1]]; [|assumption|].
      - rewrite nth_error_app1 in Hg by assumption. apply nth_error_In in Hg. rewrite Forall_forall in Z. rewrite (Z g) in Pg by (apply in_or_app; now left). cbn in Pg. lia.
      - rewrite nth_error_app2 in Hg by lia. destruct (i - length before) as [|k] eqn:Ei; [lia|]. cbn in Hg. apply nth_error_In in Hg.
        rewrite Forall_forall in Z. rewrite (Z g) in Pg by (apply in_or_app; now right). cbn in Pg. lia. }
    subst i. apply Forall_app in Z as [Z _]. rewrite (c_offsets_skip before f after os' fin Z O) in Ho'. congruence.
  - destruct S as (minal & gs & A & B & S).
    destruct (existsb _ (said (struct_attrs l))) eqn:HC in S.
    + destruct S as (Al & fin & O & _).
      destruct (in_dec (fun a b : bool => bool_dec a b) true (map (fun i => match i with Packed _ => true | _ => false end) (said (struct_attrs l)))) as [Pk|NP].
      * apply in_map_iff in Pk as (i & Ei & I). destruct i; try discriminate. clear Ei.
        destruct Leg as (_ & _ & _ & NA & Pow & _).
        assert (minal = 1) as -> by (destruct A as [[?|?] _]; [assumption|exfalso; eapply NA; eauto]).
        destruct (declared_c l ts ds d F P L) as (os' & Ac & _).
        { intros m Fm. apply find_repr_in in Fm as (a & Ia & Pa). apply parse_A in Pa as ->. apply (NA n m I). apply (in_said (Attr [Align m] false)); [|now left].
          unfold struct_attrs. apply in_or_app. now left. }
        assert (Mx : forall f, In f (map sa ds) -> snd f <= al).
        { intros f If. rewrite K2, Ac. pose proof (proj1 (fold_max_le (map snd (map sa ds)) 1 _) (le_n _)) as [_ X]. rewrite Forall_forall in X. apply X. now apply in_map. }
        (* the bound is at least the alignment of each field *)
        assert (Le : al <= n).
        { rewrite Al. apply fold_max_le. destruct (Pow n (or_introl I)) as [k Ek]. assert (2 ^ k <> 0) by (apply Nat.pow_nonzero; lia). split; [lia|].
          clear -B I. induction B as [|f g fs gs Bf _ IH]; constructor; [apply Bf, I|assumption]. }
        assert (Eq : forall m, In (Packed m) (said (struct_attrs l)) -> al <= m).
        { intros m Im. rewrite Al. apply fold_max_le. destruct (Pow m (or_introl Im)) as [k Ek]. assert (2 ^ k <> 0) by (apply Nat.pow_nonzero; lia). split; [lia|].
          clear -B Im. induction B as [|f g fs gs Bf _ IH]; constructor; [apply Bf, Im|assumption]. }
        assert (gs = map sa ds).
        { assert (X : forall g, In g gs -> snd g <= al).
          { intros g Ig. rewrite Al. pose proof (proj1 (fold_max_le (map snd gs) 1 _) (le_n _)) as [_ X]. rewrite Forall_forall in X. apply X. now apply in_map. }
          clear -B Mx Eq X. induction B as [|[s a] [s' a'] fs gs Bf _ IH]; [reflexivity|]. destruct Bf as (E1 & E2 & [E3|E3] & _); cbn [fst snd] in *.
          - subst. f_equal. apply IH; intros; [apply Mx|apply X]; now right.
          - apply Eq in E3. assert (a <= al) by (apply (Mx (s, a)); now left). assert (a' <= al) by (apply (X (s', a')); now left).
            assert (a = a') by lia. subst. f_equal. apply IH; intros; [apply Mx|apply X]; now right. }
        subst gs. eapply c_offsets_at; eauto.
      * assert (gs = map sa ds) as -> by (eapply bounded_same; [|exact B]; intros n Hn; apply NP; apply in_map_iff; exists (Packed n); auto).
        eapply c_offsets_at; eauto.
    + (* no [repr(C)]: then [align] alone was written *)
      exfalso. assert (NC : ~ In C (said (struct_attrs l))) by (rewrite <- existsb_C, HC; discriminate).
      assert (NT : ~ In Transparent (said (struct_attrs l))) by (rewrite <- existsb_T, T; discriminate).
      unfold struct_attrs in NC, NT. rewrite said_app in NC, NT. destruct H as [H|H]; [apply NC, in_or_app; now left|].
      destruct (find_repr l) as [x|] eqn:Fr; [|apply NC, in_or_app; right; now left].
      apply find_repr_in in Fr as (a & Ia & Pa). destruct x as [| |n].
      * apply NC, in_or_app. left. apply (in_said a); [assumption|]. rewrite (parse_C a Pa). now left.
      * apply NT, in_or_app. left. apply (in_said a); [assumption|]. rewrite (parse_T a Pa). now left.
      * apply parse_A in Pa as ->. now apply (H n).
Qed.

Lemma find_plain l n : (forall i, In i (said l) -> i = C) -> find_repr l <> Some (AAlign n).
Proof.
  intros H Fr. apply find_repr_in in Fr as (a & Ia & Pa). apply parse_A in Pa as ->. specialize (H (Align n)). discriminate H. apply (in_said _ _ _ Ia). now left.
Qed.
Lemma plain_said l : (forall i, In i (said l) -> i = C) -> forall i, In i (said (struct_attrs l)) -> i = C.
Proof.
  intros H i I. unfold struct_attrs in I. rewrite said_app in I. apply in_app_or in I as [I|I]; [auto|].
  destruct (find_repr l); cbn in I; [destruct I|]. destruct I as [<-|[]]. reflexivity.
Qed.
Lemma plain_C l : (forall i, In i (said l) -> i = C) -> In C (said (struct_attrs l)).
Proof.
  intros H. unfold struct_attrs. rewrite said_app. apply in_or_app. destruct (find_repr l) as [x|] eqn:Fr; [|right; now left].
  left. apply find_repr_in in Fr as (a & Ia & Pa). destruct (items a) as [|i its] eqn:E.
  - destruct a as [? ?]. cbn in E. subst. discriminate.
  - assert (X : In i (said l)) by (apply (in_said a _ _ Ia); rewrite E; now left). rewrite <- (H i X). assumption.
Qed.
Lemma asked_one l m : (forall n, In (Align n) l -> n = 1) -> asked l m -> m = 1.
Proof. intros H ([E|I] & ? & ?); auto. Qed.

Lemma struct_plain l ts ds d os size al :
  Forall2 (fun t d => layout t = Some d) ts ds -> Forall (fun d => 0 < dalign d) ds -> layout (struct_declared l ts) = Some d ->
  (forall i, In i (said l) -> i = C) -> compiled_struct (said (struct_attrs l)) (map sa ds) os size al -> id_check d size al = true.
Proof.
  intros F P L H (_ & S). pose proof (plain_said l H) as H'. pose proof (plain_C l H) as HC.
  destruct (existsb _ (said (struct_attrs l))) eqn:T in S; [apply existsb_T in T; apply H' in T; discriminate|].
  destruct S as (minal & gs & A & B & S). apply existsb_C in HC. rewrite HC in S.
  assert (gs = map sa ds) as -> by (eapply bounded_same; [|exact B]; intros n In; apply H' in In; discriminate).
  assert (minal = 1) as -> by (eapply asked_one; [|exact A]; intros n In; apply H' in In; discriminate).
  destruct (declared_c l ts ds d F P L) as (os' & S'); [intros n; now apply find_plain|].
  destruct (c_struct_fun _ _ _ _ _ _ _ _ S S') as (_ & -> & ->). unfold id_check. now rewrite !Nat.eqb_refl.
Qed.
Lemma struct_aligned n tr ts ds d os size al :
  ts <> [] -> Forall2 (fun t d => layout t = Some d) ts ds -> Forall (fun d => 0 < dalign d) ds ->
  let l := [Attr [Align n] false; Attr [C] tr] in layout (struct_declared l ts) = Some d ->
  compiled_struct (said (struct_attrs l)) (map sa ds) os size al -> id_check d size al = true.
Proof.
  intros NE F P l L (Leg & S). cbn in S. destruct S as (minal & gs & A & B & S).
  assert (gs = map sa ds) as -> by (eapply bounded_same; [|exact B]; intros m [In|[In|[]]]; discriminate).
  assert (Pn : power_of_two n) by (apply Leg; right; now left).
  assert (1 <= n) by (destruct Pn as [k ->]; assert (2 ^ k <> 0) by (apply Nat.pow_nonzero; lia); lia).
  assert (minal = n).
  { destruct A as ([->|[E|[E|[]]]] & ? & Mx); [specialize (Mx n (or_introl eq_refl)); lia|congruence|discriminate]. }
  subst minal. inversion F as [|t d0 ts' ds' H0 F']; subst; [contradiction|].
  cbn in L. destruct (aligned_struct_c t ts' d0 ds' n H0 F' P) as (d' & os' & E & S').
  unfold struct_declared in L. cbn [find_repr l parse_allowed items trailing] in L. 
  change (layout (aligned_struct_ty (t :: ts') (align_loop n n 1)) = Some d) in L. rewrite (align_loop_id n Pn), E in L. injection L as <-.
  destruct (c_struct_fun _ _ _ _ _ _ _ _ S S') as (_ & -> & ->). unfold id_check. now rewrite !Nat.eqb_refl.
Qed.
Lemma c_zero after : forall start os fin, Forall (fun g => g = (0, 1)) after -> c_offsets start after os fin -> fin = start.
Proof.
  induction after as [|g after IH]; intros start os fin Z H; inversion H; subst; [reflexivity|].
  inversion Z; subst. match goal with E : (_, _) = (0, 1) |- _ => injection E as -> -> end.
  assert (o = start) by (eapply first_multiple_unique; [eassumption|]; split; [exists start; lia|]; split; [lia|]; intros; lia).
  subst. match goal with O : c_offsets _ after _ _ |- _ => apply IH in O end; [lia|assumption].
Qed.
Lemma c_skip before : forall f after os fin, Forall (fun g => g = (0, 1)) before -> c_offsets 0 (before ++ f :: after) os fin ->
  exists os', c_offsets 0 (f :: after) os' fin.
Proof.
  induction before as [|g before IH]; intros f after os fin Z H; cbn [app] in *; [eauto|].
  inversion Z as [|? ? -> Z']; subst. inversion H as [|? ? ? o ? ? ? F H']; subst.
  assert (o = 0) by (eapply first_multiple_unique; [eassumption|apply first_multiple_0]). subst o. eapply IH; eauto.
Qed.
Lemma struct_transparent ts ds d os size al :
  Forall2 (fun t d => layout t = Some d) ts ds -> Forall (fun d => 0 < dalign d) ds ->
  let l := [Attr [Transparent] false] in layout (struct_declared l ts) = Some d ->
  compiled_struct (said (struct_attrs l)) (map sa ds) os size al -> id_check d size al = true.
Proof.
  intros F P l L (Leg & S). cbn in S. destruct S as (before & f & after & E & Z & -> & -> & M & _ & _).
  destruct (declared_c l ts ds d F P L) as (os' & Al & fin & O & Sz); [discriminate|].
  pose proof (fields_pos ds P) as Pf. rewrite E in *. apply Forall_app in Z as [Zb Za]. apply Forall_app in Pf as [_ Pf]. inversion Pf as [|? ? Pf0 _]; subst.
  destruct (c_skip _ _ _ _ _ Zb O) as (os2 & O2). destruct f as [s a]. cbn [fst snd] in *. inversion O2; subst.
  assert (o = 0) by (eapply first_multiple_unique; [eassumption|apply first_multiple_0]). subst o.
  match goal with H : c_offsets (0 + s) after _ _ |- _ => apply c_zero in H; [|assumption] end. cbn in *. subst fin.
  assert (Ea : dalign d = a).
  { rewrite Al. apply Nat.le_antisymm.
    - apply fold_max_le. split; [lia|]. rewrite map_app. cbn [map snd]. apply Forall_app. split; [|constructor; [lia|]].
      + rewrite Forall_forall in *. intros x I. apply in_map_iff in I as (g & <- & I). rewrite (Zb g I). cbn. lia.
      + rewrite Forall_forall in *. intros x I. apply in_map_iff in I as (g & <- & I). rewrite (Za g I). cbn. lia.
    - pose proof (proj1 (fold_max_le (map snd (before ++ (s, a) :: after)) 1 _) (le_n _)) as [_ X]. rewrite Forall_forall in X. apply X. apply in_map_iff.
      exists (s, a). split; [reflexivity|]. apply in_or_app. right. now left. }
  rewrite Ea in Sz. assert (dsize d = s).
  { destruct M as [k Ek]. eapply first_multiple_unique; [exact Sz|]. split; [exists k; assumption|]. split; [lia|]. intros. assumption. }
  unfold id_check. rewrite Ea, H. now rewrite !Nat.eqb_refl.
Qed.

Lemma union_plain l ts ds d size al :
  Forall2 (fun t d => layout t = Some d) ts ds -> Forall (fun d => al_ok (dalign d)) ds -> layout (union_ty ts) = Some d ->
  (forall i, In i (said l) -> i = C) -> compiled_union (said (union_attrs l)) (map sa ds) size al -> size = dsize d /\ al = dalign d.
Proof.
  intros F P L H (_ & minal & gs & A & B & U).
  assert (H' : forall i, In i (said (union_attrs l)) -> i = C).
  { intros i I. unfold union_attrs in I. rewrite said_app in I. apply in_app_or in I as [I|[<-|[]]]; auto. }
  assert (gs = map sa ds) as -> by (eapply bounded_same; [|exact B]; intros n In; apply H' in In; discriminate).
  assert (minal = 1) as -> by (eapply asked_one; [|exact A]; intros n In; apply H' in In; discriminate).
  destruct (union_c ts ds F P) as (d' & E & (U1 & U2) & _). rewrite L in E. injection E as <-. destruct U as [U1' U2']. cbn [map fst snd fold_left] in *.
  rewrite U1' in *. change (Nat.max 1 1) with 1 in *. change (Nat.max 0 0) with 0 in U2'. rewrite <- U1 in *. split; [|reflexivity].
  eapply first_multiple_unique; eauto.
Qed.

Lemma tag_eqb_eq a b : tag_eqb a b = true <-> a = b.
Proof. destruct a, b; cbn; split; congruence. Qed.
(** What is left to read, given what has been read. *)
Lemma parse_full_spec its : forall t c f, parse_full its (Full t c) = Some f ->
  (f_c f = true <-> c = true \/ In C its) /\
  (forall i, In i its -> i = C \/ exists r, f_tag f = Some r /\ i = match r with Some x => Int x | None => Stabby end) /\
  (forall r, t = Some r -> f_tag f = Some r) /\
  (forall r, f_tag f = Some r -> t = Some r \/ In (match r with Some x => Int x | None => Stabby end) its).
Proof.
  induction its as [|i its IH]; intros t c f H; cbn [parse_full f_tag f_c] in H.
  - injection H as <-. cbn. intuition congruence.
  - destruct i; try discriminate.
    + apply IH in H as (H1 & H2 & H3 & H4). cbn [In]. split; [intuition congruence|]. split; [intros i [<-|I]; auto|]. split; [auto|].
      intros r Hr. destruct (H4 r Hr); auto.
    + destruct t as [r'|].
      * destruct (det_eqb (Some t0) r') eqn:E; [|discriminate]. destruct r' as [r'|]; [|discriminate]. cbn in E. apply tag_eqb_eq in E as ->.
        apply IH in H as (H1 & H2 & H3 & H4). cbn [In]. split; [intuition congruence|].
        split; [intros i [<-|I]; [right; exists (Some r'); auto|auto]|]. split; [auto|]. intros r Hr. destruct (H4 r Hr); auto.
      * apply IH in H as (H1 & H2 & H3 & H4). cbn [In]. split; [intuition congruence|].
        split; [intros i [<-|I]; [right; exists (Some t0); auto|auto]|]. split; [discriminate|]. intros r Hr. rewrite (H3 _ eq_refl) in Hr. injection Hr as <-. auto.
    + destruct t as [r'|].
      * destruct (det_eqb None r') eqn:E; [|discriminate]. destruct r' as [r'|]; [discriminate|].
        apply IH in H as (H1 & H2 & H3 & H4). cbn [In]. split; [intuition congruence|].
        split; [intros i [<-|I]; [right; exists None; auto|auto]|]. split; [auto|]. intros r Hr. destruct (H4 r Hr); auto.
      * apply IH in H as (H1 & H2 & H3 & H4). cbn [In]. split; [intuition congruence|].
        split; [intros i [<-|I]; [right; exists None; auto|auto]|]. split; [discriminate|]. intros r Hr. rewrite (H3 _ eq_refl) in Hr. injection Hr as <-. auto.
Qed.
Lemma parse_full_total its r : (forall i, In i its -> i = C \/ i = match r with Some x => Int x | None => Stabby end) ->
  forall t c, (t = None \/ t = Some r) -> exists f, parse_full its (Full t c) = Some f.
Proof.
  induction its as [|i its IH]; intros H t c T; cbn [parse_full f_tag f_c]; [eauto|].
  assert (H' : forall i, In i its -> i = C \/ i = match r with Some x => Int x | None => Stabby end) by (intros; apply H; now right).
  destruct (H i (or_introl eq_refl)) as [->| ->]; [apply IH; auto|].
  destruct r as [x|]; destruct T as [->| ->]; cbn [det_eqb]; try (apply IH; auto).
  assert (E : tag_eqb x x = true) by now apply tag_eqb_eq. rewrite E. apply IH; auto.
Qed.
Lemma enum_exact l r : enum_repr_of l = Some r <-> enum_says l r.
Proof.
  split.
  - destruct l as [|a [|b l]]; cbn [enum_repr_of]; [intros [= <-]; constructor| |discriminate].
    destruct (parse_full (items a) (Full None false)) as [f|] eqn:Pf; [|discriminate]. apply parse_full_spec in Pf as (H1 & H2 & _ & H4).
    assert (HC : f_c f = true <-> In C (items a)) by (rewrite H1; intuition discriminate).
    destruct f as [[[t|]|] c]; cbn [f_tag f_c] in *.
    + intros [= <-]. assert (It : In (Int t) (items a)) by (destruct (H4 _ eq_refl); [discriminate|assumption]). destruct c.
      * apply says_c_tag; [|now apply HC|assumption]. intros i I. destruct (H2 i I) as [->|(r0 & [= <-] & ->)]; auto.
      * apply says_tag; [|assumption]. intros i I. destruct (H2 i I) as [->|(r0 & [= <-] & ->)]; auto. apply HC in I. discriminate.
    + destruct c; [discriminate|]. intros [= <-]. apply says_stabby. intros i I. destruct (H2 i I) as [->|(r0 & [= <-] & ->)]; auto. apply HC in I. discriminate.
    + destruct c; intros [= <-].
      * apply says_c; [|now apply HC]. intros i I. destruct (H2 i I) as [->|(r0 & [=] & _)]; auto.
      * apply says_stabby. intros i I. destruct (H2 i I) as [->|(r0 & [=] & _)]. apply HC in I. discriminate.
  - intros [|a H|a t H I|a t H IC I|a H IC]; cbn [enum_repr_of]; [reflexivity| | | |].
    + destruct (parse_full_total (items a) None) with (t := @None (option tag)) (c := false) as [f Pf]; [intros i I; right; auto|now left|].
      rewrite Pf. apply parse_full_spec in Pf as (H1 & H2 & _ & H4). destruct f as [[[t|]|] c]; cbn [f_tag f_c] in *.
      * destruct (H4 _ eq_refl) as [|I]; [discriminate|]. apply H in I. discriminate.
      * destruct c; [|reflexivity]. destruct (proj1 H1 eq_refl) as [|I]; [discriminate|]. apply H in I. discriminate.
      * destruct c; [|reflexivity]. destruct (proj1 H1 eq_refl) as [|I]; [discriminate|]. apply H in I. discriminate.
    + destruct (parse_full_total (items a) (Some t)) with (t := @None (option tag)) (c := false) as [f Pf]; [intros i J; right; auto|now left|].
      rewrite Pf. apply parse_full_spec in Pf as (H1 & H2 & _ & H4). destruct (H2 _ I) as [|(r0 & E & Er)]; [discriminate|].
      destruct f as [tg c]; cbn [f_tag f_c] in *. subst tg. destruct r0 as [x|]; [|discriminate]. injection Er as <-.
      destruct c; [|reflexivity]. destruct (proj1 H1 eq_refl) as [|J]; [discriminate|]. apply H in J. discriminate.
    + destruct (parse_full_total (items a) (Some t)) with (t := @None (option tag)) (c := false) as [f Pf]; [intros i J; auto|now left|].
      rewrite Pf. apply parse_full_spec in Pf as (H1 & H2 & _ & H4). destruct (H2 _ I) as [|(r0 & E & Er)]; [discriminate|].
      destruct f as [tg c]; cbn [f_tag f_c] in *. subst tg. destruct r0 as [x|]; [|discriminate]. injection Er as <-.
      rewrite (proj2 H1 (or_intror IC)). reflexivity.
    + destruct (parse_full_total (items a) None) with (t := @None (option tag)) (c := false) as [f Pf]; [intros i J; auto|now left|].
      rewrite Pf. apply parse_full_spec in Pf as (H1 & H2 & _ & H4).
      destruct f as [tg c]; cbn [f_tag f_c] in *. rewrite (proj2 H1 (or_intror IC)). destruct tg as [r0|]; [|reflexivity].
      destruct (H4 _ eq_refl) as [|J]; [discriminate|]. apply H in J. destruct r0; discriminate.
Qed.
