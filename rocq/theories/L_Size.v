(** Lemmas behind P_Size. *)
From Coq Require Import List Arith ZArith NArith Bool Lia ZifyBool ZifyN ZifyNat.
From Verif Require Import M_Layout M_Result M_Enum M_Size S_Layout S_Core L_Layout L_Result L_Good L_Types L_LayoutApi L_Enum L_Struct.
Import ListNotations.
Ltac Zify.zify_post_hook ::= idtac.
Arguments N.land : simpl never.
Arguments Nat.modulo : simpl never.
Arguments Nat.div : simpl never.
Arguments nmo : simpl never.
Arguments Nat.max : simpl never.
Arguments Nat.sub : simpl never.

(** ** The determinants *)
Lemma value_det s : forall d, into_value_is_err s = Some d -> det_d d = unit_d.
Proof.
  induction s as [| |o v r IH]; cbn; intros d H; try discriminate; [injection H as <-; reflexivity|].
  destruct (into_value_is_err r); [|discriminate]. injection H as <-. cbn. apply IH; reflexivity.
Qed.
Lemma unit_det f ub p : provider_with_unit f ub = Some p -> det_d (p_det p) = unit_d \/ det_d (p_det p) = det_d DBit.
Proof.
  destruct f as [| |o v r]; unfold provider_with_unit; [discriminate| |].
  - destruct ub as [|[o v] ub]; intros E; injection E as <-; [right|left]; reflexivity.
  - destruct (into_value_is_err _) eqn:E; [|discriminate]. intros H; injection H as <-. left. exact (value_det _ _ E).
Qed.
Lemma loop_det budget : forall usize okfv okub efv eub es ea eo p,
  provider_loop budget usize okfv okub efv eub es ea eo = Some p ->
  det_d (p_det p) = unit_d \/ det_d (p_det p) = det_d DBit.
Proof.
  induction budget as [|n IH]; intros usize okfv okub efv eub es ea eo p; [apply unit_det|].
  cbn [provider_loop]. cbv zeta.
  assert (forall s, match into_value_is_err s with Some d => Some (Prov eo (DNot d) (bit_and okub (shifted_unused_bits usize eub es eo))) | None => None end = Some p ->
    det_d (p_det p) = unit_d \/ det_d (p_det p) = det_d DBit) as H1.
  { intros s. destruct (into_value_is_err s) eqn:E; [|discriminate]. intros H; injection H as <-. left. exact (value_det _ _ E). }
  assert (forall s, match into_value_is_err s with Some d => Some (Prov eo d (bit_and okub (shifted_unused_bits usize eub es eo))) | None => None end = Some p ->
    det_d (p_det p) = unit_d \/ det_d (p_det p) = det_d DBit) as H2.
  { intros s. destruct (into_value_is_err s) eqn:E; [|discriminate]. intros H; injection H as <-. left. exact (value_det _ _ E). }
  destruct (sresolve (select_from (fshift eo efv) okub)); [| |apply H1].
  all: destruct (sresolve (select_from okfv (shifted_unused_bits usize eub es eo))); [| |apply H2].
  all: destruct (bit_and okub (shifted_unused_bits usize eub es eo)) as [|[o v] r];
       [|intros E; injection E as <-; left; reflexivity].
  all: destruct (Nat.leb _ _); [apply IH|apply unit_det].
Qed.
Lemma inner_det a b p : provider_inner a b = Some p -> det_d (p_det p) = unit_d \/ det_d (p_det p) = det_d DBit.
Proof. unfold provider_inner. destruct (Nat.eqb _ _); [apply unit_det|apply loop_det]. Qed.
Lemma of_det a b p : provider_of a b = Some p -> det_d (fp_det p) = unit_d \/ det_d (fp_det p) = det_d DBit.
Proof.
  unfold provider_of. destruct (Nat.leb _ _); destruct (provider_inner _ _) eqn:E; try discriminate;
  intros H; injection H as <-; exact (inner_det _ _ _ E).
Qed.

Definition tagged (d : desc) : Prop := exists r, dub d = (0, 254%N) :: r.

Lemma join_sizes a b p : al_ok (dalign a) -> al_ok (dalign b) -> provider_of a b = Some p ->
  dsize (result_d a b p) = Nat.max (dsize a) (dsize b) \/
  dsize (result_d a b p) = Nat.max (dsize a) (dsize b) + Nat.max (dalign a) (dalign b) /\ tagged (result_d a b p).
Proof.
  intros Ha Hb H. pose proof (al_ok_max _ _ Ha Hb) as Hm.
  destruct (of_det _ _ _ H) as [E|E]; unfold tagged, result_d; rewrite E; cbn [dsize dub].
  - left. change (dsize unit_d) with 0. rewrite nmo_0. reflexivity.
  - right. change (dsize (det_d DBit)) with 1. rewrite nmo_one by exact Hm. split; [lia|].
    cbn. eexists. reflexivity.
Qed.

(** ** A tag that is already there is used again *)
Lemma and_first r m : N.land 254 (byte_at m 0) <> 0%N -> bit_and ((0, 254%N) :: r) m <> [].
Proof. cbn [bit_and]. intros H. destruct (N.eqb_spec (N.land 254 (byte_at m 0)) 0); [contradiction|discriminate]. Qed.

Lemma inner_niche a b p : al_ok (dalign a) -> al_ok (dalign b) -> tagged a -> dsize a mod Nat.max (dalign a) (dalign b) = 0 ->
  dsize b + dalign b <= dsize a \/ dsize b = dsize a /\ tagged b ->
  provider_inner a b = Some p -> det_d (p_det p) = unit_d.
Proof.
  intros Aa Ab [r Ta] Sa Hb. unfold provider_inner. destruct (Nat.eqb_spec (dsize b) 0) as [Z|Z].
  - unfold provider_with_unit. destruct (select_one (dfv a)) as [| |o v s]; [discriminate| |].
    + rewrite Ta. intros E. injection E as <-. reflexivity.
    + destruct (into_value_is_err _) eqn:E; [|discriminate]. intros H; injection H as <-. exact (value_det _ _ E).
  - assert (union_size a b = dsize a) as Eu.
    { unfold union_size, union_align. rewrite Nat.max_l by (destruct Hb; lia). apply nmo_id. exact Sa. }
    rewrite Eu. assert (exists r', union_member_ub a b = (0, 254%N) :: r') as [r' Em].
    { unfold union_member_ub, bit_or. rewrite mshift_0, Ta. eexists; reflexivity. }
    rewrite Em. generalize (dfv a) (dfv b). intros fa fb. change 8 with (S (S 6)).
    assert (forall n eo p, N.land 254 (byte_at (shifted_unused_bits (dsize a) (dub b) (dsize b) eo) 0) <> 0%N ->
      provider_loop (S n) (dsize a) fa ((0, 254%N) :: r') fb (dub b) (dsize b) (dalign b) eo = Some p -> det_d (p_det p) = unit_d) as Hit.
    { intros n eo q Hn. cbn [provider_loop]. cbv zeta.
      pose proof (and_first r' _ Hn) as Hne.
      destruct (sresolve (select_from (fshift eo fb) ((0, 254%N) :: r'))) as [| |o1 v1 s1].
      3: { destruct (into_value_is_err _) eqn:E; [|discriminate]. intros H; injection H as <-. exact (value_det _ _ E). }
      all: destruct (sresolve (select_from fa _)) as [| |o2 v2 s2];
           [| |destruct (into_value_is_err (SArr o2 v2 s2)) eqn:E; [|discriminate]; intros H; injection H as <-; exact (value_det _ _ E)].
      all: destruct (bit_and ((0, 254%N) :: r') _) as [|[o3 v3] r3]; [congruence|];
           intros H; injection H as <-; reflexivity. }
    destruct Hb as [Hb|[Hb [rb Tb]]].
    + (* smaller: the second position leaves byte 0 free *)
      generalize 6. intros n. remember (S n) as m eqn:Em'. cbn [provider_loop]. cbv zeta.
      destruct (sresolve (select_from (fshift 0 fb) ((0, 254%N) :: r'))) as [| |o1 v1 s1].
      3: { destruct (into_value_is_err _) eqn:E; [|discriminate]. intros H; injection H as <-. exact (value_det _ _ E). }
      all: destruct (sresolve (select_from fa _)) as [| |o2 v2 s2];
           [| |destruct (into_value_is_err (SArr o2 v2 s2)) eqn:E; [|discriminate]; intros H; injection H as <-; exact (value_det _ _ E)].
      all: destruct (bit_and ((0, 254%N) :: r') _) as [|[o3 v3] r3]; [|intros H; injection H as <-; reflexivity].
      all: destruct (Nat.leb_spec (dsize b + dalign b + 0) (dsize a)); [|lia].
      all: rewrite Em'; apply Hit; unfold shifted_unused_bits, bit_or; rewrite padding_ub_eq, Nat.add_0_r;
           pose proof (al_ok_pos _ Ab); destruct (dalign b) as [|al]; [lia|]; cbn; discriminate.
    + apply Hit. unfold shifted_unused_bits, bit_or. rewrite mshift_0, Tb. cbn. discriminate.
Qed.

Lemma mult_room x y a : 0 < a -> x mod a = 0 -> y mod a = 0 -> x < y -> x + a <= y.
Proof.
  intros P Hx Hy H. destruct (mod_0_mult _ _ P Hx) as [j ->]. destruct (mod_0_mult _ _ P Hy) as [k ->].
  apply Nat.mul_lt_mono_pos_r in H; [|exact P]. replace (j * a + a) with (S j * a) by (cbn; lia).
  apply Nat.mul_le_mono_r. exact H.
Qed.

Section Bound.
Variables T AL : nat.
Hypothesis AL_ok : al_ok AL.
Hypothesis T_mult : T mod AL = 0.

Definition fits (d : desc) : Prop :=
  al_ok (dalign d) /\ dalign d <= AL /\ dsize d mod dalign d = 0 /\
  (dsize d < T \/ dsize d = T /\ tagged d).

Lemma room d : fits d -> dsize d < T -> dsize d + dalign d <= T.
Proof.
  intros (A & L & S & _) Hlt. pose proof (al_ok_pos _ A) as P.
  pose proof (mod_0_trans _ _ _ A AL_ok L T_mult) as HT. apply mult_room; assumption.
Qed.
Lemma join_small a b p : fits a -> fits b -> sizes_match a b = true -> provider_of a b = Some p ->
  dsize a < T -> dsize b < T -> fits (result_d a b p).
Proof.
  intros Fa Fb Hs Hp La Lb. pose proof Fa as (Aa & Ba & Sa & _). pose proof Fb as (Ab & Bb & Sb & _).
  pose proof (al_ok_max _ _ Aa Ab) as Am. pose proof (al_ok_pos _ Am) as P.
  unfold sizes_match in Hs. apply Nat.eqb_eq in Hs.
  assert (Nat.max (dalign a) (dalign b) <= AL) as Bm by lia.
  pose proof (mod_0_trans _ _ _ Am AL_ok Bm T_mult) as HT.
  assert (Nat.max (dsize a) (dsize b) < T) as Hlt by lia.
  assert (Nat.max (dsize a) (dsize b) + Nat.max (dalign a) (dalign b) <= T) as Hroom by (apply mult_room; assumption).
  destruct (join_sizes _ _ _ Aa Ab Hp) as [E|[E Ht]]; unfold fits.
  - repeat split; [exact Am|exact Bm| |left; lia]. rewrite E. exact Hs.
  - repeat split; [exact Am|exact Bm| |].
    + change (dalign (result_d a b p)) with (Nat.max (dalign a) (dalign b)). rewrite E. apply mod_0_add; [exact P|exact Hs|apply Nat.mod_same; lia].
    + destruct (Nat.eq_dec (dsize (result_d a b p)) T); [right; auto|left; lia].
Qed.
Lemma of_niche a b p : fits a -> fits b -> sizes_match a b = true -> provider_of a b = Some p ->
  Nat.max (dsize a) (dsize b) = T -> det_d (fp_det p) = unit_d.
Proof.
  intros Fa Fb Hs Hp HM. pose proof Fa as (Aa & Ba & Sa & Ca). pose proof Fb as (Ab & Bb & Sb & Cb).
  unfold sizes_match in Hs. apply Nat.eqb_eq in Hs. rewrite HM in Hs.
  assert (forall x y, fits x -> fits y -> dsize x = T -> tagged x -> dsize y <= T ->
    dsize y + dalign y <= dsize x \/ dsize y = dsize x /\ tagged y) as Hside.
  { intros x y Fx Fy Ex Tx Ey. pose proof Fy as (_ & _ & _ & [H|[H H']]).
    - left. rewrite Ex. apply room; assumption.
    - right. split; [congruence|assumption]. }
  unfold provider_of in Hp. destruct (Nat.leb_spec (dsize b) (dsize a)) as [L|L]; destruct (provider_inner _ _) eqn:E; try discriminate;
  injection Hp as <-; cbn [fp_det det_d].
  - assert (dsize a = T) as Ea by (clear - HM L; lia). destruct Ca as [C|[_ Ta]]; [clear - C Ea; lia|].
    refine (inner_niche _ _ _ Aa Ab Ta _ _ E); [rewrite Ea; exact Hs|apply Hside; auto; clear - L Ea; lia].
  - assert (dsize b = T) as Eb by (clear - HM L; lia). destruct Cb as [C|[_ Tb]]; [clear - C Eb; lia|].
    refine (inner_niche _ _ _ Ab Aa Tb _ _ E); [rewrite Eb, Nat.max_comm; exact Hs|apply Hside; auto; clear - L Eb; lia].
Qed.
Lemma join_fits a b p : fits a -> fits b -> sizes_match a b = true -> provider_of a b = Some p ->
  dsize (result_d a b p) <= T.
Proof.
  intros Fa Fb Hs Hp. pose proof Fa as (Aa & Ba & Sa & Ca). pose proof Fb as (Ab & Bb & Sb & Cb).
  destruct (Nat.lt_ge_cases (Nat.max (dsize a) (dsize b)) T) as [H|H].
  - destruct (join_small a b p Fa Fb Hs Hp) as (_ & _ & _ & [G|[G _]]); try (clear - G; lia); clear - H; lia.
  - assert (Nat.max (dsize a) (dsize b) = T) as HM by (clear - H Ca Cb; destruct Ca as [?|[? _]], Cb as [?|[? _]]; lia).
    pose proof (of_niche a b p Fa Fb Hs Hp HM) as E. unfold result_d. rewrite E. cbn [dsize].
    change (dsize unit_d) with 0. rewrite nmo_0. clear - HM; lia.
Qed.
Lemma leaf_fits t d : wf t -> layout t = Some d -> dalign d <= AL -> dsize d < T -> fits d.
Proof.
  intros W L Ha Hs. pose proof (wf_good _ _ W L) as G. unfold fits.
  split; [exact (g_al _ _ _ G)|]. split; [exact Ha|]. split; [exact (g_sz _ _ _ G eq_refl)|left; exact Hs].
Qed.
End Bound.

Lemma join_layout a b d : wf (TResult a b) -> layout (TResult a b) = Some d ->
  exists da db p, wf a /\ wf b /\ layout a = Some da /\ layout b = Some db /\ sizes_match da db = true /\
    provider_of da db = Some p /\ d = result_d da db p.
Proof.
  intros W L. destruct (result_provider _ _ W) as (da & db & p & La & Lb & Hp & Lr).
  apply wf_result in W. destruct W as (Wa & Wb & da' & db' & La' & Lb' & Hs).
  assert (da' = da) by congruence. assert (db' = db) by congruence. subst.
  exists da, db, p. repeat split; auto. congruence.
Qed.

Section Four.
Variables T AL : nat.
Hypothesis AL_ok : al_ok AL.
Hypothesis T_mult : T mod AL = 0.
Definition small (t : ty) : Prop := forall d, layout t = Some d -> dalign d <= AL /\ dsize d < T.

Lemma leaf2 t d : wf t -> layout t = Some d -> small t -> fits T AL d.
Proof. intros W L S. destruct (S d L). eapply leaf_fits; eauto. Qed.
Lemma pair2 a b d : wf (TResult a b) -> layout (TResult a b) = Some d -> small a -> small b -> fits T AL d.
Proof.
  intros W L Sa Sb. destruct (join_layout _ _ _ W L) as (da & db & p & Wa & Wb & La & Lb & Hs & Hp & ->).
  destruct (Sa _ La) as [? ?], (Sb _ Lb) as [? ?].
  apply (join_small T AL AL_ok T_mult); [eapply leaf_fits; [exact Wa|..]; eassumption|eapply leaf_fits; [exact Wb|..]; eassumption|assumption..].
Qed.
Lemma top2 a b d : wf (TResult a b) -> layout (TResult a b) = Some d ->
  (forall d, wf a -> layout a = Some d -> fits T AL d) -> (forall d, wf b -> layout b = Some d -> fits T AL d) -> dsize d <= T.
Proof.
  intros W L Fa Fb. destruct (join_layout _ _ _ W L) as (da & db & p & Wa & Wb & La & Lb & Hs & Hp & ->).
  apply (join_fits T AL AL_ok T_mult); auto.
Qed.
Lemma upto_four vs t d : 2 <= length vs <= 4 -> enum_ty vs = Some t -> wf t -> layout t = Some d ->
  Forall small vs -> dsize d <= T.
Proof.
  intros Hl E W L F.
  destruct vs as [|a [|b [|c [|e [|? ?]]]]]; cbn [length] in Hl; try lia; cbn in E; injection E as <-;
  repeat match goal with H : Forall _ (_ :: _) |- _ => inversion_clear H end;
  (eapply top2; [exact W|exact L| |]); intros; first [eapply leaf2; eassumption|eapply pair2; eassumption].
Qed.
End Four.

(** ** Every enum *)
Lemma recursion_bound M AL fuel : forall vs t d ds k,
  recursion (fun t => t) TResult fuel vs = Some t -> wf t -> layout t = Some d -> length vs <= 2 ^ k ->
  Forall2 (fun t d => layout t = Some d) vs ds -> Forall (fun d => dsize d <= M /\ dalign d <= AL) ds ->
  dsize d <= M + k * AL /\ dalign d <= AL /\ Forall (fun x => dsize x <= dsize d /\ dalign x <= dalign d) ds.
Proof.
  induction fuel as [|fuel IH]; intros vs t d ds k E W L Hk F2 FM; [discriminate|].
  destruct (Nat.lt_ge_cases (length vs) 2) as [H2|H2].
  - destruct vs as [|v [|? ?]]; cbn [length] in H2; try lia; [discriminate|]. cbn in E. injection E as <-.
    inversion F2 as [|? d' ? ? L' F' ]; subst. inversion F'; subst. inversion_clear FM as [|? ? [HA HB] _].
    assert (d' = d) by congruence. subst. repeat split; try lia. constructor; [lia|constructor].
  - rewrite recursion_unfold in E by exact H2.
    destruct (recursion _ _ fuel (firstn _ vs)) as [ta|] eqn:Ea; [|discriminate].
    destruct (recursion _ _ fuel (skipn _ vs)) as [tb|] eqn:Eb; [|discriminate]. injection E as <-.
    destruct (join_layout _ _ _ W L) as (da & db & p & Wa & Wb & La & Lb & Hs & Hp & ->).
    pose proof (half_lt _ H2) as Hh. set (h := length vs / 2) in *.
    rewrite <- (firstn_skipn h vs) in F2. apply Forall2_app_inv_l in F2. destruct F2 as (d1 & d2 & F1 & F2 & ->).
    apply Forall_app in FM. destruct FM as [FM1 FM2].
    destruct k as [|k]; [cbn in Hk; lia|]. cbn [Nat.pow] in Hk.
    assert (length vs <= 2 * h + 1) as Hodd by (unfold h; pose proof (Nat.div_mod (length vs) 2); pose proof (Nat.mod_upper_bound (length vs) 2); lia).
    assert (2 * h <= length vs) as Hev by (unfold h; pose proof (Nat.mul_div_le (length vs) 2); lia).
    assert (length (firstn h vs) <= 2 ^ k) as K1 by (rewrite firstn_length; lia).
    destruct (IH _ _ _ d1 k Ea Wa La K1 F1 FM1) as (A1 & A2 & A3).
    assert (length (skipn h vs) <= 2 ^ k) as K2 by (rewrite skipn_length; lia).
    destruct (IH _ _ _ d2 k Eb Wb Lb K2 F2 FM2) as (B1 & B2 & B3).
    pose proof (g_al _ _ _ (wf_good _ _ Wa La)) as Aa. pose proof (g_al _ _ _ (wf_good _ _ Wb Lb)) as Ab.
    assert (dalign (result_d da db p) = Nat.max (dalign da) (dalign db)) as EA by reflexivity.
    destruct (join_sizes _ _ _ Aa Ab Hp) as [Es|[Es _]]; rewrite Es, EA.
    + split; [cbn [Nat.mul]; lia|]. split; [lia|]. apply Forall_app. split; eapply Forall_impl; try eassumption; cbv beta; intros; lia.
    + split; [cbn [Nat.mul]; lia|]. split; [lia|]. apply Forall_app. split; eapply Forall_impl; try eassumption; cbv beta; intros; lia.
Qed.
Lemma recursion_wf fuel : forall vs t, recursion (fun t => t) TResult fuel vs = Some t -> wf t -> Forall wf vs.
Proof.
  induction fuel as [|fuel IH]; intros vs t E W; [discriminate|].
  destruct (Nat.lt_ge_cases (length vs) 2) as [H2|H2].
  - destruct vs as [|v [|? ?]]; cbn [length] in H2; try lia; [discriminate|]. cbn in E. injection E as <-. auto.
  - rewrite recursion_unfold in E by exact H2.
    destruct (recursion _ _ fuel (firstn _ vs)) as [ta|] eqn:Ea; [|discriminate].
    destruct (recursion _ _ fuel (skipn _ vs)) as [tb|] eqn:Eb; [|discriminate]. injection E as <-.
    apply wf_result in W. destruct W as (Wa & Wb & _).
    rewrite <- (firstn_skipn (length vs / 2) vs). apply Forall_app. split; eauto.
Qed.
Lemma enum_recursion vs t : enum_ty vs = Some t -> 2 <= length vs /\ recursion (fun t => t) TResult (length vs) vs = Some t.
Proof. unfold enum_ty. destruct (Nat.ltb_spec (length vs) 2); [discriminate|]. auto. Qed.

(** ** The enum with a tag *)
Definition sized (d : desc) : Prop := al_ok (dalign d) /\ dsize d mod dalign d = 0.
Lemma wf_sized vs ds : Forall wf vs -> Forall2 (fun t d => layout t = Some d) vs ds -> Forall sized ds.
Proof.
  intros W F. induction F as [|t d vs ds L F IH]; constructor; inversion W; subst; auto.
  pose proof (wf_good t d ltac:(assumption) L) as G. split; [exact (g_al _ _ _ G)|exact (g_sz _ _ _ G eq_refl)].
Qed.
Lemma u_struct s a o z al : al_ok a -> s mod a = 0 -> c_struct 1 [(1, 1); (s, a)] [0; o] z al -> z = s + a /\ al = a.
Proof.
  intros A S [-> [fin [C F]]]. cbn [map snd fold_left] in F |- *. rewrite Nat.max_id in F |- *.
  rewrite (max_1_al _ A) in F |- *. pose proof (al_ok_pos _ A) as P.
  inversion C as [|? ? ? ? ? ? ? _ C']; subst. inversion C' as [|? ? ? ? ? ? ? H1 C'']; subst. inversion C''; subst.
  cbn [Nat.add] in H1. pose proof (first_multiple_unique _ _ _ _ H1 (nmo_first 1 a P)) as Eo. rewrite (nmo_one _ A) in Eo. subst o.
  split; [|reflexivity].
  rewrite (first_multiple_unique _ _ _ _ F (nmo_first (a + s) a P)). rewrite nmo_id; [lia|].
  apply mod_0_add; [exact P|apply Nat.mod_same; lia|exact S].
Qed.
Lemma u_enum ds : forall os size al, Forall sized ds -> repr_u_enum 1 (map (fun d => (dsize d, dalign d)) ds) os size al ->
  c_union (map (fun d => (dsize d + dalign d, dalign d)) ds) size al.
Proof.
  intros os size al W (ss & F & El & U).
  enough (ss = map (fun d => (dsize d + dalign d, dalign d)) ds) as <- by exact U. clear U.
  revert os ss El F. induction W as [|d ds [A S] W IH]; intros [|o os] ss El F; cbn in El; try discriminate.
  - inversion F. reflexivity.
  - cbn [map combine] in F. inversion F as [|? [z a] ? ss' H F']; subst. cbn [fst snd] in H.
    destruct (u_struct _ _ _ _ _ A S H) as [-> ->]. cbn [map]. f_equal. apply (IH os); [congruence|exact F'].
Qed.
Lemma fold_max_lub l : forall k b, k <= b -> Forall (fun x => x <= b) l -> fold_left Nat.max l k <= b.
Proof. induction l as [|x l IH]; intros k b Hk F; cbn [fold_left]; [exact Hk|]. inversion F; subst. apply IH; [lia|assumption]. Qed.
Lemma fold_max_in l : forall k, Forall (fun x => x <= fold_left Nat.max l k) l.
Proof.
  induction l as [|x l IH]; intros k; constructor; cbn [fold_left].
  - pose proof (fold_max_pos l (Nat.max k x)). lia.
  - apply IH.
Qed.
Lemma fold_max_al ds : Forall sized ds -> al_ok (fold_left Nat.max (map dalign ds) 1).
Proof.
  intros F. assert (forall k, al_ok k -> al_ok (fold_left Nat.max (map dalign ds) k)) as H; [|apply H; left; reflexivity].
  induction F as [|d ds [A _] F IH]; intros k Hk; cbn [map fold_left]; [exact Hk|]. apply IH. apply al_ok_max; assumption.
Qed.
Definition maxsize (ds : list desc) : nat := fold_left Nat.max (map dsize ds) 0.
Definition maxalign (ds : list desc) : nat := fold_left Nat.max (map dalign ds) 1.
Lemma union_facts ds size al : c_union (map (fun d => (dsize d, dalign d)) ds) size al ->
  al = maxalign ds /\ first_multiple (maxsize ds) al size.
Proof. unfold c_union, maxsize, maxalign. rewrite !map_map. cbn. auto. Qed.
Lemma tagged_facts ds size al : c_union (map (fun d => (dsize d + dalign d, dalign d)) ds) size al ->
  al = maxalign ds /\ first_multiple (fold_left Nat.max (map (fun d => dsize d + dalign d) ds) 0) al size.
Proof. unfold c_union, maxalign. rewrite !map_map. cbn. auto. Qed.
Lemma max_bounds ds : Forall (fun d => dsize d <= maxsize ds /\ dalign d <= maxalign ds) ds.
Proof.
  pose proof (fold_max_in (map dsize ds) 0) as A. pose proof (fold_max_in (map dalign ds) 1) as B.
  rewrite Forall_map in A, B. unfold maxsize, maxalign. rewrite Forall_forall in *. auto.
Qed.
Lemma first_mod n a x : 0 < a -> first_multiple n a x -> x mod a = 0.
Proof. intros P ([k ->] & _). apply mult_mod; exact P. Qed.

Section Facts.
Variables (vs : list ty) (ds : list desc) (t : ty) (d : desc).
Hypothesis F : Forall2 (fun t d => layout t = Some d) vs ds.
Hypothesis E : enum_ty vs = Some t.
Hypothesis W : wf t.
Hypothesis L : layout t = Some d.

Lemma facts_sized : Forall sized ds.
Proof. destruct (enum_recursion _ _ E) as [_ R]. eapply wf_sized; [eapply recursion_wf; eassumption|exact F]. Qed.
Lemma facts_bound k : length vs <= 2 ^ k -> dsize d <= maxsize ds + k * maxalign ds /\ dalign d = maxalign ds /\
  maxsize ds <= dsize d.
Proof.
  intros Hk. destruct (enum_recursion _ _ E) as [H2 R].
  destruct (recursion_bound (maxsize ds) (maxalign ds) _ _ _ _ ds k R W L Hk F (max_bounds ds)) as (B1 & B2 & B3).
  split; [exact B1|]. assert (1 <= dalign d) as P by (apply (al_ok_pos _ (g_al _ _ _ (wf_good _ _ W L)))).
  split; [apply Nat.le_antisymm; [exact B2|]|]; (apply fold_max_lub; [try exact P; lia|]);
  rewrite Forall_map; eapply Forall_impl; try exact B3; cbv beta; intros x [? ?]; assumption.
Qed.
Lemma facts_union k usize al : length vs <= 2 ^ k -> c_union (map (fun d => (dsize d, dalign d)) ds) usize al ->
  dalign d = al /\ usize <= dsize d <= usize + k * al.
Proof.
  intros Hk HU. destruct (union_facts _ _ _ HU) as [-> FM]. destruct (facts_bound k Hk) as (B1 & B2 & B3).
  pose proof (wf_good _ _ W L) as G. pose proof (g_sz _ _ _ G eq_refl) as S. pose proof (al_ok_pos _ (g_al _ _ _ G)) as P.
  split; [exact B2|]. destruct FM as (M1 & M2 & M3). split; [|lia].
  destruct (mod_0_mult _ _ P S) as [j Ej]. rewrite Ej, B2. apply M3. rewrite <- B2, <- Ej. exact B3.
Qed.
Lemma facts_four os size al : length vs <= 4 -> repr_u_enum 1 (map (fun d => (dsize d, dalign d)) ds) os size al ->
  dsize d <= size /\ dalign d = al.
Proof.
  intros H4 HU. pose proof facts_sized as Sz. pose proof (fold_max_al ds Sz) as AL. fold (maxalign ds) in AL.
  apply (u_enum _ _ _ _ Sz) in HU. destruct (tagged_facts _ _ _ HU) as [-> FM].
  destruct (enum_recursion _ _ E) as [H2 _]. destruct (facts_bound (length vs)) as (_ & B2 & _).
  { pose proof (Nat.pow_gt_lin_r 2 (length vs)). lia. }
  split; [|exact B2].
  refine (upto_four size (maxalign ds) AL (first_mod _ _ _ (al_ok_pos _ AL) FM) vs t d (conj H2 H4) E W L _).
  destruct FM as (_ & M2 & _).
  pose proof (fold_max_in (map (fun d => dsize d + dalign d) ds) 0) as A. rewrite Forall_map in A.
  pose proof (max_bounds ds) as MB.
  assert (Forall (fun x => dalign x <= maxalign ds /\ dsize x < size) ds) as FF.
  { rewrite Forall_forall in *. intros x Hx. specialize (A x Hx). specialize (MB x Hx). destruct (Sz x Hx) as [Ax _].
    pose proof (al_ok_pos _ Ax). lia. }
  clear - F FF. revert FF. generalize (maxalign ds). intros m FF.
  induction F as [|v x vs' ds' Lv F' IH]; constructor; inversion_clear FF; auto.
  intros d Ld. assert (d = x) as -> by congruence. assumption.
Qed.
Lemma facts_unmarked os size al usize : repr_u_enum 1 (map (fun d => (dsize d, dalign d)) ds) os size al ->
  c_union (map (fun d => (dsize d, dalign d)) ds) usize al ->
  dsize d < size <-> dsize d = usize /\ usize < size.
Proof.
  intros HT HU. pose proof facts_sized as Sz. apply (u_enum _ _ _ _ Sz) in HT.
  destruct (facts_union (length vs) usize al) as (EA & HL & _); [pose proof (Nat.pow_gt_lin_r 2 (length vs)); lia|exact HU|].
  destruct (tagged_facts _ _ _ HT) as [Eal FM]. destruct (union_facts _ _ _ HU) as [_ FU].
  pose proof (wf_good _ _ W L) as G. pose proof (g_sz _ _ _ G eq_refl) as Sd. pose proof (al_ok_pos _ (g_al _ _ _ G)) as P.
  rewrite EA in *.
  assert (size <= usize + al) as Hle.
  { destruct FM as (M1 & M2 & M3). destruct FU as ([j Ej] & U2 & U3).
    replace (usize + al) with (S j * al) by (cbn; lia). apply M3. replace (S j * al) with (usize + al) by (cbn; lia).
    apply fold_max_lub; [lia|]. rewrite Forall_map. pose proof (max_bounds ds) as MB. rewrite Forall_forall in *.
    intros x Hx. specialize (MB x Hx). lia. }
  split; [|lia]. intros Hlt. split; [|lia].
  destruct (Nat.eq_dec (dsize d) usize) as [e|e]; [exact e|].
  pose proof (mult_room usize (dsize d) al P (first_mod _ _ _ P FU) Sd ltac:(lia)). lia.
Qed.
End Facts.
