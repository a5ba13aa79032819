(** Lemmas behind P_String. *)
From Coq Require Import NArith ZArith Arith List Bool Lia ZifyBool ZifyN ZifyNat.
From Verif Require Import M_Alloc M_Vec S_Vec L_Vec M_Arc S_Arc M_ArcSlice S_ArcSlice P_ArcSlice M_String S_String.
Import ListNotations.
Local Open Scope N_scope.
Ltac Zify.zify_post_hook ::= Z.div_mod_to_equations.

(** ** UTF-8 *)
Lemma within_spec lo hi b : within lo hi b = true <-> lo <= b <= hi.
Proof. unfold within. lia. Qed.
Lemma encode_cons c t : encode (c :: t) = utf8 c ++ encode t.
Proof. reflexivity. Qed.
Lemma encode_app t u : encode (t ++ u) = encode t ++ encode u.
Proof. apply flat_map_app. Qed.

Lemma utf8_valid c l : scalar c -> from_utf8 (utf8 c ++ l) = from_utf8 l.
Proof.
  unfold scalar, utf8. intros H.
  destruct (N.ltb_spec c 128) as [H1|H1]; [|destruct (N.ltb_spec c 2048) as [H2|H2]; [|destruct (N.ltb_spec c 65536) as [H3|H3]]]; cbn [app from_utf8].
  - destruct (N.ltb_spec c 128); [reflexivity|lia].
  - destruct (N.ltb_spec (192 + c / 64) 128); [lia|]. replace (within 194 223 (192 + c / 64)) with true by (symmetry; apply within_spec; lia).
    replace (within 128 191 (128 + c mod 64)) with true by (symmetry; apply within_spec; lia). reflexivity.
  - destruct (N.ltb_spec (224 + c / 4096) 128); [lia|]. replace (within 194 223 (224 + c / 4096)) with false by (symmetry; unfold within; lia).
    replace (within 224 239 (224 + c / 4096)) with true by (symmetry; apply within_spec; lia).
    replace (within 128 191 (128 + c mod 64)) with true by (symmetry; apply within_spec; lia).
    match goal with |- within ?a ?b ?x && _ && _ = _ => replace (within a b x) with true; [reflexivity|] end.
    symmetry. apply within_spec. destruct (N.eqb_spec (224 + c / 4096) 224), (N.eqb_spec (224 + c / 4096) 237); lia.
  - destruct (N.ltb_spec (240 + c / 262144) 128); [lia|]. replace (within 194 223 (240 + c / 262144)) with false by (symmetry; unfold within; lia).
    replace (within 224 239 (240 + c / 262144)) with false by (symmetry; unfold within; lia).
    replace (within 240 244 (240 + c / 262144)) with true by (symmetry; apply within_spec; lia).
    replace (within 128 191 (128 + c mod 64)) with true by (symmetry; apply within_spec; lia).
    replace (within 128 191 (128 + c / 64 mod 64)) with true by (symmetry; apply within_spec; lia).
    match goal with |- _ && within ?a ?b ?x && _ && _ && _ = _ => replace (within a b x) with true; [reflexivity|] end.
    symmetry. apply within_spec. destruct (N.eqb_spec (240 + c / 262144) 240), (N.eqb_spec (240 + c / 262144) 244); lia.
Qed.
Lemma encode_valid t : Forall scalar t -> from_utf8 (encode t) = true.
Proof. induction 1 as [|c t Hc _ IH]; [reflexivity|]. rewrite encode_cons, utf8_valid; assumption. Qed.

Lemma utf8_2 a b : 194 <= a <= 223 -> 128 <= b <= 191 -> exists c, scalar c /\ utf8 c = [a; b].
Proof.
  intros Ha Hb. exists ((a - 192) * 64 + (b - 128)). unfold scalar, utf8. split; [lia|].
  destruct (N.ltb_spec ((a - 192) * 64 + (b - 128)) 128); [lia|]. destruct (N.ltb_spec ((a - 192) * 64 + (b - 128)) 2048); [|lia]. f_equal; [|f_equal]; lia.
Qed.
Lemma utf8_3 a b c : 224 <= a <= 239 -> (if a =? 224 then 160 else 128) <= b <= (if a =? 237 then 159 else 191) -> 128 <= c <= 191 ->
  exists x, scalar x /\ utf8 x = [a; b; c].
Proof.
  intros Ha Hb Hc. set (x := (a - 224) * 4096 + (b - 128) * 64 + (c - 128)). exists x. unfold scalar, utf8.
  assert (x = (a - 224) * 4096 + (b - 128) * 64 + (c - 128)) as Hx by reflexivity. clearbody x.
  assert (128 <= b <= 191) as Hb' by (destruct (a =? 224), (a =? 237); lia).
  split; [destruct (N.eqb_spec a 224), (N.eqb_spec a 237); lia|].
  assert (2048 <= x) by (destruct (N.eqb_spec a 224); lia). clear Hb.
  destruct (N.ltb_spec x 128); [lia|]. destruct (N.ltb_spec x 2048); [lia|]. destruct (N.ltb_spec x 65536); [|lia]. f_equal; [|f_equal; [|f_equal]]; lia.
Qed.
Lemma utf8_4 a b c d : 240 <= a <= 244 -> (if a =? 240 then 144 else 128) <= b <= (if a =? 244 then 143 else 191) -> 128 <= c <= 191 -> 128 <= d <= 191 ->
  exists x, scalar x /\ utf8 x = [a; b; c; d].
Proof.
  intros Ha Hb Hc Hd. set (x := (a - 240) * 262144 + (b - 128) * 4096 + (c - 128) * 64 + (d - 128)). exists x. unfold scalar, utf8.
  assert (x = (a - 240) * 262144 + (b - 128) * 4096 + (c - 128) * 64 + (d - 128)) as Hx by reflexivity. clearbody x.
  assert (128 <= b <= 191) as Hb' by (destruct (a =? 240), (a =? 244); lia).
  assert (65536 <= x) by (destruct (N.eqb_spec a 240); lia). assert (x < 1114112) by (destruct (N.eqb_spec a 244); lia). clear Hb.
  split; [lia|].
  destruct (N.ltb_spec x 128); [lia|]. destruct (N.ltb_spec x 2048); [lia|]. destruct (N.ltb_spec x 65536); [lia|]. f_equal; [|f_equal; [|f_equal; [|f_equal]]]; lia.
Qed.
Lemma valid_text : forall n l, (length l <= n)%nat -> from_utf8 l = true -> exists t, is_text l t.
Proof.
  intros n. induction n as [|n IH]; intros l Hn H.
  { destruct l; [|cbn in Hn; lia]. exists []. split; [constructor|reflexivity]. }
  assert (forall x p r, scalar x -> utf8 x = p -> (length r <= n)%nat -> from_utf8 r = true -> exists t, is_text (p ++ r) t) as G.
  { intros x p r Hx <- Hr Vr. destruct (IH r Hr Vr) as [t [St ->]]. exists (x :: t). split; [constructor; assumption|reflexivity]. }
  destruct l as [|a l]; [exists []; split; [constructor|reflexivity]|]. cbn [from_utf8 length] in *.
  destruct (N.ltb_spec a 128) as [H1|H1].
  { apply (G a [a] l); [unfold scalar; lia| |lia|exact H]. unfold utf8. destruct (N.ltb_spec a 128); [reflexivity|lia]. }
  destruct l as [|b l]; [discriminate|]. cbn [length] in *. destruct (within 194 223 a) eqn:W2.
  { apply within_spec in W2. apply andb_true_iff in H. destruct H as [Wb H]. apply within_spec in Wb.
    destruct (utf8_2 a b W2 Wb) as [x [Sx Ux]]. apply (G x [a; b] l Sx Ux); [lia|exact H]. }
  destruct l as [|c l]; [discriminate|]. cbn [length] in *. destruct (within 224 239 a) eqn:W3.
  { apply within_spec in W3. rewrite !andb_true_iff, !within_spec in H. destruct H as [[Wb Wc] H].
    destruct (utf8_3 a b c W3 Wb Wc) as [x [Sx Ux]]. apply (G x [a; b; c] l Sx Ux); [lia|exact H]. }
  destruct l as [|d l]; [discriminate|]. cbn [length] in *. rewrite !andb_true_iff, !within_spec in H. destruct H as [[[[Wa Wb] Wc] Wd] H].
  destruct (utf8_4 a b c d Wa Wb Wc Wd) as [x [Sx Ux]]. apply (G x [a; b; c; d] l Sx Ux); [lia|exact H].
Qed.
Lemma from_utf8_iff l : from_utf8 l = true <-> exists t, is_text l t.
Proof.
  split; [apply (valid_text (length l)); lia|]. intros [t [St ->]]. apply encode_valid, St.
Qed.

(** ** Order *)
Lemma cmp_refl l : cmp l l = Eq.
Proof. induction l as [|a l IH]; cbn; [reflexivity|]. rewrite N.compare_refl. exact IH. Qed.
Lemma cmp_app p l m : cmp (p ++ l) (p ++ m) = cmp l m.
Proof. induction p as [|a p IH]; cbn; [reflexivity|]. rewrite N.compare_refl. exact IH. Qed.
Lemma cmp_antisym l : forall m, cmp m l = CompOpp (cmp l m).
Proof.
  induction l as [|a l IH]; intros [|b m]; cbn; try reflexivity. rewrite (N.compare_antisym a b). destruct (a ?= b); cbn; auto.
Qed.
Lemma cmp_head_lt a b l m : a < b -> cmp (a :: l) (b :: m) = Lt.
Proof. intros H. cbn. apply N.compare_lt_iff in H. rewrite H. reflexivity. Qed.
Lemma cmp_step a b l m : a <= b -> (a = b -> cmp l m = Lt) -> cmp (a :: l) (b :: m) = Lt.
Proof.
  intros H K. destruct (N.eq_dec a b) as [->|]; [|apply cmp_head_lt; lia]. cbn. rewrite N.compare_refl. auto.
Qed.
Lemma utf8_lt c d l m : c < d -> d < 1114112 -> cmp (utf8 c ++ l) (utf8 d ++ m) = Lt.
Proof.
  intros H Hd. unfold utf8.
  destruct (N.ltb_spec c 128); [|destruct (N.ltb_spec c 2048); [|destruct (N.ltb_spec c 65536)]];
  (destruct (N.ltb_spec d 128); [|destruct (N.ltb_spec d 2048); [|destruct (N.ltb_spec d 65536)]]); cbn [app]; try lia;
  try (apply cmp_head_lt; lia);
  repeat (apply cmp_step; [lia|intros]); lia.
Qed.
Lemma before_cmp t u : before t u -> Forall scalar t -> Forall scalar u -> cmp (encode t) (encode u) = Lt.
Proof.
  induction 1 as [b m|a b l m H|a l m H IH]; intros Ht Hu.
  - rewrite encode_cons. unfold utf8. destruct (b <? 128), (b <? 2048), (b <? 65536); reflexivity.
  - inversion_clear Hu as [|? ? Hb _]. rewrite !encode_cons. apply utf8_lt; [exact H|]. unfold scalar in Hb. lia.
  - inversion_clear Ht. inversion_clear Hu. rewrite !encode_cons, cmp_app. auto.
Qed.
Lemma before_total t : forall u, before t u \/ t = u \/ before u t.
Proof.
  induction t as [|a t IH]; intros [|b u]; [auto|left; constructor|right; right; constructor|].
  destruct (N.lt_trichotomy a b) as [H|[H|H]]; [left; constructor; exact H| |right; right; constructor; exact H].
  subst b. destruct (IH u) as [H|[H|H]]; [left; constructor; exact H|subst; auto|right; right; constructor; exact H].
Qed.
Lemma cmp_before t u : Forall scalar t -> Forall scalar u ->
  match cmp (encode t) (encode u) with Lt => before t u | Eq => t = u | Gt => before u t end.
Proof.
  intros Ht Hu. destruct (before_total t u) as [H|[H|H]].
  - rewrite (before_cmp t u H Ht Hu). exact H.
  - subst. rewrite cmp_refl. reflexivity.
  - rewrite cmp_antisym, (before_cmp u t H Hu Ht). exact H.
Qed.

(** ** Case *)
Ltac cases := repeat match goal with |- context [if ?b then _ else _] => destruct b eqn:? end; lia.
Lemma ascii_utf8 up c : scalar c -> map (ascii_case up) (utf8 c) = utf8 (if up then upper c else lower c) /\ scalar (if up then upper c else lower c).
Proof.
  assert (forall x, 128 <= x -> ascii_case up x = x) as G by (intros x Hx; unfold ascii_case, within; destruct up; cases).
  assert (128 <= c -> (if up then upper c else lower c) = c) as K by (intros; unfold upper, lower; destruct up; cases).
  intros H. destruct (N.ltb_spec c 128) as [H1|H1].
  - assert ((if up then upper c else lower c) < 128) as L by (unfold upper, lower; destruct up; cases). split; [|unfold scalar; lia].
    unfold utf8. destruct (N.ltb_spec c 128); [|lia]. destruct (N.ltb_spec (if up then upper c else lower c) 128); [|lia]. reflexivity.
  - rewrite (K H1). split; [|exact H]. unfold utf8. destruct (N.ltb_spec c 128); [lia|].
    destruct (c <? 2048), (c <? 65536); cbn [map]; rewrite !G by lia; reflexivity.
Qed.
Lemma ascii_encode up t : Forall scalar t ->
  map (ascii_case up) (encode t) = encode (map (if up then upper else lower) t) /\ Forall scalar (map (if up then upper else lower) t).
Proof.
  induction 1 as [|c t Hc _ IH]; [split; [reflexivity|constructor]|]. cbn [map]. rewrite !encode_cons, map_app.
  destruct IH as [IH1 IH2]. destruct (ascii_utf8 up c Hc) as [A B]. rewrite IH1, A. destruct up; (split; [reflexivity|constructor; assumption]).
Qed.

(** ** Operations *)
Lemma one_nz : 1 <> 0. Proof. discriminate. Qed.
Lemma add_assign_spec ok s l b : holds 1 s l -> fits 1 (N.of_nat (length l + length b)) ->
  (exists s', add_assign ok b s = Some (s', Good) /\ holds 1 s' (l ++ b)) \/ ((exists k, ok k = false) /\ add_assign ok b s = Some (s, Panic)).
Proof.
  intros H F. unfold add_assign, v_copy_extend. destruct (v_try_copy_extend_spec 1 ok s l b one_nz H F) as [[v' [E H']]|[K E]]; rewrite E.
  - left. exists v'. split; [reflexivity|exact H'].
  - right. split; [exact K|reflexivity].
Qed.
Lemma holds_map (s : vec N) (l : list N) (f : N -> N) : holds 1 s l -> exists m, set_slots 0 (map f l) (slots s) = Some m /\ holds 1 (Vec m (vlen s) (vcap s)) (map f l).
Proof.
  intros [rest [H1 [H2 [H3 H4]]]]. rewrite H1.
  assert (forall (k : list N) (p : list N) r, set_slots (length p) (map f k) (map Some p ++ map Some k ++ r) = Some (map Some (p ++ map f k) ++ r)) as G.
  { induction k as [|x k IH]; intros p r; cbn [map set_slots app].
    - rewrite app_nil_r. reflexivity.
    - rewrite (set_slot_end p (Some x) (map Some k ++ r) (Some (f x))). replace (Datatypes.S (length p)) with (length (p ++ [f x])) by (rewrite app_length; cbn; lia).
      replace (map Some p ++ Some (f x) :: map Some k ++ r) with (map Some (p ++ [f x]) ++ map Some k ++ r) by (rewrite map_app, <- app_assoc; reflexivity).
      rewrite IH, <- app_assoc. reflexivity. }
  specialize (G l [] rest). cbn [length map app] in G. eexists. split; [exact G|]. exists rest. cbn [slots vlen vcap]. rewrite map_length.
  split; [reflexivity|]. split; [exact H2|]. split; [|exact H4]. rewrite <- H3, H1, !app_length, !map_length. reflexivity.
Qed.
Lemma srun1_spec ok o s t : allowed o -> holds 1 s (encode t) -> Forall scalar t -> fits 1 (N.of_nat (length (encode t)) + sweight o) ->
  exists s' u a, srun1 true ok o s = Some (s', a) /\ holds 1 s' (encode u) /\ Forall scalar u /\ tstep ok o t u a /\
    N.of_nat (length (encode u)) <= N.of_nat (length (encode t)) + sweight o.
Proof.
  intros A H St F. destruct o as [b|b|b|b| |up|h| |ops]; cbn [allowed sweight srun1] in *.
  - destruct A as [u Tu]. pose proof Tu as [Su ->]. destruct (add_assign_spec ok s _ (encode u) H) as [[s' [E H']]|[[k K] E]]; [eapply fits_le; [|exact F]; lia| |]; unfold add; rewrite E.
    + exists s', (t ++ u), Good. rewrite encode_app. split; [reflexivity|]. split; [exact H'|]. split; [apply Forall_app; auto|]. split; [constructor; exact Tu|]. rewrite app_length. lia.
    + exists v_new, [], Panic. split; [reflexivity|]. split; [apply holds_new|]. split; [constructor|]. split; [econstructor; exact K|]. cbn. lia.
  - destruct A as [u Tu]. pose proof Tu as [Su ->]. destruct (add_assign_spec ok s _ (encode u) H) as [[s' [E H']]|[[k K] E]]; [eapply fits_le; [|exact F]; lia| |]; rewrite E.
    + exists s', (t ++ u), Good. rewrite encode_app. split; [reflexivity|]. split; [exact H'|]. split; [apply Forall_app; auto|]. split; [constructor; exact Tu|]. rewrite app_length. lia.
    + exists s, t, Panic. split; [reflexivity|]. split; [exact H|]. split; [exact St|]. split; [econstructor; exact K|]. lia.
  - destruct A as [u Tu]. pose proof Tu as [Su ->]. unfold try_concat.
    destruct (v_try_copy_extend_spec 1 ok s _ (encode u) one_nz H) as [[s' [E H']]|[[k K] E]]; [eapply fits_le; [|exact F]; lia| |]; rewrite E.
    + exists s', (t ++ u), Good. rewrite encode_app. split; [reflexivity|]. split; [exact H'|]. split; [apply Forall_app; auto|]. split; [constructor; exact Tu|]. rewrite app_length. lia.
    + exists s, t, Bad. split; [reflexivity|]. split; [exact H|]. split; [exact St|]. split; [econstructor; exact K|]. lia.
  - destruct A as [u Tu]. pose proof Tu as [Su ->]. unfold from_str, add.
    destruct (add_assign_spec ok v_new [] (encode u) (holds_new 1)) as [[s' [E H']]|[[k K] E]]; [eapply fits_le; [|exact F]; cbn; lia| |]; rewrite E.
    + exists s', u, Good. split; [reflexivity|]. split; [exact H'|]. split; [exact Su|]. split; [constructor; exact Tu|]. lia.
    + exists s, t, Panic. split; [reflexivity|]. split; [exact H|]. split; [exact St|]. split; [econstructor; exact K|]. lia.
  - unfold clone. destruct (v_clone_spec 1 ok (fun b => b) s _ one_nz H) as [[s' [E [H' _]]]|[[k K] E]]; rewrite E; cbn [of_out].
    + exists s', t, Good. rewrite map_id in H'. split; [reflexivity|]. split; [exact H'|]. split; [exact St|]. split; [constructor|]. lia.
    + exists s, t, Panic. split; [reflexivity|]. split; [exact H|]. split; [exact St|]. split; [econstructor; exact K|]. lia.
  - unfold make_case. rewrite (v_as_slice_spec 1 s _ H). destruct (holds_map s _ (ascii_case up) H) as [m [E H']]. rewrite E.
    destruct (ascii_encode up t St) as [Em Sm]. rewrite Em in H'. exists (Vec m (vlen s) (vcap s)), (map (if up then upper else lower) t), Good.
    split; [reflexivity|]. split; [exact H'|]. split; [exact Sm|]. split; [destruct up; constructor|]. rewrite <- Em, map_length. lia.
  - destruct (v_run_spec 1 h s _ one_nz H A F) as [v' [l' [a [d [E [H' L]]]]]]. rewrite E. unfold try_from_vec. rewrite (v_as_slice_spec 1 v' _ H').
    assert (forall l l' a d, Forall (fun x => honest (fst x)) h -> lrun h l l' a d -> N.of_nat (length l') <= N.of_nat (length l) + weights h) as G.
    { clear. induction h as [|[o k] h IH]; intros l l' a d Ho R; inversion R; subst; [cbn; lia|]. inversion Ho; subst. cbn [fst weights] in *.
      match goal with X : lstep _ _ _ _ _ _ _ |- _ => apply lstep_length in X; [|assumption] end.
      match goal with X : lrun _ _ _ _ _ |- _ => eapply IH in X; [|assumption] end. lia. }
    destruct (from_utf8 l') eqn:V.
    + apply from_utf8_iff in V. destruct V as [u [Su ->]]. exists v', u, Good. split; [reflexivity|]. split; [exact H'|]. split; [exact Su|].
      split; [econstructor; [exact L|split; [exact Su|reflexivity]]|]. exact (G _ _ _ _ A L).
    + exists v_new, [], Bad. split; [reflexivity|]. split; [apply holds_new|]. split; [constructor|]. split; [|cbn; lia].
      econstructor; [exact L|]. intros u Tu. assert (from_utf8 l' = true) by (apply from_utf8_iff; eauto). congruence.
  - unfold boxed. destruct (encode t) as [|x l] eqn:Et.
    + destruct H as [rest [H1 [H2 H3]]]. cbn [length] in H2. unfold vec_of_bs, bs_capacity, bs_of_vec. cbn [bs_len bs_slots bs_prefix]. rewrite H2. cbn [vcap N.eqb].
      exists v_new, t, Good. rewrite Et. split; [reflexivity|]. split; [apply holds_new|]. split; [exact St|]. split; [constructor|]. cbn. lia.
    + rewrite (bs_round_trip 1 s (x :: l) H) by discriminate. destruct (holds_cap 1 s _ H) as [C _]. cbn [length] in C.
      destruct (N.eqb_spec (vcap s) 0); [lia|]. exists s, t, Good. rewrite Et. split; [reflexivity|]. split; [exact H|]. split; [exact St|]. split; [constructor|]. lia.
  - unfold shared_str. destruct A as [Ao Al].
    destruct (copy_slice_history_partial N 1 s _ true ops H (or_intror eq_refl) Ao Al) as [B [_ [_ [_ [V _]]]]]. cbn zeta in B, V. rewrite B, V.
    destruct (value (copy_owners_after ops)) eqn:Ev.
    + exists v_new, [], Bad. split; [reflexivity|]. split; [apply holds_new|]. split; [constructor|]. split; [constructor; congruence|]. cbn. lia.
    + exists v_new, [], Bad. split; [reflexivity|]. split; [apply holds_new|]. split; [constructor|]. split; [constructor; congruence|]. cbn. lia.
    + exists s, t, Good. split; [reflexivity|]. split; [exact H|]. split; [exact St|]. split; [constructor; exact Ev|]. lia.
Qed.
Lemma srun_spec h : forall s t, Forall (fun x => allowed (fst x)) h -> holds 1 s (encode t) -> Forall scalar t ->
  fits 1 (N.of_nat (length (encode t)) + sweights h) ->
  exists s' u l, srun true h s = Some (s', l) /\ holds 1 s' (encode u) /\ Forall scalar u /\ trun h t u l.
Proof.
  induction h as [|[o ok] h IH]; intros s t A H St F; cbn [srun sweights] in *.
  - exists s, t, []. split; [reflexivity|]. split; [exact H|]. split; [exact St|constructor].
  - inversion A as [|x y A1 A2]; subst. cbn [fst] in A1.
    destruct (srun1_spec ok o s t A1 H St) as [s1 [u [a [E [H1 [S1 [T L]]]]]]]; [eapply fits_le; [|exact F]; lia|]. rewrite E.
    destruct (IH s1 u A2 H1 S1) as [s2 [w [l [E2 [H2 [S2 T2]]]]]]; [eapply fits_le; [|exact F]; lia|]. rewrite E2.
    exists s2, w, (a :: l). split; [reflexivity|]. split; [exact H2|]. split; [exact S2|]. econstructor; eassumption.
Qed.
