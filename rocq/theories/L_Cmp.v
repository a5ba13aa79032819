(** Lemmas for C87. *)
From Coq Require Import List Arith NArith ZArith Bool Lia.
From Verif Require Import M_Num M_String M_Report S_String L_String L_Report M_Cmp S_Cmp.
Import ListNotations.
Local Open Scope N_scope.
Ltac Zify.zify_post_hook ::= idtac.

(** ** Equality *)
Lemma eqs_exact {A} (f : A -> A -> bool) l : forall m, (forall a b, In a l -> In b m -> (f a b = true <-> a = b)) ->
  (eqs f l m = true <-> l = m).
Proof.
  induction l as [|a l IH]; intros [|b m] H; cbn [eqs]; try (split; [discriminate|congruence]); [tauto|].
  rewrite andb_true_iff, (H a b), (IH m); [|intros; apply H; right; assumption|left; reflexivity|left; reflexivity].
  split; [intros [-> ->]; reflexivity|intros E; injection E; auto].
Qed.
Lemma eqs_N l m : eqs N.eqb l m = true <-> l = m.
Proof. apply eqs_exact. intros a b _ _. apply N.eqb_eq. Qed.

Lemma eqv_exact st k : forall x y, plain k -> has st k x -> has st k y -> (eqv k x y = true <-> x = y).
Proof.
  induction k as [n|n| | |n|n f|s|s t IH|a IHa b IHb|a IHa|a IHa b IHb|]; intros x y P Hx Hy;
    destruct x as [x|x|x| |l|l|x|x|x x'|p g]; cbn in Hx; try contradiction; destruct y as [y|y|y| |m|m|y|y|y y'|q h]; cbn in Hy; try contradiction; cbn [eqv];
    try (split; [discriminate|congruence]).
  - rewrite N.eqb_eq. split; congruence.
  - rewrite Z.eqb_eq. split; congruence.
  - rewrite Bool.eqb_true_iff. split; congruence.
  - tauto.
  - unfold nonmax_eq. rewrite N.eqb_eq. split; congruence.
  - unfold nonmax_eq. rewrite N.eqb_eq. split; congruence.
  - rewrite eqs_N. split; congruence.
  - destruct Hx as [Fx _], Hy as [Fy _]. rewrite Forall_forall in Fx, Fy. rewrite eqs_exact; [split; congruence|].
    intros a b Ia Ib. apply IH; auto.
  - destruct P. rewrite IHa by assumption. split; congruence.
  - destruct P. rewrite IHb by assumption. split; congruence.
  - rewrite IHa by assumption. split; congruence.
  - subst. tauto.
  - destruct P, Hx, Hy. rewrite andb_true_iff, IHa, IHb by assumption. split; [intros [-> ->]; reflexivity|intros E; injection E; auto].
Qed.

Lemma eqs_refl {A} (f : A -> A -> bool) l : (forall a, In a l -> f a a = true) -> eqs f l l = true.
Proof. induction l as [|a l IH]; intros H; cbn; [reflexivity|]. rewrite (H a), IH; auto; [intros; apply H; right; assumption|left; reflexivity]. Qed.
Lemma eqs_sym {A} (f : A -> A -> bool) l : forall m, (forall a b, f a b = f b a) -> eqs f l m = eqs f m l.
Proof. induction l as [|a l IH]; intros [|b m] H; cbn; try reflexivity. rewrite H, IH; auto. Qed.
Lemma eqs_trans {A} (f : A -> A -> bool) l : forall m n, (forall a b c, f a b = true -> f b c = true -> f a c = true) ->
  eqs f l m = true -> eqs f m n = true -> eqs f l n = true.
Proof.
  induction l as [|a l IH]; intros [|b m] [|c n] H; cbn; try discriminate; try reflexivity.
  rewrite !andb_true_iff. intros [A1 A2] [B1 B2]. split; [eapply H; eauto|eapply IH; eauto].
Qed.
Lemma eqv_refl st k : forall x, has st k x -> eqv k x x = true.
Proof.
  induction k as [n|n| | |n|n f|s|s t IH|a IHa b IHb|a IHa|a IHa b IHb|]; intros x H; destruct x as [x|x|x| |l|l|x|x|x x'|p g]; cbn in H; try contradiction; cbn [eqv];
    unfold nonmax_eq; auto using N.eqb_refl, Z.eqb_refl, Bool.eqb_reflx.
  - apply eqs_N. reflexivity.
  - apply eqs_refl. intros a I. apply IH. destruct H as [H _]. rewrite Forall_forall in H. auto.
  - destruct H. rewrite IHa, IHb by assumption. reflexivity.
Qed.
Lemma eqv_sym k : forall x y, eqv k x y = eqv k y x.
Proof.
  induction k; intros x y; destruct x, y; cbn [eqv]; unfold nonmax_eq; auto using N.eqb_sym, Z.eqb_sym.
  - destruct b, b0; reflexivity.
  - apply eqs_sym. apply N.eqb_sym.
  - apply eqs_sym. apply IHk.
  - rewrite IHk1, IHk2. reflexivity.
Qed.
Lemma eqv_trans k : forall x y z, eqv k x y = true -> eqv k y z = true -> eqv k x z = true.
Proof.
  induction k; intros x y z; destruct x, y; cbn [eqv]; try discriminate; destruct z; cbn [eqv]; try discriminate; unfold nonmax_eq; eauto;
    try (rewrite !N.eqb_eq; congruence); try (rewrite !Z.eqb_eq; congruence); try (rewrite !Bool.eqb_true_iff; congruence).
  - rewrite !eqs_N. congruence.
  - apply eqs_trans. exact IHk.
  - rewrite !andb_true_iff. intros [] []; split; eauto.
Qed.

(** ** Feeds *)
Lemma le_length n : forall v, length (le n v) = n.
Proof. induction n; intros; cbn; auto. Qed.
Lemma app_inj_len {A} (u v r r' : list A) : length u = length v -> u ++ r = v ++ r' -> u = v /\ r = r'.
Proof.
  revert v. induction u as [|a u IH]; intros [|b v] H E; cbn in *; try discriminate; [auto|].
  injection E as -> E. injection H as H. destruct (IH v H E) as [-> ->]. auto.
Qed.
Lemma le_inj n : forall a b, a < 256 ^ N.of_nat n -> b < 256 ^ N.of_nat n -> le n a = le n b -> a = b.
Proof.
  induction n as [|n IH]; intros a b Ha Hb E; [cbn in *; lia|].
  cbn [le] in E. injection E as E0 E1. rewrite Nat2N.inj_succ, N.pow_succ_r' in Ha, Hb.
  apply IH in E1; [|apply N.div_lt_upper_bound; lia|apply N.div_lt_upper_bound; lia].
  rewrite (N.div_mod a 256), (N.div_mod b 256) by lia. congruence.
Qed.
Lemma le_free n a b r r' : a < 256 ^ N.of_nat n -> b < 256 ^ N.of_nat n -> le n a ++ r = le n b ++ r' -> a = b /\ r = r'.
Proof.
  intros Ha Hb E. apply app_inj_len in E; [|rewrite !le_length; reflexivity]. destruct E as [E ->]. split; [|reflexivity]. eapply le_inj; eauto.
Qed.
Lemma pow8 n : 2 ^ (8 * N.of_nat n) = 256 ^ N.of_nat n.
Proof. rewrite N.pow_mul_r. reflexivity. Qed.
Lemma flat_le1 l : Forall (fun b => b < 256) l -> flat_map (fun b => le 1 b) l = l.
Proof. induction 1 as [|b l H _ IH]; cbn; [reflexivity|]. rewrite N.mod_small by exact H. cbn in IH. rewrite IH. reflexivity. Qed.
Lemma feed_view_eq l : Forall (fun b => b < 256) l -> feed_view l = le 8 (N.of_nat (length l)) ++ l.
Proof. intros H. unfold feed_view, feeds. rewrite flat_le1 by exact H. reflexivity. Qed.
Lemma utf8_bytes c : scalar c -> Forall (fun b => b < 255) (utf8 c).
Proof.
  intros H. unfold scalar in H. unfold utf8.
  assert (forall x, x mod 64 < 64) as M by (intros; apply N.mod_lt; discriminate).
  destruct (N.ltb_spec c 128); [|destruct (N.ltb_spec c 2048); [|destruct (N.ltb_spec c 65536)]];
    repeat (apply Forall_cons; [|]); try apply Forall_nil;
    try (specialize (M c); lia); try (specialize (M (c / 64)); lia); try (specialize (M (c / 4096)); lia).
Qed.
Lemma text_bytes l t : is_text l t -> Forall (fun b => b < 255) l.
Proof.
  intros [F ->]. induction F as [|c t H _ IH]; [constructor|]. rewrite encode_cons. apply Forall_app. split; [apply utf8_bytes; exact H|exact IH].
Qed.
Lemma bytes_255 l : Forall (fun b => b < 255) l -> Forall (fun b => b < 256) l.
Proof. intros H. eapply Forall_impl; [|exact H]. cbn. lia. Qed.
Lemma view_free l m r r' : Forall (fun b => b < 256) l -> Forall (fun b => b < 256) m -> N.of_nat (length l) < 2 ^ 64 -> N.of_nat (length m) < 2 ^ 64 ->
  feed_view l ++ r = feed_view m ++ r' -> l = m /\ r = r'.
Proof.
  intros Fl Fm Ll Lm E. rewrite !feed_view_eq, <- !app_assoc in E by assumption. apply le_free in E; [|exact Ll|exact Lm]. destruct E as [E1 E2].
  apply app_inj_len in E2; [exact E2|]. clear - E1. lia.
Qed.
Lemma str_free l : forall m r r', Forall (fun b => b < 255) l -> Forall (fun b => b < 255) m ->
  feed_str l ++ r = feed_str m ++ r' -> l = m /\ r = r'.
Proof.
  unfold feed_str. induction l as [|a l IH]; intros [|b m] r r' Fl Fm E; cbn in E.
  - injection E as ->. auto.
  - inversion_clear Fm. injection E as E _. subst. lia.
  - inversion_clear Fl. injection E as E _. subst. lia.
  - inversion_clear Fl. inversion_clear Fm. injection E as -> E. apply IH in E; [|assumption|assumption]. destruct E as [-> ->]. auto.
Qed.

(** The list part of [feed]. *)
Definition feedl (t : kty) := fix go (l : list val) : option (list N) :=
  match l with
  | [] => Some []
  | a :: l => match feed t a, go l with Some u, Some v => Some (u ++ v) | _, _ => None end
  end.

Lemma nonmax_get_inj n a b : 0 < a < 256 ^ N.of_nat n -> 0 < b < 256 ^ N.of_nat n ->
  nonmax_get (8 * N.of_nat n) a = nonmax_get (8 * N.of_nat n) b -> a = b.
Proof. unfold nonmax_get, u_not. rewrite pow8. generalize (256 ^ N.of_nat n). intros. lia. Qed.
Lemma nonmax_get_lt n a : 0 < a < 256 ^ N.of_nat n -> nonmax_get (8 * N.of_nat n) a < 256 ^ N.of_nat n.
Proof. unfold nonmax_get, u_not. rewrite pow8. generalize (256 ^ N.of_nat n). intros. lia. Qed.
Lemma add_mod_inj m f a b : f < m -> a < m -> b < m -> (a + f) mod m = (b + f) mod m -> a = b.
Proof.
  intros Hf Ha Hb E.
  assert (forall c, c < m -> (c + f) mod m = if c + f <? m then c + f else c + f - m) as R.
  { intros c Hc. destruct (N.ltb_spec (c + f) m); [apply N.mod_small; assumption|].
    replace (c + f) with (c + f - m + 1 * m) at 1 by lia. rewrite N.mod_add by lia. apply N.mod_small. lia. }
  rewrite !R in E by assumption. destruct (N.ltb_spec (a + f) m), (N.ltb_spec (b + f) m); lia.
Qed.
Lemma nonx_get_inj n f a b : 0 < a < 256 ^ N.of_nat n -> 0 < b < 256 ^ N.of_nat n -> f < 256 ^ N.of_nat n ->
  nonxu_get (8 * N.of_nat n) f a = nonxu_get (8 * N.of_nat n) f b -> a = b.
Proof. unfold nonxu_get, u_wadd. rewrite pow8. intros. eapply add_mod_inj; [|idtac..|eassumption]; tauto. Qed.
Lemma nonx_get_lt n f a : nonxu_get (8 * N.of_nat n) f a < 256 ^ N.of_nat n.
Proof. unfold nonxu_get, u_wadd. rewrite pow8. apply N.mod_lt. apply N.pow_nonzero. discriminate. Qed.
Lemma signed_inj n a b : (0 < n)%nat -> (- 2 ^ (8 * Z.of_nat n - 1) <= a < 2 ^ (8 * Z.of_nat n - 1))%Z -> (- 2 ^ (8 * Z.of_nat n - 1) <= b < 2 ^ (8 * Z.of_nat n - 1))%Z ->
  Z.to_N (a mod 2 ^ (8 * Z.of_nat n)) = Z.to_N (b mod 2 ^ (8 * Z.of_nat n)) -> a = b.
Proof.
  intros Hn Ha Hb E. set (h := (2 ^ (8 * Z.of_nat n - 1))%Z) in *.
  assert (2 ^ (8 * Z.of_nat n) = 2 * h)%Z as D.
  { unfold h. rewrite <- Z.pow_succ_r by (clear - Hn; lia). f_equal. clear. lia. }
  rewrite D in E. assert (0 < h)%Z as P by (clear - Ha; lia).
  assert (forall c, - h <= c < h -> c mod (2 * h) = if c <? 0 then c + 2 * h else c)%Z as R.
  { intros c Hc. destruct (Z.ltb_spec c 0); [|apply Z.mod_small; lia].
    rewrite <- (Z.mod_add c 1 (2 * h)) by lia. rewrite Z.mul_1_l. apply Z.mod_small. lia. }
  rewrite !R in E by assumption. clear R D. destruct (Z.ltb_spec a 0), (Z.ltb_spec b 0); lia.
Qed.
Lemma signed_lt n a : Z.to_N (a mod 2 ^ (8 * Z.of_nat n)) < 256 ^ N.of_nat n.
Proof.
  rewrite <- pow8. assert (0 < 2 ^ (8 * Z.of_nat n))%Z as P by (apply Z.pow_pos_nonneg; lia).
  pose proof (Z.mod_pos_bound a _ P) as B. apply N2Z.inj_lt. rewrite Z2N.id by lia. rewrite N2Z.inj_pow, N2Z.inj_mul, nat_N_Z. cbn [Z.of_N]. lia.
Qed.

Lemma feed_total st k : forall x, hashes k -> has st k x -> exists u, feed k x = Some u.
Proof.
  induction k as [n|n| | |n|n f|s|s t IH|a IHa b IHb|a IHa|a IHa b IHb|]; intros x P H; destruct x as [x|x|x| |l|l|x|x|x x'|p g]; cbn in H; try contradiction; cbn [feed]; eauto.
  - destruct s; eauto.
  - assert (hashes t -> exists u, feedl t l = Some u) as G.
    { intros Pt. destruct H as [F _]. induction F as [|a l Ha _ [v IHl]]; [eexists; reflexivity|]. destruct (IH a Pt Ha) as [u E]. exists (u ++ v). cbn [feedl]. rewrite E. fold (feedl t). rewrite IHl. reflexivity. }
    destruct s; cbn in P; try contradiction; fold (feedl t); destruct (G P) as [u E]; rewrite E; eexists; reflexivity.
  - destruct P. destruct (IHa x) as [u E]; auto. rewrite E. eexists; reflexivity.
  - destruct P. destruct (IHb x) as [u E]; auto. rewrite E. eexists; reflexivity.
  - destruct (IHa x) as [u E]; auto. rewrite E. eexists; reflexivity.
  - destruct P, H. destruct (IHa x) as [u E]; auto. destruct (IHb x') as [v E']; auto. rewrite E, E'. eexists; reflexivity.
Qed.

Lemma feedl_free st t l : forall m u v r r',
  (forall x y u v r r', has st t x -> has st t y -> feed t x = Some u -> feed t y = Some v -> u ++ r = v ++ r' -> same x y /\ r = r') ->
  Forall (has st t) l -> Forall (has st t) m -> length l = length m -> feedl t l = Some u -> feedl t m = Some v -> u ++ r = v ++ r' -> Forall2 same l m /\ r = r'.
Proof.
  induction l as [|a l IHl]; intros [|b m] u v r r' K Fl Fm L E E' Q; cbn in L; try discriminate; cbn [feedl] in E, E'.
  - injection E as <-. injection E' as <-. auto.
  - fold (feedl t) in E, E'. inversion_clear Fl as [|? ? Ha Fl']. inversion_clear Fm as [|? ? Hb Fm'].
    destruct (feed t a) as [ua|] eqn:Ea; [|discriminate]. destruct (feedl t l) as [ul|] eqn:El; [|discriminate]. injection E as <-.
    destruct (feed t b) as [ub|] eqn:Eb; [|discriminate]. destruct (feedl t m) as [um|] eqn:Em; [|discriminate]. injection E' as <-.
    rewrite <- !app_assoc in Q. destruct (K _ _ _ _ _ _ Ha Hb Ea Eb Q) as [S1 Q1].
    destruct (IHl m ul um r r' K Fl' Fm' ltac:(congruence) eq_refl Em Q1) as [S2 Q2]. auto.
Qed.

Lemma feed_free st k : forall x y u v r r', has st k x -> has st k y -> feed k x = Some u -> feed k y = Some v -> u ++ r = v ++ r' -> same x y /\ r = r'.
Proof.
  induction k as [n|n| | |n|n f|s|s t IH|a IHa b IHb|a IHa|a IHa b IHb|]; intros x y u v r r' Hx Hy Ex Ey Q;
    destruct x as [x|x|x| |l|l|x|x|x x'|p g]; cbn in Hx; try contradiction; destruct y as [y|y|y| |m|m|y|y|y y'|q h]; cbn in Hy; try contradiction; cbn [feed] in Ex, Ey.
  - injection Ex as <-. injection Ey as <-. apply le_free in Q; [|assumption..]. destruct Q as [-> ->]. split; constructor.
  - injection Ex as <-. injection Ey as <-. apply le_free in Q; [|apply signed_lt..]. destruct Q as [Q ->]. destruct Hx as [Hn Hx], Hy as [_ Hy].
    apply signed_inj in Q; [|assumption..]. subst. split; constructor.
  - injection Ex as <-. injection Ey as <-. cbn in Q. injection Q as Q ->. destruct x, y; try discriminate; split; constructor.
  - injection Ex as <-. injection Ey as <-. split; [constructor|exact Q].
  - injection Ex as <-. injection Ey as <-. apply le_free in Q; [|apply nonmax_get_lt; assumption..]. destruct Q as [Q ->].
    apply nonmax_get_inj in Q; [|assumption..]. subst. split; constructor.
  - injection Ex as <-. injection Ey as <-. apply le_free in Q; [|apply nonx_get_lt..]. destruct Q as [Q ->]. destruct Hx as [Hx Hf], Hy as [Hy _].
    apply nonx_get_inj in Q; [|assumption..]. subst. split; constructor.
  - destruct Hx as [[tx Tx] Lx], Hy as [[ty Ty] Ly]. apply text_bytes in Tx, Ty.
    assert (feed_view l ++ r = feed_view m ++ r' \/ feed_str l ++ r = feed_str m ++ r') as C.
    { destruct s; injection Ex as <-; injection Ey as <-; unfold feed_view; auto. }
    destruct C as [C|C]; [apply view_free in C; auto using bytes_255|apply str_free in C; auto]; destruct C as [-> ->]; split; constructor.
  - destruct Hx as [Fx Lx], Hy as [Fy Ly]. fold (feedl t) in Ex, Ey.
    assert (exists ul um, feedl t l = Some ul /\ feedl t m = Some um /\ u = le 8 (N.of_nat (length l)) ++ ul /\ v = le 8 (N.of_nat (length m)) ++ um) as (ul & um & El & Em & -> & ->).
    { destruct s; try discriminate; (destruct (feedl t l) as [ul|]; [|discriminate]); (destruct (feedl t m) as [um|]; [|discriminate]);
        cbn in Ex, Ey; injection Ex as <-; injection Ey as <-; exists ul, um; auto. }
    rewrite <- !app_assoc in Q. apply le_free in Q; [|exact Lx|exact Ly]. destruct Q as [Q1 Q2].
    eapply feedl_free in Q2; [|exact IH|exact Fx|exact Fy| |exact El|exact Em].
    + destruct Q2 as [F ->]. split; [constructor; exact F|reflexivity].
    + clear - Q1. lia.
  - destruct (feed a x) as [w|] eqn:Ew; [|discriminate]. destruct (feed a y) as [z|] eqn:Ez; [|discriminate]. cbn in Ex, Ey. injection Ex as <-. injection Ey as <-.
    cbn in Q. injection Q as Q. destruct (IHa _ _ _ _ _ _ Hx Hy Ew Ez Q) as [S ->]. split; [constructor; exact S|reflexivity].
  - destruct (feed a x) as [w|]; [|discriminate]. destruct (feed b y) as [z|]; [|discriminate]. cbn in Ex, Ey. injection Ex as <-. injection Ey as <-. discriminate.
  - destruct (feed b x) as [w|]; [|discriminate]. destruct (feed a y) as [z|]; [|discriminate]. cbn in Ex, Ey. injection Ex as <-. injection Ey as <-. discriminate.
  - destruct (feed b x) as [w|] eqn:Ew; [|discriminate]. destruct (feed b y) as [z|] eqn:Ez; [|discriminate]. cbn in Ex, Ey. injection Ex as <-. injection Ey as <-.
    cbn in Q. injection Q as Q. destruct (IHb _ _ _ _ _ _ Hx Hy Ew Ez Q) as [S ->]. split; [constructor; exact S|reflexivity].
  - destruct (feed a x) as [w|] eqn:Ew; [|discriminate]. destruct (feed a y) as [z|] eqn:Ez; [|discriminate]. cbn in Ex, Ey. injection Ex as <-. injection Ey as <-.
    cbn in Q. injection Q as Q. destruct (IHa _ _ _ _ _ _ Hx Hy Ew Ez Q) as [S ->]. split; [constructor; exact S|reflexivity].
  - destruct (feed a x) as [w|]; [|discriminate]. cbn in Ex, Ey. injection Ex as <-. injection Ey as <-. discriminate.
  - destruct (feed a y) as [w|]; [|discriminate]. cbn in Ex, Ey. injection Ex as <-. injection Ey as <-. discriminate.
  - injection Ex as <-. injection Ey as <-. subst. cbn in Q. injection Q as ->. split; constructor.
  - destruct Hx as [Hx Hx'], Hy as [Hy Hy'].
    destruct (feed a x) as [w|] eqn:Ew; [|discriminate]. destruct (feed b x') as [w'|] eqn:Ew'; [|discriminate]. injection Ex as <-.
    destruct (feed a y) as [z|] eqn:Ez; [|discriminate]. destruct (feed b y') as [z'|] eqn:Ez'; [|discriminate]. injection Ey as <-.
    rewrite <- !app_assoc in Q. destruct (IHa _ _ _ _ _ _ Hx Hy Ew Ez Q) as [S1 Q1]. destruct (IHb _ _ _ _ _ _ Hx' Hy' Ew' Ez' Q1) as [S2 ->].
    split; [constructor; assumption|reflexivity].
  - injection Ex as <-. injection Ey as <-. destruct Hx as [_ Hx], Hy as [_ Hy]. apply (le_free 8) in Q; [|exact Hx|exact Hy]. destruct Q as [-> ->]. split; constructor.
Qed.

(** Equal values feed alike. *)
Lemma feedl_eq st t l : forall m, (forall x y, has st t x -> has st t y -> eqv t x y = true -> feed t x = feed t y) ->
  Forall (has st t) l -> Forall (has st t) m -> eqs (eqv t) l m = true -> feedl t l = feedl t m /\ length l = length m.
Proof.
  induction l as [|a l IHl]; intros [|b m] K Fl Fm E; cbn [eqs] in E; try discriminate; [auto|].
  inversion_clear Fl. inversion_clear Fm. apply andb_true_iff in E. destruct E as [E1 E2].
  destruct (IHl m) as [I1 I2]; auto. cbn [feedl length]. rewrite (K a b) by assumption. fold (feedl t). rewrite I1, I2. auto.
Qed.
Lemma feed_eq st k : forall x y, has st k x -> has st k y -> eqv k x y = true -> feed k x = feed k y.
Proof.
  induction k as [n|n| | |n|n f|s|s t IH|a IHa b IHb|a IHa|a IHa b IHb|]; intros x y Hx Hy E;
    destruct x as [x|x|x| |l|l|x|x|x x'|p g]; cbn in Hx; try contradiction; destruct y as [y|y|y| |m|m|y|y|y y'|q h]; cbn in Hy; try contradiction; cbn [eqv] in E; try discriminate.
  - apply N.eqb_eq in E. subst. reflexivity.
  - apply Z.eqb_eq in E. subst. reflexivity.
  - apply Bool.eqb_prop in E. subst. reflexivity.
  - reflexivity.
  - apply N.eqb_eq in E. subst. reflexivity.
  - apply N.eqb_eq in E. subst. reflexivity.
  - apply eqs_N in E. subst. reflexivity.
  - destruct Hx, Hy. destruct (feedl_eq st t l m) as [I1 I2]; auto. cbn [feed]. fold (feedl t). rewrite I1, I2. reflexivity.
  - cbn [feed]. rewrite (IHa x y) by assumption. reflexivity.
  - cbn [feed]. rewrite (IHb x y) by assumption. reflexivity.
  - cbn [feed]. rewrite (IHa x y) by assumption. reflexivity.
  - reflexivity.
  - destruct Hx, Hy. apply andb_true_iff in E. destruct E. cbn [feed]. rewrite (IHa x y), (IHb x' y') by assumption. reflexivity.
  - apply N.eqb_eq in E. destruct Hx, Hy. subst. reflexivity.
Qed.

(** ** Order *)
Definition cmpl (t : kty) := fix go (l m : list val) : option comparison :=
  match l, m with
  | [], [] => Some Eq
  | [], _ :: _ => Some Lt
  | _ :: _, [] => Some Gt
  | a :: l, b :: m => match cmpv t a b with Some Eq => go l m | c => c end
  end.

Lemma text_unique l t u : is_text l t -> is_text l u -> t = u.
Proof.
  intros [F E] [F' E']. pose proof (cmp_before t u F F') as C. rewrite <- E, <- E', cmp_refl in C. exact C.
Qed.
Lemma nonmax_cmp_eq n a b : nonmax_cmp (8 * N.of_nat n) a b = (nonmax_value n a ?= nonmax_value n b).
Proof. unfold nonmax_cmp, nonmax_get, u_not, nonmax_value. rewrite pow8. reflexivity. Qed.
Lemma nonx_cmp_eq n f a b : nonxu_cmp (8 * N.of_nat n) f a b = (nonx_value n f a ?= nonx_value n f b).
Proof. unfold nonxu_cmp, nonxu_get, u_wadd, nonx_value. rewrite pow8. reflexivity. Qed.

(** What the comparison says. *)
Definition told {A} (c : option comparison) (lt : A -> A -> Prop) (x y : A) : Prop :=
  match c with Some Lt => lt x y | Some Eq => x = y | Some Gt => lt y x | None => False end.
Lemma cmpl_told st t l : forall m, (forall x y, has st t x -> has st t y -> told (cmpv t x y) (below t) x y) ->
  Forall (has st t) l -> Forall (has st t) m -> told (cmpl t l m) (below_list t) l m.
Proof.
  induction l as [|a l IHl]; intros [|b m] K Fl Fm; cbn [cmpl]; cbn [told]; try constructor. fold (cmpl t).
  inversion_clear Fl. inversion_clear Fm. pose proof (K a b ltac:(assumption) ltac:(assumption)) as T.
  destruct (cmpv t a b) as [[]|]; cbn in T; [|constructor; exact T..|contradiction].
  subst. specialize (IHl m K ltac:(assumption) ltac:(assumption)). destruct (cmpl t l m) as [[]|]; cbn in *; [congruence|constructor; exact IHl..|exact IHl].
Qed.
Lemma cmpv_told st k : forall x y, orders k -> has st k x -> has st k y -> told (cmpv k x y) (below k) x y.
Proof.
  induction k as [n|n| | |n|n f|s|s t IH|a IHa b IHb|a IHa|a IHa b IHb|]; intros x y P Hx Hy;
    destruct x as [x|x|x| |l|l|x|x|x x'|p g]; cbn in Hx; try contradiction; destruct y as [y|y|y| |m|m|y|y|y y'|q h]; cbn in Hy; try contradiction; cbn [cmpv].
  - unfold told. destruct (N.compare_spec x y); [congruence|constructor; assumption..].
  - unfold told. destruct (Z.compare_spec x y); [congruence|constructor; assumption..].
  - destruct x, y; cbn; constructor.
  - reflexivity.
  - rewrite nonmax_cmp_eq. unfold told. destruct (N.compare_spec (nonmax_value n x) (nonmax_value n y)) as [E|E|E]; [|constructor; assumption..].
    f_equal. apply (nonmax_get_inj n); [assumption..|]. unfold nonmax_get, u_not. rewrite pow8. exact E.
  - rewrite nonx_cmp_eq. unfold told. destruct (N.compare_spec (nonx_value n f x) (nonx_value n f y)) as [E|E|E]; [|constructor; assumption..].
    f_equal. destruct Hx, Hy. apply (nonx_get_inj n f); [assumption..|]. unfold nonxu_get, u_wadd. rewrite pow8. exact E.
  - destruct Hx as [[tx Tx] Lx], Hy as [[ty Ty] Ly]. pose proof Tx as [Fx Ex]. pose proof Ty as [Fy Ey].
    pose proof (cmp_before tx ty Fx Fy) as C. rewrite <- Ex, <- Ey in C. unfold told.
    destruct (cmp l m); [subst; congruence|econstructor; eassumption..].
  - destruct Hx as [Fx Lx], Hy as [Fy Ly]. fold (cmpl t).
    assert (orders t -> told (cmpl t l m) (below (QSeq s t)) (VList l) (VList m)) as G.
    { intros Pt. pose proof (cmpl_told st t l m (fun x y => IH x y Pt) Fx Fy) as T. destruct (cmpl t l m) as [[]|]; cbn in *; [congruence|constructor; exact T..|exact T]. }
    destruct s; cbn in P; try contradiction; apply G; exact P.
  - destruct P as [Pa Pb], Hx as [Hx Hx'], Hy as [Hy Hy']. specialize (IHa x y Pa Hx Hy). specialize (IHb x' y' Pb Hx' Hy').
    destruct (cmpv a x y) as [[]|]; cbn in IHa; [|constructor; exact IHa..|contradiction]. subst.
    destruct (cmpv b x' y') as [[]|]; cbn in *; [congruence|constructor; exact IHb..|exact IHb].
Qed.

Lemma before_irr t : ~ before t t.
Proof. induction t; intros H; inversion H; subst; [lia|auto]. Qed.
Lemma before_trans t : forall u w, before t u -> before u w -> before t w.
Proof.
  induction t as [|a t IH]; intros u w H K.
  - inversion K; subst; [inversion H|constructor..].
  - inversion H; subst; inversion K; subst; try (apply be_diff; lia); apply be_same; eapply IH; eassumption.
Qed.
Lemma below_irr : forall k x, ~ below k x x.
Proof.
  induction k as [n|n| | |n|n f|s|s t IH|a IHa b IHb|a IHa|a IHa b IHb|]; intros x H; inversion H; subst; try lia.
  - match goal with A : is_text ?l ?t, B : is_text ?l ?u |- _ => pose proof (text_unique _ _ _ A B); subst end. eapply before_irr; eassumption.
  - clear H. match goal with A : below_list _ _ _ |- _ => rename A into H end. clear - H IH.
    induction l as [|c l IHl]; inversion H; subst; [eapply IH; eassumption|auto].
  - eapply IHa; eassumption.
  - eapply IHb; eassumption.
Qed.
Lemma below_list_trans t : (forall x y z, below t x y -> below t y z -> below t x z) ->
  forall l m n, below_list t l m -> below_list t m n -> below_list t l n.
Proof.
  intros K. induction l as [|a l IHl]; intros m n H1 H2.
  - inversion H2; subst; [inversion H1|constructor..].
  - inversion H1; subst; inversion H2; subst; try (apply bl_diff; assumption).
    + apply bl_diff. eapply K; eassumption.
    + apply bl_same. eapply IHl; eassumption.
Qed.
Lemma below_trans : forall k x y z, below k x y -> below k y z -> below k x z.
Proof.
  induction k as [n|n| | |n|n f|s|s t IH|a IHa b IHb|a IHa|a IHa b IHb|]; intros x y z H K; inversion H; subst; inversion K; subst; try (constructor; lia).
  - match goal with A : is_text ?l ?t, B : is_text ?l ?u |- _ => tryif constr_eq t u then fail else (pose proof (text_unique _ _ _ A B); subst) end.
    econstructor; [eassumption..|]. eapply before_trans; eassumption.
  - constructor. eapply below_list_trans; eassumption.
  - apply be_p1. eapply IHa; eassumption.
  - apply be_p1. assumption.
  - apply be_p1. assumption.
  - apply be_p2. eapply IHb; eassumption.
Qed.

(** ** Reports *)
Lemma rep_eq_exact : forall a b, rep_eq a b = true <-> a = b.
Proof.
  induction a as [n m v k fs IH] using report_ind'. intros [n' m' v' k' fs']. cbn [rep_eq].
  rewrite !andb_true_iff, !bytes_eqb_eq, tyty_eqb_eq, N.eqb_eq.
  match goal with |- context [?g fs fs'] => set (go := g) end.
  assert (go fs fs' = true <-> fs = fs') as G.
  { clear n m v k n' m' v' k'. revert fs'. induction IH as [|[fn r] t H _ IHt]; intros [|[fn' r'] t']; cbn [go]; try (split; [discriminate|congruence]); [tauto|].
    fold go. rewrite !andb_true_iff, bytes_eqb_eq, IHt. cbn in H. rewrite (H r'). split; [intros [[-> ->] ->]; reflexivity|intros E; injection E; auto]. }
  rewrite G. split; [intros [[[[-> ->] ->] ->] ->]; reflexivity|intros E; injection E; intros; subst; auto].
Qed.

Definition feedf := fix go (l : list (list N * report)) : list N :=
  match l with [] => [] | (fn, r') :: t => feed_view fn ++ rep_feed r' ++ go t end.
Definition usualf (lim : N) := fix go (l : list (list N * report)) : Prop :=
  match l with
  | [] => True
  | (fn, r') :: t => (short fn /\ fn <> [] /\ Forall (fun b => b <> 0) fn) /\ usual lim r' /\ go t
  end.
Lemma rep_feed_eq n m v k fs : rep_feed (Rep n m v k fs) = feed_view n ++ feed_view m ++ feedf fs ++ le 4 v ++ tyty_feed k.
Proof. reflexivity. Qed.

(** What may follow a report: not three zero bytes and then another byte. *)
Definition calm (r : list N) : Prop := forall x tl, r = 0 :: 0 :: 0 :: x :: tl -> x = 0.
Lemma le4_small v : v < 2 ^ 24 -> exists a b c, le 4 v = [a; b; c; 0].
Proof.
  intros H. exists (v mod 256), ((v / 256) mod 256), ((v / 256 / 256) mod 256). cbn [le]. do 4 f_equal.
  rewrite !N.div_div by lia. rewrite N.div_small by (cbn in *; lia). reflexivity.
Qed.
Lemma le8_small v : v < 2 ^ 24 -> exists a b c, le 8 v = [a; b; c; 0; 0; 0; 0; 0].
Proof.
  intros H. exists (v mod 256), ((v / 256) mod 256), ((v / 256 / 256) mod 256). cbn [le].
  assert (v / 256 / 256 / 256 = 0) as E by (rewrite !N.div_div by lia; apply N.div_small; cbn in *; lia). rewrite E. reflexivity.
Qed.
Lemma short_64 l : short l -> Forall (fun b => b < 256) l /\ N.of_nat (length l) < 2 ^ 64.
Proof. intros [F L]. split; [exact F|]. eapply N.lt_trans; [exact L|reflexivity]. Qed.
Lemma view_short l m r r' : short l -> short m -> feed_view l ++ r = feed_view m ++ r' -> l = m /\ r = r'.
Proof. intros A B. apply short_64 in A, B. destruct A, B. apply view_free; assumption. Qed.
Lemma tyty_free k k' r r' : match k with KEnum s => short s | _ => True end -> match k' with KEnum s => short s | _ => True end ->
  tyty_feed k ++ r = tyty_feed k' ++ r' -> k = k' /\ r = r'.
Proof.
  intros A B E. destruct k as [|s|], k' as [|s'|]; cbn [tyty_feed app] in E; try discriminate; try (injection E as ->; auto).
  assert (feed_view s ++ r = feed_view s' ++ r') as E' by (revert E; generalize (feed_view s ++ r), (feed_view s' ++ r'); intros; congruence).
  apply view_short in E'; [|assumption..]. destruct E' as [-> ->]. auto.
Qed.
Lemma calm_cont t v k r : usualf (2 ^ 24) t -> v < 2 ^ 24 -> calm (feedf t ++ le 4 v ++ tyty_feed k ++ r).
Proof.
  intros U V x tl E. destruct t as [|[fn q] t].
  - destruct (le4_small v V) as (a & b & c & L). rewrite L in E. cbn in E. congruence.
  - destruct U as [[[F L] _] _]. cbn [feedf] in E. rewrite feed_view_eq in E by exact F. destruct (le8_small _ L) as (a & b & c & L'). rewrite L' in E. cbn in E. congruence.
Qed.
Lemma clash v k r fn w : v < 2 ^ 24 -> calm r -> short fn -> fn <> [] -> Forall (fun b => b <> 0) fn ->
  le 4 v ++ tyty_feed k ++ r = feed_view fn ++ w -> False.
Proof.
  intros V C [F L] Ne Nz E. destruct (le4_small v V) as (a & b & c & L4). destruct (le8_small _ L) as (a' & b' & c' & L8).
  rewrite feed_view_eq, L4, L8 in E by exact F. cbn [app] in E. injection E as _ _ _ E.
  destruct k as [|s|]; cbn [tyty_feed app] in E; try discriminate. injection E as E.
  destruct fn as [|x fn]; [congruence|]. cbn [app] in E. inversion_clear Nz as [|? ? X _]. apply X. eapply C. exact E.
Qed.
Lemma rep_free : forall a b r r', usual (2 ^ 24) a -> usual (2 ^ 24) b -> calm r -> calm r' -> rep_feed a ++ r = rep_feed b ++ r' -> a = b /\ r = r'.
Proof.
  induction a as [n m v k fs IH] using report_ind'. intros [n' m' v' k' fs'] r r' (Sn & Sm & V & K & U) (Sn' & Sm' & V' & K' & U') C C' E.
  fold (usualf (2 ^ 24)) in U, U'. rewrite !rep_feed_eq, <- !app_assoc in E. apply view_short in E; [|assumption..]. destruct E as [-> E].
  apply view_short in E; [|assumption..]. destruct E as [-> E].
  assert (fs = fs' /\ v = v' /\ k = k' /\ r = r') as (-> & -> & -> & ->); [|auto]. clear Sn Sm Sn' Sm'.
  revert fs' U' E. induction IH as [|[fn q] t H _ IHt]; intros [|[fn' q'] t'] U' E; cbn [feedf] in E; rewrite <- ?app_assoc in E.
  - cbn [app] in E. apply le_free in E; [|cbn in *; lia..]. destruct E as [-> E]. apply tyty_free in E; [|assumption..]. destruct E as [-> ->]. auto.
  - exfalso. destruct U' as [(A1 & A2 & A3) _]. eapply clash; [exact V|exact C|exact A1|exact A2|exact A3|exact E].
  - exfalso. destruct U as [(A1 & A2 & A3) _]. symmetry in E. eapply clash; [exact V'|exact C'|exact A1|exact A2|exact A3|exact E].
  - destruct U as [(A1 & A2 & A3) [A4 A5]], U' as [(B1 & B2 & B3) [B4 B5]]. fold (usualf (2 ^ 24)) in A5, B5. fold feedf in E.
    apply view_short in E; [|assumption..]. destruct E as [-> E]. cbn [snd] in H.
    apply H in E; [|assumption|assumption|apply calm_cont; assumption|apply calm_cont; assumption]. destruct E as [-> E].
    destruct (IHt A5 t' B5 E) as (-> & -> & -> & ->). auto.
Qed.

Lemma eqv_same st k : forall x y, has st k x -> has st k y -> eqv k x y = true -> same x y.
Proof.
  induction k as [n|n| | |n|n f|s|s t IH|a IHa b IHb|a IHa|a IHa b IHb|]; intros x y Hx Hy E;
    destruct x as [x|x|x| |l|l|x|x|x x'|p g]; cbn in Hx; try contradiction; destruct y as [y|y|y| |m|m|y|y|y y'|q h]; cbn in Hy; try contradiction; cbn [eqv] in E; try discriminate.
  - apply N.eqb_eq in E. subst. constructor.
  - apply Z.eqb_eq in E. subst. constructor.
  - apply Bool.eqb_prop in E. subst. constructor.
  - constructor.
  - apply N.eqb_eq in E. subst. constructor.
  - apply N.eqb_eq in E. subst. constructor.
  - apply eqs_N in E. subst. constructor.
  - apply same_list. destruct Hx as [Fx _], Hy as [Fy _]. revert m Fy E. induction l as [|c l IHl]; intros [|d m] Fy E; cbn [eqs] in E; try discriminate; [constructor|].
    inversion_clear Fx. inversion_clear Fy. apply andb_true_iff in E. destruct E. constructor; auto.
  - constructor. auto.
  - constructor. auto.
  - constructor. auto.
  - subst. constructor.
  - destruct Hx, Hy. apply andb_true_iff in E. destruct E. constructor; auto.
  - apply N.eqb_eq in E. destruct Hx, Hy. subst. constructor.
Qed.
Lemma orders_plain k : orders k -> plain k.
Proof.
  induction k as [n|n| | |n|n f|s|s t IH|a IHa b IHb|a IHa|a IHa b IHb|]; cbn; auto; try tauto.
  destruct s; tauto.
Qed.
