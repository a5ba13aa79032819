(** Lemmas on restricted integers given by another library. *)
From Coq Require Import List Arith NArith ZArith Bool Lia String.
From Verif Require Import M_Report M_Decl M_Num M_NumRep S_Num S_NumRep L_Report L_Num.
Import ListNotations.
Ltac Zify.zify_post_hook ::= idtac.

(** ** Reports *)
Definition erase (r : rint) : rint := match r with RNonX s w _ => RNonX s w 0 | _ => r end.
Lemma alike_erase r r' : alike_int r r' <-> erase r = erase r'.
Proof. destruct r, r'; cbn; split; try tauto; try discriminate; try (intros [-> ->]; auto; fail); try (intros ->; auto; fail); intros E; injection E; intros; subst; auto. Qed.
Definition widths := [W8; W16; W32; W64; W128; WSize].
Definition all_ints : list rint :=
  flat_map (fun w => [RInt false w; RInt true w; RNonZero false w; RNonZero true w; RNonMax w; RNonX false w 0; RNonX true w 0]) widths.
Definition lookup (r : report) : option rint :=
  find (fun e => is_compatible r (rint_report 8 e) || is_compatible r (rint_report 16 e)) all_ints.
Lemma lookup_report a r : lookup (rint_report a r) = Some (erase r).
Proof.
  destruct r as [s w | s w | w | s w f]; try destruct s; destruct w; try (vm_compute; reflexivity).
  unfold rint_report, prim_of, prim_name. destruct (Nat.eqb a 8); vm_compute; reflexivity.
Qed.
Lemma int_reports a a' r r' : rint_report a r = rint_report a' r' -> alike_int r r'.
Proof. intros E. apply alike_erase. apply (f_equal lookup) in E. rewrite !lookup_report in E. congruence. Qed.
Lemma alike_int_report a r r' : alike_int r r' -> rint_report a r = rint_report a r'.
Proof. destruct r, r'; cbn; try tauto; try (intros [-> ->]; auto; fail); intros ->; auto. Qed.
Definition report_module (r : report) : list N := match r with Rep _ m _ _ _ => m end.
Lemma int_module a r : report_module (rint_report a r) = impls \/ report_module (rint_report a r) = nums.
Proof. destruct r; cbn; auto. Qed.

Fixpoint rty_ind2 (P : rty -> Prop) (HI : forall r, P (RI r)) (HS : forall n m v fs, Forall (fun f => P (snd f)) fs -> P (RS n m v fs)) (t : rty) : P t :=
  match t with
  | RI r => HI r
  | RS n m v fs => HS n m v fs ((fix go (l : list (list N * rty)) : Forall (fun f => P (snd f)) l :=
      match l with [] => Forall_nil _ | f :: r => @Forall_cons _ (fun f => P (snd f)) f r (rty_ind2 P HI HS (snd f)) (go r) end) fs)
  end.

Lemma reports_alike a a' : forall t t', honest t -> honest t' -> rty_report a t = rty_report a' t' -> alike t t'.
Proof.
  induction t as [r | n m v fs IH] using rty_ind2; intros t' H H' E.
  - destruct t' as [r' | n' m' v' fs'].
    + constructor. eapply int_reports; eauto.
    + inversion H'; subst. destruct (int_module a r) as [Q|Q]; cbn [rty_report] in E; rewrite E in Q; cbn [report_module] in Q; congruence.
  - destruct t' as [r' | n' m' v' fs'].
    + inversion H; subst. destruct (int_module a' r') as [Q|Q]; cbn [rty_report] in E; rewrite <- E in Q; cbn [report_module] in Q; congruence.
    + cbn [rty_report] in E. injection E as -> -> -> E. constructor.
      inversion H as [|? ? ? ? _ _ F]; subst. inversion H' as [|? ? ? ? _ _ F']; subst. clear H H'.
      revert fs' F' E. induction fs as [|f fs IHl]; intros [|f' fs'] F' E; cbn in E; try discriminate; constructor.
      * injection E as E1 E2 E3. inversion IH; inversion F; inversion F'; subst. split; auto.
      * injection E as E1 E2 E3. inversion IH; inversion F; inversion F'; subst. apply IHl; auto.
Qed.
Lemma alike_reports a : forall t t', alike t t' -> rty_report a t = rty_report a t'.
Proof.
  induction t as [r | n m v fs IH] using rty_ind2; intros t' H; inversion H; subst; cbn [rty_report].
  - apply alike_int_report; auto.
  - f_equal. match goal with H : Forall2 _ _ _ |- _ => induction H as [|f f' l l' [A B] F IHf] end; cbn; auto.
    inversion IH; subst. f_equal; auto. rewrite A. f_equal. auto.
    apply IHf; auto. constructor; auto.
Qed.

(** ** Memory *)
Lemma wrap_range w z : (0 < w)%Z -> (- 2 ^ (w - 1) <= wrap w z < 2 ^ (w - 1))%Z.
Proof.
  intros W. unfold wrap. assert (P : (2 ^ w = 2 * 2 ^ (w - 1))%Z) by (rewrite <- Z.pow_succ_r by lia; f_equal; lia).
  pose proof (Z.mod_pos_bound (z + 2 ^ (w - 1)) (2 ^ w)). assert (0 < 2 ^ w)%Z by (apply Z.pow_pos_nonneg; lia). lia.
Qed.
Lemma wrap_eq w a b : (0 < w)%Z -> wrap w a = wrap w b <-> (a mod 2 ^ w = b mod 2 ^ w)%Z.
Proof.
  intros W. assert (Q : (0 < 2 ^ w)%Z) by (apply Z.pow_pos_nonneg; lia). unfold wrap. split; intros E.
  - assert (E' : ((a + 2 ^ (w - 1)) mod 2 ^ w = (b + 2 ^ (w - 1)) mod 2 ^ w)%Z) by lia.
    replace a with ((a + 2 ^ (w - 1)) - 2 ^ (w - 1))%Z by lia. rewrite Zminus_mod, E', <- Zminus_mod. f_equal; lia.
  - f_equal. rewrite Zplus_mod, E, <- Zplus_mod. auto.
Qed.
Lemma wrap_id w z : (0 < w)%Z -> (- 2 ^ (w - 1) <= z < 2 ^ (w - 1))%Z -> wrap w z = z.
Proof.
  intros W H. unfold wrap. assert (P : (2 ^ w = 2 * 2 ^ (w - 1))%Z) by (rewrite <- Z.pow_succ_r by lia; f_equal; lia).
  rewrite Z.mod_small by lia. lia.
Qed.
Lemma wrap_mod w z : (0 < w)%Z -> (wrap w z mod 2 ^ w = z mod 2 ^ w)%Z.
Proof. intros W. apply wrap_eq; auto. apply wrap_id; auto. apply wrap_range; auto. Qed.
Lemma mod_close w a b : (0 < w)%Z -> (a mod 2 ^ w = b mod 2 ^ w)%Z -> (Z.abs (a - b) < 2 ^ w)%Z -> a = b.
Proof.
  intros W E H. assert (Q : (0 < 2 ^ w)%Z) by (apply Z.pow_pos_nonneg; lia).
  assert (D : ((a - b) mod 2 ^ w = 0)%Z) by (rewrite Zminus_mod, E, Z.sub_diag; apply Z.mod_0_l; lia).
  apply Z.mod_divide in D; [|lia]. destruct D as [k D]. assert (k = 0)%Z by nia. lia.
Qed.
Lemma bits_pos pw w : (0 < pw)%N -> (0 < bits pw w)%N.
Proof. destruct w; cbn; lia. Qed.
Lemma of_N_pow n : (Z.of_N (2 ^ n) = 2 ^ Z.of_N n)%Z.
Proof. rewrite N2Z.inj_pow. auto. Qed.
Lemma in_range_true n v : in_range true n v = true <-> (- 2 ^ (Z.of_N n - 1) <= v < 2 ^ (Z.of_N n - 1))%Z.
Proof. unfold in_range. rewrite andb_true_iff, Z.leb_le, Z.ltb_lt. tauto. Qed.
Lemma in_range_false n v : in_range false n v = true <-> (0 <= v < 2 ^ Z.of_N n)%Z.
Proof. unfold in_range. rewrite andb_true_iff, Z.leb_le, Z.ltb_lt. tauto. Qed.
Lemma pattern_Z n v : Z.of_N (pattern n v) = (v mod 2 ^ Z.of_N n)%Z.
Proof. unfold pattern. rewrite Z2N.id; auto. apply Z.mod_pos_bound. apply Z.pow_pos_nonneg; lia. Qed.
Lemma number_pattern s n v : (0 < n)%N -> in_range s n v = true -> number s n (pattern n v) = v.
Proof.
  intros P H. unfold number. destruct s; rewrite pattern_Z.
  - apply in_range_true in H. rewrite <- (wrap_id (Z.of_N n) v) at 2 by (auto; lia). apply wrap_eq; [lia|]. apply Z.mod_mod. apply Z.pow_nonzero; lia.
  - apply in_range_false in H. apply Z.mod_small; auto.
Qed.
Lemma pattern_zero s n v : (0 < n)%N -> in_range s n v = true -> v <> 0%Z -> pattern n v <> 0%N.
Proof.
  intros P H V E. apply V. rewrite <- (number_pattern s n v P H), E. unfold number. destruct s; auto. apply wrap_id; [lia|].
  assert (0 < 2 ^ (Z.of_N n - 1))%Z by (apply Z.pow_pos_nonneg; lia). lia.
Qed.

Lemma cross_int pw r r' v x : (0 < pw)%N -> alike_int r r' -> typed_int pw r -> typed_int pw r' -> rint_store pw r v = Some x ->
  exists v', rint_load pw r' x = Some v' /\ (v' = v <-> forbidden_int r = forbidden_int r').
Proof.
  intros PW A T T' S. destruct r as [s w | s w | w | s w f], r' as [s' w' | s' w' | w' | s' w' f']; cbn [alike_int] in A; try tauto;
    try (destruct A as [<- <-]); try subst w'; pose proof (bits_pos pw w PW) as B; cbn [rint_store rint_load forbidden_int] in *.
  - destruct (in_range s _ v) eqn:R; [|discriminate]. injection S as <-. eexists. split; [reflexivity|]. rewrite number_pattern; auto. tauto.
  - destruct (in_range s _ v) eqn:R; [|discriminate]. destruct (Z.eqb_spec v 0) as [|V]; [discriminate|]. injection S as <-.
    pose proof (pattern_zero s _ v B R V). destruct (N.eqb_spec (pattern (bits pw w) v) 0); [tauto|].
    eexists. split; [reflexivity|]. rewrite number_pattern; auto. tauto.
  - destruct (in_range false _ v) eqn:R; [|discriminate]. apply in_range_false in R.
    assert (F : fits_u (bits pw w) (Z.to_N v)) by (unfold fits_u; rewrite <- of_N_pow in R; lia).
    pose proof (nonmax_round _ _ _ F S) as E. destruct (N.eqb_spec x 0) as [->|].
    { unfold nonmax_new, nonzero_new in S. destruct (N.eqb_spec (u_not (bits pw w) (Z.to_N v)) 0); [discriminate | congruence]. }
    eexists. split; [reflexivity|]. rewrite E. rewrite Z2N.id by lia. tauto.
  - cbn [typed_int] in T, T'. destruct s.
    + destruct (in_range true _ v) eqn:R; [|discriminate]. apply in_range_true in R. pose proof T as U. pose proof T' as U'. apply in_range_true in U, U'.
      unfold nonxi_new in S. set (n := Z.of_N (bits pw w)) in *. assert (Wn : (0 < n)%Z) by lia.
      destruct (Z.eqb_spec (wrap n (v - f)) 0) as [|V]; [discriminate|]. cbn [option_map] in S. injection S as <-.
      assert (R2 : in_range true (bits pw w) (wrap n (v - f)) = true) by (apply in_range_true; apply wrap_range; auto).
      pose proof (pattern_zero true _ _ B R2 V). destruct (N.eqb_spec (pattern (bits pw w) (wrap n (v - f))) 0); [tauto|].
      eexists. split; [reflexivity|]. rewrite (number_pattern true) by auto. unfold nonxi_get.
      assert (P : (2 ^ n = 2 * 2 ^ (n - 1))%Z) by (rewrite <- Z.pow_succ_r by lia; f_equal; lia).
      split; intros E.
      * f_equal. assert (E' : wrap n (wrap n (v - f) + f') = wrap n v) by (rewrite (wrap_id n v) by auto; auto).
        rewrite wrap_eq in E' by auto. rewrite <- Zplus_mod_idemp_l, wrap_mod, Zplus_mod_idemp_l in E' by auto.
        apply mod_close in E'; auto; lia.
      * injection E as <-. rewrite <- (wrap_id n v) at 2 by auto. apply wrap_eq; auto. rewrite <- Zplus_mod_idemp_l, wrap_mod, Zplus_mod_idemp_l by auto. f_equal; lia.
    + destruct (in_range false _ v) eqn:R; [|discriminate]. apply in_range_false in R, T, T'.
      set (k := bits pw w) in *. pose proof (of_N_pow k) as PK. 
      destruct (N.eqb_spec x 0) as [->|].
      { unfold nonxu_new, nonzero_new in S. destruct (N.eqb_spec (u_wsub k (Z.to_N v) (Z.to_N f)) 0); [discriminate | congruence]. }
      eexists. split; [reflexivity|].
      assert (X : Z.of_N x = ((v - f) mod 2 ^ Z.of_N k)%Z).
      { unfold nonxu_new, nonzero_new in S. destruct (N.eqb_spec (u_wsub k (Z.to_N v) (Z.to_N f)) 0); [discriminate|]. injection S as <-.
        unfold u_wsub. rewrite N2Z.inj_mod by (apply N.pow_nonzero; discriminate). rewrite PK. rewrite N2Z.inj_sub by (rewrite <- PK in T, R; lia).
        rewrite N2Z.inj_add, PK, !Z2N.id by lia. replace (v + 2 ^ Z.of_N k - f)%Z with (v - f + 1 * 2 ^ Z.of_N k)%Z by lia. apply Z.mod_add. apply Z.pow_nonzero; lia. }
      unfold nonxu_get, u_wadd. rewrite N2Z.inj_mod by (apply N.pow_nonzero; discriminate). rewrite PK, N2Z.inj_add, Z2N.id by lia. rewrite X, Zplus_mod_idemp_l.
      split; intros E.
      * f_equal. rewrite <- (Z.mod_small v (2 ^ Z.of_N k)) in E by lia. rewrite (Z.mod_small v) in E by lia.
        assert (E' : ((v - f + f') mod 2 ^ Z.of_N k = v mod 2 ^ Z.of_N k)%Z) by (rewrite (Z.mod_small v) by lia; auto).
        apply mod_close in E'; lia.
      * injection E as <-. replace (v - f + f)%Z with v by lia. apply Z.mod_small; lia.
Qed.

Definition store_list (pw : N) := fix go (fs : list (list N * rty)) (vs : list rval) : option (list rmem) :=
  match fs, vs with
  | [], [] => Some []
  | f :: fs', x :: vs' => match rty_store pw (snd f) x, go fs' vs' with Some m, Some ms => Some (m :: ms) | _, _ => None end
  | _, _ => None
  end.
Definition load_list (pw : N) := fix go (fs : list (list N * rty)) (ms : list rmem) : option (list rval) :=
  match fs, ms with
  | [], [] => Some []
  | f :: fs', x :: ms' => match rty_load pw (snd f) x, go fs' ms' with Some v, Some vs => Some (v :: vs) | _, _ => None end
  | _, _ => None
  end.
Lemma alike_forbidden : forall t t', alike t t' -> List.length (forbidden t) = List.length (forbidden t').
Proof.
  induction t as [r | n m v fs IH] using rty_ind2; intros t' H; inversion H; subst; cbn [forbidden].
  - destruct r, r'; cbn in *; tauto.
  - match goal with H : Forall2 _ _ _ |- _ => induction H as [|f f' l l' [A B] F IHf] end; cbn [flat_map]; auto.
    inversion IH; subst. rewrite !app_length. f_equal; auto. apply IHf; auto. constructor; auto.
Qed.
Lemma app_same {A} (a b c d : list A) : List.length a = List.length c -> a ++ b = c ++ d -> a = c /\ b = d.
Proof. revert c. induction a as [|x a IH]; intros [|y c] L E; cbn in *; try discriminate; auto. injection E as -> E. destruct (IH c) as [-> ->]; auto. Qed.
Lemma cross pw : (0 < pw)%N -> forall t t' v m, alike t t' -> typed pw t -> typed pw t' -> rty_store pw t v = Some m ->
  exists v', rty_load pw t' m = Some v' /\ (v' = v <-> forbidden t = forbidden t').
Proof.
  intros PW. induction t as [r | n m v fs IH] using rty_ind2; intros t' x mm H T T' E; inversion H; subst.
  - inversion T; inversion T'; subst. destruct x as [z|]; [|discriminate]. cbn [rty_store] in E. destruct (rint_store pw r z) as [p|] eqn:E1; [|discriminate].
    injection E as <-. destruct (cross_int pw r r' z p) as (z' & E2 & E3); auto. exists (VI z'). cbn [rty_load forbidden]. rewrite E2. split; auto.
    rewrite <- E3. split; congruence.
  - rename H5 into F. destruct x as [|vs]; [discriminate|].
    change (option_map MS (store_list pw fs vs) = Some mm) in E. destruct (store_list pw fs vs) as [ms|] eqn:E1; [|discriminate]. injection E as <-.
    inversion T; inversion T'; subst.
    cut (exists vs', load_list pw fs' ms = Some vs' /\ (vs' = vs <-> forbidden (RS n m v fs) = forbidden (RS n m v fs'))).
    { intros (vs' & E2 & E3). exists (VS vs'). split.
      - change (option_map VS (load_list pw fs' ms) = Some (VS vs')). rewrite E2. reflexivity.
      - rewrite <- E3. split; congruence. }
    cbn [forbidden]. clear H T T'. revert vs ms E1. induction F as [|f f' l l' [A B] F IHf]; intros vs ms E1.
    + destruct vs; [|discriminate]. injection E1 as <-. exists []. split; [reflexivity|]. cbn. tauto.
    + destruct vs as [|y vs]; [discriminate|]. cbn [store_list] in E1. fold (store_list pw) in E1.
      destruct (rty_store pw (snd f) y) as [p|] eqn:P1; [|discriminate]. destruct (store_list pw l vs) as [ps|] eqn:P2; [|discriminate]. injection E1 as <-.
      inversion IH; subst. repeat match goal with H : Forall _ (_ :: _) |- _ => inversion H; subst; clear H end.
      edestruct (IHf ltac:(auto) ltac:(auto) ltac:(auto)) as (vs' & Q1 & Q2); eauto.
      match goal with H : forall t' v m, alike (snd f) t' -> _ |- _ => destruct (H (snd f') y p) as (y' & Q3 & Q4); auto end.
      exists (y' :: vs'). cbn [load_list]. fold (load_list pw). rewrite Q3, Q1. split; auto. cbn [flat_map]. split; intros X.
      * injection X as -> ->. f_equal; [apply Q4 | apply Q2]; auto.
      * apply app_same in X; [|apply alike_forbidden; auto]. destruct X as [X1 X2]. f_equal; [apply Q4 | apply Q2]; auto.
Qed.
