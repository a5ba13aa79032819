(** Lemmas on the build script of stabby-abi. *)
From Coq Require Import String Ascii.
From Coq Require Import List Arith NArith PArith Bool Lia MSetPositive.
From Verif Require Import M_Typenum S_Typenum L_Typenum M_Closure L_Closure M_BuildRs S_BuildRs.
Import ListNotations.
Local Open Scope string_scope.
Local Open Scope N_scope.
Local Open Scope list_scope.
Ltac Zify.zify_post_hook ::= idtac.

(** ** Strings *)
Lemma append_assoc a b c : String.append (String.append a b) c = String.append a (String.append b c).
Proof. induction a as [|x a IH]; [reflexivity|]. cbn [String.append]. rewrite IH. reflexivity. Qed.
Lemma append_nil a : String.append a EmptyString = a.
Proof. induction a as [|x a IH]; [reflexivity|]. cbn [String.append]. rewrite IH. reflexivity. Qed.
Lemma append_length a b : String.length (String.append a b) = (String.length a + String.length b)%nat.
Proof. induction a as [|x a IH]; [reflexivity|]. cbn [String.append String.length]. rewrite IH. reflexivity. Qed.
Lemma append_cancel a : forall b c, String.append a b = String.append a c -> b = c.
Proof. induction a as [|x a IH]; intros b c H; [exact H|]. cbn [String.append] in H. injection H as H. exact (IH _ _ H). Qed.
Lemma append_split a : forall b c d, String.length c = String.length d -> String.append a c = String.append b d -> a = b /\ c = d.
Proof.
  induction a as [|x a IH]; intros b c d L H; destruct b as [|y b]; cbn [String.append] in H.
  - auto.
  - subst c. cbn [String.length] in L. rewrite append_length in L. lia.
  - subst d. cbn [String.length] in L. rewrite append_length in L. lia.
  - injection H as -> H. destruct (IH _ _ _ L H) as [-> ->]. auto.
Qed.

(** ** Digits *)
Lemma digit_char_value d : d < 16 -> digit_value (digit_char d) = Some d.
Proof.
  intros H. assert (E : In d (map N.of_nat (seq 0 16))).
  { apply in_map_iff. exists (N.to_nat d). split; [apply N2Nat.id|]. apply in_seq. lia. }
  cbn in E. repeat (destruct E as [<-|E]; [reflexivity|]). destruct E.
Qed.
Lemma fmt_loop_spec fuel : forall b n acc, 2 <= b -> b <= 16 -> n < b ^ N.of_nat (S fuel) ->
  exists d r k, fmt_loop (S fuel) b n acc = String (digit_char d) (String.append r acc) /\ d < b /\ (0 < n -> 0 < d) /\ (n = 0 -> r = EmptyString) /\
    forall a, value_from b a (String (digit_char d) (String.append r acc)) = value_from b (b ^ k * a + n) acc.
Proof.
  induction fuel as [|fuel IH]; intros b n acc B1 B2 L.
  - change (N.of_nat 1) with 1 in L. rewrite N.pow_1_r in L.
    exists n, EmptyString, 1. cbn [fmt_loop]. rewrite (N.mod_small n b L). apply N.ltb_lt in L as L'. rewrite L'.
    split; [reflexivity|]. split; [exact L|]. split; [auto|]. split; [auto|]. intros a. cbn [String.append value_from].
    rewrite digit_char_value by lia. rewrite L'. rewrite N.pow_1_r. reflexivity.
  - cbn [fmt_loop]. destruct (n <? b) eqn:E.
    + apply N.ltb_lt in E. exists n, EmptyString, 1. rewrite (N.mod_small n b E).
      split; [reflexivity|]. split; [exact E|]. split; [auto|]. split; [auto|]. intros a. cbn [String.append value_from].
      rewrite digit_char_value by lia. apply N.ltb_lt in E. rewrite E. rewrite N.pow_1_r. reflexivity.
    + apply N.ltb_ge in E. assert (B0 : b <> 0) by lia.
      assert (M : n mod b < b) by (apply N.mod_lt; exact B0).
      assert (D : n = b * (n / b) + n mod b) by (apply N.div_mod; exact B0).
      assert (L2 : n / b < b ^ N.of_nat (S fuel)).
      { apply N.div_lt_upper_bound; [exact B0|]. rewrite (Nat2N.inj_succ (S fuel)), N.pow_succ_r in L by lia. exact L. }
      destruct (IH b (n / b) (String (digit_char (n mod b)) acc) B1 B2 L2) as (d & r & k & F & Ld & P & Z & V).
      exists d, (String.append r (String (digit_char (n mod b)) EmptyString)), (N.succ k).
      assert (A : String.append (String.append r (String (digit_char (n mod b)) EmptyString)) acc = String.append r (String (digit_char (n mod b)) acc))
        by (rewrite append_assoc; reflexivity).
      rewrite A. split; [exact F|]. split; [exact Ld|]. split; [intros _; apply P; apply N.div_str_pos; lia|].
      split; [intros ->; lia|]. intros a. rewrite V. cbn [value_from]. rewrite digit_char_value by lia.
      apply N.ltb_lt in M as M'. rewrite M'. f_equal. rewrite N.pow_succ_r by lia. nia.
Qed.
Lemma size_nat_bound n : n < 2 ^ N.of_nat (N.size_nat n).
Proof.
  destruct n as [|p]; [reflexivity|]. cbn [N.size_nat].
  induction p as [p IH|p IH|]; [| |reflexivity]; cbn [Pos.size_nat]; rewrite Nat2N.inj_succ, N.pow_succ_r by lia; lia.
Qed.
Lemma fmt_writes b n : 2 <= b -> b <= 16 -> writes b (fmt b n) n.
Proof.
  intros B1 B2. unfold fmt.
  assert (L : n < b ^ N.of_nat (S (N.size_nat n))).
  { apply N.lt_le_trans with (2 ^ N.of_nat (S (N.size_nat n))).
    - rewrite Nat2N.inj_succ, N.pow_succ_r by lia. pose proof (size_nat_bound n). lia.
    - apply N.pow_le_mono_l. exact B1. }
  destruct (fmt_loop_spec _ b n EmptyString B1 B2 L) as (d & r & k & F & Ld & P & Z & V).
  rewrite F, append_nil. setoid_rewrite append_nil in V. split; [|split].
  - rewrite V. cbn [value_from]. rewrite N.mul_0_r. reflexivity.
  - discriminate.
  - intros r' H. injection H as H ->.
    assert (D : digit_value (digit_char d) = Some 0) by (rewrite H; reflexivity).
    rewrite digit_char_value in D by lia. injection D as ->.
    destruct (N.eq_dec n 0) as [E|E]; [exact (Z E)|]. lia.
Qed.
Lemma fmt_inj b n m : 2 <= b -> b <= 16 -> fmt b n = fmt b m -> n = m.
Proof.
  intros B1 B2 H. destruct (fmt_writes b n B1 B2) as [V _]. destruct (fmt_writes b m B1 B2) as [W _].
  rewrite H, W in V. injection V as ->. reflexivity.
Qed.

(** ** Names *)
Definition name (f : form) (k : N) : string := String.append (prefix f) (fmt (base f) k).
Lemma base_ok f : 2 <= base f /\ base f <= 16.
Proof. destruct f; cbn [base]; lia. Qed.
Lemma name_names f k : names_it f k (name f k).
Proof. exists (fmt (base f) k). split; [reflexivity|]. apply fmt_writes; apply base_ok. Qed.
Lemma names_det f k f' k' s : names_it f k s -> names_it f' k' s -> f = f' /\ k = k'.
Proof.
  intros (ds & -> & V & _) (ds' & E & V' & _).
  destruct f, f'; cbn [prefix base] in *;
  (apply append_cancel in E; subst ds'; split; [reflexivity|congruence]) ||
  (exfalso; cbn [String.append] in E; injection E as E; first [discriminate E|subst; vm_compute in V; discriminate V|subst; vm_compute in V'; discriminate V']).
Qed.
Lemma spelled_det s n m : spelled s n -> spelled s m -> n = m.
Proof. intros (f & k & A & ->) (f' & k' & B & ->). destruct (names_det _ _ _ _ _ A B) as [-> ->]. reflexivity. Qed.

(** ** The lists *)
Lemma in_range i n : In i (range n) <-> i < n.
Proof.
  unfold range. rewrite in_map_iff. split.
  - intros (j & <- & H). apply in_seq in H. lia.
  - intros H. exists (N.to_nat i). split; [apply N2Nat.id|]. apply in_seq. lia.
Qed.
Lemma all_some {A} (f : N -> option (list A)) g is : (forall i, In i is -> f i = Some (g i)) -> all f is = Some (flat_map g is).
Proof.
  induction is as [|i is IH]; intros H; [reflexivity|]. cbn [all flat_map]. rewrite (H i (or_introl eq_refl)), IH; [reflexivity|].
  intros j J. apply H. right. exact J.
Qed.
Definition keys1 (i : N) : list (form * N) := [(Dec, i); (Hex, i); (Bin, i)].
Definition keys2 (i : N) : list (form * N) := (Pow10, i) :: if SEQ_MAX <? 10 ^ i then keys1 (10 ^ i) else [].
Definition keys3 (i : N) : list (form * N) := (Pow2, i) :: if SEQ_MAX <? 2 ^ i then [(Dec, 2 ^ i)] else [].
Definition keys : list (form * N) := flat_map keys1 (range 1001) ++ flat_map keys2 (range 39) ++ flat_map keys3 (range 128).
Definition content (a : alias) : string * string := (a_name a, a_type a).
Definition content_of (fk : form * N) : string * string := (name (fst fk) (snd fk), u_text (stands_for (fst fk) (snd fk))).
Definition g2 (i : N) : list alias := match pow10_aliases i with Some l => l | None => [] end.
Definition g3 (i : N) : list alias := match pow2_aliases i with Some l => l | None => [] end.
Lemma pow10_some i : i < 39 -> pow10_aliases i = Some (g2 i).
Proof.
  intros H. unfold g2. assert (E : (10 ^ i <? 2 ^ 128) = true).
  { apply N.ltb_lt. apply N.le_lt_trans with (10 ^ 38); [apply N.pow_le_mono_r; lia|reflexivity]. }
  unfold pow10_aliases. rewrite E. reflexivity.
Qed.
Lemma pow2_some i : i < 128 -> pow2_aliases i = Some (g3 i).
Proof. intros H. unfold g3, pow2_aliases. apply N.ltb_lt in H. rewrite H. reflexivity. Qed.
Definition alias_list : list alias := flat_map seq_aliases (range 1001) ++ flat_map g2 (range 39) ++ flat_map g3 (range 128).
Lemma typenum_some : typenum_unsigned = Some alias_list.
Proof.
  unfold typenum_unsigned, alias_list. rewrite (all_some pow10_aliases g2), (all_some pow2_aliases g3); [reflexivity| |].
  - intros i H. apply in_range in H. apply pow2_some. exact H.
  - intros i H. apply in_range in H. apply pow10_some. exact H.
Qed.
Lemma map_flat_map {A B C} (f : B -> C) (g : A -> list B) (h : A -> list C) l :
  (forall x, In x l -> map f (g x) = h x) -> map f (flat_map g l) = flat_map h l.
Proof.
  induction l as [|x l IH]; intros H; [reflexivity|]. cbn [flat_map]. rewrite map_app, (H x (or_introl eq_refl)), IH; [reflexivity|].
  intros y Y. apply H. right. exact Y.
Qed.
Lemma flat_map_map {A B C} (f : B -> C) (g : A -> list B) l : map f (flat_map g l) = flat_map (fun x => map f (g x)) l.
Proof. apply map_flat_map. reflexivity. Qed.
Lemma app_eq {A} (a b c d : list A) : a = b -> c = d -> a ++ c = b ++ d.
Proof. intros -> ->. reflexivity. Qed.
Lemma alias_content : map content alias_list = map content_of keys.
Proof.
  unfold alias_list, keys. rewrite !map_app. apply app_eq; [|apply app_eq].
  - rewrite (flat_map_map content_of). apply map_flat_map. intros i _. reflexivity.
  - rewrite (flat_map_map content_of). apply map_flat_map. intros i H. apply in_range in H. pose proof (pow10_some i H) as P.
    unfold pow10_aliases in P. destruct (10 ^ i <? 2 ^ 128); [|discriminate P]. injection P as <-.
    unfold keys2. destruct (SEQ_MAX <? 10 ^ i); reflexivity.
  - rewrite (flat_map_map content_of). apply map_flat_map. intros i H. apply in_range in H.
    assert (Q : N.shiftl 1 i = 2 ^ i) by (rewrite N.shiftl_mul_pow2; lia).
    unfold g3, pow2_aliases, keys3. apply N.ltb_lt in H. rewrite H, Q. cbv beta iota zeta.
    destruct (SEQ_MAX <? 2 ^ i); reflexivity.
Qed.
Lemma alias_in a : In a alias_list -> exists f k, In (f, k) keys /\ a_name a = name f k /\ a_type a = u_text (stands_for f k).
Proof.
  intros H. apply (in_map content) in H. rewrite alias_content in H. apply in_map_iff in H. destruct H as ([f k] & E & H).
  exists f, k. split; [exact H|]. unfold content, content_of in E. cbn [fst snd] in E. injection E as A B. auto.
Qed.
Lemma key_in f k : In (f, k) keys -> exists a, In a alias_list /\ a_name a = name f k /\ a_type a = u_text (stands_for f k).
Proof.
  intros H. apply (in_map content_of) in H. rewrite <- alias_content in H. apply in_map_iff in H. destruct H as (a & E & H).
  exists a. split; [exact H|]. unfold content, content_of in E. cbn [fst snd] in E. injection E as A B. auto.
Qed.

(** No key twice: a set is built, which takes a few thousand steps. *)
Definition key_pos (fk : form * N) : positive :=
  N.succ_pos (8 * snd fk + match fst fk with Dec => 0 | Hex => 1 | Bin => 2 | Pow10 => 3 | Pow2 => 4 end).
Lemma key_pos_inj a b : key_pos a = key_pos b -> a = b.
Proof.
  destruct a as [f k], b as [g l]. unfold key_pos. cbn [fst snd]. intros H.
  assert (E : forall x y, N.succ_pos x = N.succ_pos y -> x = y).
  { intros x y Q. assert (R : N.pos (N.succ_pos x) = N.pos (N.succ_pos y)) by (rewrite Q; reflexivity). rewrite !N.succ_pos_spec in R. lia. }
  apply E in H. destruct f, g; first [lia|f_equal; lia].
Qed.
Fixpoint distinct (seen : PositiveSet.t) (l : list (form * N)) : bool :=
  match l with
  | [] => true
  | x :: r => if PositiveSet.mem (key_pos x) seen then false else distinct (PositiveSet.add (key_pos x) seen) r
  end.
Lemma distinct_nodup l : forall seen, distinct seen l = true -> NoDup l /\ forall x, In x l -> PositiveSet.mem (key_pos x) seen = false.
Proof.
  induction l as [|x l IH]; intros seen H; cbn [distinct] in H; [split; [constructor|intros ? []]|].
  destruct (PositiveSet.mem (key_pos x) seen) eqn:M; [discriminate H|]. destruct (IH _ H) as [N F]. split.
  - constructor; [|exact N]. intros J. specialize (F _ J).
    assert (T : PositiveSet.mem (key_pos x) (PositiveSet.add (key_pos x) seen) = true) by (apply PositiveSet.mem_spec, PositiveSet.add_spec; left; reflexivity).
    congruence.
  - intros y [<-|J]; [exact M|]. specialize (F _ J). destruct (PositiveSet.mem (key_pos y) seen) eqn:My; [|reflexivity].
    assert (T : PositiveSet.mem (key_pos y) (PositiveSet.add (key_pos x) seen) = true) by (apply PositiveSet.mem_spec, PositiveSet.add_spec; right; apply PositiveSet.mem_spec; exact My).
    congruence.
Qed.
Lemma keys_nodup : NoDup keys.
Proof. apply (distinct_nodup keys PositiveSet.empty). vm_compute. reflexivity. Qed.
Lemma map_nodup {A B} (f : A -> B) l : (forall x y, In x l -> In y l -> f x = f y -> x = y) -> NoDup l -> NoDup (map f l).
Proof.
  intros F N. induction N as [|x l X N IH]; [constructor|]. cbn [map]. constructor.
  - intros J. apply in_map_iff in J. destruct J as (y & E & J). apply X.
    rewrite <- (F y x); [exact J|right; exact J|left; reflexivity|exact E].
  - apply IH. intros a b A1 B1. apply F; right; assumption.
Qed.
Lemma alias_names_nodup : NoDup (map a_name alias_list).
Proof.
  assert (E : map a_name alias_list = map (fun fk => name (fst fk) (snd fk)) keys).
  { assert (X : map fst (map content alias_list) = map fst (map content_of keys)) by (rewrite alias_content; reflexivity).
    rewrite !map_map in X. exact X. }
  rewrite E. apply map_nodup; [|exact keys_nodup]. intros [f k] [f' k'] _ _ H. cbn [fst snd] in H.
  pose proof (name_names f k) as A. rewrite H in A. destruct (names_det _ _ _ _ _ A (name_names f' k')) as [-> ->]. reflexivity.
Qed.
Lemma keys_expected f k : In (f, k) keys <-> expected f k.
Proof.
  unfold keys. rewrite !in_app_iff, !in_flat_map. split.
  - intros [(i & R & H)|[(i & R & H)|(i & R & H)]]; apply in_range in R.
    + cbn in H. destruct H as [E|[E|[E|[]]]]; injection E as <- <-; cbn [expected]; left; lia.
    + unfold keys2 in H. destruct H as [E|H]; [injection E as <- <-; exact R|].
      destruct (SEQ_MAX <? 10 ^ i); [|destruct H]. unfold keys1 in H.
      destruct H as [E|[E|[E|[]]]]; injection E as <- <-; cbn [expected]; right; [left|..]; exists i; auto.
    + unfold keys3 in H. destruct H as [E|H]; [injection E as <- <-; exact R|].
      destruct (SEQ_MAX <? 2 ^ i); [|destruct H].
      destruct H as [E|[]]; injection E as <- <-; cbn [expected]; right; right; exists i; auto.
  - assert (S1 : k <= 1000 -> f = Dec \/ f = Hex \/ f = Bin -> exists x, In x (range 1001) /\ In (f, k) (keys1 x)).
    { intros L F. exists k. split; [apply in_range; lia|]. unfold keys1. destruct F as [->|[->| ->]]; cbn [In]; auto. }
    assert (S2 : forall i, i < 39 -> k = 10 ^ i -> ~ k <= 1000 -> f = Dec \/ f = Hex \/ f = Bin -> exists x, In x (range 39) /\ In (f, k) (keys2 x)).
    { intros i L -> B F. exists i. split; [apply in_range; exact L|]. unfold keys2.
      assert (E : (SEQ_MAX <? 10 ^ i) = true) by (apply N.ltb_lt; unfold SEQ_MAX; lia). rewrite E. right.
      unfold keys1. destruct F as [->|[->| ->]]; cbn [In]; auto. }
    destruct f; cbn [expected]; intros H.
    + destruct (N.le_gt_cases k 1000) as [L|L]; [left; auto|]. destruct H as [H|[(i & I1 & E)|(i & I1 & E)]]; [lia| |].
      * right; left. apply (S2 i); auto. lia.
      * right; right. exists i. split; [apply in_range; exact I1|]. unfold keys3. subst k.
        assert (E : (SEQ_MAX <? 2 ^ i) = true) by (apply N.ltb_lt; unfold SEQ_MAX; lia). rewrite E. right. left. reflexivity.
    + destruct (N.le_gt_cases k 1000) as [L|L]; [left; auto|]. destruct H as [H|(i & I1 & E)]; [lia|].
      right; left. apply (S2 i); auto. lia.
    + destruct (N.le_gt_cases k 1000) as [L|L]; [left; auto|]. destruct H as [H|(i & I1 & E)]; [lia|].
      right; left. apply (S2 i); auto. lia.
    + right; left. exists k. split; [apply in_range; exact H|]. left. reflexivity.
    + right; right. exists k. split; [apply in_range; exact H|]. left. reflexivity.
Qed.
Lemma expected_small f k : expected f k -> stands_for f k < 2 ^ 128.
Proof.
  assert (T : forall i, i < 39 -> 10 ^ i < 2 ^ 128).
  { intros i H. apply N.le_lt_trans with (10 ^ 38); [apply N.pow_le_mono_r; lia|reflexivity]. }
  assert (W : forall i, i < 128 -> 2 ^ i < 2 ^ 128) by (intros i H; apply N.pow_lt_mono_r; lia).
  assert (B : 1000 < 2 ^ 128) by reflexivity.
  destruct f; cbn [expected stands_for]; intros H.
  - destruct H as [H|[(i & L & ->)|(i & L & ->)]]; [lia|auto|auto].
  - destruct H as [H|(i & L & ->)]; [lia|auto].
  - destruct H as [H|(i & L & ->)]; [lia|auto].
  - auto.
  - auto.
Qed.

(** ** The texts *)
Lemma u_text_denotes n : denotes (u_text n) (build_u n).
Proof.
  unfold u_text, build_u. generalize (rev (build_bits (N.to_nat (N.size n)) n)). intros l.
  assert (G : forall s u, denotes s u -> denotes (fold_left u_step l s) (fold_left UInt l u)).
  { induction l as [|b l IH]; intros s u D; [exact D|]. cbn [fold_left]. apply IH.
    destruct b; [apply D_one in D|apply D_zero in D]; exact D. }
  apply G. constructor.
Qed.
Lemma denotes_inv t u : denotes t u -> (t = "UTerm" /\ u = UTerm) \/
  (exists s v, denotes s v /\ t = String.append "UInt<" (String.append s ", B0>") /\ u = UInt v false) \/
  (exists s v, denotes s v /\ t = String.append "UInt<" (String.append s ", B1>") /\ u = UInt v true).
Proof. intros D. destruct D as [|s v D|s v D]; [left; auto|right; left; exists s, v; auto|right; right; exists s, v; auto]. Qed.
Lemma denotes_det s u : denotes s u -> forall u', denotes s u' -> u = u'.
Proof.
  induction 1 as [|s u D IH|s u D IH]; intros u' H; apply denotes_inv in H;
    destruct H as [[E ->]|[(s' & v & D' & E & ->)|(s' & v & D' & E & ->)]]; cbn [String.append] in E; try discriminate E; [reflexivity|..].
  all: injection E as E; apply append_split in E; [|reflexivity]; destruct E as [-> E]; try discriminate E; f_equal; apply IH; exact D'.
Qed.
(** ** Tuples *)
Lemma names_length p i : length (names p i) = N.to_nat i.
Proof. unfold names, range. rewrite !map_length, seq_length. reflexivity. Qed.
Lemma range_nodup n : NoDup (range n).
Proof. unfold range. apply map_nodup; [|apply seq_NoDup]. intros x y _ _ H. lia. Qed.
Lemma names_nodup p i : NoDup (names p i).
Proof.
  unfold names. apply map_nodup; [|apply range_nodup]. intros x y _ _ H. apply append_cancel in H.
  apply fmt_inj in H; [exact H|lia|lia].
Qed.
Lemma through {V} p i (vs : list V) : match bind (names p i) vs with Some r => lookups (names p i) r | None => None end =
  if Nat.eqb (N.to_nat i) (length vs) then Some vs else None.
Proof.
  unfold bind. rewrite names_length. destruct (Nat.eqb (N.to_nat i) (length vs)) eqn:E; [|reflexivity].
  apply Nat.eqb_eq in E. apply lookups_all; [apply names_nodup|]. rewrite names_length. exact E.
Qed.
Lemma value_mono b s : forall acc n, 1 <= b -> value_from b acc s = Some n -> acc <= n.
Proof.
  induction s as [|c s IH]; intros acc n B H; cbn [value_from] in H; [injection H as <-; lia|].
  destruct (digit_value c) as [d|]; [|discriminate H]. destruct (d <? b); [|discriminate H]. apply IH in H; [nia|exact B].
Qed.
Lemma digit_ten c d : digit_value c = Some d -> d < 10 -> (48 <=? N_of_ascii c) && (N_of_ascii c <=? 57) = true /\ d = N_of_ascii c - 48.
Proof.
  unfold digit_value. destruct ((48 <=? N_of_ascii c) && (N_of_ascii c <=? 57)); [intros H _; injection H as <-; auto|].
  destruct ((65 <=? N_of_ascii c) && (N_of_ascii c <=? 70)) eqn:E; [|discriminate]. intros H L. injection H as <-.
  apply andb_true_iff in E. destruct E as [E _]. apply N.leb_le in E. lia.
Qed.
Lemma parse_value s : forall acc n, acc < 2 ^ 64 -> (parse_digits acc s = Some n <-> value_from 10 acc s = Some n /\ n < 2 ^ 64).
Proof.
  induction s as [|c s IH]; intros acc n A; cbn [parse_digits value_from].
  - split; [intros H; injection H as <-; auto|intros [H _]; exact H].
  - destruct ((48 <=? N_of_ascii c) && (N_of_ascii c <=? 57)) eqn:D.
    + assert (E : digit_value c = Some (N_of_ascii c - 48)) by (unfold digit_value; rewrite D; reflexivity).
      rewrite E. apply andb_true_iff in D. destruct D as [_ D]. apply N.leb_le in D.
      assert (L : (N_of_ascii c - 48 <? 10) = true) by (apply N.ltb_lt; lia). rewrite L.
      destruct (10 * acc + (N_of_ascii c - 48) <? 2 ^ 64) eqn:B.
      * apply IH. apply N.ltb_lt. exact B.
      * split; [discriminate|]. intros [H M]. apply value_mono in H; [|lia]. apply N.ltb_ge in B. lia.
    + split; [discriminate|]. intros [H _]. destruct (digit_value c) as [d|] eqn:E; [|discriminate H].
      destruct (d <? 10) eqn:L; [|discriminate H]. apply N.ltb_lt in L. apply digit_ten in E; [|exact L]. destruct E as [E _]. congruence.
Qed.
Lemma parse_usize_iff s n : parse_usize s = Some n <-> exists ds, (s = ds \/ s = String "+"%char ds) /\ ds <> EmptyString /\ value_from 10 0 ds = Some n /\ n < 2 ^ 64.
Proof.
  assert (Z : 0 < 2 ^ 64) by reflexivity.
  split.
  - unfold parse_usize. destruct s as [|c r]; [discriminate|]. destruct (Ascii.eqb_spec c "+"%char) as [->|X].
    + destruct r as [|c' r]; [discriminate|]. intros H. apply parse_value in H; [|exact Z]. exists (String c' r). split; [auto|]. split; [discriminate|exact H].
    + intros H. apply parse_value in H; [|exact Z]. exists (String c r). split; [auto|]. split; [discriminate|exact H].
  - intros (ds & [->| ->] & NE & V & L).
    + unfold parse_usize. destruct ds as [|c r]; [congruence|]. destruct (Ascii.eqb_spec c "+"%char) as [->|X]; [vm_compute in V; discriminate V|].
      apply parse_value; auto.
    + unfold parse_usize. cbn [Ascii.eqb]. destruct ds as [|c r]; [congruence|]. apply parse_value; auto.
Qed.
Lemma max_asked env : asked_tuple env (max_tuple env).
Proof.
  unfold asked_tuple, max_tuple. destruct env as [s|].
  - destruct (parse_usize s) as [k|] eqn:P.
    + left. apply parse_usize_iff in P. destruct P as (ds & A & B & C & D). exists s, ds, k. auto 10.
    + right. split; [reflexivity|]. intros s' ds k E A B C. injection E as <-.
      destruct (N.le_gt_cases (2 ^ 64) k) as [L|L]; [exact L|]. assert (Q : parse_usize s = Some k) by (apply parse_usize_iff; exists ds; auto). congruence.
  - right. split; [reflexivity|]. intros s ds k E. discriminate E.
Qed.
Lemma asked_det env n m : asked_tuple env n -> asked_tuple env m -> n = m.
Proof.
  assert (Q : forall s ds k ds' k', (s = ds \/ s = String "+"%char ds) -> ds <> EmptyString -> value_from 10 0 ds = Some k -> k < 2 ^ 64 ->
    (s = ds' \/ s = String "+"%char ds') -> ds' <> EmptyString -> value_from 10 0 ds' = Some k' -> k' < 2 ^ 64 -> k = k').
  { intros s ds k ds' k' A B C D A' B' C' D'.
    assert (P : parse_usize s = Some k) by (apply parse_usize_iff; exists ds; auto).
    assert (P' : parse_usize s = Some k') by (apply parse_usize_iff; exists ds'; auto). congruence. }
  intros [(s & ds & k & E & A & B & C & D & ->)|(-> & F)] [(s' & ds' & k' & E' & A' & B' & C' & D' & ->)|(-> & F')].
  - rewrite E in E'. injection E' as <-. rewrite (Q s ds k ds' k'); auto.
  - specialize (F' _ _ _ E A B C). lia.
  - specialize (F _ _ _ E' A' B' C'). lia.
  - reflexivity.
Qed.
