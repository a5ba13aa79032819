(** Lemmas for C14-C17. *)
From Coq Require Import NArith List Bool Lia ZifyBool ZifyN.
From Verif Require Import M_Alloc S_Alloc.
Import ListNotations.
Local Open Scope N_scope.

Lemma usz_small : forall x, x < 2 ^ 64 -> usz x = x.
Proof. intros x H. unfold usz. apply N.mod_small; auto. Qed.

(** Rounding up. *)
Definition rup (x a : N) : N := x + (if N.eqb (x mod a) 0 then 0 else a - x mod a).

Lemma rup_first : forall x a, a <> 0 -> first_aligned a x (rup x a).
Proof.
  intros x a Ha. unfold rup, first_aligned.
  pose proof (N.div_mod x a Ha) as D. pose proof (N.mod_lt x a Ha) as L.
  set (q := x / a) in *. set (r := x mod a) in *.
  destruct (N.eqb_spec r 0) as [E | E].
  - rewrite N.add_0_r. rewrite E, N.add_0_r in D. split; [lia|]. split.
    + exists q. lia.
    + intros; lia.
  - replace (x + (a - r)) with (a * (q + 1)) by (rewrite N.mul_add_distr_l; lia).
    split; [rewrite N.mul_add_distr_l; lia|]. split; [exists (q + 1); lia|].
    intros z Hz [k Hk]. subst z.
    assert (q < k).
    { destruct (N.lt_ge_cases q k) as [|G]; auto.
      assert (k * a <= q * a) by (apply N.mul_le_mono_r; auto). lia. }
    rewrite (N.mul_comm k a). apply N.mul_le_mono_l. lia.
Qed.

Lemma rup_lt : forall x a, a <> 0 -> rup x a < x + a.
Proof.
  intros x a Ha. unfold rup. pose proof (N.mod_lt x a Ha).
  destruct (N.eqb_spec (x mod a) 0); lia.
Qed.
Lemma rup_ge : forall x a, a <> 0 -> x <= rup x a.
Proof. intros. unfold rup. lia. Qed.
Lemma rup_div : forall x a, a <> 0 -> (a | rup x a).
Proof. intros x a H. exact (proj1 (proj2 (rup_first x a H))). Qed.
Lemma rup_least : forall x a z, a <> 0 -> x <= z -> (a | z) -> rup x a <= z.
Proof. intros x a z H. exact (proj2 (proj2 (rup_first x a H)) z). Qed.

Lemma realign_rup : forall l a, a <> 0 -> lsize l + a <= 2 ^ 64 ->
  realign l a = Lay (rup (lsize l) a) a.
Proof.
  intros l a Ha H. unfold realign. f_equal.
  pose proof (rup_lt (lsize l) a Ha) as L. unfold rup in *.
  destruct (N.eqb_spec (lsize l mod a) 0); rewrite usz_small; lia.
Qed.

Lemma alignment_nz : forall a, alignment a -> a <> 0.
Proof. intros a [k ->]. apply N.pow_nonzero. lia. Qed.

Lemma alignment_le_div : forall a b, alignment a -> alignment b -> a <= b -> (a | b).
Proof.
  intros a b [i ->] [j ->] H.
  destruct (N.le_gt_cases i j) as [L | L].
  - exists (2 ^ (j - i)). rewrite <- N.pow_add_r. f_equal. lia.
  - assert (2 ^ j < 2 ^ i) by (apply N.pow_lt_mono_r; lia). lia.
Qed.

Lemma alignment_max : forall a b, alignment a -> alignment b -> alignment (N.max a b).
Proof. intros a b A B. destruct (N.max_spec a b) as [[_ ->] | [_ ->]]; auto. Qed.

Lemma concat_eq : forall l o, lalign l <> 0 -> lsize l + lsize o + N.max (lalign l) (lalign o) <= 2 ^ 64 ->
  concat l o = Lay (rup (lsize l + lsize o) (N.max (lalign l) (lalign o))) (N.max (lalign l) (lalign o)).
Proof.
  intros l o Hl H. unfold concat.
  replace (if lalign l <? lalign o then lalign o else lalign l) with (N.max (lalign l) (lalign o))
    by (destruct (N.ltb_spec (lalign l) (lalign o)); lia).
  rewrite realign_rup; cbn [lsize].
  - rewrite usz_small; [reflexivity | lia].
  - lia.
  - rewrite usz_small; lia.
Qed.

Lemma rup_add : forall x y a, a <> 0 -> (a | y) -> rup (x + y) a = rup x a + y.
Proof.
  intros x y a Ha Hy. apply N.le_antisymm.
  - apply rup_least; auto.
    + pose proof (rup_ge x a Ha). lia.
    + apply N.divide_add_r; auto. apply rup_div; auto.
  - assert (y <= rup (x + y) a) by (pose proof (rup_ge (x + y) a Ha); lia).
    assert (rup x a <= rup (x + y) a - y).
    { apply rup_least; auto.
      - pose proof (rup_ge (x + y) a Ha). lia.
      - apply N.divide_sub_r; auto. apply rup_div; auto. }
    lia.
Qed.

Lemma rup_mono_align : forall x a b, a <> 0 -> b <> 0 -> (a | b) -> rup x a <= rup x b.
Proof.
  intros x a b Ha Hb D. apply rup_least; auto.
  - apply rup_ge; auto.
  - eapply N.divide_trans; [exact D | apply rup_div; auto].
Qed.

(** ** C14 *)
Lemma concat_both : forall l o, alignment (lalign l) -> alignment (lalign o) ->
  (lalign o | lsize o) -> lsize l + lsize o + N.max (lalign l) (lalign o) <= 2 ^ 64 ->
  holds_both l o (concat l o) /\ lalign (concat l o) = N.max (lalign l) (lalign o) /\
  (lalign (concat l o) | lsize (concat l o)) /\
  lsize (concat l o) < lsize l + lsize o + N.max (lalign l) (lalign o).
Proof.
  intros l o Al Ao D H. pose proof (alignment_nz _ Al). pose proof (alignment_nz _ Ao).
  rewrite concat_eq by auto. cbn [lsize lalign].
  assert (M : N.max (lalign l) (lalign o) <> 0) by lia.
  split; [|split; [reflexivity|split; [apply rup_div; auto | apply rup_lt; auto]]].
  exists (rup (lsize l) (lalign o)). split; [apply rup_ge; auto|]. split; [apply rup_div; auto|].
  cbn [lsize]. rewrite <- rup_add by auto.
  apply rup_mono_align; auto.
  apply alignment_le_div; auto. apply alignment_max; auto. lia.
Qed.

Lemma align_offset_rup : forall p a, p + align_offset p a = rup p a.
Proof. reflexivity. Qed.

(** ** C15 *)
Lemma skip_to_rup : forall psz a, a <> 0 -> skip_to psz a = rup psz a.
Proof.
  intros psz a Ha. unfold skip_to, rup. pose proof (N.mod_lt psz a Ha).
  destruct (N.eqb_spec (psz mod a) 0); lia.
Qed.

Lemma array_layout_eq : forall psz pal s a n, pal <> 0 ->
  psz + s * n + N.max pal a <= 2 ^ 64 -> a <> 0 ->
  array_layout psz pal s a n = Lay (rup (psz + s * n) (N.max pal a)) pal.
Proof.
  intros psz pal s a n Hp H Ha. unfold array_layout. f_equal.
  rewrite concat_eq; unfold lay_array; cbn [lsize lalign].
  - rewrite usz_small by lia. reflexivity.
  - auto.
  - rewrite usz_small by lia. lia.
Qed.

Lemma div_mul_l : forall a s n, (a | s) -> (a | s * n).
Proof. intros. apply N.divide_mul_l; auto. Qed.

(** A word-aligned [T]. *)
Lemma ptr_init_small : forall psz pal s a n ptr, alignment pal -> alignment a -> (pal | psz) -> (a | s) ->
  a <= pal -> (pal | ptr) -> psz + s * n + pal <= 2 ^ 64 ->
  let l := array_layout psz pal s a n in
  let d := fst (ptr_init psz a ptr n) in
  d = ptr + psz /\ (a | d) /\ inside d (s * n) ptr (lsize l) /\
  inside (prefix_ptr psz d) psz ptr (lsize l) /\ apart (prefix_ptr psz d) psz d (s * n) /\
  prefix_ptr psz d = ptr.
Proof.
  intros psz pal s a n ptr Ap Aa Dp Ds L Dptr H.
  pose proof (alignment_nz _ Ap). pose proof (alignment_nz _ Aa).
  cbv zeta. unfold ptr_init. cbn [fst]. rewrite align_offset_rup.
  assert (Dap : (a | pal)) by (apply alignment_le_div; auto).
  assert (Dd : (a | ptr + psz)).
  { apply N.divide_add_r; eapply N.divide_trans; eauto. }
  assert (E : rup (ptr + psz) a = ptr + psz).
  { apply N.le_antisymm; [apply rup_least; auto; lia | apply rup_ge; auto]. }
  rewrite E. rewrite array_layout_eq by (auto; lia). cbn [lsize].
  rewrite N.max_l by lia.
  pose proof (rup_ge (psz + s * n) pal). unfold inside, apart, prefix_ptr.
  repeat split; auto; lia.
Qed.

(** A block aligned for [T]. *)
Lemma ptr_init_aligned : forall psz pal s a n ptr, alignment pal -> alignment a -> (a | s) ->
  (a | ptr) -> psz + s * n + N.max pal a <= 2 ^ 64 ->
  let l := array_layout psz pal s a n in
  let d := fst (ptr_init psz a ptr n) in
  d = ptr + skip_to psz a /\ (a | d) /\ inside d (s * n) ptr (lsize l) /\
  inside (prefix_ptr psz d) psz ptr (lsize l) /\ apart (prefix_ptr psz d) psz d (s * n).
Proof.
  intros psz pal s a n ptr Ap Aa Ds Dptr H.
  pose proof (alignment_nz _ Ap). pose proof (alignment_nz _ Aa) as Ha.
  cbv zeta. unfold ptr_init. cbn [fst]. rewrite align_offset_rup.
  rewrite (N.add_comm ptr psz), rup_add by auto. rewrite skip_to_rup by auto.
  rewrite array_layout_eq by (auto; lia). cbn [lsize].
  assert (M : rup psz a + s * n <= rup (psz + s * n) (N.max pal a)).
  { rewrite <- rup_add by (auto using div_mul_l).
    apply rup_mono_align; auto; [lia|].
    apply alignment_le_div; auto; [apply alignment_max; auto | lia]. }
  pose proof (rup_ge psz a Ha). pose proof (rup_div psz a Ha).
  unfold inside, apart, prefix_ptr. repeat split; try lia.
  apply N.divide_add_r; auto.
Qed.

(** ** C16 *)
Lemma is_pow2_pow : forall k, is_pow2 (2 ^ k) = true.
Proof.
  intro k. unfold is_pow2. assert (2 ^ k <> 0) by (apply N.pow_nonzero; lia).
  destruct (N.eqb_spec (2 ^ k) 0); [lia|]. cbn [negb andb].
  replace (2 ^ k - 1) with (N.ones k) by (rewrite N.ones_equiv; lia).
  rewrite N.land_ones. rewrite N.mod_same by auto. reflexivity.
Qed.

Definition bapart (x y : N * lay) : Prop := apart (fst x) (lsize (snd x)) (fst y) (lsize (snd y)).
Lemma bapart_sym : forall x y, bapart x y -> bapart y x.
Proof. unfold bapart, apart. intros; lia. Qed.

(** Pairwise apart. *)
Fixpoint pairwise (l : list (N * lay)) : Prop :=
  match l with nil => True | x :: r => (forall y, In y r -> bapart x y) /\ pairwise r end.

Lemma pairwise_split : forall l1 x l2, pairwise (l1 ++ x :: l2) ->
  pairwise (l1 ++ l2) /\ forall y, In y (l1 ++ l2) -> bapart x y.
Proof.
  induction l1 as [|z l1 IH]; intros x l2 H; cbn in *.
  - destruct H; auto.
  - destruct H as [A B]. destruct (IH _ _ B) as [C D]. split.
    + split; auto. intros y Hy. apply A. apply in_app_iff in Hy. apply in_app_iff. cbn. tauto.
    + intros y [<- | Hy].
      * apply bapart_sym. apply A. apply in_app_iff. cbn. auto.
      * apply D; auto.
Qed.

(** How an owned pointer relates to its block. *)
Record rel (h : N -> option lay) (x : N * lay) (b : N * lay) : Prop := Rel {
  r_ptr : fst x = fst b + shift (snd b);
  r_room : shift (snd b) <= lsize (snd b);
  r_align : (lalign (snd b) | fst b);
  r_req : (lalign (snd x) | lalign (snd b));
  r_al8 : 8 <= lalign (snd b);
  r_al : alignment (lalign (snd b));
  r_small : lalign (snd b) <= 2 ^ 61;
  r_reqal : alignment (lalign (snd x));
  r_max : lalign (snd b) = N.max 8 (lalign (snd x));
  r_valid : valid_lay (snd b) = true;
  r_size : well_sized (snd x) -> shift (snd b) + lsize (snd x) <= lsize (snd b);
  r_hdr : h (fst x - HSZ) = Some (snd b) }.

Record inv (g : gheap) (o : list (N * lay)) : Prop := Inv {
  i_rel : Forall2 (rel (hdr g)) o (live g);
  i_apart : pairwise (live g) }.

Lemma shift_ge : forall l, HSZ <= shift l.
Proof. intro. unfold shift. lia. Qed.

Lemma block_eqb_true : forall x y, block_eqb x y = true <-> x = y.
Proof.
  intros [a [s l]] [b [t m]]. unfold block_eqb. cbn [fst snd lsize lalign].
  split.
  - intro H. apply andb_prop in H. destruct H as [H H3]. apply andb_prop in H. destruct H as [H1 H2].
    apply N.eqb_eq in H1, H2, H3. subst. reflexivity.
  - intro E. inversion E; subst. rewrite !N.eqb_refl. reflexivity.
Qed.

Lemma existsb_block : forall b l, In b l -> existsb (block_eqb b) l = true.
Proof. intros b l H. apply existsb_exists. exists b. split; auto. apply block_eqb_true; auto. Qed.

Lemma remove_block_split : forall b l1 l2, ~ In b l1 -> remove_block b (l1 ++ b :: l2) = l1 ++ l2.
Proof.
  intros b l1 l2. induction l1 as [|x l1 IH]; intro H; cbn.
  - replace (block_eqb b b) with true by (symmetry; apply block_eqb_true; auto). reflexivity.
  - destruct (block_eqb b x) eqn:E.
    + apply block_eqb_true in E. subst. exfalso. apply H. left; auto.
    + f_equal. apply IH. intro K. apply H. right; auto.
Qed.

Lemma Forall2_split_in : forall {A B} (R : A -> B -> Prop) l m x, Forall2 R l m -> In x l ->
  exists l1 l2 m1 m2 y, l = l1 ++ x :: l2 /\ m = m1 ++ y :: m2 /\
    Forall2 R l1 m1 /\ Forall2 R l2 m2 /\ R x y.
Proof.
  intros A B R l m x F. induction F as [|a b l m Hab F IH]; intro H; [destruct H|].
  destruct H as [-> | H].
  - exists [], l, [], m, b. repeat split; auto.
  - destruct (IH H) as (l1 & l2 & m1 & m2 & y & -> & -> & F1 & F2 & Ry).
    exists (a :: l1), l2, (b :: m1), m2, y. repeat split; auto.
Qed.

Lemma filter_all : forall {A} (f : A -> bool) l, (forall x, In x l -> f x = true) -> filter f l = l.
Proof.
  intros A f l H. induction l as [|a l IH]; cbn; auto.
  rewrite (H a) by (left; auto). f_equal. apply IH. intros. apply H. right; auto.
Qed.

Lemma Forall2_in_l : forall {A B} (R : A -> B -> Prop) l m x, Forall2 R l m -> In x l -> exists y, In y m /\ R x y.
Proof.
  intros A B R l m x F. induction F; intro H0; [destruct H0|].
  destruct H0 as [-> | H0].
  - eexists; split; [left; reflexivity | auto].
  - destruct (IHF H0) as (y' & I & R'). exists y'. split; [right; auto | auto].
Qed.
Lemma Forall2_in_r : forall {A B} (R : A -> B -> Prop) l m y, Forall2 R l m -> In y m -> exists x, In x l /\ R x y.
Proof.
  intros A B R l m y F. induction F; intro H0; [destruct H0|].
  destruct H0 as [-> | H0].
  - eexists; split; [left; reflexivity | auto].
  - destruct (IHF H0) as (y' & I & R'). exists y'. split; [right; auto | auto].
Qed.

(** Owned pointers of different blocks differ, and so do the blocks. *)
Lemma rel_apart_ptr : forall h x y b c, rel h x b -> rel h y c -> bapart b c -> fst x <> fst y.
Proof.
  intros h [p rp] [q rq] [b lb] [c lc] [R1 R2 R3 R4 R5 R6 R7 R8 R9 R10 R11 R12] [Q1 Q2 Q3 Q4 Q5 Q6 Q7 Q8 Q9 Q10 Q11 Q12] A E.
  cbn [fst snd] in *. pose proof (shift_ge lb). pose proof (shift_ge lc).
  unfold bapart, apart in A. cbn [fst snd] in A. unfold HSZ in *. lia.
Qed.

Lemma inv_remove : forall g o x, inv g o -> In x o ->
  exists b, In b (live g) /\ rel (hdr g) x b /\
    (forall y, In y (disown (fst x) o) -> In y o) /\
    Forall2 (rel (hdr g)) (disown (fst x) o) (remove_block b (live g)) /\
    pairwise (remove_block b (live g)) /\
    (forall c, In c (remove_block b (live g)) -> In c (live g) /\ fst c <> fst b /\ bapart b c).
Proof.
  intros g o x [F P] H.
  destruct (Forall2_split_in _ _ _ _ F H) as (l1 & l2 & m1 & m2 & b & -> & E & F1 & F2 & R).
  rewrite E in *. destruct (pairwise_split _ _ _ P) as [P' A].
  exists b. split; [apply in_app_iff; right; left; auto|]. split; [auto|].
  assert (Bs : HSZ <= lsize (snd b)).
  { pose proof (r_room _ _ _ R). pose proof (shift_ge (snd b)). lia. }
  assert (D : disown (fst x) (l1 ++ x :: l2) = l1 ++ l2).
  { unfold disown. rewrite filter_app. cbn [filter]. rewrite N.eqb_refl. cbn [negb].
    rewrite !filter_all; auto.
    - intros y Hy. destruct (Forall2_in_l _ _ _ _ F2 Hy) as (c & Hc & Rc).
      destruct (N.eqb_spec (fst y) (fst x)) as [E'|]; auto. exfalso.
      eapply (rel_apart_ptr _ x y b c); eauto. apply A. apply in_app_iff; auto.
    - intros y Hy. destruct (Forall2_in_l _ _ _ _ F1 Hy) as (c & Hc & Rc).
      destruct (N.eqb_spec (fst y) (fst x)) as [E'|]; auto. exfalso.
      eapply (rel_apart_ptr _ x y b c); eauto. apply A. apply in_app_iff; auto. }
  assert (RB : remove_block b (m1 ++ b :: m2) = m1 ++ m2).
  { apply remove_block_split. intro K. assert (bapart b b) by (apply A; apply in_app_iff; auto).
    unfold bapart, apart in *. unfold HSZ in *. lia. }
  rewrite D, RB. split.
  { intros y Hy. apply in_app_iff in Hy. apply in_app_iff. cbn. tauto. }
  split; [apply Forall2_app; auto|]. split; [auto|].
  intros c Hc. split.
  { apply in_app_iff in Hc. apply in_app_iff. cbn. tauto. }
  pose proof (A c Hc) as Ac. split; [|auto].
  assert (exists y, rel (hdr g) y c) as [y Ry].
  { apply in_app_iff in Hc. destruct Hc as [Hc | Hc].
    - destruct (Forall2_in_r _ _ _ _ F1 Hc) as (y & _ & ?). eauto.
    - destruct (Forall2_in_r _ _ _ _ F2 Hc) as (y & _ & ?). eauto. }
  pose proof (r_room _ _ _ Ry). pose proof (shift_ge (snd c)).
  unfold bapart, apart in Ac. unfold HSZ in *. lia.
Qed.

(** Writing a new prefix in a block apart from the others keeps theirs. *)
Lemma rel_hdr_write : forall h x b k l, rel h x b ->
  (k + HSZ <= fst b \/ fst b + lsize (snd b) <= k) -> rel (hdr_write k l h) x b.
Proof.
  intros h x b k l R A. destruct R as [R1 R2 R3 R4 R5 R6 R7 R8 R9 R10 R11 R12].
  constructor; auto. unfold hdr_write.
  pose proof (shift_ge (snd b)). unfold HSZ in *.
  destruct (N.eqb_spec (fst x - 32) k); [lia|].
  destruct (N.ltb_spec k (fst x - 32 + 32)); destruct (N.ltb_spec (fst x - 32) (k + 32)); cbn [andb]; auto; lia.
Qed.

Lemma Forall2_impl_r : forall {A B} (R S : A -> B -> Prop) l m, Forall2 R l m ->
  (forall x y, In y m -> R x y -> S x y) -> Forall2 S l m.
Proof.
  intros A B R S l m F. induction F; intro H0; constructor.
  - apply H0; [left; auto | auto].
  - apply IHF. intros. apply H0; [right; auto | auto].
Qed.

(** The layout computed for a request. *)
Lemma concat_hlay : forall s a, alignment a -> a <= 2 ^ 61 -> s <= 2 ^ 61 ->
  concat hlay (Lay s a) = Lay (rup (HSZ + s) (N.max 8 a)) (N.max 8 a).
Proof.
  intros s a Aa Ha Hs. unfold hlay. rewrite concat_eq; cbn [lsize lalign]; auto.
  - lia.
  - unfold HSZ. assert (2 ^ 61 + 2 ^ 61 + 2 ^ 61 <= 2 ^ 64) by (vm_compute; discriminate). lia.
Qed.

Lemma alignment8 : alignment 8.
Proof. exists 3. reflexivity. Qed.

Lemma rup_room : forall s a, 8 <= a -> N.max a HSZ <= rup (HSZ + s) a.
Proof.
  intros s a H. assert (a <> 0) by lia.
  pose proof (rup_ge (HSZ + s) a H0). pose proof (rup_div (HSZ + s) a H0) as [k Hk].
  assert (k <> 0). { intro K. subst k. unfold HSZ in *. lia. }
  assert (a <= rup (HSZ + s) a).
  { rewrite Hk. assert (1 * a <= k * a) by (apply N.mul_le_mono_r; lia). lia. }
  lia.
Qed.

Lemma rup_size : forall s a0, alignment a0 -> (a0 <= 32 \/ (a0 | s)) -> N.max (N.max 8 a0) HSZ + s <= rup (HSZ + s) (N.max 8 a0).
Proof.
  intros s a0 Aa H. set (a := N.max 8 a0). assert (a <> 0) by lia.
  assert (Al : alignment a) by (apply alignment_max; auto; apply alignment8).
  destruct (N.le_gt_cases a HSZ) as [L | L].
  - rewrite N.max_r by auto. apply rup_ge; auto.
  - rewrite N.max_l by lia. assert (E : a = a0) by (unfold HSZ, a in *; lia).
    destruct H as [H | H]; [unfold HSZ in *; lia|].
    rewrite rup_add by (auto; rewrite E; auto).
    pose proof (rup_div HSZ a H0) as [k Hk].
    pose proof (rup_ge HSZ a H0).
    assert (k <> 0). { intro K. subst k. unfold HSZ in *. lia. }
    assert (1 * a <= k * a) by (apply N.mul_le_mono_r; lia). lia.
Qed.

Lemma good_apart : forall l bs ans, good_answer l bs ans -> forall c, In c bs -> bapart (ans, l) c.
Proof. intros l bs ans (_ & _ & _ & H) [q m] Hc. unfold bapart. cbn [fst snd]. apply H; auto. Qed.

(** Adding a block. *)
Lemma inv_add : forall h lv o ans s a0 l,
  Forall2 (rel h) o lv -> pairwise lv ->
  alignment a0 -> a0 <= 2 ^ 61 -> s <= 2 ^ 61 ->
  l = Lay (rup (HSZ + s) (N.max 8 a0)) (N.max 8 a0) -> valid_lay l = true ->
  good_answer l lv ans ->
  forall req, lsize req = s -> lalign req = a0 ->
  inv (GH ((ans, l) :: lv) (hdr_write (ans + shift l - HSZ) l h)) ((ans + shift l, req) :: o).
Proof.
  intros h lv o ans s a0 l F P Aa Ha Hs El V G req Es Ea.
  pose proof (good_apart _ _ _ G) as GA. destruct G as (G1 & G2 & G3 & G4).
  assert (Room : shift l <= lsize l).
  { rewrite El. unfold shift. cbn [lsize lalign]. apply rup_room. lia. }
  pose proof (shift_ge l).
  constructor; cbn [live hdr].
  - constructor.
    + constructor; cbn [fst snd]; auto.
      * rewrite El, Ea. cbn [lalign]. apply alignment_le_div; auto; [|lia]. apply alignment_max; auto. apply alignment8.
      * rewrite El. cbn [lalign]. lia.
      * rewrite El. cbn [lalign]. apply alignment_max; auto. apply alignment8.
      * rewrite El. cbn [lalign]. lia.
      * rewrite Ea. auto.
      * rewrite El, Ea. reflexivity.
      * unfold well_sized. rewrite Ea, Es. intro W. rewrite El. unfold shift. cbn [lsize lalign].
        apply rup_size; auto.
      * unfold hdr_write. rewrite N.eqb_refl. reflexivity.
    + eapply Forall2_impl_r; [exact F|]. intros x y Hy R. apply rel_hdr_write; auto.
      pose proof (GA y Hy) as B. unfold bapart, apart in B. cbn [fst snd] in B. unfold HSZ in *. lia.
  - cbn [pairwise]. split; auto.
Qed.

Lemma valid_pow2_small : forall l, alignment (lalign l) -> lsize l <= 2 ^ 63 - lalign l -> valid_lay l = true.
Proof.
  intros l [k E] H. unfold valid_lay. rewrite E, is_pow2_pow. cbn [andb]. rewrite <- E.
  apply N.leb_le. auto.
Qed.

Lemma rust_alloc_inv : forall g o req ans p g' l, inv g o -> req_ok req ->
  rust_alloc_ask req = Some l -> good_answer l (live g) ans ->
  rust_alloc req ans g = (Ptr p, g') -> inv g' ((p, req) :: o).
Proof.
  intros g o [s a] ans p g' l [F P] (Aa & Ha & Hs) Hask G E. cbn [lsize lalign] in *.
  unfold rust_alloc_ask in Hask. unfold rust_alloc in E.
  destruct (valid_lay (concat hlay (Lay s a))) eqn:V; [|discriminate].
  injection Hask as El.
  destruct (N.eqb_spec ans 0); [discriminate|]. injection E as <- <-.
  rewrite El in *.
  eapply inv_add; eauto. rewrite <- El. apply concat_hlay; auto.
Qed.

Lemma rust_free_ok : forall g o p req, inv g o -> In (p, req) o ->
  exists b l, In (b, l) (live g) /\ rust_free p g = (Null, GH (remove_block (b, l) (live g)) (hdr g)) /\
    p = b + shift l /\ inv (GH (remove_block (b, l) (live g)) (hdr g)) (disown p o).
Proof.
  intros g o p req I H.
  destruct (inv_remove g o _ I H) as (b & Hb & R & _ & F & P & _).
  pose proof (r_hdr _ _ _ R) as Eh. pose proof (r_ptr _ _ _ R) as Ep.
  cbn [fst] in *.
  destruct b as [b l]. cbn [fst snd] in *. exists b, l. split; auto. split; [|split; auto].
  - unfold rust_free. rewrite Eh.
    replace (p - shift l) with b by lia. rewrite existsb_block by auto. reflexivity.
  - constructor; auto.
Qed.

Lemma in_remove_filter : forall g (b : N * lay) c,
  In c (remove_block b (live g)) -> In c (live g) -> fst c <> fst b ->
  In c (filter (fun x => negb (N.eqb (fst x) (fst b))) (live g)).
Proof.
  intros. apply filter_In. split; auto. destruct (N.eqb_spec (fst c) (fst b)); auto.
Qed.

Lemma rust_realloc_inv : forall g o p req new ans q g' b l l', inv g o -> In (p, req) o -> new <= 2 ^ 61 ->
  rust_realloc_ask p new g = Some (b, l, l') -> valid_lay l' = true ->
  good_answer l' (filter (fun x => negb (N.eqb (fst x) b)) (live g)) ans ->
  rust_realloc p new ans g = (Ptr q, g') -> inv g' ((q, Lay new (lalign req)) :: disown p o).
Proof.
  intros g o p req new ans q g' b l l' I H Hn Hask V' G E.
  destruct (inv_remove g o _ I H) as (bb & Hb & R & _ & F & P & Rm).
  cbn [fst snd] in *.
  pose proof (r_hdr _ _ _ R) as Eh. pose proof (r_ptr _ _ _ R) as Ep.
  pose proof (r_max _ _ _ R) as Em. pose proof (r_valid _ _ _ R) as Ev.
  pose proof (r_reqal _ _ _ R) as Er. pose proof (r_small _ _ _ R) as Esm.
  destruct bb as [b0 l0]. cbn [fst snd] in *.
  unfold rust_realloc_ask in Hask. rewrite Eh, Ev in Hask.
  unfold rust_realloc in E. rewrite Eh, Ev in E.
  remember (concat hlay (Lay new (lalign l0))) as X eqn:EX.
  injection Hask as <- <- El.
  replace (p - shift l0) with b0 in * by lia.
  rewrite existsb_block in E by auto.
  destruct (N.eqb_spec ans 0); [discriminate|]. injection E as <- <-.
  assert (Ale : alignment (lalign l0)) by (apply (r_al _ _ _ R)).
  assert (C : X = Lay (rup (HSZ + new) (N.max 8 (lalign req))) (N.max 8 (lalign req))).
  { rewrite EX, concat_hlay by auto. pose proof (r_al8 _ _ _ R) as R8. cbn [snd] in R8.
    replace (N.max 8 (lalign l0)) with (N.max 8 (lalign req)) by lia. reflexivity. }
  set (L := Lay (rup (HSZ + new) (N.max 8 (lalign req))) (N.max 8 (lalign req))) in *.
  assert (EL : Lay (lsize X) (lalign l0) = L).
  { rewrite C, Em. reflexivity. }
  assert (EL' : l' = L) by (rewrite <- El; exact EL). clear El. subst l'.
  rewrite EL, C.
  assert (Esh : shift l0 = shift L) by (unfold shift, L; cbn [lalign]; rewrite Em; reflexivity).
  rewrite Esh.
  apply (inv_add (hdr g) (remove_block (b0, l0) (live g)) (disown p o) ans new (lalign req) L); auto.
  - lia.
  - destruct G as (G1 & G2 & G3 & G4). split; [auto|]. split; [auto|]. split; [auto|].
    intros qq m Hq. destruct (Rm _ Hq) as (Hl & Hne & _). apply G4.
    apply (in_remove_filter g (b0, l0) (qq, m)); auto.
Qed.

Lemma valid_L : forall s a, alignment a -> a <= 2 ^ 61 -> s <= 2 ^ 61 ->
  valid_lay (Lay (rup (HSZ + s) (N.max 8 a)) (N.max 8 a)) = true.
Proof.
  intros s a Aa Ha Hs. apply valid_pow2_small; cbn [lsize lalign].
  - apply alignment_max; auto. apply alignment8.
  - pose proof (rup_lt (HSZ + s) (N.max 8 a)). unfold HSZ in *.
    assert (4 * 2 ^ 61 = 2 ^ 63) by reflexivity. lia.
Qed.

Lemma ask_realloc : forall g o p req new, inv g o -> In (p, req) o -> new <= 2 ^ 61 ->
  exists b l l', rust_realloc_ask p new g = Some (b, l, l') /\ In (b, l) (live g) /\
    p = b + shift l /\ valid_lay l' = true /\
    (forall ans, ans <> 0 -> exists q g', rust_realloc p new ans g = (Ptr q, g') /\ q = ans + shift l /\
       live g' = (ans, l') :: remove_block (b, l) (live g)).
Proof.
  intros g o p req new I H Hn.
  destruct (inv_remove g o _ I H) as (bb & Hb & R & _ & F & P & Rm).
  cbn [fst snd] in *.
  pose proof (r_hdr _ _ _ R) as Eh. pose proof (r_ptr _ _ _ R) as Ep.
  pose proof (r_max _ _ _ R) as Em. pose proof (r_valid _ _ _ R) as Ev.
  pose proof (r_reqal _ _ _ R) as Er. pose proof (r_small _ _ _ R) as Esm.
  destruct bb as [b0 l0]. cbn [fst snd] in *.
  unfold rust_realloc_ask, rust_realloc. rewrite Eh, Ev.
  replace (p - shift l0) with b0 in * by lia.
  do 3 eexists. split; [reflexivity|]. split; [auto|]. split; [auto|]. split.
  - assert (Ale : alignment (lalign l0)) by (apply (r_al _ _ _ R)).
    rewrite concat_hlay by auto. cbn [lsize].
    pose proof (valid_L new (lalign l0) Ale Esm Hn) as V.
    replace (N.max 8 (lalign l0)) with (lalign l0) in * by lia. exact V.
  - intros ans Ha. rewrite existsb_block by auto.
    destruct (N.eqb_spec ans 0); [congruence|].
    do 2 eexists. split; [reflexivity|]. split; reflexivity.
Qed.

Lemma rust_reach_inv : forall g o, rust_reach g o -> inv g o.
Proof.
  intros g o H. induction H.
  - constructor; cbn; auto.
  - eapply rust_alloc_inv; eauto.
  - destruct (rust_free_ok _ _ _ _ IHrust_reach H0) as (b & l & _ & E & _ & I).
    rewrite E in H1. injection H1 as _ <-. exact I.
  - destruct (ask_realloc _ _ _ _ new IHrust_reach H0 H1) as (b' & l0 & l0' & E & _ & _ & V & _).
    rewrite H2 in E. injection E as <- <- <-.
    eapply rust_realloc_inv; eauto.
Qed.

Lemma Forall2_len : forall {A B} (R : A -> B -> Prop) l m, Forall2 R l m -> length l = length m.
Proof. intros A B R l m F. induction F; cbn; auto. Qed.

Lemma rust_reach_block : forall g o p req, rust_reach g o -> In (p, req) o ->
  (lalign req | p) /\ exists b l, In (b, l) (live g) /\ inside (p - 32) 32 b (lsize l) /\ 32 <= p /\
    (well_sized req -> inside p (lsize req) b (lsize l)).
Proof.
  intros g o p req H Hin. apply rust_reach_inv in H. destruct H as [F P].
  destruct (Forall2_in_l _ _ _ _ F Hin) as ([b l] & Hb & R).
  destruct R as [R1 R2 R3 R4 R5 R6 R7 R8 R9 R10 R11 R12]. cbn [fst snd] in *.
  pose proof (shift_ge l) as S. unfold HSZ in *. split.
  - rewrite R1. apply N.divide_add_r; [eapply N.divide_trans; eauto|].
    unfold shift, HSZ. destruct (N.le_gt_cases (lalign l) 32) as [L | L].
    + rewrite N.max_r by auto. eapply N.divide_trans; [exact R4|].
      apply alignment_le_div; auto. exists 5. reflexivity.
    + rewrite N.max_l by lia. auto.
  - exists b, l. split; auto. unfold inside. split; [lia|]. split; [lia|].
    intro W. specialize (R11 W). lia.
Qed.

Lemma Forall2_pair : forall {A B} (R : A -> B -> Prop) l m x y, Forall2 R l m -> In x l -> In y l -> x <> y ->
  exists l1 l2 m1 m2 b, l = l1 ++ x :: l2 /\ m = m1 ++ b :: m2 /\ R x b /\ exists c, In c (m1 ++ m2) /\ R y c.
Proof.
  intros A B R l m x y F Hx Hy N.
  destruct (Forall2_split_in _ _ _ _ F Hx) as (l1 & l2 & m1 & m2 & b & -> & -> & F1 & F2 & Rb).
  exists l1, l2, m1, m2, b. repeat split; auto.
  apply in_app_iff in Hy. cbn in Hy. destruct Hy as [Hy | [Hy | Hy]].
  - destruct (Forall2_in_l _ _ _ _ F1 Hy) as (c & Hc & Rc). exists c. split; auto. apply in_app_iff; auto.
  - congruence.
  - destruct (Forall2_in_l _ _ _ _ F2 Hy) as (c & Hc & Rc). exists c. split; auto. apply in_app_iff; auto.
Qed.

Lemma rust_reach_apart : forall g o p req q rq, rust_reach g o -> In (p, req) o -> In (q, rq) o ->
  (p, req) <> (q, rq) -> well_sized req -> well_sized rq ->
  apart (p - 32) (32 + lsize req) (q - 32) (32 + lsize rq).
Proof.
  intros g o p req q rq H Hp Hq N Wp Wq. apply rust_reach_inv in H. destruct H as [F P].
  destruct (Forall2_pair _ _ _ _ _ F Hp Hq N) as (l1 & l2 & m1 & m2 & b & _ & E & Rb & c & Hc & Rc).
  rewrite E in P. destruct (pairwise_split _ _ _ P) as [_ A]. specialize (A c Hc).
  destruct Rb as [R1 R2 R3 R4 R5 R6 R7 R8 R9 R10 R11 R12].
  destruct Rc as [Q1 Q2 Q3 Q4 Q5 Q6 Q7 Q8 Q9 Q10 Q11 Q12]. cbn [fst snd] in *.
  specialize (R11 Wp). specialize (Q11 Wq).
  pose proof (shift_ge (snd b)). pose proof (shift_ge (snd c)).
  unfold bapart, apart in *. unfold HSZ in *. lia.
Qed.

Lemma rust_reach_count : forall g o, rust_reach g o -> length (live g) = length o.
Proof. intros g o H. apply rust_reach_inv in H. destruct H as [F _]. symmetry. eapply Forall2_len; eauto. Qed.

Lemma rust_alloc_works : forall g o req, rust_reach g o -> req_ok req ->
  exists l, rust_alloc_ask req = Some l /\
    forall ans, ans <> 0 -> exists p g', rust_alloc req ans g = (Ptr p, g') /\ live g' = (ans, l) :: live g.
Proof.
  intros g o [s a] _ (Aa & Ha & Hs). cbn [lsize lalign] in *.
  unfold rust_alloc_ask, rust_alloc. rewrite concat_hlay by auto. rewrite valid_L by auto.
  eexists. split; [reflexivity|]. intros ans Hans. destruct (N.eqb_spec ans 0); [congruence|].
  do 2 eexists. split; reflexivity.
Qed.

(** ** C17 *)
Lemma in_block_of : forall h p n, In (p, n) (cblocks h) -> forall k, k <= n -> in_block h p k = true.
Proof.
  intros h p n H k L. unfold in_block. apply existsb_exists. exists (p, n). split; auto.
  cbn [fst snd]. apply andb_true_intro. split; apply N.leb_le; lia.
Qed.

Lemma find_block : forall (bs : list (N * N)) p n, NoDup (map fst bs) -> In (p, n) bs ->
  find (fun b => N.eqb (fst b) p) bs = Some (p, n).
Proof.
  induction bs as [|[q m] bs IH]; intros p n ND H; [destruct H|].
  cbn [find fst]. cbn [map fst] in ND. inversion ND; subst.
  destruct (N.eqb_spec q p) as [-> | NE].
  - destruct H as [H | H]; [congruence|]. exfalso. apply H2.
    apply (in_map (@fst N N)) in H. exact H.
  - destruct H as [H | H]; [congruence|]. apply IH; auto.
Qed.

(** The growing copy: allocate, copy the old content, free. *)

Lemma grow_copy : forall h p prev new a, cheap_ok (cblocks h) -> In (p, lsize prev) (cblocks h) ->
  lsize prev <= new -> (forall q m, In (q, m) (cblocks h) -> apart a new q m) ->
  exists h3, copy (CH ((a, new) :: cblocks h) (cmem h)) p a (lsize prev) = Some h3 /\
    content_kept h (cfree h3 p) p a (lsize prev) /\
    (forall x, (x < a \/ a + new <= x) -> cmem (cfree h3 p) x = cmem h x) /\
    cblocks (cfree h3 p) = filter (fun b => negb (N.eqb (fst b) p)) ((a, new) :: cblocks h).
Proof.
  intros h p prev new a OK H L A.
  unfold copy.
  rewrite (in_block_of _ p (lsize prev)) by (cbn; auto; lia).
  rewrite (in_block_of _ a new) by (cbn; auto; lia).
  cbn [andb]. eexists. split; [reflexivity|]. split; [|split].
  - intros i Hi. unfold cfree. cbn [cmem].
    destruct (N.leb_spec a (a + i)); [|lia]. destruct (N.ltb_spec (a + i) (a + lsize prev)); [|lia].
    cbn [andb]. f_equal. lia.
  - intros x Hx. unfold cfree. cbn [cmem].
    destruct (N.leb_spec a x); destruct (N.ltb_spec x (a + lsize prev)); cbn [andb]; auto; lia.
  - reflexivity.
Qed.

Lemma filter_keep : forall p (bs : list (N * N)) x, In x bs -> fst x <> p ->
  In x (filter (fun b => negb (N.eqb (fst b) p)) bs).
Proof.
  intros p bs x H N. apply filter_In. split; auto. destruct (N.eqb_spec (fst x) p); auto.
Qed.


Lemma grow_post : forall h p prev new a, cheap_ok (cblocks h) -> In (p, lsize prev) (cblocks h) ->
  0 < lsize prev -> lsize prev <= new -> good_canswer (lalign prev) new (cblocks h) a ->
  realloc_post h p (lsize prev) (lalign prev) new
    (match copy (CH ((a, new) :: cblocks h) (cmem h)) p a (lsize prev) with
     | None => (Fault, CH ((a, new) :: cblocks h) (cmem h))
     | Some h3 => (Ptr a, cfree h3 p)
     end).
Proof.
  intros h p prev new a OK H Z L (G1 & G2 & G3 & G4).
  destruct (grow_copy h p prev new a OK H L G4) as (h3 & E & C & M & B).
  rewrite E. unfold realloc_post. cbn [fst snd].
  assert (AP : apart a new p (lsize prev)) by (apply G4; auto).
  assert (NE : a <> p) by (intro; subst; unfold apart in AP; lia).
  split; [|split; [|split; [|split]]].
  - rewrite B. apply (filter_keep p _ (a, new)); cbn; auto.
  - auto.
  - intros i Hi. apply C. lia.
  - intros x m Hx Nx. split.
    + rewrite B. apply (filter_keep p _ (x, m)); cbn; auto.
    + intros i Hi. apply M. pose proof (G4 x m Hx) as AX. unfold apart in AX. lia.
  - intros m Hm. rewrite B in Hm. apply filter_In in Hm. destruct Hm as [_ Hm].
    cbn [fst] in Hm. rewrite N.eqb_refl in Hm. discriminate.
Qed.


Lemma c_realloc_post : forall h p prev new a, cheap_ok (cblocks h) -> In (p, lsize prev) (cblocks h) ->
  good_canswer 8 new (others p (cblocks h)) a -> (lalign prev | 8) ->
  realloc_post h p (lsize prev) (lalign prev) new
    (match c_realloc p new (Some a) h with (Some q, h1) => (Ptr q, h1) | (None, h1) => (Null, h1) end).
Proof.
  intros h p prev new a [ND OK] H (G1 & G2 & G3 & G4) D.
  unfold c_realloc. rewrite (find_block _ _ _ ND H). unfold realloc_post. cbn [fst snd cblocks cmem].
  split; [left; auto|]. split; [eapply N.divide_trans; eauto|]. split; [|split].
  - intros i Hi. cbn [cmem]. destruct (N.leb_spec a (a + i)); [|lia].
    destruct (N.ltb_spec (a + i) (a + N.min (lsize prev) new)); [|lia]. cbn [andb]. f_equal. lia.
  - intros x m Hx Nx.
    assert (K : In (x, m) (others p (cblocks h))) by (apply filter_keep; auto).
    split; [right; exact K|].
    intros i Hi. pose proof (G4 _ _ K) as A. unfold apart in A.
    destruct (N.leb_spec a (x + i)); destruct (N.ltb_spec (x + i) (a + N.min (lsize prev) new));
      cbn [andb]; auto; lia.
  - intros m [Hm | Hm]; [congruence|]. unfold cfree in Hm. cbn [cblocks] in Hm.
    apply filter_In in Hm. destruct Hm as [_ Hm].
    cbn [fst] in Hm. rewrite N.eqb_refl in Hm. discriminate.
Qed.

Lemma libc_realloc_post : forall h p prev new a1 a2, cheap_ok (cblocks h) -> In (p, lsize prev) (cblocks h) ->
  0 < lsize prev -> alignment (lalign prev) ->
  (lsize prev <= new \/ (lalign prev <= 8 /\ a1 <> None)) ->
  (forall a, a1 = Some a -> good_canswer 8 new (others p (cblocks h)) a) ->
  (forall a, a2 = Some a -> good_canswer (lalign prev) new (cblocks h) a) ->
  realloc_post h p (lsize prev) (lalign prev) new (libc_realloc p prev new a1 a2 h).
Proof.
  intros h p prev new a1 a2 OK H Z Al Hs G1 G2. unfold libc_realloc.
  destruct (N.eqb_spec new 0). { reflexivity. }
  destruct (N.leb_spec (lalign prev) 8) as [L | L].
  - destruct a1 as [a|].
    + assert (D : (lalign prev | 8)) by (apply alignment_le_div; auto; apply alignment8).
      pose proof (c_realloc_post h p prev new a OK H (G1 a eq_refl) D) as C.
      unfold c_realloc in *. destruct OK as [ND OK].
      rewrite (find_block _ _ _ ND H) in *. exact C.
    + cbn [c_realloc]. destruct a2 as [a|]; [|reflexivity].
      cbn [memalign]. apply grow_post; auto. destruct Hs as [|[_ Hs]]; [auto | congruence].
  - destruct a2 as [a|]; [|reflexivity].
    cbn [memalign]. apply grow_post; auto. destruct Hs as [|[Hs _]]; [auto | lia].
Qed.

Lemma default_realloc_post : forall h p prev new a, cheap_ok (cblocks h) -> In (p, lsize prev) (cblocks h) ->
  0 < lsize prev -> lsize prev <= new ->
  (forall x, a = Some x -> good_canswer (lalign prev) new (cblocks h) x) ->
  realloc_post h p (lsize prev) (lalign prev) new (default_realloc p prev new a h).
Proof.
  intros h p prev new a OK H Z L G. unfold default_realloc.
  destruct a as [x|]; [|reflexivity]. cbn [memalign]. apply grow_post; auto.
Qed.
