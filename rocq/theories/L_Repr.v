(** The niche search is the published algorithm. *)
From Coq Require Import List Arith ZArith NArith Bool Lia ZifyBool ZifyN ZifyNat.
From Verif Require Import M_Layout M_Result S_Layout S_Repr L_Layout L_Result L_Good L_Types L_LayoutApi.
Import ListNotations.
Ltac Zify.zify_post_hook ::= Z.div_mod_to_equations.
Arguments N.add : simpl never.
Arguments N.mul : simpl never.
Arguments N.sub : simpl never.
Arguments N.eqb : simpl never.
Arguments N.ltb : simpl never.
Arguments N.leb : simpl never.
Arguments N.land : simpl never.
Arguments N.lor : simpl never.
Arguments N.lxor : simpl never.
Arguments N.testbit : simpl never.
Arguments Nat.modulo : simpl never.
Arguments Nat.div : simpl never.
Arguments nmo : simpl never.
Arguments Nat.max : simpl never.
Arguments Nat.sub : simpl never.

Arguments doc_union_size : simpl never.
Arguments doc_next_multiple : simpl never.

Lemma next_multiple_nmo a p : 0 < p -> doc_next_multiple a p = nmo a p.
Proof.
  intros Hp. unfold doc_next_multiple, nmo.
  pose proof (Nat.div_mod a p ltac:(lia)) as E. pose proof (Nat.mod_upper_bound a p ltac:(lia)) as Hm.
  set (q := a / p) in *. set (r := a mod p) in *.
  destruct (Nat.eqb_spec r 0) as [H0|H0].
  - replace (a + p - 1) with (p - 1 + q * p) by nia. rewrite Nat.div_add by lia. rewrite (Nat.div_small (p - 1)) by lia. nia.
  - replace (a + p - 1) with (r - 1 + (q + 1) * p) by nia. rewrite Nat.div_add by lia. rewrite (Nat.div_small (r - 1)) by lia. nia.
Qed.
Lemma union_size_doc a b DA DB : good true a DA -> good true b DB -> dsize b <= dsize a ->
  doc_union_size (doc_of a) (doc_of b) = union_size a b.
Proof.
  intros Ga Gb Hle. pose proof (g_al _ _ _ Ga) as Ha. pose proof (g_al _ _ _ Gb) as Hb.
  pose proof (al_ok_pos _ Ha) as Hpa. pose proof (al_ok_pos _ Hb) as Hpb.
  unfold doc_union_size, union_size, union_align, doc_of; cbn [t_size t_align].
  rewrite !next_multiple_nmo by assumption. rewrite (Nat.max_l (dsize a)) by assumption.
  pose proof (g_sz _ _ _ Ga eq_refl) as Hsa.
  pose proof (nmo_bounds (dsize b) _ Hpa) as B1. pose proof (nmo_bounds (dsize a) _ Hpb) as B2.
  assert (nmo (dsize b) (dalign a) <= dsize a) as H1.
  { destruct (nmo_first (dsize b) _ Hpa) as [_ [_ H]]. destruct (mod_0_mult _ _ Hpa Hsa) as [k Hk].
    rewrite Hk. apply H. lia. }
  destruct (Nat.le_ge_cases (dalign b) (dalign a)) as [Hl|Hl].
  - rewrite (Nat.max_l (dalign a)) by assumption. rewrite (nmo_id (dsize a)) by (eapply mod_0_trans; [exact Hb|exact Ha|exact Hl|exact Hsa]).
    rewrite (nmo_id (dsize a) (dalign a)) by assumption. lia.
  - rewrite (Nat.max_r (dalign a)) by assumption. lia.
Qed.

(** *** Masks byte by byte *)
Lemma byte_at_none m o : (forall v, ~ In (o, v) m) -> byte_at m o = 0%N.
Proof.
  induction m as [|[o' v] r IH]; cbn; intros H; auto.
  destruct (Nat.eqb_spec o' o) as [-> |Hne]; [exfalso; apply (H v); left; reflexivity|]. apply IH. intros w Hw. apply (H w). right; exact Hw.
Qed.
Lemma byte_at_out lo n m o : ub_ok lo n m -> (o < lo \/ n <= o) -> byte_at m o = 0%N.
Proof. intros H Ho. apply byte_at_none. intros v Hv. apply (ub_ok_in _ _ _ _ _ H) in Hv. lia. Qed.
Lemma byte_at_app a b o : byte_at (a ++ b) o = if existsb (fun e => Nat.eqb (fst e) o) a then byte_at a o else byte_at b o.
Proof.
  induction a as [|[o' v] r IH]; cbn; auto. destruct (Nat.eqb o' o); cbn; auto.
Qed.
Lemma byte_at_app_l a b o lo n : ub_ok lo n b -> (o < lo \/ n <= o) -> byte_at (a ++ b) o = byte_at a o.
Proof.
  intros H Ho. rewrite byte_at_app. destruct (existsb _ a) eqn:E; auto.
  rewrite (byte_at_out _ _ _ _ H Ho). symmetry. apply byte_at_none. intros v Hv.
  assert (existsb (fun e => Nat.eqb (fst e) o) a = true); [|congruence].
  apply existsb_exists. exists (o, v). split; [exact Hv|]. apply Nat.eqb_refl.
Qed.
Lemma byte_at_app_r a b o lo n : ub_ok lo n a -> (o < lo \/ n <= o) -> byte_at (a ++ b) o = byte_at b o.
Proof.
  intros H Ho. rewrite byte_at_app. destruct (existsb _ a) eqn:E; auto.
  apply existsb_exists in E. destruct E as [[o' v] [Hv E]]. apply Nat.eqb_eq in E. cbn in E. subst.
  apply (ub_ok_in _ _ _ _ _ H) in Hv. lia.
Qed.
Lemma byte_at_shift k m o : byte_at (mshift k m) o = if Nat.ltb o k then 0%N else byte_at m (o - k).
Proof.
  induction m as [|[o' v] r IH].
  - destruct (Nat.ltb o k); reflexivity.
  - change (byte_at (mshift k ((o', v) :: r)) o) with (if Nat.eqb (o' + k) o then v else byte_at (mshift k r) o). rewrite IH.
    change (byte_at ((o', v) :: r) (o - k)) with (if Nat.eqb o' (o - k) then v else byte_at r (o - k)).
    destruct (Nat.ltb_spec o k) as [H|H]; destruct (Nat.eqb_spec (o' + k) o); destruct (Nat.eqb_spec o' (o - k)); try lia; reflexivity.
Qed.
Lemma byte_at_padding n o : byte_at (padding_bit_mask n) o = if Nat.ltb o n then 255%N else 0%N.
Proof.
  revert o. induction n as [|n IH]; intros o; [reflexivity|]. cbn [padding_bit_mask byte_at].
  destruct (Nat.eqb_spec 0 o) as [<-|Hne]; [reflexivity|]. rewrite byte_at_shift, IH.
  destruct (Nat.ltb_spec o 1); [lia|].
  destruct (Nat.ltb_spec (o - 1) n); destruct (Nat.ltb_spec o (S n)); try lia; reflexivity.
Qed.
Lemma byte_at_in_eq lo n m o v : ub_ok lo n m -> In (o, v) m -> byte_at m o = v.
Proof.
  intros H Hin. assert (byte_at m o <> 0%N) as Hne.
  { clear -H Hin. revert lo n H. induction m as [|[o' w] r IH]; intros lo n H; [contradiction|]. cbn in *. destruct H as [H1 [H2 H3]].
    destruct (Nat.eqb_spec o' o) as [-> |Hne]; [apply upper_lt in H2; lia|].
    destruct Hin as [E|Hin]; [congruence|]. eauto. }
  eapply ub_ok_unique; [exact H|apply byte_at_in; exact Hne|exact Hin].
Qed.
Lemma free_byte_at lo n m o : ub_ok lo n m -> has_free_byte_at m o = N.eqb (byte_at m o) 255.
Proof.
  revert lo n. induction m as [|[o' v] r IH]; intros lo n H; [reflexivity|]. cbn in *. destruct H as [H1 [H2 H3]].
  rewrite (IH _ _ H3). rewrite (Nat.eqb_sym o o'). destruct (Nat.eqb_spec o' o) as [-> |Hne]; cbn; auto.
  rewrite (byte_at_out _ _ r o H3) by lia. destruct (N.eqb v 255); reflexivity.
Qed.
Lemma byte_at_and lo n a b o : ub_ok lo n a -> byte_at (bit_and a b) o = N.land (byte_at a o) (byte_at b o).
Proof.
  revert lo n. induction a as [|[o' v] r IH]; intros lo n H; [reflexivity|]. cbn in *. destruct H as [H1 [H2 H3]].
  destruct (N.eqb_spec (N.land v (byte_at b o')) 0) as [E|E]; cbn.
  - rewrite (IH _ _ H3). destruct (Nat.eqb_spec o' o) as [-> |Hne]; auto.
    rewrite E, (byte_at_out _ _ r o H3) by lia. reflexivity.
  - destruct (Nat.eqb_spec o' o) as [-> |Hne]; auto. eauto.
Qed.

(** *** Lists of bytes *)
Lemma nth_unbits m n o : o < n -> nth o (unbits_of m n) 0%N = byte_at m o.
Proof.
  intros H. unfold unbits_of. rewrite (nth_indep _ 0%N (byte_at m 0)) by (rewrite map_length, seq_length; exact H).
  rewrite map_nth, seq_nth by exact H. reflexivity.
Qed.
Lemma unbits_length m n : length (unbits_of m n) = n.
Proof. unfold unbits_of. rewrite map_length, seq_length. reflexivity. Qed.
Lemma unbits_ext m l n : length l = n -> (forall o, o < n -> byte_at m o = nth o l 0%N) -> unbits_of m n = l.
Proof.
  intros Hl H. apply nth_ext with (d := 0%N) (d' := 0%N); rewrite unbits_length; auto.
  intros o Ho. rewrite nth_unbits by exact Ho. apply H, Ho.
Qed.
Lemma nth_pad m t o : length m <= t -> o < t -> nth o (doc_pad m t) 0%N = if Nat.ltb o (length m) then nth o m 0%N else 255%N.
Proof.
  intros Hm Ho. unfold doc_pad. destruct (Nat.ltb_spec o (length m)) as [H|H].
  - rewrite app_nth1 by exact H. reflexivity.
  - rewrite app_nth2 by exact H.
    assert (nth (o - length m) (repeat 255%N (t - length m)) 0%N = 255%N) as E; [|exact E].
    apply (@repeat_spec N (t - length m)). apply nth_In. rewrite repeat_length. lia.
Qed.
Lemma pad_length m t : length m <= t -> length (doc_pad m t) = t.
Proof. intros H. unfold doc_pad. rewrite app_length, repeat_length. lia. Qed.
Lemma nth_doc_shift m k o : nth o (doc_shift m k) 0%N = if Nat.ltb o k then 255%N else nth (o - k) m 0%N.
Proof.
  unfold doc_shift. destruct (Nat.ltb_spec o k) as [H|H].
  - rewrite app_nth1 by (rewrite repeat_length; exact H).
    apply (@repeat_spec N k). apply nth_In. rewrite repeat_length. exact H.
  - rewrite app_nth2 by (rewrite repeat_length; exact H). rewrite repeat_length. reflexivity.
Qed.
Lemma doc_and_unbits a b n : forall k, doc_and (map (byte_at a) (seq k n)) (map (byte_at b) (seq k n)) =
  map (fun o => N.land (byte_at a o) (byte_at b o)) (seq k n).
Proof. induction n as [|n IH]; intros k; cbn; [reflexivity|]. f_equal. apply IH. Qed.

(** *** The two masks of the loop *)
Lemma ok_mask_eq a b DA DB : good true a DA -> good true b DB -> dsize b <= dsize a ->
  ub_ok 0 (union_size a b) (union_member_ub a b) /\
  unbits_of (union_member_ub a b) (union_size a b) = doc_pad (unbits_of (dub a) (dsize a)) (union_size a b).
Proof.
  intros Ga Gb Hle. pose proof (g_al _ _ _ Ga) as Ha. pose proof (g_al _ _ _ Gb) as Hb.
  pose proof (al_ok_pos _ (al_ok_max _ _ Ha Hb)) as Hp.
  assert (dsize a <= union_size a b) as Hs.
  { unfold union_size, union_align. pose proof (nmo_bounds (Nat.max (dsize a) (dsize b)) _ Hp). lia. }
  unfold union_member_ub, bit_or. cbn [app]. rewrite mshift_0, padding_ub_eq.
  set (n := union_size a b) in *.
  assert (ub_ok (dsize a) n (mshift (dsize a) (padding_bit_mask (n - dsize a)))) as Hpad.
  { pose proof (ub_ok_shift (dsize a) _ _ _ (ub_ok_padding (n - dsize a))) as H.
    replace (n - dsize a + dsize a) with n in H by lia. exact H. }
  split.
  - apply ub_ok_app with (k := dsize a); [lia|apply (g_ub _ _ _ Ga)|lia|exact Hpad].
  - apply unbits_ext.
    + apply pad_length. rewrite unbits_length. exact Hs.
    + intros o Ho. rewrite nth_pad by (rewrite ?unbits_length; lia). rewrite unbits_length.
      destruct (Nat.ltb_spec o (dsize a)) as [H|H].
      * rewrite (byte_at_app_l _ _ _ _ _ Hpad) by lia. rewrite nth_unbits by exact H. reflexivity.
      * rewrite (byte_at_app_r _ _ _ _ _ (g_ub _ _ _ Ga)) by lia. rewrite byte_at_shift, byte_at_padding.
        destruct (Nat.ltb_spec o (dsize a)); [lia|]. destruct (Nat.ltb_spec (o - dsize a) (n - dsize a)); [reflexivity|lia].
Qed.
Lemma err_mask_eq n b DB eoff : good true b DB -> dsize b + eoff <= n ->
  ub_ok 0 n (shifted_unused_bits n (dub b) (dsize b) eoff) /\
  unbits_of (shifted_unused_bits n (dub b) (dsize b) eoff) n = doc_pad (doc_shift (unbits_of (dub b) (dsize b)) eoff) n.
Proof.
  intros Gb Hle. unfold shifted_unused_bits, bit_or. rewrite !padding_ub_eq.
  assert (ub_ok (dsize b + eoff) n (mshift (dsize b + eoff) (padding_bit_mask (n - (dsize b + eoff))))) as Hpad.
  { pose proof (ub_ok_shift (dsize b + eoff) _ _ _ (ub_ok_padding (n - (dsize b + eoff)))) as H.
    replace (n - (dsize b + eoff) + (dsize b + eoff)) with n in H by lia. exact H. }
  pose proof (ub_ok_shift eoff _ _ _ (g_ub _ _ _ Gb)) as Hmid. cbn [Nat.add] in Hmid.
  pose proof (ub_ok_padding eoff) as Hpre.
  assert (ub_ok eoff n (mshift eoff (dub b) ++ mshift (dsize b + eoff) (padding_bit_mask (n - (dsize b + eoff))))) as Htail.
  { apply ub_ok_app with (k := dsize b + eoff); [lia|exact Hmid|lia|exact Hpad]. }
  split.
  - apply ub_ok_app with (k := eoff); [lia|exact Hpre|lia|exact Htail].
  - assert (length (doc_shift (unbits_of (dub b) (dsize b)) eoff) = dsize b + eoff) as Hl.
    { unfold doc_shift. rewrite app_length, repeat_length, unbits_length. lia. }
    apply unbits_ext.
    + apply pad_length. lia.
    + intros o Ho. rewrite nth_pad by lia. rewrite Hl, nth_doc_shift.
      destruct (Nat.ltb_spec o eoff) as [H1|H1].
      * rewrite (byte_at_app_l _ _ _ _ _ Htail) by lia. rewrite byte_at_padding.
        destruct (Nat.ltb_spec o eoff); [|lia]. destruct (Nat.ltb_spec o (dsize b + eoff)); [reflexivity|lia].
      * rewrite (byte_at_app_r _ _ _ _ _ Hpre) by lia.
        destruct (Nat.ltb_spec o (dsize b + eoff)) as [H2|H2].
        -- rewrite (byte_at_app_l _ _ _ _ _ Hpad) by lia. rewrite byte_at_shift.
           destruct (Nat.ltb_spec o eoff); [lia|]. rewrite nth_unbits by lia. reflexivity.
        -- rewrite (byte_at_app_r _ _ _ _ _ Hmid) by lia. rewrite byte_at_shift, byte_at_padding.
           destruct (Nat.ltb_spec o (dsize b + eoff)); [lia|].
           destruct (Nat.ltb_spec (o - (dsize b + eoff)) (n - (dsize b + eoff))); [reflexivity|lia].
Qed.

(** *** Forbidden values *)
Lemma chain_select m f n : fv_ok n f -> is_chain f -> f <> FEnd ->
  select_from f m = if forallb (fun e => has_free_byte_at m (fst e)) (chain_of f) then sfv_of (chain_of f) else SSat.
Proof.
  induction f as [|o v r IH|a IHa b IHb|lo hi o]; intros Hf Hc Hne; cbn [is_chain] in Hc; try contradiction; try congruence.
  destruct Hf as [H1 [H2 [H3 [H4 H5]]]]. cbn [select_from chain_of forallb fst sfv_of].
  destruct (has_free_byte_at m o); cbn [sand andb]; auto.
  destruct r as [|o' v' r'|a b|lo hi o']; cbn [is_chain] in H3; try contradiction; [reflexivity|].
  rewrite IH by (auto; discriminate).
  destruct (forallb _ _); [|reflexivity]. reflexivity.
Qed.
Lemma can_contain_free m n f : ub_ok 0 n m -> (forall o v, In (o, v) f -> o < n) ->
  doc_can_contain (unbits_of m n) f = forallb (fun e => has_free_byte_at m (fst e)) f.
Proof.
  intros Hm. induction f as [|[o v] f IH]; intros H; [reflexivity|].
  change (doc_can_contain (unbits_of m n) ((o, v) :: f)) with (N.eqb (nth o (unbits_of m n) 0%N) 255 && doc_can_contain (unbits_of m n) f).
  cbn [forallb fst]. rewrite IH by (intros; eapply H; right; eauto).
  rewrite nth_unbits by (eapply H; left; reflexivity). rewrite (free_byte_at _ _ _ _ Hm). reflexivity.
Qed.
Lemma chain_of_in n f : fv_ok n f -> forall o v, In (o, v) (chain_of f) -> o < n.
Proof.
  induction f as [|o' v' r IH|a IHa b IHb|lo hi o']; intros Hf o v Hin; cbn in *; try contradiction.
  destruct Hin as [E|Hin]; [injection E as <- <-; tauto|]. apply (IH (proj2 (proj2 (proj2 (proj2 Hf)))) o v Hin).
Qed.
Lemma find_app {A} (p : A -> bool) a b : find p (a ++ b) = match find p a with Some x => Some x | None => find p b end.
Proof. induction a as [|x a IH]; cbn; auto. destruct (p x); auto. Qed.
Lemma find_range p lo hi o : (lo <= hi)%N -> (forall v w : N, p [(o, v)] = p [(o, w)] :> bool) ->
  find p (fvs_of (FRange lo hi o)) = if p [(o, lo)] then Some [(o, lo)] else None.
Proof.
  intros Hl Hp. cbn [fvs_of]. destruct (N.to_nat (hi + 1 - lo)) as [|k] eqn:E; [lia|]. cbn [seq map find].
  replace (lo + N.of_nat 0)%N with lo by lia. destruct (p [(o, lo)]) eqn:Hlo; auto.
  generalize 1. clear E. induction k as [|k IH]; intros s; cbn; auto. rewrite (Hp _ lo), Hlo. apply IH.
Qed.
Lemma select_find n m f : ub_ok 0 n m -> fv_ok n f ->
  sresolve (select_from f m) = match find (doc_can_contain (unbits_of m n)) (fvs_of f) with
                               | Some c => sfv_of c | None => SEnd end /\
  (forall c, find (doc_can_contain (unbits_of m n)) (fvs_of f) = Some c -> c <> [] /\ select_from f m = sfv_of c).
Proof.
  intros Hm. induction f as [|o v r IH|a IHa b IHb|lo hi o]; intros Hf.
  - split; [reflexivity|]. intros c E. discriminate.
  - cbn [fvs_of find]. rewrite (can_contain_free _ _ _ Hm (chain_of_in n _ Hf)).
    rewrite (chain_select m _ n Hf) by (cbn; auto; discriminate).
    destruct (forallb _ _); cbn [sresolve].
    + split; [reflexivity|]. intros c [= <-]. split; [discriminate|reflexivity].
    + split; [reflexivity|]. intros c E. discriminate.
  - destruct Hf as [Ha Hb]. destruct (IHa Ha) as [E1 N1]. destruct (IHb Hb) as [E2 N2]. cbn [fvs_of select_from].
    rewrite find_app. destruct (find _ (fvs_of a)) as [c|].
    + destruct (N1 c eq_refl) as [Hc Es]. rewrite Es. destruct c as [|[o v] c]; [congruence|]. cbn.
      split; [reflexivity|]. intros c' [= <-]. split; [discriminate|reflexivity].
    + assert (sor (select_from a m) (select_from b m) = select_from b m) as ->.
      { destruct (select_from a m); cbn in *; auto. discriminate. }
      split; [exact E2|exact N2].
  - destruct Hf as [H1 [H2 H3]]. rewrite find_range.
    + cbn [select_from]. rewrite (can_contain_free _ _ _ Hm).
      * cbn. destruct (has_free_byte_at m o); cbn; split; auto; intros c E; try discriminate.
        injection E as <-. split; [discriminate|reflexivity].
      * intros o' v' [E|[]]. injection E as <- <-. exact H1.
    + exact H2.
    + intros v w. reflexivity.
Qed.
Lemma fvs_shift k f n : fv_ok n f -> fvs_of (fshift k f) = map (move_fv k) (fvs_of f).
Proof.
  assert (forall f, chain_of (fshift k f) = move_fv k (chain_of f)) as Hch.
  { clear. induction f; cbn; auto. unfold move_fv in *. cbn. f_equal. assumption. }
  induction f as [|o v r IH|a IHa b IHb|lo hi o]; intros Hf; cbn [fvs_of fshift map]; auto.
  - f_equal. exact (Hch (FArr o v r)).
  - destruct Hf. rewrite map_app, IHa, IHb by assumption. reflexivity.
  - rewrite map_map. reflexivity.
Qed.
Lemma value_det_dval c : value_det c = dval c.
Proof. induction c as [|[o v] c IH]; cbn; congruence. Qed.

(** *** Bits *)
Lemma upper_lowest v : upper v -> rightmost_one v = (2 ^ lowest_bit v)%N /\
  (v - rightmost_one v)%N = N.lxor v (2 ^ lowest_bit v).
Proof.
  intros H. pose proof (upper_forall (fun v => N.eqb (rightmost_one v) (2 ^ lowest_bit v) &&
    N.eqb (v - rightmost_one v) (N.lxor v (2 ^ lowest_bit v))) eq_refl v H) as E. cbn beta in E.
  apply andb_true_iff in E. destruct E as [E1 E2]. apply N.eqb_eq in E1, E2. auto.
Qed.
Lemma extract_spec m n : ub_ok 0 n m ->
  match m with
  | [] => doc_extract_bit (unbits_of m n) = None
  | (o, v) :: _ => doc_extract_bit (unbits_of m n) = Some ((o, lowest_bit v), unbits_of (extract_bit m) n)
  end.
Proof.
  intros Hm. destruct m as [|[o v] r].
  - unfold unbits_of. generalize 0. induction n as [|n IH]; intros k; cbn; auto. rewrite IH; [reflexivity|exact I].
  - cbn in Hm. destruct Hm as [Ho [Hu Hr]]. destruct (upper_lowest v Hu) as [E1 E2].
    assert (forall x, byte_at (extract_bit ((o, v) :: r)) x = if Nat.eqb o x then N.lxor v (2 ^ lowest_bit v) else byte_at r x) as Hx.
    { intros x. unfold extract_bit. cbv zeta. rewrite E2. destruct (N.ltb_spec 0 (N.lxor v (2 ^ lowest_bit v))) as [H|H]; cbn [byte_at]; auto.
      destruct (Nat.eqb_spec o x) as [-> |Hne]; auto. rewrite (byte_at_out _ _ _ _ Hr) by lia. lia. }
    unfold unbits_of at 1 2.
    assert (forall k j, k <= o -> o < k + j -> doc_extract_bit (map (byte_at ((o, v) :: r)) (seq k j)) =
      Some ((o - k, lowest_bit v), map (byte_at (extract_bit ((o, v) :: r))) (seq k j))) as Hgen.
    { intros k j. revert k. induction j as [|j IH]; intros k H1 H2; [lia|]. cbn [seq map doc_extract_bit].
      rewrite Hx. change (byte_at ((o, v) :: r) k) with (if Nat.eqb o k then v else byte_at r k). destruct (Nat.eqb_spec o k) as [-> |Hne].
      - destruct (N.eqb_spec v 0) as [E|E]; [apply upper_lt in Hu; lia|]. f_equal. f_equal; [f_equal; lia|]. f_equal.
        apply map_ext_in. intros x Hin. apply in_seq in Hin. rewrite Hx. cbn [byte_at]. destruct (Nat.eqb_spec k x); [lia|reflexivity].
      - rewrite (byte_at_out _ _ r k Hr) by lia. cbn [N.eqb]. rewrite N.eqb_refl, IH by lia.
        f_equal. f_equal. f_equal. lia. }
    rewrite Hgen by lia. rewrite Nat.sub_0_r. reflexivity.
Qed.

(** *** The loop *)
Definition same_inner (n : nat) (p : provider) (r : doc_result) : Prop :=
  p_det p = det_of_doc (r_det r) /\ 0 = r_ok_shift r /\ p_err_shift p = r_err_shift r /\
  unbits_of (p_ub p) n = r_unbits r.

Lemma loop_same a b DA DB : good true a DA -> good true b DB -> dsize b <= dsize a ->
  forall n i, dsize b + i * dalign b <= union_size a b ->
  exists p, provider_loop n (union_size a b) (dfv a) (union_member_ub a b) (dfv b) (dub b) (dsize b) (dalign b) (i * dalign b) = Some p /\
    same_inner (union_size a b) p (doc_loop true (doc_of a) (doc_of b) n i).
Proof.
  intros Ga Gb Hle. pose proof (union_size_doc _ _ _ _ Ga Gb Hle) as Hus.
  destruct (ok_mask_eq _ _ _ _ Ga Gb Hle) as [Hok Eok].
  pose proof (al_ok_pos _ (al_ok_max _ _ (g_al _ _ _ Ga) (g_al _ _ _ Gb))) as Hp.
  assert (dsize a <= union_size a b) as Hs.
  { unfold union_size, union_align. pose proof (nmo_bounds (Nat.max (dsize a) (dsize b)) _ Hp). lia. }
  set (n0 := union_size a b) in *.
  assert (same_inner n0 (Prov 0 DBit []) (DocResult DocBit 0 0 (repeat 0%N n0))) as Hbit.
  { split; [reflexivity|]. split; [reflexivity|]. split; [reflexivity|]. apply unbits_ext; [apply repeat_length|].
    intros o Ho. cbn. symmetry. apply (@repeat_spec N n0). apply nth_In. rewrite repeat_length. exact Ho. }
  induction n as [|n IH]; intros i Hi; cbn [provider_loop doc_loop]; rewrite Hus.
  - eexists; split; [reflexivity|exact Hbit].
  - destruct (err_mask_eq n0 b DB (i * dalign b) Gb Hi) as [Herr Eerr].
    cbn [doc_of t_unbits t_align t_fvs t_size]. rewrite <- Eok, <- Eerr.
    set (eub := shifted_unused_bits n0 (dub b) (dsize b) (i * dalign b)) in *.
    set (okub := union_member_ub a b) in *.
    assert (doc_and (unbits_of okub n0) (unbits_of eub n0) = unbits_of (bit_and okub eub) n0) as Eand.
    { unfold unbits_of. rewrite doc_and_unbits. apply map_ext. intros o. symmetry. eapply byte_at_and; exact Hok. }
    rewrite Eand. pose proof (ub_ok_bit_and _ _ _ _ Herr _ _ Hok) as Hand.
    assert (fv_ok n0 (fshift (i * dalign b) (dfv b))) as Hfvb.
    { eapply fv_ok_weaken; [|apply fv_ok_shift, (g_fv _ _ _ Gb)]. lia. }
    assert (fv_ok n0 (dfv a)) as Hfva by (eapply fv_ok_weaken; [exact Hs|apply (g_fv _ _ _ Ga)]).
    destruct (select_find n0 okub _ Hok Hfvb) as [S1 N1]. rewrite <- (fvs_shift _ _ _ (g_fv _ _ _ Gb)).
    rewrite S1. destruct (find _ (fvs_of (fshift (i * dalign b) (dfv b)))) as [c|].
    { destruct (N1 c eq_refl) as [Hc _]. destruct c as [|[o v] c]; [congruence|]. cbn [sfv_of].
      change (SArr o v (sfv_of c)) with (sfv_of ((o, v) :: c)). rewrite into_value_chain.
      eexists; split; [reflexivity|]. split; [reflexivity|].
      split; [reflexivity|]. split; reflexivity. }
    destruct (select_find n0 eub _ Herr Hfva) as [S2 N2]. rewrite S2. clear N1 S1.
    destruct (find _ (fvs_of (dfv a))) as [c|].
    { destruct (N2 c eq_refl) as [Hc _]. destruct c as [|[o v] c]; [congruence|]. cbn [sfv_of].
      change (SArr o v (sfv_of c)) with (sfv_of ((o, v) :: c)). rewrite into_value_chain.
      eexists; split; [reflexivity|]. split; [reflexivity|].
      split; [reflexivity|]. split; reflexivity. }
    pose proof (extract_spec _ _ Hand) as Hex.
    destruct (bit_and okub eub) as [|[o v] r] eqn:Eb.
    + rewrite Hex. destruct (Nat.leb_spec (dsize b + dalign b + i * dalign b) n0) as [Hl|Hl];
      destruct (Nat.ltb_spec n0 (dsize b + i * dalign b + dalign b)) as [Hl'|Hl']; try lia.
      * replace (dalign b + i * dalign b) with (S i * dalign b) by lia. apply IH. lia.
      * eexists; split; [reflexivity|exact Hbit].
    + rewrite Hex. eexists; split; [reflexivity|].
      assert (upper v) as Hu by (cbn in Hand; destruct Hand as [_ [Hu _]]; exact Hu). destruct (upper_lowest v Hu) as [-> _].
      split; [reflexivity|]. split; [reflexivity|]. split; reflexivity.
Qed.

Lemma select_one_first f n : fv_ok n f -> (select_one f = SEnd -> fvs_of f = []) ->
  match fvs_of f with [] => select_one f = SEnd | c :: _ => select_one f = sfv_of c /\ c <> [] end.
Proof.
  induction f as [|o v r IH|a IHa b IHb|lo hi o]; intros Hf H; cbn [fvs_of select_one] in *.
  - reflexivity.
  - split; [|discriminate]. clear IH H. revert o v Hf. induction r as [|o' v' r IH|a _ b _|lo hi o']; intros o v Hf; cbn in Hf;
      destruct Hf as [_ [_ [Hc [_ Hr]]]]; cbn [is_chain] in Hc; try contradiction; [reflexivity|].
    cbn [select_one chain_of sfv_of]. f_equal. exact (IH o' v' Hr).
  - destruct Hf as [Ha Hb]. assert (select_one a = SEnd -> fvs_of a = []) as Ha'.
    { intros E. specialize (H E). apply app_eq_nil in H. tauto. }
    specialize (IHa Ha Ha'). destruct (fvs_of a) as [|c l]; cbn [app]; auto.
    specialize (H IHa). cbn in H. rewrite H. exact IHa.
  - destruct Hf as [H1 [H2 H3]]. destruct (N.to_nat (hi + 1 - lo)) as [|k] eqn:E; [lia|]. cbn [seq map].
    replace (lo + N.of_nat 0)%N with lo by lia. split; [reflexivity|discriminate].
Qed.

Lemma all_free_contains n f : (forall o v, In (o, v) f -> o < n) -> doc_can_contain (repeat 255%N n) f = true.
Proof.
  intros H. unfold doc_can_contain. apply forallb_forall. intros [o v] Hin. apply N.eqb_eq. cbn.
  apply (@repeat_spec N n). apply nth_In. rewrite repeat_length. eauto.
Qed.
Lemma fvs_in n f : fv_ok n f -> forall c, In c (fvs_of f) -> forall o v, In (o, v) c -> o < n.
Proof.
  induction f as [|o' v' r IH|a IHa b IHb|lo hi o']; intros Hf c Hc o v Hin; cbn [fvs_of] in Hc; try contradiction.
  - destruct Hc as [<-|[]]. exact (chain_of_in _ _ Hf o v Hin).
  - apply in_app_iff in Hc. destruct Hf. destruct Hc; eauto.
  - apply in_map_iff in Hc. destruct Hc as [i [<- _]]. destruct Hin as [E|[]]. injection E as <- <-. cbn in Hf. tauto.
Qed.
Lemma doc_and_free m n : doc_and (unbits_of m n) (repeat 255%N n) = map (fun o => N.land (byte_at m o) 255) (seq 0 n).
Proof. unfold unbits_of. generalize 0. induction n as [|n IH]; intros k; cbn; auto. f_equal. apply IH. Qed.

Lemma fv_ok_0_none f : fv_ok 0 f -> fvs_of f = [].
Proof.
  induction f as [|o v r IH|a IHa b IHb|lo hi o]; cbn; intros H; auto; try lia.
  destruct H as [Ha Hb]. rewrite IHa, IHb by assumption. reflexivity.
Qed.
Lemma zst_same a b DA DB : good true a DA -> good true b DB -> dsize b = 0 -> union_size a b = dsize a ->
  (select_one (dfv a) = SEnd -> fvs_of (dfv a) = []) ->
  exists p, provider_inner a b = Some p /\
    same_inner (union_size a b) p (doc_loop true (doc_of a) (doc_of b) 8 0).
Proof.
  intros Ga Gb Hz Hn Hso. pose proof (g_fv _ _ _ Gb) as Hfb. rewrite Hz in Hfb. apply fv_ok_0_none in Hfb. unfold provider_inner. rewrite Hz, Nat.eqb_refl.
  pose proof (union_size_doc _ _ _ _ Ga Gb ltac:(lia)) as Hus.
  rewrite Hn in *.
  assert (Hpad : doc_pad (unbits_of (dub a) (dsize a)) (dsize a) = unbits_of (dub a) (dsize a)).
  { unfold doc_pad. rewrite unbits_length, Nat.sub_diag. apply app_nil_r. }
  assert (Hall : forall k, k <= dsize a -> doc_pad (doc_shift [] k) (dsize a) = repeat 255%N (dsize a)).
  { intros k Hk. unfold doc_pad, doc_shift. rewrite app_nil_r, repeat_length, <- repeat_app. f_equal. lia. }
  assert (Hand : doc_and (unbits_of (dub a) (dsize a)) (repeat 255%N (dsize a)) = unbits_of (dub a) (dsize a)).
  { rewrite doc_and_free. apply map_ext. intros o.
    destruct (byte_at_upper _ _ _ o (g_ub _ _ _ Ga)) as [-> |Hu]; [reflexivity|].
    pose proof (upper_forall (fun v => N.eqb (N.land v 255) v) eq_refl _ Hu) as E. apply N.eqb_eq in E. exact E. }
  pose proof (select_one_first _ _ (g_fv _ _ _ Ga) Hso) as Hfirst.
  assert (Hub : unbits_of (dub b) (dsize b) = []) by (rewrite Hz; reflexivity).
  pose proof (extract_spec _ _ (g_ub _ _ _ Ga)) as Hex.
  destruct (fvs_of (dfv a)) as [|c l] eqn:Ef.
  - rewrite Hfirst. destruct (dub a) as [|[o v] r] eqn:Eu.
    + cbn [provider_with_unit]. eexists; split; [reflexivity|].
      assert (Hbit : same_inner (dsize a) (Prov 0 DBit []) (DocResult DocBit 0 0 (repeat 0%N (dsize a)))).
      { split; [reflexivity|]. split; [reflexivity|]. split; [reflexivity|]. apply unbits_ext; [apply repeat_length|].
        intros o Ho. cbn. symmetry. apply (@repeat_spec N (dsize a)). apply nth_In. rewrite repeat_length. exact Ho. }
      assert (Hgen : forall n i, same_inner (dsize a) (Prov 0 DBit []) (doc_loop true (doc_of a) (doc_of b) n i)).
      { induction n as [|n IH]; intros i; cbn [doc_loop]; rewrite Hus; [exact Hbit|].
        cbn [doc_of t_unbits t_align t_fvs t_size]. rewrite Hub, Hfb, Ef, Eu. cbn [map find].
        rewrite Hpad. destruct (Nat.le_gt_cases (i * dalign b) (dsize a)) as [Hi|Hi].
        - rewrite Hall by exact Hi. rewrite Hand, Hex.
          destruct (Nat.ltb _ _); [exact Hbit|]. specialize (IH (S i)). exact IH.
        - assert (doc_extract_bit (doc_and (unbits_of [] (dsize a)) (doc_pad (doc_shift [] (i * dalign b)) (dsize a))) = None) as Hnone.
          { clear. unfold unbits_of. generalize (doc_pad (doc_shift [] (i * dalign b)) (dsize a)) as l. generalize 0 as k.
            induction (dsize a) as [|n IH]; intros k l; cbn; auto. destruct l as [|x l]; cbn; auto.
            rewrite N.eqb_refl, IH. reflexivity. }
          rewrite Hnone. destruct (Nat.ltb _ _); [exact Hbit|]. specialize (IH (S i)). exact IH. }
      exact (Hgen 8 0).
    + cbn [doc_loop]. rewrite Hus. cbn [doc_of t_unbits t_align t_fvs t_size]. rewrite Hub, Hfb, Ef, Eu. cbn [map find Nat.mul].
      rewrite Hpad, (Hall 0) by lia. rewrite Hand.
      rewrite Hex. cbn [provider_with_unit]. eexists; split; [reflexivity|].
      pose proof (g_ub _ _ _ Ga) as Hg. rewrite Eu in Hg. cbn in Hg. destruct Hg as [_ [Hu _]].
      destruct (upper_lowest v Hu) as [-> _]. split; [reflexivity|]. split; [reflexivity|]. split; reflexivity.
  - destruct Hfirst as [-> Hc]. cbn [doc_loop]. rewrite Hus. cbn [doc_of t_unbits t_align t_fvs t_size]. rewrite Hub, Hfb, Ef. cbn [map find Nat.mul].
    rewrite (Hall 0) by lia. rewrite all_free_contains.
    + destruct c as [|[o v] c]; [congruence|]. cbn [sfv_of provider_with_unit].
      change (SArr o v (sfv_of c)) with (sfv_of ((o, v) :: c)). rewrite into_value_chain.
      eexists; split; [reflexivity|]. split; [reflexivity|].
      split; [reflexivity|]. split; [reflexivity|]. cbn [r_unbits p_ub]. rewrite Hpad, Hand. reflexivity.
    + intros o v. apply (fvs_in _ _ (g_fv _ _ _ Ga)). rewrite Ef. left; reflexivity.
Qed.


Lemma inner_same a b DA DB : good true a DA -> good true b DB -> dsize b <= dsize a ->
  sizes_match a b = true -> (dsize b = 0 -> visible_fv a) ->
  exists p, provider_inner a b = Some p /\
    same_inner (union_size a b) p (doc_loop true (doc_of a) (doc_of b) 8 0).
Proof.
  intros Ga Gb Hle Hsm Hz. destruct (Nat.eq_dec (dsize b) 0) as [E|E].
  - apply (zst_same a b DA DB); auto; [|exact (Hz E)]. unfold sizes_match in Hsm. apply Nat.eqb_eq in Hsm.
    unfold union_size, union_align. rewrite nmo_id by exact Hsm. lia.
  - unfold provider_inner. destruct (Nat.eqb_spec (dsize b) 0); [contradiction|].
    apply (loop_same a b DA DB Ga Gb Hle 8 0).
    pose proof (al_ok_pos _ (al_ok_max _ _ (g_al _ _ _ Ga) (g_al _ _ _ Gb))) as Hp.
    unfold union_size, union_align. pose proof (nmo_bounds (Nat.max (dsize a) (dsize b)) _ Hp). lia.
Qed.
Lemma provider_same a b DA DB : good true a DA -> good true b DB -> sizes_match a b = true ->
  (dsize b = 0 -> visible_fv a) -> (dsize a = 0 -> visible_fv b) ->
  exists p, provider_of a b = Some p /\
    same_choice (union_size a b) p (doc_determinant true (doc_of a) (doc_of b)).
Proof.
  intros Ga Gb Hsm H1 H2. unfold provider_of, doc_determinant. cbn [t_size doc_of].
  destruct (Nat.leb_spec (dsize b) (dsize a)) as [Hl|Hl]; destruct (Nat.ltb_spec (dsize a) (dsize b)) as [Hl'|Hl']; try lia.
  - destruct (inner_same _ _ _ _ Ga Gb Hl Hsm H1) as [p [-> [E1 [E2 [E3 E4]]]]].
    eexists; split; [reflexivity|]. split; [exact E1|]. split; [exact E2|]. split; [exact E3|exact E4].
  - assert (sizes_match b a = true) as Hsm'.
    { unfold sizes_match in *. rewrite (Nat.max_comm (dsize b)), (Nat.max_comm (dalign b)). exact Hsm. }
    destruct (inner_same _ _ _ _ Gb Ga ltac:(lia) Hsm' H2) as [p [-> [E1 [E2 [E3 E4]]]]].
    eexists; split; [reflexivity|]. cbv zeta. split; [cbn; rewrite E1; reflexivity|]. split; [exact E3|]. split; [exact E2|].
    cbn [r_unbits fp_ub]. rewrite <- E4. f_equal. unfold union_size, union_align. f_equal; lia.
Qed.
Lemma wf_provider_same a b da db : wf (TResult a b) -> layout a = Some da -> layout b = Some db ->
  (dsize db = 0 -> visible_fv da) -> (dsize da = 0 -> visible_fv db) ->
  exists p, provider_of da db = Some p /\
    same_choice (union_size da db) p (doc_determinant true (doc_of da) (doc_of db)).
Proof.
  intros H Ha Hb H1 H2. apply wf_result in H. destruct H as [Wa [Wb [da' [db' [Ea [Eb Hsm]]]]]].
  assert (da' = da) by congruence. assert (db' = db) by congruence. subst.
  apply (provider_same da db (decode a) (decode b)); auto using wf_good.
Qed.
