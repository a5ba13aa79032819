(** The layout of structs is the C layout. *)
From Coq Require Import List Arith ZArith NArith Bool Lia ZifyBool ZifyN ZifyNat.
From Verif Require Import M_Layout M_Result S_Layout S_Values L_Layout L_Result L_Good L_Types.
Import ListNotations.
Ltac Zify.zify_post_hook ::= Z.div_mod_to_equations.
Arguments N.add : simpl never.
Arguments N.mul : simpl never.
Arguments N.sub : simpl never.
Arguments N.eqb : simpl never.
Arguments N.ltb : simpl never.
Arguments N.leb : simpl never.
Arguments N.land : simpl never.
Arguments N.lor : simpl never.
Arguments N.lxor : simpl never.
Arguments N.testbit : simpl never.
Arguments Nat.modulo : simpl never.
Arguments Nat.div : simpl never.
Arguments nmo : simpl never.
Arguments Nat.max : simpl never.
Arguments Nat.sub : simpl never.

Definition sa (d : desc) : nat * nat := (dsize d, dalign d).

Lemma fold_fields ds : forall d0, Forall (fun d => 0 < dalign d) ds ->
  exists os, c_offsets (dsize d0) (map sa ds) os (dsize (fold_left field_pair ds d0)) /\
    dalign (fold_left field_pair ds d0) = fold_left Nat.max (map snd (map sa ds)) (dalign d0).
Proof.
  induction ds as [|d ds IH]; intros d0 H; cbn [fold_left map].
  - exists []. split; [constructor|reflexivity].
  - inversion H as [|x l Hd Hds]; subst. destruct (IH (field_pair d0 d) Hds) as [os [H1 H2]].
    exists (nmo (dsize d0) (dalign d) :: os). split.
    + constructor; [apply nmo_first; exact Hd|].
      replace (nmo (dsize d0) (dalign d) + dsize d) with (dsize (field_pair d0 d)); [exact H1|]. cbn. lia.
    + exact H2.
Qed.
Lemma layout_fields fs : forall f d0 ds, layout f = Some d0 -> Forall2 (fun t d => layout t = Some d) fs ds ->
  layout (fields_ty f fs) = Some (fold_left field_pair ds d0).
Proof.
  unfold fields_ty. induction fs as [|t fs IH]; intros f d0 ds L H; inversion H; subst; cbn [fold_left]; auto.
  apply IH; auto. cbn [layout]. rewrite L. match goal with H : layout t = _ |- _ => rewrite H end. reflexivity.
Qed.
Lemma fold_max_pos l : forall k, k <= fold_left Nat.max l k.
Proof. induction l as [|x l IH]; intros k; cbn [fold_left]; [lia|]. specialize (IH (Nat.max k x)). lia. Qed.
Lemma fold_max_comm l : forall k j, fold_left Nat.max l (Nat.max k j) = Nat.max k (fold_left Nat.max l j).
Proof.
  induction l as [|x l IH]; intros k j; cbn [fold_left]; [reflexivity|].
  rewrite <- IH. f_equal. lia.
Qed.
Lemma first_multiple_0 a : first_multiple 0 a 0.
Proof. split; [exists 0; lia|]. split; [lia|]. intros k _. lia. Qed.
Lemma struct_c f fs d0 ds : layout f = Some d0 -> Forall2 (fun t d => layout t = Some d) fs ds ->
  Forall (fun d => 0 < dalign d) (d0 :: ds) ->
  exists d os, layout (struct_ty (f :: fs)) = Some d /\
    c_struct 1 (map sa (d0 :: ds)) os (dsize d) (dalign d).
Proof.
  intros L H Hp. inversion Hp as [|x l Hd Hds]; subst.
  cbn [struct_ty layout]. rewrite (layout_fields fs f d0 ds L H). cbn [option_map].
  destruct (fold_fields ds d0 Hds) as [os [H1 H2]].
  eexists. exists (0 :: os). split; [reflexivity|]. split.
  - cbn [struct_ dalign map fold_left snd sa]. rewrite H2. f_equal. lia.
  - eexists. split.
    + cbn [map sa]. constructor; [apply first_multiple_0|]. exact H1.
    + cbn [struct_ dsize dalign]. apply nmo_first. rewrite H2.
      pose proof (fold_max_pos (map snd (map sa ds)) (dalign d0)). lia.
Qed.
Lemma aligned_struct_c f fs d0 ds al : layout f = Some d0 -> Forall2 (fun t d => layout t = Some d) fs ds ->
  Forall (fun d => 0 < dalign d) (d0 :: ds) ->
  exists d os, layout (aligned_struct_ty (f :: fs) al) = Some d /\
    c_struct al (map sa (d0 :: ds)) os (dsize d) (dalign d).
Proof.
  intros L H Hp. inversion Hp as [|x l Hd Hds]; subst.
  cbn [aligned_struct_ty layout]. rewrite (layout_fields fs f d0 ds L H). cbn [option_map].
  destruct (fold_fields ds d0 Hds) as [os [H1 H2]].
  eexists. exists (0 :: os). split; [reflexivity|]. split.
  - cbn [aligned_struct dalign map fold_left snd sa]. rewrite H2, fold_max_comm. reflexivity.
  - eexists. split.
    + cbn [map sa]. constructor; [apply first_multiple_0|]. exact H1.
    + cbn [aligned_struct dsize dalign]. apply nmo_first. rewrite H2.
      pose proof (fold_max_pos (map snd (map sa ds)) (dalign d0)). lia.
Qed.

(** The C layout is unique. *)
Lemma c_offsets_fun fs : forall start os os' fin fin', c_offsets start fs os fin -> c_offsets start fs os' fin' ->
  os = os' /\ fin = fin'.
Proof.
  induction fs as [|[s a] fs IH]; intros start os os' fin fin' H H'; inversion H; inversion H'; subst; auto.
  match goal with H1 : first_multiple _ _ ?x, H2 : first_multiple _ _ ?y |- _ =>
    assert (x = y) by (eapply first_multiple_unique; eauto); subst end.
  match goal with H1 : c_offsets ?st fs _ _, H2 : c_offsets ?st fs _ _ |- _ =>
    destruct (IH _ _ _ _ _ H1 H2); subst; auto end.
Qed.
Lemma c_struct_fun m fs os os' sz sz' al al' : c_struct m fs os sz al -> c_struct m fs os' sz' al' ->
  os = os' /\ sz = sz' /\ al = al'.
Proof.
  intros [-> [fin [H1 H2]]] [-> [fin' [H1' H2']]].
  destruct (c_offsets_fun _ _ _ _ _ _ H1 H1') as [-> ->].
  split; auto. split; auto. eapply first_multiple_unique; eauto.
Qed.

Lemma decode_len t d s v : layout t = Some d -> decode t s = Some v -> length s = dsize d.
Proof.
  intros L H. destruct t; cbn [decode] in H; rewrite L in H;
  destruct (Nat.eqb_spec (length s) (dsize d)) as [E|E]; cbn [andb negb] in H; try discriminate; exact E.
Qed.
Lemma decode_pair a b s v : decode (TFP a b) s = Some v ->
  exists da db va vb, layout a = Some da /\ layout b = Some db /\ v = VPair va vb /\
    decode a (firstn (dsize da) s) = Some va /\
    decode b (skipn (nmo (dsize da) (dalign db)) s) = Some vb.
Proof.
  cbn [decode layout]. destruct (layout a) as [da|]; [|discriminate]. destruct (layout b) as [db|]; [|discriminate].
  destruct (negb _); [discriminate|].
  destruct (decode a _) as [va|] eqn:Ea; [|discriminate]. destruct (decode b _) as [vb|] eqn:Eb; [|discriminate].
  intros [= <-]. exists da, db, va, vb. auto.
Qed.
Lemma firstn_skipn_firstn {A} k o n (s : list A) : o + k <= n -> firstn k (skipn o (firstn n s)) = firstn k (skipn o s).
Proof.
  intros H. rewrite skipn_firstn_comm, firstn_firstn. f_equal. lia.
Qed.

Lemma Forall2_len {A B} (R : A -> B -> Prop) l l' : Forall2 R l l' -> length l = length l'.
Proof. induction 1; cbn; congruence. Qed.

Lemma decode_fields fs : forall f d0 ds s v, layout f = Some d0 ->
  Forall2 (fun t d => layout t = Some d) fs ds -> Forall (fun d => 0 < dalign d) ds ->
  decode (fields_ty f fs) s = Some v ->
  exists v0 vs os fin, v = fold_left VPair vs v0 /\ decode f (firstn (dsize d0) s) = Some v0 /\
    c_offsets (dsize d0) (map sa ds) os fin /\ reads_at fs os s vs.
Proof.
  induction fs as [|t fs IH] using rev_ind; intros f d0 ds s v L H Hp Hd.
  - inversion H; subst. cbn in Hd. pose proof (decode_len _ _ _ _ L Hd) as Hl.
    exists v, [], [], (dsize d0). split; [reflexivity|]. split.
    + rewrite <- Hl, firstn_all. exact Hd.
    + split; [constructor|]. split; [reflexivity|]. intros i t o d Hi. destruct i; discriminate.
  - unfold fields_ty in Hd. rewrite fold_left_app in Hd. cbn [fold_left] in Hd.
    fold (fields_ty f fs) in Hd.
    apply Forall2_app_inv_l in H. destruct H as [ds1 [ds2 [H1 [H2 ->]]]].
    inversion H2 as [|t' dt l l' Ht Hnil]; subst. inversion Hnil; subst. clear H2 Hnil.
    apply Forall_app in Hp. destruct Hp as [Hp1 Hp2]. pose proof (Forall_inv Hp2) as Hdt. cbn beta in Hdt.
    destruct (decode_pair _ _ _ _ Hd) as [da [db [va [vb [La [Lb [-> [Da Db]]]]]]]].
    assert (db = dt) by congruence. subst db.
    destruct (IH f d0 ds1 _ _ L H1 Hp1 Da) as [v0 [vs [os [fin [-> [D0 [Hc [Hlen Hr]]]]]]]].
    pose proof (layout_fields fs f d0 ds1 L H1) as La'. rewrite La in La'. injection La' as Eda.
    destruct (fold_fields ds1 d0 Hp1) as [os' [Hc' _]]. rewrite <- Eda in Hc'.
    destruct (c_offsets_fun _ _ _ _ _ _ Hc Hc') as [<- ->].
    pose proof (decode_len _ _ _ _ La Da) as Hla.
    assert (forall ds0 st os0 e, Forall (fun d => 0 < dalign d) ds0 -> c_offsets st (map sa ds0) os0 e -> st <= e /\
      forall i d o, nth_error ds0 i = Some d -> nth_error os0 i = Some o -> o + dsize d <= e) as Hend.
    { clear. induction ds0 as [|d ds0 IH]; intros st os0 e Hp Hc; inversion Hc; subst.
      - split; [lia|]. intros [|i] d o Hi; discriminate.
      - inversion Hp; subst. match goal with H : c_offsets _ (map sa ds0) _ _ |- _ => destruct (IH _ _ _ ltac:(assumption) H) as [I1 I2] end.
        match goal with H : first_multiple _ _ _ |- _ => destruct H as [_ [Hfm _]] end.
        split; [lia|]. intros [|i] d' o' Hi Ho; cbn in Hi, Ho.
        + injection Hi as <-. injection Ho as <-. lia.
        + eapply I2; eauto. }
    destruct (Hend _ _ _ _ Hp1 Hc) as [He1 He2].
    exists v0, (vs ++ [vb]), (os ++ [nmo (dsize da) (dalign dt)]), (nmo (dsize da) (dalign dt) + dsize dt).
    split; [rewrite fold_left_app; reflexivity|]. split.
    { rewrite firstn_firstn in D0. rewrite Nat.min_l in D0 by exact He1. exact D0. }
    assert (length os = length ds1) as Hlos.
    { clear -Hc. revert Hc. generalize (dsize d0), (dsize da). revert os.
      induction ds1 as [|d ds1 IH]; intros os st e Hc; inversion Hc; subst; cbn; auto. f_equal. eauto. }
    split.
    { rewrite map_app. cbn [map sa]. clear -Hc Hdt. revert Hc. generalize (dsize d0). revert os.
      induction ds1 as [|d ds1 IH]; intros os st Hc; inversion Hc; subst; cbn [map app].
      - constructor; [apply nmo_first; assumption|constructor].
      - constructor; [assumption|]. apply IH. assumption. }
    split; [rewrite !app_length; cbn; lia|].
    pose proof (Forall2_len _ _ _ H1) as Hlf.
    intros i ti o d Hi Ho Ld.
    destruct (Nat.lt_ge_cases i (length fs)) as [Hlt|Hge].
    + rewrite nth_error_app1 in Hi by assumption. rewrite nth_error_app1 in Ho by lia.
      destruct (Hr i ti o d Hi Ho Ld) as [x [Hx Hdx]].
      exists x. split; [rewrite nth_error_app1 by lia; exact Hx|].
      assert (nth_error ds1 i = Some d) as Hdi.
      { destruct (nth_error_lt ds1 i) as [d' Hd']; [lia|].
        assert (layout ti = Some d').
        { clear -H1 Hi Hd'. revert i Hi Hd'. induction H1 as [|x y l l' Hxy Hl IH]; intros [|i] Hi Hd'; try discriminate; cbn in *.
          - congruence.
          - eauto. }
        congruence. }
      specialize (He2 i d o Hdi Ho). rewrite firstn_skipn_firstn in Hdx by lia. exact Hdx.
    + rewrite nth_error_app2 in Hi by assumption. rewrite nth_error_app2 in Ho by lia.
      assert (i = length fs) as ->.
      { destruct (i - length fs) as [|k] eqn:E; [lia|]. cbn in Hi. destruct k; discriminate. }
      rewrite Nat.sub_diag in Hi. rewrite Hlos, Hlf, Nat.sub_diag in Ho. cbn in Hi, Ho.
      injection Hi as <-. injection Ho as <-. assert (d = dt) by congruence. subst d.
      exists vb. split; [rewrite nth_error_app2 by lia; rewrite Hlen, Nat.sub_diag; reflexivity|].
      pose proof (decode_len _ _ _ _ Lb Db) as Hlb. rewrite <- Hlb, firstn_all. exact Db.
Qed.
