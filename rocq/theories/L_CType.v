(** Proofs about C types. *)
From Coq Require Import List Arith NArith PArith Bool Lia.
From Verif Require Import M_Layout M_CType S_Layout S_Core S_CType L_Layout L_Struct.
Import ListNotations.
Ltac Zify.zify_post_hook ::= idtac.
Arguments nmo : simpl never.
Arguments Nat.max : simpl never.
Arguments Nat.modulo : simpl never.
Arguments Nat.div : simpl never.

(** ** Induction on types *)
Section Ind.
  Variable P : src -> Prop.
  Hypothesis Hunit : P XUnit.
  Hypothesis Hint : forall s a, P (XInt s a).
  Hypothesis Husize : forall w, P (XUsize w).
  Hypothesis Hraw : forall w, P (XRawPtr w).
  Hypothesis Hnz : forall w a, P (XNonZero w a).
  Hypothesis Href : forall w, P (XRef w).
  Hypothesis Hbool : P XBool.
  Hypothesis Hord : P XOrdering.
  Hypothesis Hpad : P XPadByte.
  Hypothesis Hlike : forall s a, P (XLike s a).
  Hypothesis Hwrap : forall t, P t -> P (XWrap t).
  Hypothesis Hstruct : forall fs, Forall P fs -> P (XStruct fs).
  Hypothesis Haligned : forall fs al, Forall P fs -> P (XAligned fs al).
  Hypothesis Hunion : forall fs, Forall P fs -> P (XUnion fs).
  Hypothesis Henum : forall w a vs, Forall (fun v : bool * list src => Forall P (snd v)) vs -> P (XEnum w a vs).
  Hypothesis Harr : forall t n, P t -> P (XArr t n).
  Hypothesis Hresult : forall a b, P a -> P b -> P (XResult a b).
  Fixpoint src_rect' (t : src) : P t :=
    let all := fix all (l : list src) : Forall P l :=
      match l with [] => Forall_nil _ | x :: l => Forall_cons x (src_rect' x) (all l) end in
    let allv := fix allv (l : list (bool * list src)) : Forall (fun v => Forall P (snd v)) l :=
      match l with [] => Forall_nil _ | x :: l => Forall_cons x (match x as x0 return Forall P (snd x0) with (b, y) => all y end) (allv l) end in
    match t with
    | XUnit => Hunit | XInt s a => Hint s a | XUsize w => Husize w | XRawPtr w => Hraw w | XNonZero w a => Hnz w a
    | XRef w => Href w | XBool => Hbool | XOrdering => Hord | XPadByte => Hpad | XLike s a => Hlike s a
    | XWrap t => Hwrap t (src_rect' t) | XStruct fs => Hstruct fs (all fs) | XAligned fs al => Haligned fs al (all fs)
    | XUnion fs => Hunion fs (all fs) | XEnum w a vs => Henum w a vs (allv vs) | XArr t n => Harr t n (src_rect' t)
    | XResult a b => Hresult a b (src_rect' a) (src_rect' b)
    end.
End Ind.

(** ** Alignments *)
Definition p2 (a : nat) : Prop := exists k, a = 2 ^ k.
Lemma p2_pos a : p2 a -> 0 < a.
Proof. intros [k ->]. apply Nat.neq_0_lt_0, Nat.pow_nonzero. discriminate. Qed.
Lemma p2_max a b : p2 a -> p2 b -> p2 (Nat.max a b).
Proof. intros H H'. destruct (Nat.max_spec a b) as [[_ ->]|[_ ->]]; assumption. Qed.
Lemma p2_div a b : p2 a -> p2 b -> a <= b -> exists k, b = k * a.
Proof.
  intros [i ->] [j ->] H. apply Nat.pow_le_mono_r_iff in H; [|lia]. exists (2 ^ (j - i)).
  rewrite <- Nat.pow_add_r. f_equal. lia.
Qed.
Lemma large_p2 a : large a = true -> p2 a /\ 16 < a.
Proof.
  unfold large. intros H. apply existsb_exists in H as (k & Hk & E). apply Nat.eqb_eq in E. apply in_seq in Hk.
  split; [exists k; exact E|]. subst. apply Nat.lt_le_trans with (2 ^ 5); [cbn; lia|]. apply Nat.pow_le_mono_r; lia.
Qed.
Lemma unit_align_cases g a : unit_align g a = true ->
  a = 1 \/ a = 2 \/ a = 4 \/ (a = 8 /\ al64 g = 8) \/ (a = 16 /\ al128 g = 16) \/ large a = true.
Proof.
  unfold unit_align. cbn [existsb]. rewrite !orb_true_iff, !andb_true_iff, !Nat.eqb_eq. intuition discriminate.
Qed.
Lemma unit_align_p2 g a : unit_align g a = true -> p2 a.
Proof.
  intros H. apply unit_align_cases in H as [->|[->|[->|[[-> _]|[[-> _]|H]]]]].
  - exists 0; reflexivity.
  - exists 1; reflexivity.
  - exists 2; reflexivity.
  - exists 3; reflexivity.
  - exists 4; reflexivity.
  - apply large_p2 in H. tauto.
Qed.
Lemma unit_align_max g a b : unit_align g a = true -> unit_align g b = true -> unit_align g (Nat.max a b) = true.
Proof. intros H H'. destruct (Nat.max_spec a b) as [[_ ->]|[_ ->]]; assumption. Qed.
Lemma unit_align_1 g : unit_align g 1 = true.
Proof. reflexivity. Qed.

Lemma nmo_up m s a b : p2 a -> p2 b -> a <= b -> nmo (Nat.max (nmo m a) s) b = nmo (Nat.max m s) b.
Proof.
  intros Ha Hb Hle. apply (first_multiple_unique (Nat.max m s) b); [|apply nmo_first, p2_pos; assumption].
  destruct (nmo_first (Nat.max (nmo m a) s) b (p2_pos _ Hb)) as (E1 & E2 & E3).
  pose proof (nmo_bounds m a (p2_pos _ Ha)) as Hm. split; [exact E1|]. split; [lia|].
  intros k Hk. apply E3. apply Nat.max_lub; [|lia]. destruct (p2_div a b Ha Hb Hle) as [j ->].
  destruct (nmo_first m a (p2_pos _ Ha)) as (_ & _ & F). rewrite Nat.mul_assoc. apply F. rewrite <- Nat.mul_assoc. lia.
Qed.

(** ** Layouts in terms of sizes and alignments *)
Definition fits (t : ty) (p : nat * nat) : Prop := exists d, layout t = Some d /\ sa d = p.
Lemma fits_fun t p q : fits t p -> fits t q -> p = q.
Proof. intros (d & E & <-) (e & F & <-). congruence. Qed.

(** Fields. *)
Definition fstep (p q : nat * nat) : nat * nat := (nmo (fst p) (snd q) + fst q, Nat.max (snd p) (snd q)).
Lemma sa_field_pair a b : sa (field_pair a b) = fstep (sa a) (sa b).
Proof. unfold sa, fstep. cbn. f_equal. lia. Qed.
Lemma fits_fields ts : forall t0 p0 ps, fits t0 p0 -> Forall2 fits ts ps -> fits (fields_ty t0 ts) (fold_left fstep ps p0).
Proof.
  unfold fields_ty. induction ts as [|t ts IH]; intros t0 p0 ps H0 H; inversion H as [|? q ? qs Ht Hts]; subst; cbn [fold_left]; [assumption|].
  apply IH; [|assumption]. destruct H0 as (d & E & <-), Ht as (e & F & <-). exists (field_pair d e).
  cbn [layout]. rewrite E, F. split; [reflexivity|apply sa_field_pair].
Qed.
Lemma layout_fields_inv ts : forall t0 d, layout (fields_ty t0 ts) = Some d -> exists p0 ps, fits t0 p0 /\ Forall2 fits ts ps.
Proof.
  unfold fields_ty. induction ts as [|t ts IH]; intros t0 d H; cbn [fold_left] in H.
  - exists (sa d), []. split; [exists d; auto|constructor].
  - destruct (IH _ _ H) as (p & ps & (e & E & _) & Hps). cbn [layout] in E.
    destruct (layout t0) as [d0|] eqn:E0; [|discriminate]. destruct (layout t) as [d1|] eqn:E1; [|discriminate].
    exists (sa d0), (sa d1 :: ps). split; [exists d0; auto|]. constructor; [exists d1; auto|assumption].
Qed.
Definition struct_sa (ps : list (nat * nat)) : nat * nat :=
  match ps with
  | [] => (0, 1)
  | p :: ps => let q := fold_left fstep ps p in (nmo (fst q) (snd q), snd q)
  end.
Lemma fits_struct ts ps : Forall2 fits ts ps -> fits (struct_ty ts) (struct_sa ps).
Proof.
  intros H. destruct H as [|t p ts ps Ht Hts]; [exists unit_d; split; reflexivity|].
  destruct (fits_fields ts t p ps Ht Hts) as (d & E & F). exists (struct_ d). cbn [struct_ty layout]. rewrite E. split; [reflexivity|].
  cbn [struct_sa]. rewrite <- F. reflexivity.
Qed.
Lemma layout_struct_inv ts d : layout (struct_ty ts) = Some d -> exists ps, Forall2 fits ts ps /\ sa d = struct_sa ps.
Proof.
  destruct ts as [|t ts]; cbn [struct_ty layout]; intros H.
  - injection H as <-. exists []. split; [constructor|reflexivity].
  - destruct (layout (fields_ty t ts)) as [e|] eqn:E; [|discriminate]. destruct (layout_fields_inv _ _ _ E) as (p & ps & Hp & Hps).
    exists (p :: ps). split; [constructor; assumption|].
    destruct (fits_struct (t :: ts) (p :: ps) (Forall2_cons _ _ Hp Hps)) as (d' & E' & F). cbn [struct_ty layout] in E'. rewrite E in E'.
    rewrite <- F. congruence.
Qed.

(** Unions. *)
Definition ustep (p q : nat * nat) : nat * nat := let a := Nat.max (snd p) (snd q) in (nmo (Nat.max (fst p) (fst q)) a, a).
Lemma ustep_comm p q : ustep p q = ustep q p.
Proof. unfold ustep. rewrite (Nat.max_comm (snd p)), (Nat.max_comm (fst p)). reflexivity. Qed.
Lemma fits_union a b p q : fits a p -> fits b q -> fits (TUnion a b) (ustep p q).
Proof. intros (d & E & <-) (e & F & <-). exists (union_ d e). cbn [layout]. rewrite E, F. split; reflexivity. Qed.
Lemma layout_union_inv a b d : layout (TUnion a b) = Some d -> exists p q, fits a p /\ fits b q /\ sa d = ustep p q.
Proof.
  cbn [layout]. destruct (layout a) as [x|] eqn:Ea; [|discriminate]. destruct (layout b) as [y|] eqn:Eb; [|discriminate].
  intros H. injection H as <-. exists (sa x), (sa y). split; [exists x; auto|]. split; [exists y; auto|reflexivity].
Qed.
Lemma fits_unions ts : forall t0 p0 ps, fits t0 p0 -> Forall2 fits ts ps -> fits (fold_left TUnion ts t0) (fold_left ustep ps p0).
Proof.
  induction ts as [|t ts IH]; intros t0 p0 ps H0 H; inversion H as [|? q ? qs Ht Hts]; subst; cbn [fold_left]; [assumption|].
  apply IH; [|assumption]. apply fits_union; assumption.
Qed.
Lemma layout_unions_inv ts : forall t0 d, layout (fold_left TUnion ts t0) = Some d -> exists p0 ps, fits t0 p0 /\ Forall2 fits ts ps.
Proof.
  induction ts as [|t ts IH]; intros t0 d H; cbn [fold_left] in H.
  - exists (sa d), []. split; [exists d; auto|constructor].
  - destruct (IH _ _ H) as (p & ps & (e & E & _) & Hps). destruct (layout_union_inv _ _ _ E) as (x & y & Hx & Hy & _).
    exists x, (y :: ps). split; [assumption|constructor; assumption].
Qed.
Lemma fits_unions_rev ts : forall t0 p0 ps, fits t0 p0 -> Forall2 fits ts ps ->
  fits (fold_left (fun acc t => TUnion t acc) ts t0) (fold_left ustep ps p0).
Proof.
  induction ts as [|t ts IH]; intros t0 p0 ps H0 H; inversion H as [|? q ? qs Ht Hts]; subst; cbn [fold_left]; [assumption|].
  apply IH; [|assumption]. rewrite ustep_comm. apply fits_union; assumption.
Qed.
Lemma ustep_fold ps : forall s0 a0, p2 a0 -> Forall (fun p => p2 (snd p)) ps ->
  fold_left ustep ps (nmo s0 a0, a0) =
  (nmo (fold_left Nat.max (map fst ps) s0) (fold_left Nat.max (map snd ps) a0), fold_left Nat.max (map snd ps) a0).
Proof.
  induction ps as [|[s a] ps IH]; intros s0 a0 H0 H; cbn [fold_left map fst snd]; [reflexivity|].
  inversion H as [|? ? Ha Hps]; subst. cbn [snd] in Ha. unfold ustep at 2. cbn [fst snd].
  rewrite (nmo_up s0 s a0 (Nat.max a0 a) H0 (p2_max _ _ H0 Ha)) by lia. apply IH; [apply p2_max; assumption|assumption].
Qed.

(** ** Regular types *)
Lemma fold_max_unit g l : forall a, unit_align g a = true -> Forall (fun p : nat * nat => unit_align g (snd p) = true) l ->
  unit_align g (fold_left Nat.max (map snd l) a) = true.
Proof.
  induction l as [|p l IH]; intros a Ha H; cbn [fold_left map]; [assumption|]. inversion H; subst.
  apply IH; [apply unit_align_max; assumption|assumption].
Qed.
Lemma fstep_align ps : forall p, snd (fold_left fstep ps p) = fold_left Nat.max (map snd ps) (snd p).
Proof. induction ps as [|q ps IH]; intros p; cbn [fold_left map]; [reflexivity|]. rewrite IH. reflexivity. Qed.
Lemma struct_sa_ok g ps : Forall (fun p : nat * nat => unit_align g (snd p) = true) ps ->
  unit_align g (snd (struct_sa ps)) = true /\ fst (struct_sa ps) mod snd (struct_sa ps) = 0.
Proof.
  destruct ps as [|p ps]; intros H; cbn [struct_sa]; [split; reflexivity|]. inversion H; subst.
  assert (unit_align g (snd (fold_left fstep ps p)) = true) as Hu by (rewrite fstep_align; apply fold_max_unit; assumption).
  cbn [fst snd]. split; [exact Hu|]. apply nmo_mod. eapply p2_pos, unit_align_p2, Hu.
Qed.
Definition ok_sa (g : tgt) (p : nat * nat) : Prop := unit_align g (snd p) = true /\ fst p mod snd p = 0.
Lemma ustep_ok g p q : ok_sa g p -> ok_sa g q -> ok_sa g (ustep p q).
Proof.
  intros [H1 _] [H2 _]. unfold ok_sa, ustep. cbn [fst snd]. pose proof (unit_align_max _ _ _ H1 H2) as H.
  split; [exact H|]. apply nmo_mod. eapply p2_pos, unit_align_p2, H.
Qed.
Lemma usteps_ok g ps : forall p, ok_sa g p -> Forall (ok_sa g) ps -> ok_sa g (fold_left ustep ps p).
Proof.
  induction ps as [|q ps IH]; intros p Hp H; cbn [fold_left]; [assumption|]. inversion H; subst.
  apply IH; [apply ustep_ok; assumption|assumption].
Qed.
Lemma unit_ok g : ok_sa g (0, 1).
Proof. split; reflexivity. Qed.
Lemma ok_forall g ps : Forall (ok_sa g) ps -> Forall (fun p => unit_align g (snd p) = true) ps.
Proof. intros H. eapply Forall_impl; [|exact H]. intros p [E _]. exact E. Qed.

Lemma forall_fits g (fs : list src) ps :
  Forall (fun t => forall p, regular g t = true -> fits (lower t) p -> ok_sa g p) fs ->
  forallb (regular g) fs = true -> Forall2 fits (map lower fs) ps -> Forall (ok_sa g) ps.
Proof.
  intros H. revert ps. induction H as [|t fs Ht Hfs IH]; intros ps R F; cbn [map] in F; inversion F; subst; constructor.
  - cbn [forallb] in R. apply andb_true_iff in R. apply Ht; tauto.
  - apply IH; [cbn [forallb] in R; apply andb_true_iff in R; tauto|assumption].
Qed.

(** The variants of an enum, as unions see them. *)
Definition low_variants (vs : list (bool * list src)) : list (bool * list ty) := map (fun v => (fst v, map lower (snd v))) vs.
Definition datas (vs : list (bool * list ty)) : list ty :=
  fold_right (fun v acc => match variant_data v with None => acc | Some t => t :: acc end) [] vs.
Lemma variants_datas vs : forall t0,
  fold_left (fun acc v => match variant_data v with None => acc | Some t => TUnion acc t end) vs t0 = fold_left TUnion (datas vs) t0.
Proof.
  induction vs as [|v vs IH]; intros t0; cbn [fold_left datas fold_right]; [reflexivity|]. rewrite IH.
  destruct (variant_data v); reflexivity.
Qed.
(** A struct of fields paired from [()]. *)
Lemma unit_pairs ts : forall ps, Forall2 fits ts ps -> Forall (fun p => p2 (snd p)) ps -> fits (TStruct (fold_left TFP ts TUnit)) (struct_sa ps).
Proof.
  intros ps H Hp. destruct H as [|t p ts ps Ht Hts].
  - exists (struct_ unit_d). split; reflexivity.
  - inversion Hp; subst.
    assert (fits (TFP TUnit t) p) as H0.
    { destruct Ht as (d & E & <-). exists (field_pair unit_d d). cbn [layout]. rewrite E. split; [reflexivity|]. rewrite sa_field_pair.
      unfold fstep, sa. cbn [fst snd unit_d dsize dalign]. assert (0 < dalign d) as Hd by (apply p2_pos; assumption).
      f_equal; [|lia]. rewrite nmo_id; [reflexivity|apply Nat.mod_0_l; lia]. }
    cbn [fold_left]. destruct (fits_fields ts (TFP TUnit t) p ps H0 Hts) as (d & E & F).
    exists (struct_ d). unfold fields_ty in E. cbn [layout]. rewrite E. split; [reflexivity|]. cbn [struct_sa]. rewrite <- F. reflexivity.
Qed.
Lemma unit_pairs_inv ts d : layout (TStruct (fold_left TFP ts TUnit)) = Some d -> exists ps, Forall2 fits ts ps.
Proof.
  cbn [layout]. destruct (layout (fold_left TFP ts TUnit)) as [e|] eqn:E; [|discriminate]. intros _.
  destruct (layout_fields_inv ts TUnit e E) as (_ & ps & _ & H). exists ps. exact H.
Qed.
Definition reg_variant (g : tgt) (v : bool * list src) : bool :=
  let (named, fs) := v in forallb (regular g) fs && (named || Nat.leb (length fs) 1).
Definition psa (v : bool * list src) (p : nat * nat) : Prop :=
  match v with
  | (true, fs) => exists ps, Forall2 fits (map lower fs) ps /\ p = struct_sa ps
  | (false, []) => p = (0, 1)
  | (false, t :: _) => fits (lower t) p
  end.
Lemma datas_ok g vs d : Forall (fun v : bool * list src => Forall (fun t => forall p, regular g t = true -> fits (lower t) p -> ok_sa g p) (snd v)) vs ->
  forallb (reg_variant g) vs = true -> layout (variants_layout (low_variants vs)) = Some d ->
  exists ps, Forall2 psa vs ps /\ Forall (ok_sa g) ps /\ sa d = fold_left ustep ps (0, 1).
Proof.
  unfold variants_layout. rewrite variants_datas. intros H R E.
  destruct (layout_unions_inv _ _ _ E) as (p0 & qs & _ & Hqs).
  assert (exists ps, Forall2 psa vs ps /\ Forall (ok_sa g) ps /\ forall p, ok_sa g p -> fold_left ustep ps p = fold_left ustep qs p) as (ps & P1 & P2 & P3).
  { clear E d. revert qs Hqs R. induction H as [|[named fs] vs Hv Hvs IH]; intros qs Hqs R.
    - cbn in Hqs. inversion Hqs; subst. exists []. repeat split; constructor.
    - cbn [forallb reg_variant] in R. apply andb_true_iff in R as [R1 R2]. apply andb_true_iff in R1 as [R1 R3].
      cbn [snd] in Hv. cbn [low_variants map datas fold_right fst snd variant_data] in Hqs.
      destruct named.
      + inversion Hqs as [|? q ? qs' Hq Hr]; subst. destruct (IH qs' Hr R2) as (ps & P1 & P2 & P3).
        assert (exists ks, Forall2 fits (map lower fs) ks) as [ks Hks] by (destruct Hq as (x & Ex & _); exact (unit_pairs_inv _ _ Ex)).
        pose proof (forall_fits g fs ks Hv R1 Hks) as Hok.
        assert (q = struct_sa ks) as ->.
        { apply (fits_fun _ _ _ Hq). apply unit_pairs; [exact Hks|]. eapply Forall_impl; [|exact Hok]. intros a [Ha _]. eapply unit_align_p2, Ha. }
        exists (struct_sa ks :: ps). split; [constructor; [exists ks; auto|assumption]|].
        assert (ok_sa g (struct_sa ks)) as Hsk by (apply struct_sa_ok, ok_forall, Hok).
        split; [constructor; assumption|]. intros p Hp. cbn [fold_left]. apply P3, ustep_ok; assumption.
      + destruct fs as [|t [|t' fs]]; [| |cbn in R3; discriminate].
        * destruct (IH qs Hqs R2) as (ps & P1 & P2 & P3). exists ((0, 1) :: ps). split; [constructor; [reflexivity|assumption]|].
          split; [constructor; [apply unit_ok|assumption]|]. intros p Hp. cbn [fold_left]. destruct p as [s a], Hp as [Hp1 Hp2]. cbn [fst snd] in *.
          replace (ustep (s, a) (0, 1)) with (s, a); [apply P3; split; assumption|]. unfold ustep. cbn [fst snd].
          pose proof (p2_pos _ (unit_align_p2 _ _ Hp1)). rewrite !Nat.max_l by lia. rewrite nmo_id by assumption. reflexivity.
        * cbn [map] in Hqs. inversion Hqs as [|? q ? qs' Hq Hr]; subst. destruct (IH qs' Hr R2) as (ps & P1 & P2 & P3).
          exists (q :: ps). split; [constructor; assumption|].
          assert (ok_sa g q) as Hokq. { inversion Hv; subst. cbn [forallb] in R1. rewrite andb_true_r in R1. auto. }
          split; [constructor; assumption|]. intros p Hp. cbn [fold_left]. apply P3, ustep_ok; assumption. }
  exists ps. split; [assumption|]. split; [assumption|]. rewrite (P3 _ (unit_ok g)).
  destruct (fits_unions _ TUnit (0, 1) qs (ex_intro _ unit_d (conj eq_refl eq_refl)) Hqs) as (e & E' & F). rewrite <- F. congruence.
Qed.

Lemma in_units_mod d : in_units d = true -> dsize d mod dalign d = 0.
Proof. unfold in_units. rewrite andb_true_iff, Nat.eqb_eq. tauto. Qed.
Lemma regular_ok g t : forall p, regular g t = true -> fits (lower t) p -> ok_sa g p.
Proof.
  assert (forall a b p, fits (TPlain a b) p -> p = (a, b)) as Hplain by (intros a b p (d & E & <-); cbn in E; injection E as <-; reflexivity).
  induction t using src_rect'; intros p R F.
  - destruct F as (d & E & <-). injection E as <-. apply unit_ok.
  - apply Hplain in F as ->. cbn [regular] in R. apply andb_true_iff in R as [R1 R2]. apply Nat.eqb_eq in R1. subst.
    split; [exact R2|]. apply Nat.mod_same. pose proof (p2_pos _ (unit_align_p2 _ _ R2)). cbn [snd]. lia.
  - apply Hplain in F as ->. cbn [regular] in R. split; [exact R|]. apply Nat.mod_same. pose proof (p2_pos _ (unit_align_p2 _ _ R)). cbn [snd]. lia.
  - destruct F as (d & E & <-). cbn in E. injection E as <-. cbn [regular] in R. split; [exact R|]. apply Nat.mod_same. pose proof (p2_pos _ (unit_align_p2 _ _ R)). cbn. lia.
  - destruct F as (d & E & <-). cbn in E. injection E as <-. cbn [regular] in R. apply andb_true_iff in R as [R1 R2]. apply Nat.eqb_eq in R1. subst.
    split; [exact R2|]. apply Nat.mod_same. pose proof (p2_pos _ (unit_align_p2 _ _ R2)). cbn. lia.
  - destruct F as (d & E & <-). cbn in E. injection E as <-. cbn [regular] in R. split; [exact R|]. apply Nat.mod_same. pose proof (p2_pos _ (unit_align_p2 _ _ R)). cbn. lia.
  - destruct F as (d & E & <-). injection E as <-. split; reflexivity.
  - destruct F as (d & E & <-). injection E as <-. split; reflexivity.
  - destruct F as (d & E & <-). injection E as <-. split; reflexivity.
  - discriminate.
  - apply IHt; assumption.
  - cbn [regular] in R. destruct F as (d & E & <-). cbn [lower] in E. destruct (layout_struct_inv _ _ E) as (ps & Hps & ->).
    apply struct_sa_ok, ok_forall, (forall_fits g fs); assumption.
  - cbn [regular] in R. apply andb_true_iff in R as [R R3]. apply andb_true_iff in R as [R1 R2].
    destruct fs as [|t fs]; [discriminate|]. destruct F as (d & E & <-). cbn [lower map aligned_struct_ty layout] in E.
    destruct (layout (fields_ty (lower t) (map lower fs))) as [e|] eqn:Ee; [|discriminate]. injection E as <-.
    destruct (layout_fields_inv _ _ _ Ee) as (q & qs & Hq & Hqs).
    pose proof (forall_fits g (t :: fs) (q :: qs) H R2 (Forall2_cons _ _ Hq Hqs)) as Hok.
    destruct (fits_fields _ _ _ _ Hq Hqs) as (e' & E' & F'). assert (e' = e) by congruence. subst e'. inversion Hok as [|? ? O1 O2]; subst.
    assert (unit_align g (dalign e) = true) as He.
    { change (dalign e) with (snd (sa e)). rewrite F', fstep_align. apply fold_max_unit; [apply O1|apply ok_forall, O2]. }
    pose proof (unit_align_max _ _ _ R3 He) as Hm. split; cbn [sa fst snd aligned_struct dsize dalign]; [exact Hm|].
    apply nmo_mod. eapply p2_pos, unit_align_p2, Hm.
  - cbn [regular] in R. apply andb_true_iff in R as [R _]. destruct F as (d & E & <-). cbn [lower] in E. unfold union_ty in E.
    destruct (layout_unions_inv _ _ _ E) as (p0 & ps & _ & Hps).
    destruct (fits_unions _ TUnit (0, 1) ps (ex_intro _ unit_d (conj eq_refl eq_refl)) Hps) as (e & E' & F).
    assert (e = d) by congruence. subst e. rewrite F. apply usteps_ok; [apply unit_ok|]. apply (forall_fits g fs); assumption.
  - cbn [regular] in R. apply andb_true_iff in R as [R _]. apply andb_true_iff in R as [R R3]. apply andb_true_iff in R as [_ R2].
    destruct F as (d & E & <-). cbn [lower layout] in E. fold (low_variants vs) in E.
    destruct (layout (variants_layout (low_variants vs))) as [u|] eqn:Eu; [|discriminate]. cbn [option_map] in E. injection E as <-.
    destruct (datas_ok g vs u) as (ps & _ & Hps & Fu); [|exact R3|exact Eu|].
    { eapply Forall_impl; [|exact H]. intros v Hv. exact Hv. }
    assert (ok_sa g (sa u)) as [Hu _] by (rewrite Fu; apply usteps_ok; [apply unit_ok|assumption]).
    pose proof (unit_align_max _ _ _ R2 Hu) as Hm. split; [exact Hm|]. apply (nmo_mod (dsize (field_pair (plain_d w a) u))). eapply p2_pos, unit_align_p2, Hm.
  - cbn [regular] in R. destruct F as (d & E & <-). cbn [lower layout] in E. destruct (layout (lower t)) as [e|] eqn:Ee; [|discriminate].
    injection E as <-. destruct (IHt (sa e) R (ex_intro _ e (conj Ee eq_refl))) as [H1 H2]. split; [exact H1|].
    cbn [sa fst snd array_ dsize dalign] in *. pose proof (p2_pos _ (unit_align_p2 _ _ H1)). rewrite Nat.mul_mod, H2 by lia. apply Nat.mod_0_l. lia.
  - cbn [regular] in R. apply andb_true_iff in R as [R R3]. apply andb_true_iff in R as [R1 R2].
    destruct F as (d & E & <-). cbn [lower] in E. unfold ty_in_units in R3. rewrite E in R3. split; [|apply in_units_mod, R3].
    cbn [layout] in E. destruct (layout (lower t1)) as [d1|] eqn:E1; [|discriminate]. destruct (layout (lower t2)) as [d2|] eqn:E2; [|discriminate].
    destruct (provider_of d1 d2) as [pr|]; [|discriminate]. injection E as <-.
    apply unit_align_max; [apply (IHt1 (sa d1)); [assumption|exists d1; auto]|apply (IHt2 (sa d2)); [assumption|exists d2; auto]].
Qed.

(** ** Arrays of units *)
Lemma fits_c_struct ts ps : Forall2 fits ts ps -> Forall (fun p => p2 (snd p)) ps ->
  exists os, c_struct 1 ps os (fst (struct_sa ps)) (snd (struct_sa ps)).
Proof.
  intros H Hp. destruct H as [|t p ts ps Ht Hts].
  - exists []. split; [reflexivity|]. exists 0. split; [constructor|apply first_multiple_0].
  - assert (exists d0 ds, layout t = Some d0 /\ Forall2 (fun t d => layout t = Some d) ts ds /\ map sa (d0 :: ds) = p :: ps) as (d0 & ds & E0 & Es & Em).
    { destruct Ht as (d & E & <-). clear Hp. assert (exists ds, Forall2 (fun t d => layout t = Some d) ts ds /\ map sa ds = ps) as (ds & A & B).
      { induction Hts as [|t' p' ts ps Ht' Hts IH]; [exists []; split; constructor|]. destruct IH as (ds & A & B), Ht' as (e & Ee & <-).
        exists (e :: ds). split; [constructor; assumption|]. cbn. congruence. }
      exists d, ds. split; [assumption|]. split; [assumption|]. cbn. congruence. }
    destruct (struct_c t ts d0 ds E0 Es) as (d & os & E & C).
    { rewrite <- Em in Hp. clear -Hp. revert Hp. generalize (d0 :: ds). intros l H. induction l as [|x l IH]; constructor; inversion H; subst.
      - apply p2_pos. assumption.
      - apply IH. assumption. }
    exists os. rewrite <- Em. destruct (fits_struct (t :: ts) (map sa (d0 :: ds))) as (d' & E' & F').
    { rewrite Em. constructor; assumption. }
    assert (d' = d) by congruence. subst d'. rewrite <- F'. exact C.
Qed.

(** What the C type of a type is required to be, with size and alignment [p]. *)
Definition cgood (g : tgt) (c : src) (p : nat * nat) : Prop :=
  regular g c = true /\ fits (lower c) p /\ occupies g c (fst p) (snd p) /\ ctype g c = Some c.
Definition cplain (g : tgt) (c : src) (p : nat * nat) : Prop := cgood g c p /\ ctype_plain g c = Some c.

Lemma as_uint_good g a : unit_align g a = true -> exists u, as_uint g a = Some u /\ cplain g u (a, a).
Proof.
  intros H. pose proof H as Hc. apply unit_align_cases in Hc.
  assert (forall n, as_uint g n = Some (XInt n n) -> unit_align g n = true -> cplain g (XInt n n) (n, n)) as Hi.
  { intros n E Hn. split; [|exact E]. split; [cbn [regular]; rewrite Nat.eqb_refl, Hn; reflexivity|]. split; [exists (plain_d n n); split; reflexivity|].
    split; [constructor|exact E]. }
  destruct Hc as [->|[->|[->|[[-> E]|[[-> E]|Hl]]]]].
  - exists (XInt 1 1). split; [reflexivity|]. apply Hi; auto.
  - exists (XInt 2 2). split; [reflexivity|]. apply Hi; auto.
  - exists (XInt 4 4). split; [reflexivity|]. apply Hi; auto.
  - exists (XInt 8 8). assert (as_uint g 8 = Some (XInt 8 8)) as E' by (cbn [as_uint]; rewrite E; reflexivity). split; [exact E'|]. apply Hi; auto.
  - exists (XInt 16 16). assert (as_uint g 16 = Some (XInt 16 16)) as E' by (cbn [as_uint]; rewrite E; reflexivity). split; [exact E'|]. apply Hi; auto.
  - destruct (large_p2 _ Hl) as [Hp Hb].
    assert (as_uint g a = Some (XAligned [XArr (XInt 1 1) a] a)) as Ea.
    { clear -Hl Hb. unfold as_uint. do 17 (destruct a as [|a]; [exfalso; lia|]). rewrite Hl. reflexivity. }
    exists (XAligned [XArr (XInt 1 1) a] a). split; [exact Ea|]. split; [|reflexivity].
    split; [cbn; rewrite H; reflexivity|].
    assert (fits (lower (XAligned [XArr (XInt 1 1) a] a)) (a, a)) as Hf.
    { eexists. split; [reflexivity|]. unfold sa. cbn [aligned_struct array_ plain_d dsize dalign]. rewrite Nat.max_l by lia.
      rewrite Nat.mul_1_l, nmo_id; [reflexivity|]. apply Nat.mod_same. lia. }
    split; [exact Hf|]. split; [|reflexivity].
    apply (o_aligned g _ _ [(a * 1, 1)] [0]); [constructor; [constructor; constructor|constructor]|].
    cbn [fst snd]. split; [cbn; lia|]. exists (a * 1). split.
    + replace (a * 1) with (0 + a * 1) at 2 by lia. constructor; [apply first_multiple_0|constructor].
    + rewrite Nat.mul_1_r. split; [exists 1; lia|]. split; [lia|]. intros k Hk. exact Hk.
Qed.

Lemma occupies_tuple g x y p q : regular g x = true -> regular g y = true -> fits (lower x) p -> fits (lower y) q ->
  occupies g x (fst p) (snd p) -> occupies g y (fst q) (snd q) ->
  fits (lower (XStruct [x; y])) (struct_sa [p; q]) /\ occupies g (XStruct [x; y]) (fst (struct_sa [p; q])) (snd (struct_sa [p; q])).
Proof.
  intros Rx Ry Fx Fy Ox Oy. assert (Forall2 fits [lower x; lower y] [p; q]) as HF by (constructor; [assumption|constructor; [assumption|constructor]]).
  split; [apply (fits_struct [lower x; lower y]), HF|].
  destruct (fits_c_struct _ _ HF) as (os & C).
  { constructor; [|constructor; [|constructor]]; [destruct (regular_ok _ _ _ Rx Fx) as [E _]|destruct (regular_ok _ _ _ Ry Fy) as [E _]]; exact (unit_align_p2 _ _ E). }
  apply (o_struct g _ [p; q] os); [|exact C]. destruct p, q. constructor; [assumption|constructor; [assumption|constructor]].
Qed.
Lemma tuple_good g x y u v a : cplain g x (u, a) -> cplain g y (v, a) -> cplain g (XStruct [x; y]) (u + v, a).
Proof.
  intros [(Rx & Fx & Ox & Cx) Px] [(Ry & Fy & Oy & Cy) Py]. destruct (occupies_tuple g x y _ _ Rx Ry Fx Fy Ox Oy) as [F O].
  destruct (regular_ok _ _ _ Rx Fx) as [_ Mx], (regular_ok _ _ _ Ry Fy) as [Ha My]. cbn [fst snd] in *. pose proof (p2_pos _ (unit_align_p2 _ _ Ha)) as Hpos.
  assert (struct_sa [(u, a); (v, a)] = (u + v, a)) as E.
  { unfold struct_sa, fold_left, fstep. cbn [fst snd]. rewrite Nat.max_id. rewrite (nmo_id u) by assumption.
    rewrite nmo_id; [reflexivity|]. apply mod_0_add; assumption. }
  rewrite E in *. split; [|cbn [ctype_plain omap]; rewrite Px, Py; reflexivity].
  split; [cbn [regular forallb]; rewrite Rx, Ry; reflexivity|]. split; [exact F|]. split; [exact O|].
  cbn [ctype omap]. rewrite Cx, Cy. reflexivity.
Qed.
Lemma empty_fits t s a : fits (lower t) (s, a) -> empty t = Nat.eqb s 0.
Proof. intros (d & E & F). unfold empty. rewrite E. unfold sa in F. injection F as -> _. reflexivity. Qed.
Lemma add_to_array_good g a s : 0 < s -> forall n lsb stack m k, 0 < k -> cplain g stack (k * s, a) ->
  (m = 0 /\ lsb = XUnit \/ 0 < m /\ cplain g lsb (m * s, a)) ->
  cplain g (add_to_array n lsb stack) ((m + k * Pos.to_nat n) * s, a).
Proof.
  intros Hs. induction n as [n IH|n IH|]; intros lsb stack m k Hk Hst Hl; cbn [add_to_array].
  - assert (cplain g (if empty lsb then stack else XStruct [stack; lsb]) ((m + k) * s, a)) as Hm.
    { destruct Hl as [[-> ->]|[Hm Hl]]; [exact Hst|]. rewrite (empty_fits lsb (m * s) a) by apply Hl.
      destruct (Nat.eqb_spec (m * s) 0) as [E|_]; [exfalso; apply Nat.mul_eq_0 in E; lia|].
      replace ((m + k) * s) with (k * s + m * s) by lia. apply tuple_good; assumption. }
    rewrite Pos2Nat.inj_xI. replace ((m + k * S (2 * Pos.to_nat n)) * s) with ((m + k + (2 * k) * Pos.to_nat n) * s) by lia.
    apply IH; [lia| |right; split; [lia|exact Hm]]. replace (2 * k * s) with (k * s + k * s) by lia. apply tuple_good; assumption.
  - rewrite Pos2Nat.inj_xO. replace ((m + k * (2 * Pos.to_nat n)) * s) with ((m + (2 * k) * Pos.to_nat n) * s) by lia.
    apply IH; [lia| |exact Hl]. replace (2 * k * s) with (k * s + k * s) by lia. apply tuple_good; assumption.
  - rewrite Pos2Nat.inj_1, Nat.mul_1_r. destruct Hl as [[-> ->]|[Hm Hl]]; [exact Hst|]. rewrite (empty_fits lsb (m * s) a) by apply Hl.
    destruct (Nat.eqb_spec (m * s) 0) as [E|_]; [exfalso; apply Nat.mul_eq_0 in E; lia|].
    replace ((m + k) * s) with (k * s + m * s) by lia. apply tuple_good; assumption.
Qed.
Lemma tuple_array_good g t s a n : 0 < s -> 0 < n -> cplain g t (s, a) -> cplain g (tuple_array n t) (n * s, a).
Proof.
  intros Hs Hn H. unfold tuple_array. destruct (N.of_nat n) as [|p] eqn:E; [exfalso; lia|].
  replace (n * s) with ((0 + 1 * Pos.to_nat p) * s) by (replace n with (Pos.to_nat p) by lia; lia).
  apply add_to_array_good; [assumption|lia|rewrite Nat.mul_1_l; exact H|left; auto].
Qed.
Lemma unit_good g : cplain g XUnit (0, 1).
Proof. split; [|reflexivity]. split; [reflexivity|]. split; [exists unit_d; split; reflexivity|]. split; [constructor|reflexivity]. Qed.
Lemma uint_array_good g d : unit_align g (dalign d) = true -> in_units d = true ->
  exists s, uint_array g d = Some s /\ cplain g s (sa d).
Proof.
  intros Ha Hu. destruct (as_uint_good g _ Ha) as (u & E & Hg). unfold uint_array. rewrite E. eexists. split; [reflexivity|].
  unfold in_units in Hu. apply andb_true_iff in Hu as [Hm Hz]. apply Nat.eqb_eq in Hm. pose proof (p2_pos _ (unit_align_p2 _ _ Ha)) as Hp.
  apply orb_true_iff in Hz. rewrite Nat.ltb_lt, Nat.eqb_eq in Hz.
  pose proof (Nat.div_mod (dsize d) (dalign d)) as Hd. rewrite Hm, Nat.add_0_r in Hd. unfold sa.
  destruct (Nat.eq_dec (dsize d) 0) as [E0|E0].
  - assert (dalign d = 1) as E1 by lia. rewrite E0, E1. apply unit_good.
  - rewrite Hd at 2 by lia. rewrite Nat.mul_comm. apply tuple_array_good; [assumption| |exact Hg].
    destruct (dsize d / dalign d); [exfalso; lia|lia].
Qed.

(** ** Regular types occupy what they declare *)
Lemma occupy_list g (fs : list src) ps :
  Forall (fun t => forall p, regular g t = true -> fits (lower t) p -> occupies g t (fst p) (snd p)) fs ->
  forallb (regular g) fs = true -> Forall2 fits (map lower fs) ps -> occupy g fs ps /\ Forall (ok_sa g) ps.
Proof.
  intros H. revert ps. induction H as [|t fs Ht Hfs IH]; intros ps R F; cbn [map] in F; inversion F as [|? p ? ps' Hp Hps]; subst.
  - split; constructor.
  - cbn [forallb] in R. apply andb_true_iff in R as [R1 R2]. destruct (IH ps' R2 Hps) as [O K]. specialize (Ht p R1 Hp).
    split; [destruct p; constructor; assumption|constructor; [eapply regular_ok; eassumption|assumption]].
Qed.
Lemma ok_p2 g ps : Forall (ok_sa g) ps -> Forall (fun p => p2 (snd p)) ps.
Proof. intros H. eapply Forall_impl; [|exact H]. intros p [E _]. exact (unit_align_p2 _ _ E). Qed.
Lemma usteps_c_union g ps : Forall (ok_sa g) ps -> c_union ps (fst (fold_left ustep ps (0, 1))) (snd (fold_left ustep ps (0, 1))).
Proof.
  intros H. assert (p2 1) as P1 by (exists 0; reflexivity). pose proof (ustep_fold ps 0 1 P1 (ok_p2 _ _ H)) as E.
  rewrite nmo_1 in E. rewrite E. cbn [fst snd]. split; [reflexivity|]. apply nmo_first.
  pose proof (fold_max_pos (map snd ps) 1). lia.
Qed.
Lemma occupy_vars g vs : Forall (fun v : bool * list src => Forall (fun t => forall p, regular g t = true -> fits (lower t) p -> occupies g t (fst p) (snd p)) (snd v)) vs ->
  forallb (reg_variant g) vs = true -> forall ps, Forall2 psa vs ps -> occupy_variants g vs ps.
Proof.
  induction 1 as [|[named fs] vs Hv Hvs IH]; intros R ps F; inversion F as [|? p ? ps' Hp Hps]; subst; [constructor|].
  cbn [forallb reg_variant] in R. apply andb_true_iff in R as [R1 R2]. apply andb_true_iff in R1 as [R1 R3]. specialize (IH R2 ps' Hps).
  cbn [snd] in Hv. destruct named.
  - destruct Hp as (ks & Hks & ->). destruct (occupy_list g fs ks Hv R1 Hks) as [O K]. destruct (fits_c_struct _ _ Hks (ok_p2 _ _ K)) as [os C].
    rewrite (surjective_pairing (struct_sa ks)). eapply v_many; eassumption.
  - destruct fs as [|t [|t' fs]]; [| |cbn in R3; discriminate].
    + cbn in Hp. subst. constructor. exact IH.
    + cbn in Hp. inversion Hv; subst. cbn [forallb] in R1. rewrite andb_true_r in R1. destruct p. constructor; [|exact IH].
      match goal with H : forall p, _ -> _ -> _ |- _ => exact (H _ R1 Hp) end.
Qed.
Lemma enum_parts g w a vs p : regular g (XEnum w a vs) = true -> fits (lower (XEnum w a vs)) p ->
  exists u ps, layout (variants_layout (low_variants vs)) = Some u /\ Forall2 psa vs ps /\ Forall (ok_sa g) ps /\
    sa u = fold_left ustep ps (0, 1) /\ in_units u = true /\ p = struct_sa [(w, a); sa u] /\ Nat.eqb w a = true /\ w <= 8 /\ unit_align g a = true /\
    forallb (reg_variant g) vs = true.
Proof.
  intros R F. cbn [regular] in R. fold (low_variants vs) in R. apply andb_true_iff in R as [R R4]. apply andb_true_iff in R as [R R3]. apply andb_true_iff in R as [R R2]. apply andb_true_iff in R as [R0 R1].
  pose proof F as (d & E & _). cbn [lower layout] in E. fold (low_variants vs) in E.
  destruct (layout (variants_layout (low_variants vs))) as [u|] eqn:Eu; [|discriminate]. clear E d.
  destruct (datas_ok g vs u) as (ps & P1 & P2 & P3); [|exact R3|exact Eu|].
  { clear. induction vs as [|[b fs] vs IH]; constructor; [|exact IH]. cbn [snd]. induction fs; constructor; [|assumption]. intros p. apply regular_ok. }
  exists u, ps. repeat (split; [assumption || reflexivity|]). split; [unfold ty_in_units in R4; rewrite Eu in R4; exact R4|].
  split; [|apply Nat.leb_le in R1; auto].
  apply (fits_fun _ _ _ F). change (lower (XEnum w a vs)) with (struct_ty [TPlain w a; variants_layout (low_variants vs)]).
  apply fits_struct. constructor; [exists (plain_d w a); split; reflexivity|]. constructor; [exists u; auto|constructor].
Qed.
Lemma regular_occupies g t : forall p, regular g t = true -> fits (lower t) p -> occupies g t (fst p) (snd p).
Proof.
  induction t using src_rect'; intros p R F;
    try (destruct F as (d & E & <-); cbn in E; injection E as <-; constructor; fail).
  - constructor. apply IHt; assumption.
  - cbn [regular] in R. pose proof F as (d & E & Ed). cbn [lower] in E. destruct (layout_struct_inv _ _ E) as (ps & Hps & Es).
    destruct (occupy_list g fs ps H R Hps) as [O K]. destruct (fits_c_struct _ _ Hps (ok_p2 _ _ K)) as [os C]. rewrite <- Ed, Es.
    eapply o_struct; eassumption.
  - cbn [regular] in R. apply andb_true_iff in R as [R R3]. apply andb_true_iff in R as [R1 R2].
    destruct fs as [|t fs]; [discriminate|]. destruct F as (d & E & <-). cbn [lower map] in E.
    pose proof E as E0. cbn [aligned_struct_ty layout] in E0.
    destruct (layout (fields_ty (lower t) (map lower fs))) as [e|] eqn:Ee; [|discriminate]. clear E0.
    destruct (layout_fields_inv _ _ _ Ee) as (q & qs & Hq & Hqs).
    destruct (occupy_list g (t :: fs) (q :: qs) H R2 (Forall2_cons _ _ Hq Hqs)) as [O K].
    assert (exists d0 ds, layout (lower t) = Some d0 /\ Forall2 (fun t d => layout t = Some d) (map lower fs) ds /\ map sa (d0 :: ds) = q :: qs) as (d0 & ds & E0 & Es & Em).
    { destruct Hq as (x & Ex & <-). assert (exists ds, Forall2 (fun t d => layout t = Some d) (map lower fs) ds /\ map sa ds = qs) as (ds & A & B).
      { clear -Hqs. induction Hqs as [|t' p' ts ps Ht' Hts IH]; [exists []; split; constructor|]. destruct IH as (ds & A & B), Ht' as (e & Ee & <-).
        exists (e :: ds). split; [constructor; assumption|]. cbn. congruence. }
      exists x, ds. split; [assumption|]. split; [assumption|]. cbn. congruence. }
    destruct (aligned_struct_c (lower t) (map lower fs) d0 ds al E0 Es) as (d' & os & E' & C).
    { pose proof (ok_p2 _ _ K) as Hp. rewrite <- Em in Hp. clear -Hp. revert Hp. generalize (d0 :: ds). intros l H. induction l as [|x l IH]; constructor; inversion H; subst.
      - apply p2_pos. assumption.
      - apply IH. assumption. }
    assert (d' = d) by congruence. subst d'. rewrite Em in C. eapply o_aligned; eassumption.
  - cbn [regular] in R. apply andb_true_iff in R as [R _]. destruct F as (d & E & Ed). cbn [lower] in E. unfold union_ty in E.
    destruct (layout_unions_inv _ _ _ E) as (p0 & ps & _ & Hps).
    destruct (occupy_list g fs ps H R Hps) as [O K].
    assert (p = fold_left ustep ps (0, 1)) as ->.
    { apply (fits_fun (fold_left TUnion (map lower fs) TUnit)); [exists d; auto|]. apply fits_unions; [exists unit_d; split; reflexivity|assumption]. }
    eapply o_union; [exact O|]. eapply usteps_c_union, K.
  - destruct (enum_parts g w a vs p R F) as (u & ps & Eu & P1 & P2 & P3 & _ & Ep & E1 & _ & E2 & R3).
    apply Nat.eqb_eq in E1. subst a. pose proof (usteps_c_union _ _ P2) as CU. rewrite <- P3 in CU.
    assert (Forall2 fits [TPlain w w; variants_layout (low_variants vs)] [(w, w); sa u]) as HF.
    { constructor; [exists (plain_d w w); split; reflexivity|]. constructor; [exists u; auto|constructor]. }
    destruct (fits_c_struct _ _ HF) as [os C].
    { constructor; [exact (unit_align_p2 _ _ E2)|]. constructor; [|constructor]. rewrite P3. destruct (usteps_ok g ps (0, 1) (unit_ok g) P2) as [E _]. exact (unit_align_p2 _ _ E). }
    rewrite Ep. eapply o_enum; [|exact CU|rewrite <- (surjective_pairing (sa u)); exact C]. apply occupy_vars; assumption.
  - cbn [regular] in R. destruct F as (d & E & <-). cbn [lower layout] in E. destruct (layout (lower t)) as [e|] eqn:Ee; [|discriminate].
    injection E as <-. unfold sa. cbn [array_ dsize dalign fst snd]. rewrite Nat.mul_comm. constructor. apply (IHt (sa e)); [assumption|exists e; auto].
  - pose proof (regular_ok g (XResult t1 t2) p R F) as [Hu _]. cbn [regular] in R. apply andb_true_iff in R as [R R3].
    destruct F as (d & E & <-). cbn [lower] in E. unfold ty_in_units in R3. rewrite E in R3.
    destruct (uint_array_good g d Hu R3) as (st & Es & [(Rs & Fs & Os & _) _]).
    eapply o_result; [exact E|exact Es|].
    assert (Forall2 fits [lower st] [sa d]) as HF by (constructor; [assumption|constructor]).
    destruct (fits_c_struct _ _ HF) as [os C]; [constructor; [exact (unit_align_p2 _ _ Hu)|constructor]|].
    assert (struct_sa [sa d] = sa d) as Ed. { unfold struct_sa, sa. cbn [fold_left fst snd]. rewrite nmo_id; [reflexivity|apply in_units_mod, R3]. }
    rewrite Ed in C. eapply o_struct; [|exact C]. unfold sa in *. constructor; [exact Os|constructor].
Qed.

(** ** C types *)
Lemma omap_cons {A B : Type} (f : A -> option B) x l :
  omap f (x :: l) = match f x, omap f l with Some y, Some r => Some (y :: r) | _, _ => None end.
Proof. reflexivity. Qed.
Lemma omap_good g (fs : list src) : Forall (fun t => forall p, regular g t = true -> fits (lower t) p -> exists c, ctype g t = Some c /\ cgood g c p) fs ->
  forallb (regular g) fs = true -> forall ps, Forall2 fits (map lower fs) ps -> exists cs, omap (ctype g) fs = Some cs /\ Forall2 (cgood g) cs ps.
Proof.
  induction 1 as [|t fs Ht Hfs IH]; intros R ps F; cbn [map] in F; inversion F as [|? p ? ps' Hp Hps]; subst.
  - exists []. split; [reflexivity|constructor].
  - cbn [forallb] in R. apply andb_true_iff in R as [R1 R2]. destruct (IH R2 ps' Hps) as (cs & E & G), (Ht p R1 Hp) as (c & Ec & Gc).
    exists (c :: cs). split; [rewrite omap_cons, Ec, E; reflexivity|constructor; assumption].
Qed.
Lemma struct_good g cs ps : Forall2 (cgood g) cs ps -> cgood g (XStruct cs) (struct_sa ps).
Proof.
  intros H. assert (Forall2 fits (map lower cs) ps) as HF by (induction H as [|c p cs ps (_ & F & _) _ IH]; cbn [map]; constructor; assumption).
  assert (Forall (ok_sa g) ps) as K by (clear HF; induction H as [|c p cs ps (R & F & _) _ IH]; constructor; [eapply regular_ok; eassumption|assumption]).
  assert (occupy g cs ps) as O by (clear HF K; induction H as [|c [s a] cs ps (_ & _ & O & _) _ IH]; constructor; assumption).
  split; [cbn [regular]; clear HF K O; induction H as [|c p cs ps (R & _) _ IH]; cbn [forallb]; [reflexivity|rewrite R, IH; reflexivity]|].
  split; [cbn [lower]; apply fits_struct, HF|]. split.
  - destruct (fits_c_struct _ _ HF (ok_p2 _ _ K)) as [os C]. eapply o_struct; eassumption.
  - cbn [ctype]. assert (omap (ctype g) cs = Some cs) as ->; [|reflexivity]. clear HF K O.
    induction H as [|c p cs ps (_ & _ & _ & C) _ IH]; [reflexivity|]. rewrite omap_cons, C, IH. reflexivity.
Qed.
Lemma union_ctype_good g u d : layout u = Some d -> unit_align g (dalign d) = true -> in_units d = true ->
  exists s, union_ctype g u = Some s /\ cgood g s (sa d).
Proof.
  intros E Ha Hu. destruct (uint_array_good g d Ha Hu) as (s & Es & [G _]).
  destruct u; try (exists s; unfold union_ctype; rewrite E; split; assumption).
  cbn in E. injection E as <-. exists XUnit. split; [reflexivity|apply unit_good].
Qed.
Lemma psa_types g vs ps : Forall (fun v : bool * list src => Forall (fun t => forall p, regular g t = true -> fits (lower t) p -> exists c, ctype g t = Some c /\ cgood g c p) (snd v)) vs ->
  forallb (reg_variant g) vs = true -> Forall2 psa vs ps ->
  exists ts, omap (fun v : bool * list src =>
              let (named, fs) := v in
              if named then option_map (fun cs => struct_ty (map lower cs)) (omap (ctype g) fs)
              else Some (match fs with [] => TUnit | t :: _ => lower t end)) vs = Some ts /\ Forall2 fits ts ps.
Proof.
  intros H. revert ps. induction H as [|[named fs] vs Hv Hvs IH]; intros ps R F; inversion F as [|? p ? ps' Hp Hps]; subst.
  - exists []. split; [reflexivity|constructor].
  - cbn [forallb reg_variant] in R. apply andb_true_iff in R as [R1 R2]. apply andb_true_iff in R1 as [R1 R3].
    destruct (IH ps' R2 Hps) as (ts & E & G). rewrite omap_cons.
    rewrite E. cbn [snd] in Hv. destruct named.
    + destruct Hp as (ks & Hks & ->). destruct (omap_good g fs Hv R1 ks Hks) as (cs & Ec & Gc). rewrite Ec. eexists. split; [reflexivity|].
      constructor; [|assumption]. apply fits_struct. clear -Gc. induction Gc as [|c p cs ps (_ & F & _) _ IH]; cbn [map]; constructor; assumption.
    + eexists. split; [reflexivity|]. constructor; [|assumption]. destruct fs as [|t fs]; cbn in Hp; [subst; exists unit_d; split; reflexivity|exact Hp].
Qed.
Lemma enum_payload g w a vs p :
  Forall (fun v : bool * list src => Forall (fun t => forall p, regular g t = true -> fits (lower t) p -> exists c, ctype g t = Some c /\ cgood g c p) (snd v)) vs ->
  regular g (XEnum w a vs) = true -> fits (lower (XEnum w a vs)) p ->
  exists u du, ctype g (XEnum w a vs) = Some (XStruct [XInt w a; u]) /\ layout (variants_layout (low_variants vs)) = Some du /\
    cgood g u (sa du) /\ cgood g (XInt w a) (w, a).
Proof.
  intros H R F. destruct (enum_parts g w a vs p R F) as (u & ps & Eu & P1 & P2 & P3 & Hin & Ep & E1 & E8 & E2 & R3).
  apply Nat.eqb_eq in E1. subst a. destruct (psa_types g vs ps H R3 P1) as (ts & Ets & Fts).
  assert (fits (crepr_union ts) (sa u)) as (u' & Eu' & Fu').
  { rewrite P3. apply fits_unions_rev; [exists unit_d; split; reflexivity|assumption]. }
  assert (ok_sa g (sa u)) as [Hua _] by (rewrite P3; apply usteps_ok; [apply unit_ok|assumption]).
  unfold sa in Fu'. injection Fu' as Z1 Z2.
  destruct (union_ctype_good g (crepr_union ts) u' Eu') as (c & Ec & Gc).
  { rewrite Z2. exact Hua. }
  { unfold in_units in *. rewrite Z1, Z2. exact Hin. }
  exists c, u. cbn [ctype]. rewrite Ets. unfold option_map. rewrite Ec. split; [reflexivity|]. split; [exact Eu|].
  split; [unfold sa in Gc |- *; rewrite Z1, Z2 in Gc; exact Gc|].
  assert (as_uint g w = Some (XInt w w)) as Ew.
  { clear -E2 E8. apply unit_align_cases in E2 as [->|[->|[->|[[-> E]|[[-> E]|E]]]]]; try reflexivity; [cbn; rewrite E; reflexivity|lia|].
    apply large_p2 in E. lia. }
  split; [cbn [regular]; rewrite Nat.eqb_refl; exact E2|]. split; [exists (plain_d w w); split; reflexivity|]. split; [constructor|exact Ew].
Qed.
Lemma ctype_good g t : forall p, regular g t = true -> fits (lower t) p -> exists c, ctype g t = Some c /\ cgood g c p.
Proof.
  assert (forall a, unit_align g a = true -> exists c, as_uint g a = Some c /\ cgood g c (a, a)) as Hu.
  { intros a H. destruct (as_uint_good g a H) as (u & E & [G _]). exists u. split; assumption. }
  induction t using src_rect'; intros p R F.
  - destruct F as (d & E & <-). injection E as <-. exists XUnit. split; [reflexivity|apply unit_good].
  - destruct F as (d & E & <-). injection E as <-. cbn [regular] in R. apply andb_true_iff in R as [R1 R2]. apply Nat.eqb_eq in R1. subst. apply Hu, R2.
  - destruct F as (d & E & <-). injection E as <-. cbn [regular] in R. exists (XUsize w). split; [reflexivity|]. split; [exact R|].
    split; [exists (plain_d w w); split; reflexivity|]. split; [constructor|reflexivity].
  - destruct F as (d & E & <-). injection E as <-. cbn [regular] in R. exists (XUsize w). split; [reflexivity|]. split; [exact R|].
    split; [exists (plain_d w w); split; reflexivity|]. split; [constructor|reflexivity].
  - destruct F as (d & E & <-). injection E as <-. cbn [regular] in R. apply andb_true_iff in R as [R1 R2]. apply Nat.eqb_eq in R1. subst. apply Hu, R2.
  - destruct F as (d & E & <-). injection E as <-. cbn [regular] in R. apply Hu, R.
  - destruct F as (d & E & <-). injection E as <-. apply Hu. reflexivity.
  - destruct F as (d & E & <-). injection E as <-. apply (Hu 1). reflexivity.
  - destruct F as (d & E & <-). injection E as <-. apply (Hu 1). reflexivity.
  - discriminate.
  - apply IHt; assumption.
  - cbn [regular] in R. pose proof F as (d & E & Ed). cbn [lower] in E. destruct (layout_struct_inv _ _ E) as (ps & Hps & Es).
    destruct (omap_good g fs H R ps Hps) as (cs & Ec & Gc). exists (XStruct cs). cbn [ctype]. rewrite Ec. split; [reflexivity|].
    rewrite <- Ed, Es. apply struct_good, Gc.
  - exists (XAligned fs al). split; [reflexivity|]. split; [assumption|]. split; [assumption|]. split; [apply regular_occupies; assumption|reflexivity].
  - pose proof (regular_ok _ _ _ R F) as [Ha _]. cbn [regular] in R. apply andb_true_iff in R as [_ R]. destruct F as (d & E & <-). cbn [lower] in E.
    unfold ty_in_units in R. rewrite E in R. cbn [ctype]. apply union_ctype_good; assumption.
  - destruct (enum_payload g w a vs p H R F) as (u & du & Ec & Eu & Gu & Gt). exists (XStruct [XInt w a; u]). split; [exact Ec|].
    destruct (enum_parts g w a vs p R F) as (du' & ps & Eu' & _ & _ & _ & _ & -> & _). assert (du' = du) by congruence. subst du'.
    apply struct_good. constructor; [exact Gt|]. constructor; [exact Gu|constructor].
  - cbn [regular] in R. destruct F as (d & E & <-). cbn [lower layout] in E. destruct (layout (lower t)) as [e|] eqn:Ee; [|discriminate].
    injection E as <-. destruct (IHt (sa e) R (ex_intro _ e (conj Ee eq_refl))) as (c & Ec & (Rc & Fc & Oc & Cc)).
    exists (XArr c n). cbn [ctype]. rewrite Ec. split; [reflexivity|]. destruct Fc as (x & Ex & Fx). unfold sa in *. injection Fx as X1 X2.
    assert (fits (lower (XArr c n)) (dsize (array_ e n), dalign (array_ e n))) as Hf.
    { exists (array_ x n). cbn [lower layout]. rewrite Ex. split; [reflexivity|]. unfold sa. cbn. congruence. }
    split; [exact Rc|]. split; [exact Hf|]. split; [|cbn [ctype]; rewrite Cc; reflexivity].
    apply (regular_occupies g (XArr c n) _ Rc Hf).
  - pose proof (regular_ok g (XResult t1 t2) p R F) as [Ha _]. cbn [regular] in R. apply andb_true_iff in R as [R R3].
    destruct F as (d & E & <-). cbn [lower] in E. unfold ty_in_units in R3. rewrite E in R3.
    destruct (uint_array_good g d Ha R3) as (st & Es & [G P]). exists (XStruct [st]). cbn [ctype]. rewrite E, Es, P. split; [reflexivity|].
    assert (struct_sa [sa d] = sa d) as Ed. { unfold struct_sa, sa. cbn [fold_left fst snd]. rewrite nmo_id; [reflexivity|apply in_units_mod, R3]. }
    rewrite <- Ed. apply struct_good. constructor; [exact G|constructor].
Qed.
Lemma ctype_enum_payload g w a vs p : regular g (XEnum w a vs) = true -> fits (lower (XEnum w a vs)) p ->
  exists u du, ctype g (XEnum w a vs) = Some (XStruct [XInt w a; u]) /\ layout (variants_layout (low_variants vs)) = Some du /\ occupies g u (dsize du) (dalign du).
Proof.
  intros R F. destruct (enum_payload g w a vs p) as (u & du & E1 & E2 & (_ & _ & O & _) & _); [|exact R|exact F|exists u, du; auto].
  apply Forall_forall. intros v _. apply Forall_forall. intros t _. apply ctype_good.
Qed.

(** ** A type occupies one size and alignment *)
Scheme occupies_mut := Induction for occupies Sort Prop
with occupy_mut := Induction for occupy Sort Prop
with occupy_variants_mut := Induction for occupy_variants Sort Prop.
Lemma c_union_fun l s a s' a' : c_union l s a -> c_union l s' a' -> s = s' /\ a = a'.
Proof. intros [-> H] [-> H']. split; [|reflexivity]. eapply first_multiple_unique; eassumption. Qed.
Ltac same := repeat match goal with
  | H : forall s' a', occupies ?g ?t s' a' -> _, H' : occupies ?g ?t _ _ |- _ => destruct (H _ _ H') as [? ?]; subst; clear H'
  | H : forall l', occupy ?g ?t l' -> _, H' : occupy ?g ?t _ |- _ => pose proof (H _ H'); subst; clear H'
  | H : forall l', occupy_variants ?g ?t l' -> _, H' : occupy_variants ?g ?t _ |- _ => pose proof (H _ H'); subst; clear H'
  | H : c_struct _ _ _ _ _, H' : c_struct _ _ _ _ _ |- _ => destruct (c_struct_fun _ _ _ _ _ _ _ _ H H') as (? & ? & ?); subst; clear H'
  | H : c_union _ _ _, H' : c_union _ _ _ |- _ => destruct (c_union_fun _ _ _ _ _ H H') as (? & ?); subst; clear H'
  end.
Lemma occupies_fun g t s a : occupies g t s a -> forall s' a', occupies g t s' a' -> s = s' /\ a = a'.
Proof.
  intros H. induction H using occupies_mut with
    (P0 := fun fs l _ => forall l', occupy g fs l' -> l = l')
    (P1 := fun vs l _ => forall l', occupy_variants g vs l' -> l = l');
  match goal with |- forall s' a', _ -> _ = _ /\ _ => intros s' a' Hx; inversion Hx; subst | |- forall l', _ -> _ = _ => intros l' Hx; inversion Hx; subst end;
  try (same; auto; fail).
  match goal with H : layout _ = Some ?x, H' : layout _ = Some d |- _ => assert (x = d) by congruence; subst x end.
  match goal with H : uint_array g _ = Some ?x, H' : uint_array g _ = Some st |- _ => assert (x = st) by congruence; subst x end. same. auto.
Qed.
Lemma occupy_variants_fun g vs : forall l l', occupy_variants g vs l -> occupy_variants g vs l' -> l = l'.
Proof.
  assert (forall fs l l', occupy g fs l -> occupy g fs l' -> l = l') as Ho.
  { induction fs as [|t fs IH]; intros l l' H H'; inversion H; inversion H'; subst; [reflexivity|].
    match goal with A : occupies g t ?s ?a, B : occupies g t ?s' ?a' |- _ => destruct (occupies_fun g t s a A s' a' B); subst end. f_equal. auto. }
  induction vs as [|v vs IH]; intros l l' H H'; inversion H; subst; inversion H'; subst; f_equal; auto.
  - match goal with A : occupies g t ?s ?a, B : occupies g t ?s' ?a' |- _ => destruct (occupies_fun g t s a A s' a' B); subst end. reflexivity.
  - match goal with A : occupy g fs ?x, B : occupy g fs ?y |- _ => pose proof (Ho _ _ _ A B); subst end. same. reflexivity.
Qed.

(** ** C types forbid no pattern *)
Fixpoint quiet (f : fv) : Prop := match f with FEnd => True | FOr a b => quiet a /\ quiet b | _ => False end.
Lemma quiet_forbids f s : quiet f -> ~ forbids f s.
Proof. induction f; cbn; tauto. Qed.
Lemma quiet_shift k f : quiet f -> quiet (fshift k f).
Proof. induction f; cbn; tauto. Qed.
Fixpoint silent (t : src) : bool :=
  match t with
  | XUnit | XInt _ _ | XUsize _ => true
  | XStruct fs | XAligned fs _ => forallb silent fs
  | XArr t _ => silent t
  | _ => false
  end.
Lemma quiet_fields ts : forall t0 d, (forall e, layout t0 = Some e -> quiet (dfv e)) -> Forall (fun t => forall e, layout t = Some e -> quiet (dfv e)) ts ->
  layout (fields_ty t0 ts) = Some d -> quiet (dfv d).
Proof.
  unfold fields_ty. induction ts as [|t ts IH]; intros t0 d H0 H E; cbn [fold_left] in E; [apply H0, E|].
  inversion H; subst. apply (IH (TFP t0 t) d); [|assumption|exact E]. intros e. cbn [layout].
  destruct (layout t0) as [x|]; [|discriminate]. destruct (layout t) as [y|]; [|discriminate]. intros Q. injection Q as <-.
  cbn [field_pair dfv quiet aligned_after]. split; [apply H0; reflexivity|apply quiet_shift; auto].
Qed.
Lemma silent_quiet t : silent t = true -> forall d, layout (lower t) = Some d -> quiet (dfv d).
Proof.
  induction t using src_rect'; cbn [silent]; try discriminate; intros S d E.
  - injection E as <-. exact I.
  - injection E as <-. exact I.
  - injection E as <-. exact I.
  - assert (Forall (fun t => forall e, layout t = Some e -> quiet (dfv e)) (map lower fs)) as Hq.
    { clear E. induction H; cbn [map]; constructor; cbn [forallb] in S; apply andb_true_iff in S as [S1 S2]; auto. }
    cbn [lower] in E. destruct (map lower fs) as [|t ts]; [injection E as <-; exact I|]. cbn [struct_ty layout] in E.
    destruct (layout (fields_ty t ts)) as [e|] eqn:Ee; [|discriminate]. injection E as <-. cbn [struct_ dfv]. inversion Hq; subst.
    eapply quiet_fields; [| |exact Ee]; assumption.
  - assert (Forall (fun t => forall e, layout t = Some e -> quiet (dfv e)) (map lower fs)) as Hq.
    { clear E. induction H; cbn [map]; constructor; cbn [forallb] in S; apply andb_true_iff in S as [S1 S2]; auto. }
    cbn [lower] in E. destruct (map lower fs) as [|t ts]; [injection E as <-; exact I|]. cbn [aligned_struct_ty layout] in E.
    destruct (layout (fields_ty t ts)) as [e|] eqn:Ee; [|discriminate]. injection E as <-. cbn [aligned_struct dfv]. inversion Hq; subst.
    eapply quiet_fields; [| |exact Ee]; assumption.
  - cbn [lower layout] in E. destruct (layout (lower t)) as [e|]; [|discriminate]. injection E as <-. cbn [array_ dfv].
    destruct (Nat.eqb n 1); [apply IHt; auto|exact I].
Qed.
Lemma as_uint_silent g a u : as_uint g a = Some u -> silent u = true.
Proof.
  unfold as_uint. intros H.
  repeat match type of H with
  | Some _ = Some _ => injection H as <-; reflexivity
  | (if large ?x then _ else _) = _ => destruct (large x); [injection H as <-; reflexivity|discriminate]
  | match ?x with O => _ | S _ => _ end = _ => destruct x
  end.
Qed.
Lemma add_to_array_silent n : forall lsb stack, silent lsb = true -> silent stack = true -> silent (add_to_array n lsb stack) = true.
Proof.
  assert (forall lsb stack, silent lsb = true -> silent stack = true -> silent (if empty lsb then stack else XStruct [stack; lsb]) = true) as Hm.
  { intros lsb stack H1 H2. destruct (empty lsb); [assumption|]. cbn [silent forallb]. rewrite H1, H2. reflexivity. }
  induction n as [n IH|n IH|]; intros lsb stack H1 H2; cbn [add_to_array].
  - apply IH; [apply Hm; assumption|]. cbn [silent forallb]. rewrite H2. reflexivity.
  - apply IH; [assumption|]. cbn [silent forallb]. rewrite H2. reflexivity.
  - apply Hm; assumption.
Qed.
Lemma uint_array_silent g d s : uint_array g d = Some s -> silent s = true.
Proof.
  unfold uint_array. destruct (as_uint g (dalign d)) as [u|] eqn:E; [|discriminate]. cbn [option_map]. intros H. injection H as <-.
  unfold tuple_array. destruct (N.of_nat _); [reflexivity|]. apply add_to_array_silent; [reflexivity|]. eapply as_uint_silent, E.
Qed.
Lemma union_ctype_silent g u s : union_ctype g u = Some s -> silent s = true.
Proof.
  unfold union_ctype. destruct u; try (destruct (layout _) as [d|]; [apply uint_array_silent|discriminate]). intros H. injection H as <-. reflexivity.
Qed.
Lemma omap_forall {A B : Type} (f : A -> option B) (Q : B -> Prop) l : (Forall (fun x => forall y, f x = Some y -> Q y) l) ->
  forall r, omap f l = Some r -> Forall Q r.
Proof.
  induction 1 as [|x l Hx Hl IH]; intros r E; [injection E as <-; constructor|]. rewrite omap_cons in E.
  destruct (f x) as [y|] eqn:Ey; [|discriminate]. destruct (omap f l) as [q|]; [|discriminate]. injection E as <-. constructor; auto.
Qed.
Lemma forallb_Forall {A : Type} (f : A -> bool) l : Forall (fun x => f x = true) l -> forallb f l = true.
Proof. induction 1; cbn; [reflexivity|]. rewrite H, IHForall. reflexivity. Qed.
Lemma ctype_plain_silent g t : silent t = true -> forall c, ctype_plain g t = Some c -> silent c = true.
Proof.
  induction t using src_rect'; cbn [silent ctype_plain]; try discriminate; intros S c E.
  - injection E as <-. reflexivity.
  - eapply as_uint_silent, E.
  - destruct (omap (ctype_plain g) fs) as [cs|] eqn:Ec; [|discriminate]. injection E as <-. cbn [silent]. apply forallb_Forall.
    apply (omap_forall (ctype_plain g) (fun c => silent c = true) fs) with (2 := Ec). rewrite forallb_forall in S. rewrite Forall_forall in *. intros x Hx y Hy. exact (H x Hx (S x Hx) y Hy).
  - injection E as <-. exact S.
  - destruct (ctype_plain g t) as [x|]; [|discriminate]. injection E as <-. exact (IHt S x eq_refl).
Qed.
Lemma ctype_silent g t : no_align t = true -> forall c, ctype g t = Some c -> silent c = true.
Proof.
  induction t using src_rect'; cbn [no_align ctype]; intros S c E; try (injection E as <-; reflexivity); try (eapply as_uint_silent; exact E); try discriminate.
  - apply IHt; assumption.
  - destruct (omap (ctype g) fs) as [cs|] eqn:Ec; [|discriminate]. injection E as <-. cbn [silent]. apply forallb_Forall.
    apply (omap_forall (ctype g) (fun c => silent c = true) fs) with (2 := Ec). rewrite forallb_forall in S. rewrite Forall_forall in *. intros x Hx y Hy. exact (H x Hx (S x Hx) y Hy).
  - eapply union_ctype_silent, E.
  - destruct (omap _ vs) as [ts|]; [|discriminate]. destruct (union_ctype g (crepr_union ts)) as [u|] eqn:Eu; [|discriminate]. injection E as <-.
    cbn [silent forallb]. rewrite (union_ctype_silent _ _ _ Eu). reflexivity.
  - destruct (ctype g t) as [x|]; [|discriminate]. injection E as <-. exact (IHt S x eq_refl).
  - destruct (layout _) as [d|]; [|discriminate]. destruct (uint_array g d) as [s|] eqn:Es; [|discriminate].
    destruct (ctype_plain g s) as [x|] eqn:Ex; [|discriminate]. injection E as <-. cbn [silent forallb].
    rewrite (ctype_plain_silent g s (uint_array_silent _ _ _ Es) _ Ex). reflexivity.
Qed.
