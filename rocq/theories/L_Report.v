From Coq Require Import List Arith NArith Bool Lia.
From Verif Require Import M_Report S_Report.
Import ListNotations.

Fixpoint report_ind' (P : report -> Prop)
  (H : forall n m v k fs, Forall (fun x => P (snd x)) fs -> P (Rep n m v k fs)) (r : report) : P r :=
  match r with
  | Rep n m v k fs =>
      H n m v k fs ((fix go l : Forall (fun x => P (snd x)) l :=
        match l with [] => Forall_nil _ | x :: t => Forall_cons x (report_ind' P H (snd x)) (go t) end) fs)
  end.
Definition compat_fields := fix go (l : list (list N * report)) (l' : list (list N * report)) : bool :=
  match l, l' with
  | (fn, r) :: t, (fn', r') :: t' => bytes_eqb fn fn' && is_compatible r r' && go t t'
  | _, _ => true
  end.
Lemma is_compatible_eq n m v k fs n' m' v' k' fs' :
  is_compatible (Rep n m v k fs) (Rep n' m' v' k' fs') =
  bytes_eqb n n' && bytes_eqb m m' && N.eqb v v' && tyty_eqb k k' && compat_fields fs fs'.
Proof. reflexivity. Qed.
Lemma bytes_eqb_eq a b : bytes_eqb a b = true <-> a = b.
Proof.
  revert b; induction a as [|x a IH]; destruct b; cbn; split; intros; try congruence.
  - apply andb_true_iff in H as (E & F). apply N.eqb_eq in E. apply IH in F. congruence.
  - inversion H; subst. rewrite N.eqb_refl. cbn. apply IH; reflexivity.
Qed.
Lemma tyty_eqb_eq a b : tyty_eqb a b = true <-> a = b.
Proof.
  destruct a, b; cbn; split; intros; try congruence.
  - apply bytes_eqb_eq in H; congruence.
  - apply bytes_eqb_eq; congruence.
Qed.
Lemma agree_inv n m v k fs b : agree (Rep n m v k fs) b -> exists fs', b = Rep n m v k fs' /\
  (forall i x y, nth_error fs i = Some x -> nth_error fs' i = Some y ->
       fst x = fst y /\ agree (snd x) (snd y)).
Proof. intros H; inversion H; subst; eauto. Qed.
Lemma arity_inv n m v k fs n' m' v' k' fs' : same_arity (Rep n m v k fs) (Rep n' m' v' k' fs') ->
  Forall2 (fun x y => same_arity (snd x) (snd y)) fs fs'.
Proof. intros H; inversion H; subst; auto. Qed.
Lemma sl_inv n m v k fs b : same_lengths (Rep n m v k fs) b -> exists n' m' v' k' fs',
  b = Rep n' m' v' k' fs' /\
  length n = length n' /\ length m = length m' /\
    named k /\ named k' /\ length (tyty_bytes k) = length (tyty_bytes k') /\
    Forall2 (fun x y => length (fst x) = length (fst y) /\ same_lengths (snd x) (snd y)) fs fs'.
Proof. intros H; inversion H; subst; do 5 eexists; repeat split; eauto. Qed.
Lemma compat_agree a : forall b, is_compatible a b = true <-> agree a b.
Proof.
  induction a as [n m v k fs IH] using report_ind'. intros [n' m' v' k' fs'].
  rewrite is_compatible_eq, !andb_true_iff, !bytes_eqb_eq, N.eqb_eq, tyty_eqb_eq.
  assert (compat_fields fs fs' = true <->
    (forall i x y, nth_error fs i = Some x -> nth_error fs' i = Some y ->
       fst x = fst y /\ agree (snd x) (snd y))) as G.
  { revert fs'. induction IH as [|[fn r] fs Hr _ IHl]; intros fs'.
    - cbn. split; auto. intros _ [|i]; cbn; discriminate.
    - destruct fs' as [|[fn' r'] fs'].
      + cbn. split; auto. intros _ i x y _. destruct i; discriminate.
      + cbn [compat_fields]. rewrite !andb_true_iff, bytes_eqb_eq, IHl. cbn [snd] in Hr. rewrite Hr.
        split.
        * intros ((A & B) & C) [|i] x y Ex Ey.
          -- cbn in Ex, Ey. injection Ex as <-. injection Ey as <-. auto.
          -- exact (C i x y Ex Ey).
        * intros C. split.
          -- exact (C 0 _ _ eq_refl eq_refl).
          -- intros i x y Ex Ey. exact (C (S i) x y Ex Ey). }
  split.
  - intros ((((A & B) & C) & D) & E). subst. constructor. apply G, E.
  - intros E. inversion E; subst. repeat split; auto. apply G; auto.
Qed.
Lemma compat_refl a : is_compatible a a = true.
Proof.
  apply compat_agree. induction a as [n m v k fs IH] using report_ind'. constructor.
  intros i x y Ex Ey. rewrite Ex in Ey; injection Ey as <-. split; auto.
  rewrite Forall_forall in IH. apply IH. apply nth_error_In with i; auto.
Qed.
Lemma agree_sym a : forall b, agree a b -> agree b a.
Proof.
  induction a as [n m v k fs IH] using report_ind'. intros b H. apply agree_inv in H as (fs' & -> & H6).
  constructor. intros i x y Ex Ey. destruct (H6 i y x Ey Ex) as (E & F). split; auto.
  rewrite Forall_forall in IH. apply (IH y); auto. apply nth_error_In with i; auto.
Qed.
Lemma compat_sym a b : is_compatible a b = is_compatible b a.
Proof.
  apply eq_true_iff_eq. rewrite !compat_agree. split; apply agree_sym.
Qed.
Lemma compat_equal a : forall b, same_arity a b -> is_compatible a b = true <-> a = b.
Proof.
  intros b S. split; [|intros <-; apply compat_refl].
  intros H. apply compat_agree in H. revert b S H.
  induction a as [n m v k fs IH] using report_ind'. intros b S H.
  apply agree_inv in H as (fs' & -> & HB). apply arity_inv in S. f_equal.
  revert fs' HB S. induction IH as [|x fs Hx _ IHl]; intros fs' B C.
  - inversion C; reflexivity.
  - inversion C as [|? y ? t' Hxy Ht]; subst. f_equal.
    + destruct (B 0 x y eq_refl eq_refl) as (E & F).
      destruct x as [xn xr], y as [yn yr]; cbn in *. subst. f_equal. apply Hx; auto.
    + apply IHl; auto. intros i; exact (B (S i)).
Qed.

(** Identifiers *)
Definition hash_fields := fix go (h : list N) (l : list (list N * report)) : list N :=
  match l with
  | [] => h
  | (fn, r') :: t => go (hash_report (h ++ fn) r') t
  end.
Lemma hash_report_eq h n m v k fs :
  hash_report h (Rep n m v k fs) = hash_fields (h ++ m ++ n ++ tyty_bytes k) fs.
Proof. reflexivity. Qed.
Lemma hash_app r : forall h, hash_report h r = h ++ hash_report [] r.
Proof.
  induction r as [n m v k fs IH] using report_ind'. intros h. rewrite !hash_report_eq.
  assert (forall h1 h2, hash_fields (h1 ++ h2) fs = h1 ++ hash_fields h2 fs) as G.
  { induction IH as [|[fn r] fs Hr _ IHl]; intros h1 h2; [reflexivity|].
    cbn [hash_fields]. cbn [snd] in Hr. rewrite <- app_assoc.
    rewrite (Hr (h1 ++ h2 ++ fn)), (Hr (h2 ++ fn)). rewrite <- app_assoc, IHl. reflexivity. }
  rewrite G. reflexivity.
Qed.
Lemma hash_fields_app fs : forall h, hash_fields h fs = h ++ hash_fields [] fs.
Proof.
  induction fs as [|[fn r] fs IH]; intros h; cbn [hash_fields].
  - rewrite app_nil_r; reflexivity.
  - rewrite IH, (IH (hash_report _ r)), (hash_app r (h ++ fn)), (hash_app r ([] ++ fn)).
    cbn [app]. rewrite <- !app_assoc. reflexivity.
Qed.
Lemma tyty_bytes_inj k k' : named k -> named k' -> tyty_bytes k = tyty_bytes k' -> k = k'.
Proof. destruct k, k'; cbn; intros; try congruence; destruct H, H0 || tauto; try congruence. Qed.
Lemma app_inj_len {A} (a b c d : list A) : length a = length c -> a ++ b = c ++ d -> a = c /\ b = d.
Proof.
  revert c; induction a as [|x a IH]; destruct c as [|y c]; cbn; intros L E; try discriminate.
  - auto.
  - injection E as -> E. destruct (IH c) as (-> & ->); auto.
Qed.
Lemma same_lengths_len a : forall b, same_lengths a b ->
  length (hash_report [] a) = length (hash_report [] b).
Proof.
  induction a as [n m v k fs IH] using report_ind'. intros b S. apply sl_inv in S as (n' & m' & v' & k' & fs' & -> & Ln & Lm & Nk & Nk' & Lk & HF).
  rewrite !hash_report_eq, !(hash_fields_app _ (_ ++ _)), !app_length. cbn [length].
  assert (length (hash_fields [] fs) = length (hash_fields [] fs')).
  { clear - IH HF. revert fs' HF. induction IH as [|[xn xr] fs Hx _ IHl]; intros fs' C.
    - inversion C; reflexivity.
    - inversion C as [|? y ? t' Hxy Ht]; subst. destruct y as [yn yr]. cbn [fst snd] in *.
      cbn [hash_fields]. rewrite !(hash_fields_app _ (hash_report _ _)), !(hash_app _ ([] ++ _)).
      rewrite !app_length. cbn [app length]. destruct Hxy as (L & S).
      rewrite (Hx _ S), (IHl _ Ht), L. reflexivity. }
  lia.
Qed.
Lemma hash_inj a : forall b, same_lengths a b ->
  hash_report [] a = hash_report [] b -> same_but_version a b.
Proof.
  induction a as [n m v k fs IH] using report_ind'. intros b S E. apply sl_inv in S as (n' & m' & v' & k' & fs' & -> & Ln & Lm & Nk & Nk' & Lk & HF).
  rewrite !hash_report_eq, !(hash_fields_app _ (_ ++ _)) in E. cbn [app] in E.
  rewrite <- !app_assoc in E.
  apply app_inj_len in E as (Em & E); [|assumption].
  apply app_inj_len in E as (En & E); [|assumption].
  apply app_inj_len in E as (Ek & E); [|assumption].
  apply tyty_bytes_inj in Ek; [|assumption|assumption]. subst. constructor.
  clear - IH HF E. revert fs' HF E. induction IH as [|[xn xr] fs Hx _ IHl]; intros fs' C E.
  - inversion C; constructor.
  - inversion C as [|? y ? t' Hxy Ht]; subst. destruct y as [yn yr]. cbn [fst snd] in *.
    destruct Hxy as (L & S). cbn [hash_fields] in E.
    rewrite !(hash_fields_app _ (hash_report _ _)), !(hash_app _ ([] ++ _)) in E. cbn [app] in E.
    rewrite <- !app_assoc in E.
    apply app_inj_len in E as (En & E); [|assumption].
    apply app_inj_len in E as (Er & E); [|apply same_lengths_len; assumption].
    constructor; auto.
Qed.
Lemma lxor_cancel_r a b c : N.lxor a c = N.lxor b c -> a = b.
Proof.
  intros H. rewrite <- (N.lxor_0_r a), <- (N.lxor_0_r b), <- (N.lxor_nilpotent c), <- !N.lxor_assoc, H.
  reflexivity.
Qed.
Lemma from_le_inj a : forall b, bytes a -> bytes b -> length a = length b ->
  from_le_bytes a = from_le_bytes b -> a = b.
Proof.
  unfold bytes. induction a as [|x a IH]; destruct b as [|y b]; intros A B L E; try discriminate; auto.
  inversion A; inversion B; subst. cbn [from_le_bytes length] in *.
  assert (x = y) by lia. subst. f_equal. apply IH; auto. lia.
Qed.
Lemma id_separates sha arch a b : same_lengths a b ->
  gen_id sha arch a = gen_id sha arch b ->
  same_but_version a b \/
  (hash_report [] a <> hash_report [] b /\
   from_le_bytes (firstn 8 (sha (hash_report [] a))) = from_le_bytes (firstn 8 (sha (hash_report [] b)))).
Proof.
  intros S E. apply lxor_cancel_r in E.
  destruct (list_eq_dec N.eq_dec (hash_report [] a) (hash_report [] b)) as [D|D].
  - left. apply hash_inj; auto.
  - right. auto.
Qed.
Lemma id_arch sha r a b : bytes a -> bytes b -> length a = length b ->
  gen_id sha a r = gen_id sha b r -> a = b.
Proof.
  intros A B L E. unfold gen_id in E. rewrite (N.lxor_comm _ (from_le_bytes a)), (N.lxor_comm _ (from_le_bytes b)) in E.
  apply lxor_cancel_r in E. apply from_le_inj; auto.
Qed.
