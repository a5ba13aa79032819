(** Lemmas for C89. *)
From Coq Require Import NArith Arith List Bool Lia Permutation.
From Verif Require Import M_Alloc S_Alloc L_Alloc M_Vec M_VecMem S_VecMem.
Import ListNotations.
Local Open Scope N_scope.
Ltac Zify.zify_post_hook ::= idtac.

(** ** Bytes *)
Lemma load_ext : forall k m m' p, (forall x, p <= x < p + N.of_nat k -> m x = m' x) ->
  load m p k = load m' p k.
Proof.
  induction k as [|k IH]; intros m m' p H; [reflexivity|]. cbn [load].
  rewrite (H p) by lia. rewrite (IH m m' (p + 1)) by (intros; apply H; lia). reflexivity.
Qed.

Lemma load_intro : forall bs m p,
  (forall i b, nth_error bs i = Some b -> m (p + N.of_nat i) = Some b) -> load m p (length bs) = Some bs.
Proof.
  induction bs as [|b bs IH]; intros m p H; [reflexivity|]. cbn [load length].
  pose proof (H 0%nat b eq_refl) as H0. change (N.of_nat 0) with 0 in H0. rewrite N.add_0_r in H0. rewrite H0.
  rewrite (IH m (p + 1)); [reflexivity|].
  intros i c Hi. replace (p + 1 + N.of_nat i) with (p + N.of_nat (S i)) by lia. apply H. exact Hi.
Qed.

Lemma load_length : forall k m p bs, load m p k = Some bs -> length bs = k.
Proof.
  induction k as [|k IH]; intros m p bs H; cbn [load] in H; [injection H as <-; reflexivity|].
  destruct (m p); [|discriminate]. destruct (load m (p + 1) k) eqn:E; [|discriminate].
  injection H as <-. cbn. f_equal. eauto.
Qed.

Lemma load_elim : forall k m p bs, load m p k = Some bs ->
  forall i b, nth_error bs i = Some b -> m (p + N.of_nat i) = Some b.
Proof.
  induction k as [|k IH]; intros m p bs H i b Hi; cbn [load] in H.
  - injection H as <-. destruct i; discriminate.
  - destruct (m p) eqn:Ep; [|discriminate]. destruct (load m (p + 1) k) eqn:E; [|discriminate].
    injection H as <-. destruct i; cbn in Hi.
    + injection Hi as ->. cbn. rewrite N.add_0_r. exact Ep.
    + replace (p + N.of_nat (S i)) with (p + 1 + N.of_nat i) by lia. eauto.
Qed.

Lemma store_out : forall m p bs x, x < p \/ p + N.of_nat (length bs) <= x -> store m p bs x = m x.
Proof.
  intros m p bs x H. unfold store.
  destruct (N.leb_spec p x); [|reflexivity].
  destruct (N.ltb_spec x (p + N.of_nat (length bs))); [lia|reflexivity].
Qed.
Lemma store_in : forall m p bs i, (i < length bs)%nat -> store m p bs (p + N.of_nat i) = nth i bs None.
Proof.
  intros m p bs i H. unfold store.
  destruct (N.leb_spec p (p + N.of_nat i)); [|lia].
  destruct (N.ltb_spec (p + N.of_nat i) (p + N.of_nat (length bs))); [|lia]. cbn [andb].
  f_equal. lia.
Qed.
Lemma load_store_out : forall m p bs q k,
  q + N.of_nat k <= p \/ p + N.of_nat (length bs) <= q -> load (store m p bs) q k = load m q k.
Proof. intros. apply load_ext. intros x Hx. apply store_out. lia. Qed.
Lemma load_store_at : forall m p bs d e, N.of_nat d + N.of_nat (length e) <= N.of_nat (length bs) ->
  (forall i b, nth_error e i = Some b -> nth (d + i) bs None = Some b) ->
  load (store m p bs) (p + N.of_nat d) (length e) = Some e.
Proof.
  intros m p bs d e L H. apply load_intro. intros i b Hi.
  assert (i < length e)%nat by (apply nth_error_Some; congruence).
  replace (p + N.of_nat d + N.of_nat i) with (p + N.of_nat (d + i)) by lia.
  rewrite store_in by lia. apply H. exact Hi.
Qed.
Lemma nth_map_some : forall (e : list N) i b, nth_error e i = Some b -> nth i (map Some e) None = Some b.
Proof.
  intros e i b H. apply nth_error_nth. rewrite nth_error_map, H. reflexivity.
Qed.
Lemma load_store_same : forall m p e, load (store m p (map Some e)) p (length e) = Some e.
Proof.
  intros m p e. replace p with (p + N.of_nat 0) at 2 by lia.
  apply load_store_at.
  - rewrite map_length. lia.
  - intros i b H. apply nth_map_some. exact H.
Qed.
Lemma load_moved : forall m src dst n d k, d + N.of_nat k <= n ->
  load (moved m src dst n) (dst + d) k = load m (src + d) k.
Proof.
  intros m src dst n d k; revert d. induction k as [|k IH]; intros d H; [reflexivity|]. cbn [load].
  replace (dst + d + 1) with (dst + (d + 1)) by lia. replace (src + d + 1) with (src + (d + 1)) by lia.
  rewrite IH by lia. unfold moved at 1.
  destruct (N.leb_spec dst (dst + d)); [|lia]. destruct (N.ltb_spec (dst + d) (dst + n)); [|lia]. cbn [andb].
  replace (dst + d - dst + src) with (src + d) by lia. reflexivity.
Qed.
Lemma moved_out : forall m src dst n x, x < dst \/ dst + n <= x -> moved m src dst n x = m x.
Proof.
  intros m src dst n x H. unfold moved. destruct (N.leb_spec dst x); [|reflexivity].
  destruct (N.ltb_spec x (dst + n)); [lia|reflexivity].
Qed.
Lemma load_moved_out : forall m src dst n q k, q + N.of_nat k <= dst \/ dst + n <= q ->
  load (moved m src dst n) q k = load m q k.
Proof. intros. apply load_ext. intros x Hx. apply moved_out. lia. Qed.

Lemma enc_length : forall k x, length (enc k x) = k.
Proof. induction k; intros; cbn [enc length]; auto. Qed.
Lemma dec_enc : forall k x, x < 256 ^ N.of_nat k -> dec (enc k x) = x.
Proof.
  induction k as [|k IH]; intros x H.
  - cbn in *. lia.
  - cbn [enc dec]. rewrite Nat2N.inj_succ, N.pow_succ_r' in H.
    rewrite IH. 2:{ apply N.div_lt_upper_bound; lia. }
    pose proof (N.div_mod x 256). lia.
Qed.
Lemma dec_enc8 : forall x, x < 2 ^ 64 -> dec (enc 8 x) = x.
Proof. intros x H. apply dec_enc. change (256 ^ N.of_nat 8) with (2 ^ 64). exact H. Qed.

(** ** Blocks *)
(** Blocks that do not overlap. *)
Definition apb (b c : N * N) : Prop := apart (fst b) (snd b) (fst c) (snd c).
Lemma apb_sym : forall b c, apb b c -> apb c b.
Proof. unfold apb, apart. intros; lia. Qed.
(** Pairwise apart and not empty. *)
Definition pw (bs : list (N * N)) : Prop := ForallOrdPairs apb bs /\ Forall (fun b => 0 < snd b) bs.

Lemma fop_perm : forall l l', Permutation l l' -> ForallOrdPairs apb l -> ForallOrdPairs apb l'.
Proof.
  induction 1 as [|x l l' P IH|x y l|l1 l2 l3 P1 IH1 P2 IH2]; intro H; auto.
  - inversion H; subst. constructor; auto. eapply Permutation_Forall; eauto.
  - inversion H as [|? ? A B]; subst. inversion B as [|? ? C D]; subst. inversion A as [|? ? E F]; subst.
    constructor; [constructor; auto using apb_sym|]. constructor; auto.
Qed.
Lemma pw_perm : forall l l', Permutation l l' -> pw l -> pw l'.
Proof.
  intros l l' P [A B]. split; [eapply fop_perm; eauto | eapply Permutation_Forall; eauto].
Qed.

(** The heap is made of the blocks [B] and [F], and is as it must be. *)
Definition perm (h : heap) (B F : list (N * N)) : Prop := Permutation (blocks h) (B ++ F) /\ pw (blocks h).
(** The bytes of the blocks [F] did not change. *)
Definition keeps (F : list (N * N)) (m m' : N -> option N) : Prop :=
  forall x b, In b F -> fst b <= x < fst b + snd b -> m' x = m x.

Lemma keeps_refl : forall F m, keeps F m m.
Proof. unfold keeps; auto. Qed.
Lemma keeps_trans : forall F m1 m2 m3, keeps F m1 m2 -> keeps F m2 m3 -> keeps F m1 m3.
Proof. unfold keeps. intros F m1 m2 m3 A B x b Hb Hx. rewrite (B x b Hb Hx). exact (A x b Hb Hx). Qed.

Lemma perm_apart : forall h b F, perm h [b] F -> Forall (apb b) F.
Proof.
  intros h b F [P W]. apply (pw_perm _ _ P) in W. destruct W as [A _]. inversion A; subst; auto.
Qed.

Lemma in_block_ok : forall h o n F p k, perm h [(o, n)] F -> o <= p -> p + k <= o + n -> in_block h p k = true.
Proof.
  intros h o n F p k [P W] H1 H2. unfold in_block. apply orb_true_intro. right.
  apply existsb_exists. exists (o, n). split.
  - eapply Permutation_in; [apply Permutation_sym; exact P|]. left. reflexivity.
  - cbn [fst snd]. apply andb_true_intro. split; apply N.leb_le; lia.
Qed.
Lemma in_block_nil : forall h p, in_block h p 0 = true.
Proof. reflexivity. Qed.

Lemma keeps_store : forall h o n F p bs, perm h [(o, n)] F -> o <= p -> p + N.of_nat (length bs) <= o + n ->
  keeps F (mem h) (store (mem h) p bs).
Proof.
  intros h o n F p bs P H1 H2 x b Hb Hx. apply store_out.
  apply perm_apart in P. rewrite Forall_forall in P. specialize (P b Hb). unfold apb, apart in P. cbn [fst snd] in P. lia.
Qed.
Lemma keeps_moved : forall h o n F src dst k, perm h [(o, n)] F -> o <= dst -> dst + k <= o + n ->
  keeps F (mem h) (moved (mem h) src dst k).
Proof.
  intros h o n F src dst k P H1 H2 x b Hb Hx. apply moved_out.
  apply perm_apart in P. rewrite Forall_forall in P. specialize (P b Hb). unfold apb, apart in P. cbn [fst snd] in P. lia.
Qed.

Lemma take_block_ok : forall bs o n F, Permutation bs ((o, n) :: F) -> pw bs ->
  exists r, take_block o bs = Some (n, r) /\ Permutation r F.
Proof.
  induction bs as [|[p k] bs IH]; intros o n F P W.
  - apply Permutation_nil in P. discriminate.
  - cbn [take_block fst snd]. destruct (N.eqb_spec p o) as [-> | NE].
    + assert (In (o, n) ((o, k) :: bs)) as I by (eapply Permutation_in; [apply Permutation_sym; exact P | left; reflexivity]).
      destruct I as [E | I].
      * injection E as ->. exists bs. split; [reflexivity|]. eapply Permutation_cons_inv; exact P.
      * exfalso. destruct W as [A B]. inversion A as [|? ? C D]; subst. rewrite Forall_forall in C.
        specialize (C _ I). inversion B as [|? ? E1 E2]; subst. rewrite Forall_forall in E2. specialize (E2 _ I).
        unfold apb, apart in C. cbn [fst snd] in *. lia.
    + assert (In (p, k) ((o, n) :: F)) as I by (eapply Permutation_in; [exact P | left; reflexivity]).
      destruct I as [E | I]; [congruence|].
      apply in_split in I. destruct I as (F1 & F2 & ->).
      destruct (IH o n (F1 ++ F2)) as (r & T & R).
      * apply (Permutation_cons_inv (a := (p, k))). rewrite P.
        rewrite perm_swap. constructor. symmetry. apply Permutation_middle.
      * destruct W as [A B]. inversion A; inversion B; subst. split; auto.
      * rewrite T. exists ((p, k) :: r). split; [reflexivity|]. rewrite R. apply Permutation_middle.
Qed.

Lemma grants_spec : forall bs n al ans, grants bs n al ans = true -> al <> 0 ->
  0 < ans /\ 0 < n /\ (al | ans) /\ n < 2 ^ 63 /\ ans + n < 2 ^ 64 /\ Forall (apb (ans, n)) bs.
Proof.
  intros bs n al ans H Ha. unfold grants in H.
  repeat (apply andb_prop in H; destruct H as [H ?]).
  apply N.ltb_lt in H, H4, H2, H1. apply N.eqb_eq in H3. apply N.mod_divide in H3; auto.
  repeat split; auto. rewrite forallb_forall in H0. apply Forall_forall. intros b Hb.
  specialize (H0 b Hb). apply orb_prop in H0. unfold apb, apart. cbn [fst snd].
  destruct H0 as [E | E]; apply N.leb_le in E; auto.
Qed.

Section Mem.
  Context (s : nat) (a psz pal : N) (TOK : types_ok s a psz pal).
  Notation sz := (N.of_nat s).

  (** The size of the block for [c] elements. *)
  Definition bsize (c : N) : N := lsize (array_layout psz pal sz a c).

  Lemma tok_nz : 0 < sz /\ pal <> 0 /\ a <> 0 /\ 0 < a.
  Proof.
    destruct TOK as (H1 & _ & A & _ & P & _). pose proof (alignment_nz _ A). pose proof (alignment_nz _ P). lia.
  Qed.

  Lemma bsize_eq : forall c, psz + sz * c + pal <= 2 ^ 64 ->
    array_layout psz pal sz a c = Lay (bsize c) pal /\
    lsize (M_Alloc.concat (Lay psz pal) (lay_array sz a c)) = bsize c /\
    psz + sz * c <= bsize c /\ bsize c < psz + sz * c + pal.
  Proof.
    intros c H. destruct tok_nz as (N1 & N2 & N3 & _).
    destruct TOK as (_ & _ & _ & _ & _ & _ & _ & _ & _ & L).
    assert (N.max pal a = pal) as M by lia.
    pose proof (array_layout_eq psz pal sz a c N2) as E. rewrite M in E. specialize (E H N3).
    unfold bsize. rewrite E. cbn [lsize]. split; [reflexivity|]. split.
    - unfold array_layout in E. injection E as E. exact E.
    - split; [apply rup_ge; auto | apply rup_lt; auto].
  Qed.

  (** ** Elements in memory *)
  (** The elements [l] are at [p]. *)
  Fixpoint elems (m : N -> option N) (p : N) (l : list elem) : Prop :=
    match l with
    | [] => True
    | e :: r => length e = s /\ load m p s = Some e /\ elems m (p + sz) r
    end.

  Lemma elems_app : forall m l1 l2 p,
    elems m p (l1 ++ l2) <-> elems m p l1 /\ elems m (p + N.of_nat (length l1) * sz) l2.
  Proof.
    intros m l1 l2. induction l1 as [|e l1 IH]; intro p.
    - cbn [app elems length]. replace (p + N.of_nat 0 * sz) with p by lia. tauto.
    - cbn [app elems length]. rewrite IH.
      replace (p + sz + N.of_nat (length l1) * sz) with (p + N.of_nat (S (length l1)) * sz) by lia. tauto.
  Qed.
  Lemma elems_ext : forall m m' l p, (forall x, p <= x < p + N.of_nat (length l) * sz -> m x = m' x) ->
    elems m p l -> elems m' p l.
  Proof.
    intros m m'. induction l as [|e l IH]; intros p H E; [exact I|].
    cbn [elems length] in *. destruct E as (E1 & E2 & E3). split; [auto|]. split.
    - rewrite <- E2. symmetry. apply load_ext. intros x Hx. apply H. lia.
    - apply IH; auto. intros x Hx. apply H. lia.
  Qed.
  Lemma elems_one : forall m p e, elems m p [e] <-> length e = s /\ load m p s = Some e.
  Proof. intros. cbn. tauto. Qed.
  Lemma elems_sizes : forall m l p, elems m p l -> Forall (fun e => length e = s) l.
  Proof. intros m. induction l as [|e l IH]; intros p H; constructor; cbn in H; destruct H as (? & ? & ?); eauto. Qed.
  Lemma elems_load_all : forall m l p, elems m p l -> load_all s m p (length l) = Some l.
  Proof.
    intros m. induction l as [|e l IH]; intros p H; [reflexivity|].
    cbn in H. destruct H as (A & B & C). cbn [load_all length]. rewrite B, (IH _ C). reflexivity.
  Qed.
  Lemma elems_moved : forall m src dst n l d, d + N.of_nat (length l) * sz <= n -> elems m (src + d) l ->
    elems (moved m src dst n) (dst + d) l.
  Proof.
    intros m src dst n. induction l as [|e l IH]; intros d H E; [exact I|].
    cbn [elems length] in *. destruct E as (A & B & C). split; [auto|]. split.
    - rewrite load_moved by lia. exact B.
    - rewrite <- N.add_assoc in *. apply IH; auto. lia.
  Qed.
  Lemma concat_length : forall es, Forall (fun e : elem => length e = s) es ->
    length (List.concat es) = (length es * s)%nat.
  Proof. induction 1 as [|e es H _ IH]; [reflexivity|]. cbn [List.concat length]. rewrite app_length. lia. Qed.
  Lemma load_app : forall m e f p, load m p (length (e ++ f)) = Some (e ++ f) ->
    load m p (length e) = Some e /\ load m (p + N.of_nat (length e)) (length f) = Some f.
  Proof.
    intros m e f p H. split; apply load_intro; intros i b Hi.
    - apply (load_elim _ _ _ _ H). rewrite nth_error_app1; auto. apply nth_error_Some. congruence.
    - replace (p + N.of_nat (length e) + N.of_nat i) with (p + N.of_nat (length e + i)) by lia.
      apply (load_elim _ _ _ _ H). rewrite nth_error_app2 by lia. rewrite <- Hi. f_equal. lia.
  Qed.
  Lemma elems_concat : forall m es p, Forall (fun e : elem => length e = s) es ->
    load m p (length (List.concat es)) = Some (List.concat es) -> elems m p es.
  Proof.
    intros m es. induction es as [|e es IH]; intros p F H; [exact I|].
    inversion F as [|? ? F1 F2]; subst. cbn [List.concat] in H. apply load_app in H. destruct H as [A B].
    cbn [elems]. rewrite <- F1 in *. split; [reflexivity|]. split; [exact A|]. rewrite F1. apply IH; auto.
    rewrite <- F1. exact B.
  Qed.

  (** ** What represents a vector *)
  (** [c > 0] elements of room at [st], in a block of their own, [l] being there. *)
  Definition repd (m : N -> option N) (st : N) (l : list elem) (c : N) : Prop :=
    exists o, st = o + psz /\ 0 < o /\ (pal | o) /\ 0 < c /\ psz + sz * c + pal <= 2 ^ 64 /\
      bsize c < 2 ^ 63 /\ o + bsize c < 2 ^ 64 /\ N.of_nat (length l) <= c /\ elems m st l /\
      load m (o + 24) 8 = Some (enc 8 o).
  Definition vrep (m : N -> option N) (v : mvec) (l : list elem) (c : N) : Prop :=
    (c = 0 /\ v = MV a a a /\ l = []) \/
    (repd m (vs v) l c /\ ve v = vs v + N.of_nat (length l) * sz /\ vc v = vs v + c * sz).
  Definition brep (m : N -> option N) (b : mbox) (l : list elem) (c : N) : Prop :=
    repd m (bs_ b) l c /\ be b = bs_ b + N.of_nat (length l) * sz /\ l <> [] /\
    load m (bs_ b - psz + 16) 8 = Some (enc 8 c).
  Definition oblock (st c : N) : list (N * N) := if N.eqb c 0 then [] else [(st - psz, bsize c)].

  Lemma repd_keep : forall m m' st l c F, repd m st l c -> keeps F m m' ->
    In (st - psz, bsize c) F -> repd m' st l c.
  Proof.
    intros m m' st l c F (o & E & H0 & H1 & H2 & H3 & H4 & H5 & H6 & H7 & H8) K I.
    destruct (bsize_eq c H3) as (_ & _ & B1 & B2).
    assert (32 <= psz) by apply TOK.
    assert (st - psz = o) as Eo by lia. rewrite Eo in I.
    exists o. split; [auto|]. split; [auto|]. split; [auto|]. split; [auto|]. split; [auto|]. split; [auto|].
    split; [auto|]. split; [auto|]. split.
    - eapply elems_ext; [|exact H7]. intros x Hx. symmetry. apply (K x _ I). cbn [fst snd].
      assert (N.of_nat (length l) * sz <= c * sz) by (apply N.mul_le_mono_r; lia). lia.
    - rewrite <- H8. apply load_ext. intros x Hx. apply (K x _ I). cbn [fst snd]. lia.
  Qed.
  Lemma oblock_in : forall st c, c <> 0 -> oblock st c = [(st - psz, bsize c)].
  Proof. intros st c H. unfold oblock. destruct (N.eqb_spec c 0); [contradiction|reflexivity]. Qed.
  Lemma vrep_keep : forall m m' v l c F, vrep m v l c -> keeps F m m' -> incl (oblock (vs v) c) F -> vrep m' v l c.
  Proof.
    intros m m' v l c F [H | (H & E)] K I; [left; auto|]. right. split; auto.
    assert (c <> 0) by (destruct H as (o & _ & _ & _ & H & _); lia).
    eapply repd_keep; eauto. apply I. rewrite oblock_in by auto. left. reflexivity.
  Qed.
  Lemma brep_keep : forall m m' b l c F, brep m b l c -> keeps F m m' -> incl (oblock (bs_ b) c) F -> brep m' b l c.
  Proof.
    intros m m' b l c F (H & E & N0 & L) K I.
    assert (In (bs_ b - psz, bsize c) F) as I'.
    { apply I. rewrite oblock_in; [left; reflexivity|]. destruct H as (o & _ & _ & _ & H & _); lia. }
    split; [eapply repd_keep; eauto|]. split; [auto|]. split; [auto|].
    rewrite <- L. apply load_ext. intros x Hx. apply (K x _ I'). cbn [fst snd].
    destruct H as (o & E' & H0 & H1 & H2 & H3 & _). destruct (bsize_eq c H3) as (_ & _ & B1 & B2).
    assert (32 <= psz) by apply TOK. lia.
  Qed.

  (** ** Pointers *)
  Lemma ptr_add_ok : forall p n, p + n * sz < 2 ^ 64 -> ptr_add s p n = p + n * sz.
  Proof. intros. unfold ptr_add. apply usz_small. auto. Qed.
  Lemma ptr_diff_ok : forall p n, n * sz < 2 ^ 64 -> ptr_diff s (p + n * sz) p = n.
  Proof.
    intros p n H. unfold ptr_diff, usz. destruct tok_nz as (N1 & _).
    replace (p + n * sz + 2 ^ 64 - p) with (n * sz + 1 * 2 ^ 64) by lia.
    rewrite N.mod_add by discriminate. rewrite N.mod_small by auto. apply N.div_mul. lia.
  Qed.
  Lemma mul_le : forall x y, x <= y -> x * sz <= y * sz.
  Proof. intros. apply N.mul_le_mono_r. auto. Qed.

  (** What is known of a vector with room. *)
  Lemma repd_bounds : forall m st l c, repd m st l c ->
    psz < st /\ (pal | st - psz) /\ 0 < c /\ psz + c * sz + pal <= 2 ^ 64 /\ psz + c * sz <= bsize c /\
    bsize c < 2 ^ 63 /\ st - psz + bsize c < 2 ^ 64 /\ st + c * sz < 2 ^ 64 /\
    N.of_nat (length l) <= c /\ N.of_nat (length l) * sz <= c * sz /\ elems m st l /\
    load m (st - psz + 24) 8 = Some (enc 8 (st - psz)).
  Proof.
    intros m st l c (o & E & H0 & H1 & H2 & H3 & H4 & H5 & H6 & H7 & H8).
    destruct (bsize_eq c H3) as (_ & _ & B1 & B2). pose proof (mul_le _ _ H6).
    assert (st - psz = o) as Eo by lia. rewrite Eo.
    split; [lia|]. split; [auto|]. split; [auto|]. split; [lia|]. split; [lia|]. split; [auto|].
    split; [auto|]. split; [lia|]. split; [auto|]. split; [auto|]. split; auto.
  Qed.

  Lemma vrep_len : forall m v l c, vrep m v l c ->
    m_len s v = N.of_nat (length l) /\ m_cap s v = c /\ m_remaining s v = c - N.of_nat (length l) /\
    N.of_nat (length l) <= c /\ (ve v = vc v <-> N.of_nat (length l) = c).
  Proof.
    intros m v l c H. unfold m_len, m_cap, m_remaining. destruct tok_nz as (Z1 & _).
    destruct H as [(-> & -> & ->) | (H & E1 & E2)].
    - cbn [vs ve vc length]. pose proof (ptr_diff_ok a 0) as D. replace (a + 0 * sz) with a in D by lia.
      rewrite D by (cbn; lia). cbn. intuition lia.
    - apply repd_bounds in H. destruct H as (B0 & B1 & B2 & B3 & B4 & B5 & B6 & B7 & B8 & B9 & _).
      rewrite E1, E2. rewrite !ptr_diff_ok by lia.
      replace (vs v + c * sz) with (vs v + N.of_nat (length l) * sz + (c - N.of_nat (length l)) * sz)
        by (rewrite N.mul_sub_distr_r; lia).
      rewrite ptr_diff_ok by (rewrite N.mul_sub_distr_r; lia).
      repeat split; auto.
      + intro H. assert (N.of_nat (length l) * sz = c * sz) as X by (rewrite N.mul_sub_distr_r in H; lia).
        apply N.mul_cancel_r in X; lia.
      + intro H. rewrite H. lia.
  Qed.

  (** ** Allocation *)
  Lemma prefix_len : forall pf, length (prefix_bytes psz pf) = N.to_nat psz.
  Proof.
    intros pf. unfold prefix_bytes. rewrite app_length, map_length, !app_length, !enc_length, repeat_length.
    assert (32 <= psz) by apply TOK. lia.
  Qed.
  Lemma nth_prefix : forall st wk cp og i b, nth_error (enc 8 og) i = Some b ->
    nth (24 + i) (prefix_bytes psz (Pfx st wk cp og)) None = Some b.
  Proof.
    intros st wk cp og i b H. unfold prefix_bytes. cbn [p_strong p_weak p_capacity p_origin].
    assert (i < 8)%nat. { rewrite <- (enc_length 8 og). apply nth_error_Some. congruence. }
    rewrite app_nth1 by (rewrite map_length, !app_length, !enc_length; lia).
    apply nth_map_some. rewrite !nth_error_app2 by (rewrite ?enc_length; lia). rewrite !enc_length.
    rewrite <- H. f_equal. lia.
  Qed.

  Lemma h_write_ok : forall h o n F p bs, perm h [(o, n)] F -> o <= p -> p + N.of_nat (length bs) <= o + n ->
    h_write h p bs = Some (Heap (blocks h) (store (mem h) p bs)).
  Proof. intros. unfold h_write. erewrite in_block_ok; eauto. Qed.
  Lemma h_read_ok : forall h o n F p k bs, perm h [(o, n)] F -> o <= p -> p + N.of_nat k <= o + n ->
    load (mem h) p k = Some bs -> h_read h p k = Some bs.
  Proof. intros. unfold h_read. erewrite in_block_ok; eauto. Qed.

  Lemma init_ok : forall h p n F, perm h [(p, bsize n)] F -> (pal | p) -> psz + sz * n + pal <= 2 ^ 64 ->
    exists m', m_init a psz h p n = Some (Some (p + psz), Heap (blocks h) m') /\ keeps F (mem h) m' /\
      load m' (p + 24) 8 = Some (enc 8 p) /\ forall x, p + psz <= x -> m' x = mem h x.
  Proof.
    intros h p n F P D H. destruct (bsize_eq n H) as (_ & _ & B1 & B2).
    destruct TOK as (T1 & T2 & T3 & T4 & T5 & T6 & T7 & T8 & T9 & T10).
    destruct (ptr_init_small psz pal sz a n p T5 T3 T6 T4 T10 D H) as (E & _ & _ & _ & _ & E2).
    unfold m_init. destruct (ptr_init psz a p n) as [d pf] eqn:EI. cbn [fst] in *.
    rewrite E2. assert (pf = Pfx 1 1 n p) as -> by (unfold ptr_init in EI; injection EI as _ <-; reflexivity).
    exists (store (mem h) p (prefix_bytes psz (Pfx 1 1 n p))).
    assert (N.of_nat (length (prefix_bytes psz (Pfx 1 1 n p))) = psz) as L by (rewrite prefix_len; lia).
    rewrite (h_write_ok h p (bsize n) F) by (auto; lia). rewrite E.
    split; [reflexivity|]. split; [|split].
    - eapply keeps_store; eauto; lia.
    - pose proof (load_store_at (mem h) p (prefix_bytes psz (Pfx 1 1 n p)) 24 (enc 8 p)) as X.
      rewrite enc_length, L in X. change (N.of_nat 24) with 24 in X. change (N.of_nat 8) with 8 in X.
      apply X; [lia|]. apply nth_prefix.
    - intros x Hx. apply store_out. lia.
  Qed.

  Lemma perm_cons : forall bs F b m, Permutation bs F -> pw bs -> 0 < snd b -> Forall (apb b) bs ->
    perm (Heap (b :: bs) m) [b] F.
  Proof.
    intros bs F b m P [W1 W2] H A. split; cbn [blocks app].
    - constructor. exact P.
    - split; constructor; auto.
  Qed.

  Lemma alloc_ok : forall h n ans F, perm h [] F -> 0 < n -> psz + sz * n + pal <= 2 ^ 64 ->
    (m_alloc s a psz pal h n ans = Some (None, h) /\ grants (blocks h) (bsize n) pal ans = false) \/
    (exists d h', m_alloc s a psz pal h n ans = Some (Some d, h') /\ perm h' (oblock d n) F /\
       keeps F (mem h) (mem h') /\ repd (mem h') d [] n).
  Proof.
    intros h n ans F P H0 H. destruct (bsize_eq n H) as (E1 & _ & B1 & B2).
    unfold m_alloc. rewrite E1. unfold h_alloc. cbn [lsize lalign].
    destruct (grants (blocks h) (bsize n) pal ans) eqn:G; [right | left; auto].
    destruct tok_nz as (_ & N2 & _ & _).
    destruct (grants_spec _ _ _ _ G N2) as (G1 & G2 & G3 & G4 & G5 & G6).
    destruct (N.eqb_spec ans 0); [lia|].
    set (h1 := Heap _ _). destruct P as [P W]. cbn [app] in P.
    assert (perm h1 [(ans, bsize n)] F) as P1 by (apply perm_cons; auto).
    destruct (init_ok h1 ans n F P1 G3 H) as (m' & I1 & I2 & I3 & I4).
    exists (ans + psz), (Heap (blocks h1) m'). split; [exact I1|].
    assert (ans + psz - psz = ans) as Ea by lia.
    split; [|split].
    - rewrite oblock_in by lia. rewrite Ea. exact P1.
    - cbn [mem]. eapply keeps_trans; [|exact I2]. intros x b Hb Hx. cbn [h1 mem].
      apply perm_apart in P1. rewrite Forall_forall in P1. specialize (P1 b Hb). unfold apb, apart in P1. cbn [fst snd] in P1.
      destruct (N.leb_spec ans x); [|reflexivity]. destruct (N.ltb_spec x (ans + bsize n)); [lia|reflexivity].
    - cbn [mem]. exists ans. repeat split; auto. cbn. lia.
  Qed.

  Lemma realloc_ok : forall h d l c n ans F, perm h (oblock d c) F -> repd (mem h) d l c ->
    c < n -> psz + sz * n + pal <= 2 ^ 64 ->
    (m_realloc s a psz pal h d c n ans = Some (None, h) /\
       exists r, incl r (blocks h) /\ grants r (bsize n) pal ans = false) \/
    (exists d' h', m_realloc s a psz pal h d c n ans = Some (Some d', h') /\ perm h' (oblock d' n) F /\
       keeps F (mem h) (mem h') /\ repd (mem h') d' l n).
  Proof.
    intros h d l c n ans F P R Hn H. destruct (bsize_eq n H) as (_ & En & B1 & B2).
    apply repd_bounds in R. destruct R as (R0 & R1 & R2 & R3 & R4 & R5 & R6 & R7 & R8 & R9 & R10 & R11).
    assert (psz + sz * c + pal <= 2 ^ 64) as Hc by lia.
    destruct (bsize_eq c Hc) as (Ec & _ & C1 & C2).
    rewrite oblock_in in P by lia.
    unfold m_realloc, ptr_realloc_args, prefix_ptr. rewrite En, Ec. unfold h_realloc.
    destruct P as [P W]. cbn [app] in P.
    destruct (take_block_ok _ _ _ _ P W) as (r & T & Pr). rewrite T. cbn [lsize lalign].
    rewrite N.eqb_refl. cbn [negb].
    assert (incl r (blocks h)) as Ir.
    { intros x Hx. eapply Permutation_in; [apply Permutation_sym; exact P|]. right.
      eapply Permutation_in; [exact Pr | exact Hx]. }
    destruct (grants r (bsize n) pal ans) eqn:G; [right | left; split; [reflexivity | exists r; auto]].
    destruct tok_nz as (Z1 & N2 & _ & _).
    destruct (grants_spec _ _ _ _ G N2) as (G1 & G2 & G3 & G4 & G5 & G6).
    destruct (N.eqb_spec ans 0); [lia|].
    assert (c * sz < n * sz) as Hcn by (apply N.mul_lt_mono_pos_r; lia).
    set (h1 := Heap _ _). assert (pw r) as Wr.
    { apply (pw_perm _ _ P) in W. destruct W as [W1 W2]. inversion W1; inversion W2; subst.
      eapply pw_perm; [apply Permutation_sym; exact Pr|]. split; auto. }
    assert (perm h1 [(ans, bsize n)] F) as P1 by (apply perm_cons; auto).
    destruct (init_ok h1 ans n F P1 G3 H) as (m' & I1 & I2 & I3 & I4).
    exists (ans + psz), (Heap (blocks h1) m'). split; [exact I1|].
    assert (ans + psz - psz = ans) as Ea by lia.
    split; [|split].
    - rewrite oblock_in by lia. rewrite Ea. exact P1.
    - cbn [mem]. eapply keeps_trans; [|exact I2]. intros x b Hb Hx. cbn [h1 mem].
      apply perm_apart in P1. rewrite Forall_forall in P1. specialize (P1 b Hb). unfold apb, apart in P1. cbn [fst snd] in P1.
      destruct (N.leb_spec ans x); [|reflexivity]. destruct (N.ltb_spec x (ans + bsize n)); [lia|reflexivity].
    - cbn [mem]. exists ans. repeat split; auto; try lia.
      assert (elems (moved (mem h) (d - psz) ans (bsize c)) (ans + psz) l) as M.
      { apply elems_moved; [lia|]. replace (d - psz + psz) with d by lia. exact R10. }
      eapply elems_ext; [|exact M]. intros x Hx. rewrite (I4 x) by lia. cbn [h1 mem]. unfold moved.
      destruct (N.leb_spec ans x); [|lia]. destruct (N.ltb_spec x (ans + bsize c)); [|lia].
      destruct (N.ltb_spec x (ans + bsize n)); [|lia]. destruct (N.ltb_spec (x - ans) (N.min (bsize c) (bsize n))); [|lia].
      reflexivity.
  Qed.

  Lemma free_ok : forall h d l c F, perm h (oblock d c) F -> repd (mem h) d l c ->
    exists r, m_free psz h d = Some (Heap r (mem h)) /\ perm (Heap r (mem h)) [] F.
  Proof.
    intros h d l c F P R.
    apply repd_bounds in R. destruct R as (R0 & R1 & R2 & R3 & R4 & R5 & R6 & R7 & R8 & R9 & R10 & R11).
    rewrite oblock_in in P by lia. assert (32 <= psz) by apply TOK.
    unfold m_free, prefix_ptr. erewrite h_read_ok; [|exact P| | |exact R11]; [|lia|].
    2:{ change (N.of_nat 8) with 8. lia. }
    rewrite dec_enc8 by lia. unfold h_free.
    destruct P as [P W]. cbn [app] in P.
    destruct (take_block_ok _ _ _ _ P W) as (r & T & Pr). rewrite T. exists r. split; [reflexivity|].
    split; [exact Pr|]. cbn [blocks].
    apply (pw_perm _ _ P) in W. destruct W as [W1 W2]. inversion W1; inversion W2; subst.
    eapply pw_perm; [apply Permutation_sym; exact Pr|]. split; auto.
  Qed.

  (** ** Reserving *)
  (** A vector after an operation, [F] being what the others own. *)
  Definition post (F : list (N * N)) (m : N -> option N) (h' : heap) (v' : mvec) (l' : list elem) (c' : N) : Prop :=
    perm h' (oblock (vs v') c') F /\ vrep (mem h') v' l' c' /\ keeps F m (mem h').

  Lemma oblock_0 : forall st, oblock st 0 = [].
  Proof. reflexivity. Qed.

  Lemma reserve_ok : forall h v l c F add ans, perm h (oblock (vs v) c) F -> vrep (mem h) v l c ->
    psz + sz * (N.of_nat (length l) + add) + pal <= 2 ^ 64 ->
    (m_reserve s a psz pal h v add ans = Some (false, v, h) /\ c < N.of_nat (length l) + add /\
       exists r, incl r (blocks h) /\ grants r (bsize (N.of_nat (length l) + add)) pal ans = false) \/
    (exists v' c' h', m_reserve s a psz pal h v add ans = Some (true, v', h') /\ post F (mem h) h' v' l c' /\
       N.of_nat (length l) + add <= c').
  Proof.
    intros h v l c F add ans P R H. pose proof (vrep_len _ _ _ _ R) as (L1 & L2 & L3 & L4 & _).
    unfold m_reserve. rewrite L1, L2, L3. destruct tok_nz as (Z1 & N2 & _ & _).
    assert (32 <= psz) by apply TOK.
    destruct (N.ltb_spec (c - N.of_nat (length l)) add) as [Hlt | Hge].
    2:{ right. exists v, c, h. split; [reflexivity|]. split; [|lia]. split; [exact P|]. split; [exact R|]. apply keeps_refl. }
    set (n := N.of_nat (length l) + add) in *.
    assert (n <= sz * n) by (rewrite <- (N.mul_1_l n) at 1; apply N.mul_le_mono_r; lia).
    rewrite usz_small by lia. destruct (N.eqb_spec c 0) as [-> | NZ]; cbn [negb].
    - destruct R as [(_ & -> & ->) | (R & _)].
      2:{ apply repd_bounds in R. lia. }
      rewrite oblock_0 in P. cbn [length] in *. change (N.of_nat 0) with 0 in *.
      destruct (alloc_ok h n ans F P) as [(E & G) | (d & h' & E & P' & K & R')]; [lia | lia | |]; rewrite E.
      + left. split; [reflexivity|]. split; [lia|]. exists (blocks h). split; [apply incl_refl | exact G].
      + right. pose proof (repd_bounds _ _ _ _ R') as (R0 & _ & _ & _ & _ & _ & _ & R7 & _).
        rewrite !ptr_add_ok by lia. eexists _, n, h'. split; [reflexivity|]. split; [|lia].
        split; [exact P'|]. split; [|exact K]. right. cbn [vs ve vc length]. split; [exact R'|].
        change (N.of_nat 0) with 0. split; lia.
    - destruct R as [(-> & _) | (R & E1 & E2)]; [contradiction|].
      destruct (realloc_ok h (vs v) l c n ans F P R) as [(E & r & I & G) | (d & h' & E & P' & K & R')];
        [lia | lia | |]; rewrite E.
      + left. split; [reflexivity|]. split; [lia|]. exists r. auto.
      + right. pose proof (repd_bounds _ _ _ _ R') as (R0 & _ & _ & _ & _ & _ & _ & R7 & R8 & R9 & _).
        rewrite !ptr_add_ok by lia. eexists _, n, h'. split; [reflexivity|]. split; [|lia].
        split; [exact P'|]. split; [|exact K]. right. cbn [vs ve vc]. split; [exact R'|]. split; reflexivity.
  Qed.

  (** The allocator did not provide [k] elements. *)
  Definition denied (h : heap) (k ans : N) : Prop :=
    exists n r, n <= psz + sz * k + pal /\ incl r (blocks h) /\ grants r n pal ans = false.

  Lemma reserve_ok' : forall h v l c F add ans, perm h (oblock (vs v) c) F -> vrep (mem h) v l c ->
    psz + sz * (N.of_nat (length l) + add) + pal <= 2 ^ 64 ->
    (m_reserve s a psz pal h v add ans = Some (false, v, h) /\ c < N.of_nat (length l) + add /\
       denied h (N.of_nat (length l) + add) ans) \/
    (exists v' c' h', m_reserve s a psz pal h v add ans = Some (true, v', h') /\ post F (mem h) h' v' l c' /\
       N.of_nat (length l) + add <= c').
  Proof.
    intros h v l c F add ans P R H.
    destruct (reserve_ok h v l c F add ans P R H) as [(E & L & r & I & G) | X]; [left | right; exact X].
    split; [exact E|]. split; [exact L|]. exists (bsize (N.of_nat (length l) + add)), r.
    destruct (bsize_eq _ H) as (_ & _ & _ & B). split; [lia|]. auto.
  Qed.

  Lemma vrep_bound : forall m v l c, vrep m v l c -> psz + c * sz < 2 ^ 63.
  Proof.
    intros m v l c [(-> & _) | (R & _)].
    - assert (psz <= 2 ^ 60) by apply TOK. lia.
    - apply repd_bounds in R. lia.
  Qed.

  Lemma repd_upd : forall m m' st l l' c, repd m st l c -> (forall x, x < st -> m' x = m x) ->
    elems m' st l' -> N.of_nat (length l') <= c -> repd m' st l' c.
  Proof.
    intros m m' st l l' c (o & E & H0 & H1 & H2 & H3 & H4 & H5 & H6 & H7 & H8) X Y Z.
    assert (32 <= psz) by apply TOK.
    exists o. repeat split; auto. rewrite <- H8. apply load_ext. intros x Hx. apply X.
    change (N.of_nat 8) with 8 in Hx. lia.
  Qed.

  Lemma data_write : forall h st l l' c F p bs, perm h (oblock st c) F -> repd (mem h) st l c ->
    st <= p -> p + N.of_nat (length bs) <= st + c * sz ->
    elems (store (mem h) p bs) st l' -> N.of_nat (length l') <= c ->
    exists h', h_write h p bs = Some h' /\ perm h' (oblock st c) F /\ keeps F (mem h) (mem h') /\
      repd (mem h') st l' c.
  Proof.
    intros h st l l' c F p bs P R H1 H2 H3 H4.
    pose proof (repd_bounds _ _ _ _ R) as (R0 & R1 & R2 & R3 & R4 & R5 & R6 & R7 & R8 & R9 & R10 & R11).
    rewrite oblock_in in * by lia.
    exists (Heap (blocks h) (store (mem h) p bs)).
    split; [eapply h_write_ok; [exact P | lia | lia]|]. split; [exact P|]. split.
    - eapply keeps_store; [exact P | lia | lia].
    - cbn [mem]. eapply repd_upd; eauto. intros x Hx. apply store_out. lia.
  Qed.
  Lemma data_move : forall h st l l' c F src dst n, perm h (oblock st c) F -> repd (mem h) st l c ->
    st <= src -> src + n <= st + c * sz -> st <= dst -> dst + n <= st + c * sz ->
    elems (moved (mem h) src dst n) st l' -> N.of_nat (length l') <= c ->
    exists h', h_move h src dst n = Some h' /\ perm h' (oblock st c) F /\ keeps F (mem h) (mem h') /\
      repd (mem h') st l' c.
  Proof.
    intros h st l l' c F src dst n P R A1 A2 A3 A4 H3 H4.
    pose proof (repd_bounds _ _ _ _ R) as (R0 & R1 & R2 & R3 & R4 & R5 & R6 & R7 & R8 & R9 & R10 & R11).
    rewrite oblock_in in * by lia.
    exists (Heap (blocks h) (moved (mem h) src dst n)).
    split; [|split; [exact P|split]].
    - unfold h_move. rewrite !(in_block_ok h _ _ F _ _ P) by lia. reflexivity.
    - eapply keeps_moved; [exact P | lia | lia].
    - cbn [mem]. eapply repd_upd; eauto. intros x Hx. apply moved_out. lia.
  Qed.

  (** Reading elements. *)
  Lemma slot_read : forall h st l1 e l2 c F, perm h (oblock st c) F -> repd (mem h) st (l1 ++ e :: l2) c ->
    h_read h (slot s st (N.of_nat (length l1))) s = Some e /\ length e = s /\
    slot s st (N.of_nat (length l1)) + sz <= st + c * sz /\
    slot s st (N.of_nat (length l1) + 1) + N.of_nat (length l2) * sz <= st + c * sz.
  Proof.
    intros h st l1 e l2 c F P R.
    pose proof (repd_bounds _ _ _ _ R) as (R0 & R1 & R2 & R3 & R4 & R5 & R6 & R7 & R8 & R9 & R10 & R11).
    rewrite oblock_in in * by lia. rewrite app_length in R8, R9. cbn [length] in *.
    apply elems_app in R10. destruct R10 as [E1 E2]. cbn [elems] in E2. destruct E2 as (E2 & E3 & E4).
    unfold slot in *. rewrite !Nat2N.inj_add, !Nat2N.inj_succ in *.
    assert (N.of_nat (length l1) * sz + sz + N.of_nat (length l2) * sz <= c * sz) by lia.
    split; [|split; [auto|split; lia]].
    eapply h_read_ok; [exact P | lia | lia | exact E3].
  Qed.
  Lemma slice_read : forall h st l1 l2 l3 c F, perm h (oblock st c) F -> repd (mem h) st (l1 ++ l2 ++ l3) c ->
    m_slice s h (slot s st (N.of_nat (length l1))) (N.of_nat (length l2)) = Some l2.
  Proof.
    intros h st l1 l2 l3 c F P R.
    pose proof (repd_bounds _ _ _ _ R) as (R0 & R1 & R2 & R3 & R4 & R5 & R6 & R7 & R8 & R9 & R10 & R11).
    rewrite oblock_in in * by lia. rewrite !app_length in R8, R9.
    apply elems_app in R10. destruct R10 as [E1 E2]. apply elems_app in E2. destruct E2 as [E2 E3].
    unfold slot, m_slice in *. rewrite !Nat2N.inj_add in *.
    rewrite (in_block_ok h _ _ F _ _ P) by lia. rewrite Nat2N.id. apply elems_load_all. exact E2.
  Qed.

  Lemma load_store_s : forall m p e, length e = s -> load (store m p (map Some e)) p s = Some e.
  Proof. intros m p e <-. apply load_store_same. Qed.
  (** The element after a split is replaced. *)
  Lemma elems_put : forall m st l1 e e' l2, length e' = s -> elems m st (l1 ++ e :: l2) ->
    elems (store m (slot s st (N.of_nat (length l1))) (map Some e')) st (l1 ++ e' :: l2).
  Proof.
    intros m st l1 e e' l2 L H. apply elems_app in H. destruct H as [H1 H2]. cbn [elems] in H2.
    destruct H2 as (_ & _ & H3). apply elems_app. unfold slot. split.
    - eapply elems_ext; [|exact H1]. intros x Hx. symmetry. apply store_out. lia.
    - cbn [elems]. split; [auto|]. split.
      + apply load_store_s; auto.
      + eapply elems_ext; [|exact H3]. intros x Hx. symmetry. apply store_out.
        rewrite map_length, L. lia.
  Qed.
  Lemma elems_snoc : forall m st l e, length e = s -> elems m st l ->
    elems (store m (st + N.of_nat (length l) * sz) (map Some e)) st (l ++ [e]).
  Proof.
    intros m st l e L H. apply elems_app. split.
    - eapply elems_ext; [|exact H]. intros x Hx. symmetry. apply store_out. lia.
    - cbn [elems]. split; [auto|]. split; [|exact I]. apply load_store_s; auto.
  Qed.

  (** ** Operations *)
  Lemma write_end_ok : forall h v l c F e, perm h (oblock (vs v) c) F -> vrep (mem h) v l c ->
    N.of_nat (length l) < c -> length e = s ->
    exists h', h_write h (ve v) (map Some e) = Some h' /\
      post F (mem h) h' (MV (vs v) (ptr_add s (ve v) 1) (vc v)) (l ++ [e]) c.
  Proof.
    intros h v l c F e P [(-> & _) | (R & E1 & E2)] Hc L; [lia|].
    pose proof (repd_bounds _ _ _ _ R) as (R0 & R1 & R2 & R3 & R4 & R5 & R6 & R7 & R8 & R9 & R10 & R11).
    pose proof (mul_le (N.of_nat (length l) + 1) c ltac:(lia)) as ML.
    assert (length (l ++ [e]) = S (length l)) as LL by (rewrite app_length; cbn; lia).
    destruct (data_write h (vs v) l (l ++ [e]) c F (ve v) (map Some e) P R) as (h' & W & P' & K & R').
    - lia.
    - rewrite map_length, L. lia.
    - rewrite E1. apply elems_snoc; auto.
    - lia.
    - exists h'. split; [exact W|]. split; [exact P'|]. split; [|exact K]. right. cbn [vs ve vc].
      split; [exact R'|]. split; [|exact E2]. rewrite ptr_add_ok by lia. lia.
  Qed.

  Lemma grow_bound : forall m v l c, vrep m v l c ->
    psz + sz * (c + N.max (N.div2 c) 1) + pal <= 2 ^ 64.
  Proof.
    intros m v l c R. apply vrep_bound in R. destruct TOK as (T1 & T2 & _ & _ & _ & _ & _ & T8 & T9 & _).
    assert (2 * N.div2 c <= c) as D by (rewrite N.div2_div; apply N.mul_div_le; discriminate).
    pose proof (mul_le _ _ D) as D2.
    destruct (N.max_spec (N.div2 c) 1) as [[_ ->] | [_ ->]]; lia.
  Qed.
  Lemma first_bound : psz + sz * first_capacity sz + pal <= 2 ^ 64 /\ 0 < first_capacity sz /\
    first_capacity sz <= N.max (1024 / sz) 1.
  Proof.
    destruct TOK as (T1 & T2 & _ & _ & _ & _ & _ & T8 & T9 & _).
    assert (sz * (1024 / sz) <= 1024) as D by (apply N.mul_div_le; lia).
    unfold first_capacity. set (q := 1024 / sz) in *.
    destruct (N.eqb_spec q 0); [lia|]. destruct (N.leb_spec q 8); [lia|].
    assert (8 * sz <= q * sz) by (apply mul_le; lia). lia.
  Qed.

  Lemma push_ok : forall h v l c F e ans, perm h (oblock (vs v) c) F -> vrep (mem h) v l c -> length e = s ->
    (m_push s a psz pal h v e ans = Some (false, v, h) /\ N.of_nat (length l) = c /\
       denied h (if N.of_nat (length l) =? 0 then N.max (1024 / sz) 1
                 else N.of_nat (length l) + N.max (N.div2 (N.of_nat (length l))) 1) ans) \/
    (exists v' c' h', m_push s a psz pal h v e ans = Some (true, v', h') /\ post F (mem h) h' v' (l ++ [e]) c').
  Proof.
    intros h v l c F e ans P R L. pose proof (vrep_len _ _ _ _ R) as (L1 & L2 & L3 & L4 & L5).
    unfold m_push. destruct (N.eqb_spec (ve v) (vc v)) as [Efull | NE].
    2:{ right. destruct (write_end_ok h v l c F e P R) as (h' & W & Q); auto.
        { assert (N.of_nat (length l) <> c) by tauto. lia. }
        rewrite W. eexists _, c, h'. split; [reflexivity | exact Q]. }
    apply L5 in Efull. unfold m_grow. rewrite L2.
    assert (exists add, (if N.eqb c 0 then m_reserve s a psz pal h v (first_capacity sz) ans
                         else m_reserve s a psz pal h v (N.max (N.div2 c) 1) ans) = m_reserve s a psz pal h v add ans /\
              0 < add /\ psz + sz * (N.of_nat (length l) + add) + pal <= 2 ^ 64 /\
              N.of_nat (length l) + add <= (if N.of_nat (length l) =? 0 then N.max (1024 / sz) 1
                 else N.of_nat (length l) + N.max (N.div2 (N.of_nat (length l))) 1)) as (add & -> & A1 & A2 & A3).
    { rewrite Efull. destruct (N.eqb_spec c 0) as [-> | NZ].
      - exists (first_capacity sz). pose proof first_bound. split; [reflexivity|]. rewrite N.add_0_l. tauto.
      - exists (N.max (N.div2 c) 1). split; [reflexivity|]. split; [lia|]. split; [eapply grow_bound; eauto | lia]. }
    destruct (reserve_ok' h v l c F add ans P R A2) as [(E & _ & n & r & B & I & G) | (v' & c' & h' & E & (P' & R' & K') & C)]; rewrite E.
    - left. split; [reflexivity|]. split; [auto|]. exists n, r. split; [|auto].
      pose proof (mul_le _ _ A3). lia.
    - right. destruct (write_end_ok h' v' l c' F e P' R') as (h2 & W & (Q1 & Q2 & Q3)); [lia | auto |]. rewrite W.
      eexists _, c', h2. split; [reflexivity|]. split; [exact Q1|]. split; [exact Q2|]. eapply keeps_trans; eauto.
  Qed.

  (** The vector is shortened to the elements [l'], which are where they must be. *)
  Lemma set_len_ok : forall h v l l' c F m, perm h (oblock (vs v) c) F -> repd (mem h) (vs v) l' c ->
    vc v = vs v + c * sz -> keeps F m (mem h) -> N.of_nat (length l') = l ->
    post F m h (m_set_len s v l) l' c.
  Proof.
    intros h v l l' c F m P R E K <-.
    pose proof (repd_bounds _ _ _ _ R) as (R0 & R1 & R2 & R3 & R4 & R5 & R6 & R7 & R8 & R9 & R10 & R11).
    split; [exact P|]. split; [|exact K]. right. unfold m_set_len. cbn [vs ve vc]. split; [exact R|].
    split; [|exact E]. apply ptr_add_ok. lia.
  Qed.
  Lemma repd_prefix : forall m st l1 l2 c, repd m st (l1 ++ l2) c -> repd m st l1 c.
  Proof.
    intros m st l1 l2 c (o & E & H0 & H1 & H2 & H3 & H4 & H5 & H6 & H7 & H8).
    rewrite app_length in H6. apply elems_app in H7. exists o. repeat split; auto; try tauto. lia.
  Qed.
  Lemma vrep_nonempty : forall m v l c, vrep m v l c -> l <> [] ->
    repd m (vs v) l c /\ ve v = vs v + N.of_nat (length l) * sz /\ vc v = vs v + c * sz.
  Proof. intros m v l c [(_ & _ & H) | H] N0; [contradiction | exact H]. Qed.

  Lemma pop_ok : forall h v l c F, perm h (oblock (vs v) c) F -> vrep (mem h) v l c ->
    exists g v', m_pop s h v = Some (g, v', h) /\
      match l with
      | [] => g = [] /\ v' = v
      | _ => g = [last l []] /\ post F (mem h) h v' (removelast l) c
      end.
  Proof.
    intros h v l c F P R. pose proof (vrep_len _ _ _ _ R) as (L1 & _). unfold m_pop. rewrite L1.
    destruct l as [|x l0] eqn:El.
    - cbn. eexists _, _. split; [reflexivity|]. auto.
    - rewrite <- El in *. assert (l <> []) as NE by (subst; discriminate).
      destruct (vrep_nonempty _ _ _ _ R NE) as (R1 & R2 & R3).
      pose proof (app_removelast_last (A := elem) [] NE) as S1.
      set (l1 := removelast l) in *. set (e := last l []) in *.
      assert (length l = S (length l1)) as LL by (rewrite S1 at 1; rewrite app_length; cbn; lia).
      rewrite S1 in R1. destruct (slot_read h (vs v) l1 e [] c F P R1) as (X & _).
      destruct (N.eqb_spec (N.of_nat (length l)) 0); [lia|].
      replace (ve v - sz) with (slot s (vs v) (N.of_nat (length l1))) by (unfold slot; rewrite R2, LL; lia).
      rewrite X. eexists _, _. split; [reflexivity|]. subst l. split; [reflexivity|].
      eapply set_len_ok; eauto using keeps_refl.
      + eapply repd_prefix; exact R1.
      + lia.
  Qed.

  Lemma nthN_split : forall l k, match nthN l k with
    | None => N.of_nat (length l) <= k
    | Some e => exists l1 l2, l = l1 ++ e :: l2 /\ k = N.of_nat (length l1) /\ takeN k l = l1 /\ dropN (k + 1) l = l2
    end.
  Proof.
    intros l k. unfold nthN. destruct (N.ltb_spec k (N.of_nat (length l))) as [H | H].
    - destruct (nth_error l (N.to_nat k)) as [e|] eqn:E.
      2:{ apply nth_error_None in E. lia. }
      destruct (nth_error_split _ _ E) as (l1 & l2 & -> & L). exists l1, l2. split; [reflexivity|]. split; [lia|].
      rewrite app_length in H. cbn [length] in H. split.
      + unfold takeN. rewrite app_length. cbn [length].
        replace (N.to_nat (N.min k (N.of_nat (length l1 + S (length l2))))) with (length l1) by lia.
        rewrite firstn_app, Nat.sub_diag, firstn_all. cbn. apply app_nil_r.
      + unfold dropN. rewrite app_length. cbn [length].
        replace (N.to_nat (N.min (k + 1) (N.of_nat (length l1 + S (length l2))))) with (length l1 + 1)%nat by lia.
        replace (l1 ++ e :: l2) with ((l1 ++ [e]) ++ l2) by (rewrite <- app_assoc; reflexivity).
        rewrite skipn_app, skipn_all2 by (rewrite app_length; cbn; lia). rewrite app_length. cbn.
        rewrite Nat.sub_diag. reflexivity.
    - exact H.
  Qed.
  Lemma nthN_mid : forall l1 e l2, nthN (l1 ++ e :: l2) (N.of_nat (length l1)) = Some e /\
    takeN (N.of_nat (length l1)) (l1 ++ e :: l2) = l1 /\ dropN (N.of_nat (length l1) + 1) (l1 ++ e :: l2) = l2.
  Proof.
    intros l1 e l2. pose proof (nthN_split (l1 ++ e :: l2) (N.of_nat (length l1))) as H.
    assert (nthN (l1 ++ e :: l2) (N.of_nat (length l1)) = Some e) as E.
    { unfold nthN. rewrite app_length. cbn [length]. destruct (N.ltb_spec (N.of_nat (length l1)) (N.of_nat (length l1 + S (length l2)))); [|lia].
      rewrite Nat2N.id, nth_error_app2, Nat.sub_diag by lia. reflexivity. }
    rewrite E in H. destruct H as (k1 & k2 & E1 & E2 & E3 & E4).
    assert (length k1 = length l1) as EL by lia.
    split; [exact E|]. rewrite E3, E4.
    assert (k1 = l1 /\ e :: k2 = e :: l2) as [-> X].
    { clear - E1 EL. revert l1 E1 EL. induction k1 as [|y k1 IH]; intros [|z l1] E1 EL; cbn in *; try discriminate; auto.
      injection E1 as <- E1. destruct (IH l1 E1) as [-> ?]; auto. }
    injection X as ->. auto.
  Qed.
  Lemma putN_mid : forall l1 e e' l2, putN (N.of_nat (length l1)) e' (l1 ++ e :: l2) = l1 ++ e' :: l2.
  Proof. intros. unfold putN. destruct (nthN_mid l1 e l2) as (_ & -> & ->). reflexivity. Qed.

  Lemma remove_ok : forall h v l c F k, perm h (oblock (vs v) c) F -> vrep (mem h) v l c ->
    match nthN l k with
    | None => m_remove s h v k = Some ([], v, h)
    | Some e => exists v' h', m_remove s h v k = Some ([e], v', h') /\
                  post F (mem h) h' v' (takeN k l ++ dropN (k + 1) l) c
    end.
  Proof.
    intros h v l c F k P R. pose proof (vrep_len _ _ _ _ R) as (L1 & _). unfold m_remove. rewrite L1.
    pose proof (nthN_split l k) as N0. destruct (nthN l k) as [e|].
    2:{ destruct (N.ltb_spec k (N.of_nat (length l))); [lia | reflexivity]. }
    destruct N0 as (l1 & l2 & -> & -> & -> & ->).
    destruct (vrep_nonempty _ _ _ _ R) as (R1 & R2 & R3); [destruct l1; discriminate|].
    destruct (slot_read h (vs v) l1 e l2 c F P R1) as (X & Xe & X1 & X2).
    rewrite app_length in *. cbn [length] in *.
    destruct (N.ltb_spec (N.of_nat (length l1)) (N.of_nat (length l1 + S (length l2)))); [|lia].
    rewrite X. replace (N.of_nat (length l1 + S (length l2)) - (N.of_nat (length l1) + 1)) with (N.of_nat (length l2)) by lia.
    pose proof (repd_bounds _ _ _ _ R1) as (_ & _ & _ & _ & _ & _ & _ & _ & B8 & _ & B10 & _).
    rewrite app_length in B8. cbn [length] in B8.
    apply elems_app in B10. destruct B10 as [E1 E2]. cbn [elems] in E2. destruct E2 as (_ & _ & E3).
    destruct (data_move h (vs v) (l1 ++ e :: l2) (l1 ++ l2) c F (slot s (vs v) (N.of_nat (length l1) + 1))
                (slot s (vs v) (N.of_nat (length l1))) (N.of_nat (length l2) * sz) P R1) as (h' & M & P' & K & R');
      try (unfold slot in *; lia).
    - apply elems_app. unfold slot. split.
      + eapply elems_ext; [|exact E1]. intros x Hx. symmetry. apply moved_out. lia.
      + rewrite <- (N.add_0_r (vs v + N.of_nat (length l1) * sz)) at 2. apply elems_moved; [lia|].
        replace (vs v + (N.of_nat (length l1) + 1) * sz + 0) with (vs v + N.of_nat (length l1) * sz + sz) by lia. exact E3.
    - rewrite app_length. lia.
    - rewrite M. eexists _, h'. split; [reflexivity|]. eapply set_len_ok; eauto. rewrite app_length. lia.
  Qed.

  Lemma get_ok : forall h v l c F k e, perm h (oblock (vs v) c) F -> vrep (mem h) v l c -> nthN l k = Some e ->
    h_read h (slot s (vs v) k) s = Some e /\ length e = s.
  Proof.
    intros h v l c F k e P R N0. pose proof (nthN_split l k) as X. rewrite N0 in X.
    destruct X as (l1 & l2 & -> & -> & _). destruct (vrep_nonempty _ _ _ _ R) as (R1 & _); [destruct l1; discriminate|].
    destruct (slot_read h (vs v) l1 e l2 c F P R1) as (A & B & _). auto.
  Qed.
  Lemma set_ok : forall h v l c F k e0 e, perm h (oblock (vs v) c) F -> vrep (mem h) v l c -> nthN l k = Some e0 ->
    length e = s -> exists h', h_write h (slot s (vs v) k) (map Some e) = Some h' /\ post F (mem h) h' v (putN k e l) c.
  Proof.
    intros h v l c F k e0 e P R N0 L. pose proof (nthN_split l k) as X. rewrite N0 in X.
    destruct X as (l1 & l2 & -> & -> & _). destruct (vrep_nonempty _ _ _ _ R) as (R1 & R2 & R3); [destruct l1; discriminate|].
    destruct (slot_read h (vs v) l1 e0 l2 c F P R1) as (_ & _ & A & B). rewrite putN_mid.
    pose proof (repd_bounds _ _ _ _ R1) as (_ & _ & _ & _ & _ & _ & _ & _ & B8 & _ & B10 & _).
    assert (length (l1 ++ e :: l2) = length (l1 ++ e0 :: l2)) as LL by (rewrite !app_length; reflexivity).
    destruct (data_write h (vs v) (l1 ++ e0 :: l2) (l1 ++ e :: l2) c F (slot s (vs v) (N.of_nat (length l1))) (map Some e) P R1)
      as (h' & W & P' & K & R').
    - unfold slot. lia.
    - rewrite map_length, L. exact A.
    - eapply elems_put; eauto.
    - rewrite LL. exact B8.
    - exists h'. split; [exact W|]. split; [exact P'|]. split; [|exact K]. right. split; [exact R'|]. split; [etransitivity; [exact R2|] | exact R3]. f_equal. f_equal. f_equal. symmetry. exact LL.
  Qed.
  Lemma nthN_some : forall l k, k < N.of_nat (length l) -> exists e, nthN l k = Some e.
  Proof.
    intros l k H. pose proof (nthN_split l k) as X. destruct (nthN l k) as [e|]; [eauto | lia].
  Qed.
  Lemma nthN_lt : forall l k e, nthN l k = Some e -> k < N.of_nat (length l).
  Proof. intros l k e H. unfold nthN in H. destruct (N.ltb_spec k (N.of_nat (length l))); [auto | discriminate]. Qed.
  Lemma nthN_ge : forall l k, nthN l k = None -> N.of_nat (length l) <= k.
  Proof. intros l k H. pose proof (nthN_split l k) as X. rewrite H in X. exact X. Qed.
  Lemma putN_length : forall l k e0 e, nthN l k = Some e0 -> length (putN k e l) = length l.
  Proof.
    intros l k e0 e H. pose proof (nthN_split l k) as X. rewrite H in X.
    destruct X as (l1 & l2 & -> & -> & _). rewrite putN_mid, !app_length. reflexivity.
  Qed.

  Lemma swap_ok : forall h v l c F i j, perm h (oblock (vs v) c) F -> vrep (mem h) v l c ->
    match nthN l i, nthN l j with
    | Some x, Some y => exists h', m_swap s h v i j = Some (true, h') /\ post F (mem h) h' v (putN j x (putN i y l)) c
    | _, _ => m_swap s h v i j = Some (false, h)
    end.
  Proof.
    intros h v l c F i j P R. pose proof (vrep_len _ _ _ _ R) as (L1 & _). unfold m_swap. rewrite L1.
    destruct (nthN l i) as [x|] eqn:Ni.
    2:{ apply nthN_ge in Ni. destruct (N.ltb_spec i (N.of_nat (length l))); [lia | reflexivity]. }
    destruct (nthN l j) as [y|] eqn:Nj.
    2:{ apply nthN_ge in Nj. destruct (N.ltb_spec j (N.of_nat (length l))); [lia | rewrite andb_false_r; reflexivity]. }
    pose proof (nthN_lt _ _ _ Ni) as Hi. pose proof (nthN_lt _ _ _ Nj) as Hj.
    apply N.ltb_lt in Hi as Hi'. apply N.ltb_lt in Hj as Hj'. rewrite Hi', Hj'. cbn [andb].
    destruct (get_ok h v l c F i x P R Ni) as [-> Lx]. destruct (get_ok h v l c F j y P R Nj) as [-> Ly].
    destruct (set_ok h v l c F i x y P R Ni Ly) as (h1 & -> & (P1 & R1 & K1)).
    destruct (nthN_some (putN i y l) j) as (z & Nz). { rewrite (putN_length _ _ _ _ Ni). exact Hj. }
    destruct (set_ok h1 v (putN i y l) c F j z x P1 R1 Nz Lx) as (h2 & -> & (P2 & R2 & K2)).
    exists h2. split; [reflexivity|]. split; [exact P2|]. split; [exact R2|]. eapply keeps_trans; eauto.
  Qed.

  Lemma putN_last : forall l x, l <> [] -> putN (N.of_nat (length l) - 1) x l = removelast l ++ [x].
  Proof.
    intros l x H. pose proof (app_removelast_last (A := elem) [] H) as S1. rewrite S1 at 1 2.
    replace (N.of_nat (length (removelast l ++ [last l []])) - 1) with (N.of_nat (length (removelast l)))
      by (rewrite app_length; cbn [length]; lia).
    apply putN_mid.
  Qed.
  Lemma nthN_last : forall l, l <> [] -> nthN l (N.of_nat (length l) - 1) = Some (last l []).
  Proof.
    intros l H. pose proof (app_removelast_last (A := elem) [] H) as S1. rewrite S1 at 1 2.
    replace (N.of_nat (length (removelast l ++ [last l []])) - 1) with (N.of_nat (length (removelast l)))
      by (rewrite app_length; cbn [length]; lia).
    apply nthN_mid.
  Qed.

  Lemma swap_remove_ok : forall h v l c F k, perm h (oblock (vs v) c) F -> vrep (mem h) v l c ->
    match nthN l k with
    | None => m_swap_remove s h v k = Some ([], v, h)
    | Some e => exists v' h', m_swap_remove s h v k = Some ([e], v', h') /\
                  post F (mem h) h' v' (removelast (putN k (last l []) l)) c
    end.
  Proof.
    intros h v l c F k P R. pose proof (vrep_len _ _ _ _ R) as (L1 & _). unfold m_swap_remove. rewrite L1.
    destruct (nthN l k) as [e|] eqn:Nk.
    2:{ apply nthN_ge in Nk. destruct (N.leb_spec (N.of_nat (length l)) k); [reflexivity | lia]. }
    pose proof (nthN_lt _ _ _ Nk) as Hk. destruct (N.leb_spec (N.of_nat (length l)) k); [lia|].
    assert (l <> []) as NE by (intros ->; cbn in Hk; lia).
    pose proof (swap_ok h v l c F k (N.of_nat (length l) - 1) P R) as S0.
    rewrite Nk, (nthN_last l NE) in S0. destruct S0 as (h1 & -> & (P1 & R1 & K1)).
    set (l' := putN k (last l []) l) in *.
    assert (length l' = length l) as LL by (eapply putN_length; eauto).
    assert (l' <> []) as NE' by (intro X; rewrite X in LL; destruct l; [contradiction | discriminate]).
    rewrite <- LL in R1. rewrite (putN_last l' e NE') in R1.
    destruct (pop_ok h1 v _ c F P1 R1) as (g & v' & E & X). rewrite E.
    destruct (removelast l' ++ [e]) as [|z zs] eqn:Ez; [destruct (removelast l'); discriminate|]. rewrite <- Ez in X.
    destruct X as [-> (Q1 & Q2 & Q3)]. rewrite last_last in *. rewrite removelast_last in Q2.
    exists v', h1. split; [reflexivity|]. split; [exact Q1|]. split; [exact Q2|]. eapply keeps_trans; eauto.
  Qed.

  Lemma take_drop : forall l n, n <= N.of_nat (length l) -> exists l1 l2, l = l1 ++ l2 /\ n = N.of_nat (length l1) /\
    takeN n l = l1 /\ dropN n l = l2.
  Proof.
    intros l n H. exists (takeN n l), (dropN n l). unfold takeN, dropN.
    rewrite firstn_skipn. split; [reflexivity|]. rewrite firstn_length. split; [lia | auto].
  Qed.
  Lemma take_all : forall l n, N.of_nat (length l) <= n -> takeN n l = l /\ dropN n l = [].
  Proof.
    intros l n H. unfold takeN, dropN. replace (N.to_nat (N.min n (N.of_nat (length l)))) with (length l) by lia.
    rewrite firstn_all, skipn_all. auto.
  Qed.
  Lemma takeN_app : forall l1 l2, takeN (N.of_nat (length l1)) (l1 ++ l2) = l1 /\ dropN (N.of_nat (length l1)) (l1 ++ l2) = l2.
  Proof.
    intros l1 l2. unfold takeN, dropN. rewrite app_length.
    replace (N.to_nat (N.min (N.of_nat (length l1)) (N.of_nat (length l1 + length l2)))) with (length l1) by lia.
    rewrite firstn_app, skipn_app, Nat.sub_diag, firstn_all, skipn_all. cbn. rewrite app_nil_r. auto.
  Qed.

  Lemma truncate_ok : forall h v l c F n, perm h (oblock (vs v) c) F -> vrep (mem h) v l c ->
    exists v', m_truncate s h v n = Some (dropN n l, v') /\ post F (mem h) h v' (takeN n l) c.
  Proof.
    intros h v l c F n P R. pose proof (vrep_len _ _ _ _ R) as (L1 & _). unfold m_truncate. rewrite L1.
    destruct (N.leb_spec (N.of_nat (length l)) n) as [H | H].
    - destruct (take_all l n H) as [-> ->]. exists v. split; [reflexivity|]. split; [exact P|]. split; [exact R|]. apply keeps_refl.
    - destruct (take_drop l n) as (l1 & l2 & -> & -> & -> & ->); [lia|]. rewrite app_length in *.
      destruct (vrep_nonempty _ _ _ _ R) as (R1 & R2 & R3). { intro X. apply app_eq_nil in X. destruct X as [-> ->]. cbn in H. lia. }
      replace (N.of_nat (length l1 + length l2) - N.of_nat (length l1)) with (N.of_nat (length l2)) by lia.
      rewrite (slice_read h (vs v) l1 l2 [] c F P) by (rewrite app_nil_r; exact R1).
      eexists. split; [reflexivity|]. eapply set_len_ok; eauto using keeps_refl, repd_prefix.
  Qed.

  Lemma copy_extend_ok : forall h v l c F (es : list elem) ans, perm h (oblock (vs v) c) F -> vrep (mem h) v l c ->
    Forall (fun e => length e = s) es -> N.of_nat (length es) * sz <= 2 ^ 62 ->
    (m_copy_extend s a psz pal h v es ans = Some (false, v, h) /\
       denied h (N.of_nat (length l) + N.of_nat (length es)) ans) \/
    (exists v' c' h', m_copy_extend s a psz pal h v es ans = Some (true, v', h') /\ post F (mem h) h' v' (l ++ es) c').
  Proof.
    intros h v l c F es ans P R L B. unfold m_copy_extend. destruct es as [|e0 es0].
    { right. exists v, c, h. split; [reflexivity|]. rewrite app_nil_r. split; [exact P|]. split; [exact R|]. apply keeps_refl. }
    cbv iota beta. set (es := (e0 :: es0) : list elem) in *. clearbody es. clear e0 es0.
    pose proof (vrep_bound _ _ _ _ R) as VB. pose proof (vrep_len _ _ _ _ R) as (_ & _ & _ & LC & _).
    assert (pal <= 2 ^ 60) by apply TOK. pose proof (mul_le _ _ LC).
    destruct (reserve_ok' h v l c F (N.of_nat (length es)) ans P R) as [(E & _ & D) | (v' & c' & h' & E & (P' & R' & K') & C)];
      [lia | rewrite E; left; auto | rewrite E; right].
    pose proof (concat_length es L) as CL.
    pose proof (vrep_len _ _ _ _ R') as (L1' & _). rewrite L1'.
    destruct (N.eq_0_gt_0_cases c') as [-> | Hc'].
    { (* nothing to write: not reached, the slice is not empty; kept for the capacity 0 *)
      assert (length l = 0%nat /\ length es = 0%nat) as [Z1 Z2] by lia.
      destruct l; [|discriminate]. destruct es; [|discriminate]. cbn [List.concat map length].
      unfold h_write. cbn [length]. change (N.of_nat 0) with 0. rewrite in_block_nil.
      destruct R' as [(_ & -> & _) | (R' & _)]; [|apply repd_bounds in R'; lia].
      eexists _, 0, _. split; [reflexivity|]. unfold m_set_len. cbn [vs ve vc app].
      rewrite ptr_add_ok. 2:{ destruct TOK as (_ & _ & _ & _ & _ & _ & _ & _ & T9 & T10). lia. }
      replace (a + (0 + 0) * sz) with a by lia.
      split; [exact P'|]. split; [left; auto|]. intros x b Hb Hx. cbn [mem]. rewrite store_out by (cbn [length]; lia). apply (K' x b Hb Hx). }
    destruct R' as [(-> & _) | (R1 & R2 & R3)]; [lia|].
    pose proof (repd_bounds _ _ _ _ R1) as (_ & _ & _ & _ & _ & _ & _ & _ & _ & _ & B10 & _).
    pose proof (mul_le _ _ C) as C2.
    destruct (data_write h' (vs v') l (l ++ es) c' F (ve v') (map Some (List.concat es)) P' R1) as (h2 & W & P2 & K2 & R'2).
    - lia.
    - rewrite map_length, CL. lia.
    - apply elems_app. rewrite R2. split.
      + eapply elems_ext; [|exact B10]. intros x Hx. symmetry. apply store_out. lia.
      + apply elems_concat; auto. apply load_store_same.
    - rewrite app_length. lia.
    - rewrite W. eexists _, c', h2. split; [reflexivity|].
      eapply set_len_ok; eauto; [eapply keeps_trans; eauto | rewrite app_length; lia].
  Qed.

  Lemma write_all_ok : forall (es : list elem) h v l c F, perm h (oblock (vs v) c) F -> vrep (mem h) v l c ->
    Forall (fun e => length e = s) es -> N.of_nat (length l) + N.of_nat (length es) <= c ->
    exists v' h', m_write_all s h v es = Some (v', h') /\ post F (mem h) h' v' (l ++ es) c.
  Proof.
    induction es as [|e es IH]; intros h v l c F P R L C.
    - exists v, h. split; [reflexivity|]. rewrite app_nil_r. split; [exact P|]. split; [exact R|]. apply keeps_refl.
    - inversion L as [|? ? L1 L2]; subst. cbn [length] in C. cbn [m_write_all].
      destruct (write_end_ok h v l c F e P R) as (h1 & -> & (P1 & R1 & K1)); [lia | auto |].
      destruct (IH h1 _ (l ++ [e]) c F P1 R1 L2) as (v' & h' & -> & (P' & R' & K')). { rewrite app_length. cbn [length]. lia. }
      exists v', h'. split; [reflexivity|]. rewrite <- app_assoc in R'. split; [exact P'|]. split; [exact R'|]. eapply keeps_trans; eauto.
  Qed.
  Lemma extend_ok : forall h v l c F (es : list elem) hi ans, perm h (oblock (vs v) c) F -> vrep (mem h) v l c ->
    Forall (fun e => length e = s) es -> N.of_nat (length es) <= hi -> hi * sz <= 2 ^ 62 ->
    (m_extend s a psz pal h v es hi ans = Some (false, v, h) /\ denied h (N.of_nat (length l) + hi) ans) \/
    (exists v' c' h', m_extend s a psz pal h v es hi ans = Some (true, v', h') /\ post F (mem h) h' v' (l ++ es) c').
  Proof.
    intros h v l c F es hi ans P R L Hi B. unfold m_extend.
    pose proof (vrep_bound _ _ _ _ R) as VB. pose proof (vrep_len _ _ _ _ R) as (_ & _ & _ & LC & _).
    assert (pal <= 2 ^ 60) by apply TOK. pose proof (mul_le _ _ LC).
    destruct (reserve_ok' h v l c F hi ans P R) as [(E & _ & D) | (v' & c' & h' & E & (P' & R' & K') & C)];
      [lia | rewrite E; left; auto | rewrite E; right].
    destruct (write_all_ok es h' v' l c' F P' R' L) as (v2 & h2 & -> & (P2 & R2 & K2)); [lia|].
    exists v2, c', h2. split; [reflexivity|]. split; [exact P2|]. split; [exact R2|]. eapply keeps_trans; eauto.
  Qed.

  Lemma in_block_in : forall h o n p k, In (o, n) (blocks h) -> o <= p -> p + k <= o + n -> in_block h p k = true.
  Proof.
    intros h o n p k H1 H2 H3. unfold in_block. apply orb_true_intro. right.
    apply existsb_exists. exists (o, n). split; [exact H1|].
    cbn [fst snd]. apply andb_true_intro. split; apply N.leb_le; lia.
  Qed.
  Lemma clone_all_ok : forall l2 l1 h rs c F o n p, perm h (oblock rs c) F -> repd (mem h) rs l1 c ->
    N.of_nat (length l1) + N.of_nat (length l2) <= c -> In (o, n) F -> o <= p ->
    p + N.of_nat (length l2) * sz <= o + n -> elems (mem h) p l2 ->
    exists h', m_clone_all s h p (rs + N.of_nat (length l1) * sz) (length l2) = Some h' /\
      perm h' (oblock rs c) F /\ keeps F (mem h) (mem h') /\ repd (mem h') rs (l1 ++ l2) c.
  Proof.
    induction l2 as [|e l2 IH]; intros l1 h rs c F o n p P R C I0 H1 H2 E.
    - exists h. split; [reflexivity|]. rewrite app_nil_r. repeat split; auto using keeps_refl; apply P.
    - cbn [elems length m_clone_all] in *. destruct E as (E1 & E2 & E3).
      assert (In (o, n) (blocks h)) as I1.
      { destruct P as [P _]. eapply Permutation_in; [apply Permutation_sym; exact P|]. apply in_or_app. auto. }
      unfold h_read. rewrite (in_block_in h o n) by (auto; lia). rewrite E2.
      pose proof (repd_bounds _ _ _ _ R) as (_ & _ & _ & _ & _ & _ & _ & _ & _ & _ & B10 & _).
      pose proof (mul_le (N.of_nat (length l1) + 1) c ltac:(lia)) as ML.
      destruct (data_write h rs l1 (l1 ++ [e]) c F (rs + N.of_nat (length l1) * sz) (map Some e) P R) as (h1 & W & P1 & K1 & R1).
      + lia.
      + rewrite map_length, E1. lia.
      + apply elems_snoc; auto.
      + rewrite app_length. cbn [length]. lia.
      + rewrite W. destruct (IH (l1 ++ [e]) h1 rs c F o n (p + sz) P1 R1) as (h' & E & P' & K' & R').
        * rewrite app_length. cbn [length]. lia.
        * exact I0.
        * lia.
        * lia.
        * eapply elems_ext; [|exact E3]. intros x Hx. symmetry. apply (K1 x _ I0). cbn [fst snd]. lia.
        * replace (rs + N.of_nat (length l1) * sz + sz) with (rs + N.of_nat (length (l1 ++ [e])) * sz)
            by (rewrite app_length; cbn [length]; lia).
          exists h'. split; [exact E|]. rewrite <- app_assoc in R'. split; [exact P'|]. split; [eapply keeps_trans; eauto | exact R'].
  Qed.
  Lemma clone_ok : forall h v l c F ans, perm h (oblock (vs v) c) F -> vrep (mem h) v l c ->
    (m_clone s a psz pal h v ans = Some (None, h) /\ denied h (N.of_nat (length l)) ans) \/
    (exists r c' h', m_clone s a psz pal h v ans = Some (Some r, h') /\
       post (oblock (vs v) c ++ F) (mem h) h' r l c').
  Proof.
    intros h v l c F ans P R. unfold m_clone. pose proof (vrep_len _ _ _ _ R) as (L1 & _ & _ & L4 & _). rewrite L1.
    assert (perm h (oblock (vs (m_new a)) 0) (oblock (vs v) c ++ F)) as P0 by exact P.
    assert (vrep (mem h) (m_new a) [] 0) as R0 by (left; auto).
    pose proof (vrep_bound _ _ _ _ R) as VB. pose proof (mul_le _ _ L4).
    destruct TOK as (T1 & T2 & _ & _ & _ & _ & _ & T8 & T9 & T10).
    destruct (reserve_ok' h (m_new a) [] 0 _ (N.of_nat (length l)) ans P0 R0)
      as [(E & _ & D) | (r & c' & h' & E & (P' & R' & K') & C)]; [cbn [length]; lia | rewrite E; left; auto | rewrite E; right].
    rewrite Nat2N.id.
    destruct R as [(-> & -> & ->) | (R1 & R2 & R3)].
    - cbn [m_clone_all length]. eexists _, c', h'. split; [reflexivity|]. change (N.of_nat 0) with 0.
      destruct R' as [(-> & -> & _) | (R'1 & R'2 & R'3)].
      + unfold m_set_len, m_new in *. cbn [vs ve vc] in *. rewrite ptr_add_ok by lia.
        replace (a + 0 * sz) with a by lia. split; [exact P'|]. split; [left; auto | exact K'].
      + eapply set_len_ok; eauto.
    - pose proof (repd_bounds _ _ _ _ R1) as (B0 & B1 & B2 & B3 & B4 & B5 & B6 & B7 & B8 & B9 & B10 & B11).
      rewrite (oblock_in (vs v) c) in * by lia.
      destruct R' as [(-> & -> & _) | (R'1 & R'2 & R'3)].
      + (* an empty vector *)
        assert (length l = 0%nat) as Z by (cbn [length] in C; lia). destruct l; [|discriminate].
        cbn [m_clone_all length]. eexists _, 0, h'. split; [reflexivity|]. change (N.of_nat 0) with 0.
        unfold m_set_len, m_new in *. cbn [vs ve vc] in *. rewrite ptr_add_ok by lia.
        replace (a + 0 * sz) with a by lia. split; [exact P'|]. split; [left; auto | exact K'].
      + cbn [length] in C.
        destruct (clone_all_ok l [] h' (vs r) c' _ (vs v - psz) (bsize c) (vs v) P' R'1) as (h2 & E2 & P2 & K2 & R2').
        * cbn [length]. lia.
        * left. reflexivity.
        * lia.
        * lia.
        * eapply elems_ext; [|exact B10]. intros x Hx. symmetry.
          apply (K' x (vs v - psz, bsize c)); [left; reflexivity | cbn [fst snd]; lia].
        * cbn [length] in E2. change (N.of_nat 0) with 0 in E2. replace (vs r + 0 * sz) with (vs r) in E2 by lia.
          rewrite E2. eexists _, c', h2. split; [reflexivity|]. eapply set_len_ok; eauto using keeps_trans.
  Qed.

  Lemma read_ok : forall h v l c F, perm h (oblock (vs v) c) F -> vrep (mem h) v l c ->
    m_slice s h (vs v) (m_len s v) = Some l.
  Proof.
    intros h v l c F P R. pose proof (vrep_len _ _ _ _ R) as (L1 & _). rewrite L1.
    destruct R as [(-> & -> & ->) | (R1 & R2 & R3)]; [reflexivity|].
    pose proof (slice_read h (vs v) [] l [] c F P) as X. cbn [app length] in X. rewrite app_nil_r in X.
    specialize (X R1). unfold slot in X. change (N.of_nat 0) with 0 in X. replace (vs v + 0 * sz) with (vs v) in X by lia. exact X.
  Qed.

  Lemma drain_ok : forall h v l c F from to k, perm h (oblock (vs v) c) F -> vrep (mem h) v l c ->
    if (from <=? to) && (to <=? N.of_nat (length l))
    then exists v' h', m_drain s h v from to k =
           Some (Some (takeN k (dropN from (takeN to l)), dropN k (dropN from (takeN to l))), v', h') /\
           post F (mem h) h' v' (takeN from l ++ dropN to l) c
    else m_drain s h v from to k = Some (None, v, h).
  Proof.
    intros h v l c F from to k P R. pose proof (vrep_len _ _ _ _ R) as (L1 & _). unfold m_drain. rewrite L1.
    destruct ((from <=? to) && (to <=? N.of_nat (length l))) eqn:EC; [|reflexivity].
    apply andb_prop in EC. destruct EC as [C1 C2]. apply N.leb_le in C1, C2.
    destruct (take_drop l to C2) as (lt & lc & El & Eto & Et1 & Et2). rewrite Et1, Et2.
    destruct (take_drop lt from) as (la & lb & Elt & Efr & Ef1 & Ef2); [lia|]. rewrite Ef2.
    assert (takeN from l = la) as ->.
    { rewrite El, Elt, <- app_assoc, Efr. apply takeN_app. }
    set (i := N.min (from + k) to).
    assert (exists b1 b2, lb = b1 ++ b2 /\ takeN k lb = b1 /\ dropN k lb = b2 /\ i = from + N.of_nat (length b1)) as (b1 & b2 & Eb & Ek1 & Ek2 & Ei).
    { destruct (N.le_gt_cases k (N.of_nat (length lb))) as [K1 | K1].
      - destruct (take_drop lb k K1) as (b1 & b2 & A1 & A2 & A3 & A4). exists b1, b2. repeat split; auto.
        unfold i. rewrite Elt, app_length in Eto. lia.
      - exists lb, []. rewrite app_nil_r. destruct (take_all lb k) as [A1 A2]; [lia|]. repeat split; auto.
        unfold i. rewrite Elt, app_length in Eto. lia. }
    rewrite Ek1, Ek2. clear Et1 Et2 Ef1 Ef2 Ek1 Ek2. clearbody i. subst lt lb. rewrite !app_length in Eto.
    destruct R as [(-> & -> & El0) | (R1 & R2 & R3)].
    { rewrite El0 in *. symmetry in El. apply app_eq_nil in El. destruct El as [El ->].
      apply app_eq_nil in El. destruct El as [-> El]. apply app_eq_nil in El. destruct El as [-> ->].
      cbn [length plus] in *. change (N.of_nat 0) with 0 in *. rewrite N.add_0_r in Ei.
      rewrite Ei, Efr, Eto. unfold m_slice, slot. cbn [vs]. rewrite !N.sub_diag, !N.mul_0_l, in_block_nil.
      cbn [N.to_nat load_all]. unfold h_move. rewrite in_block_nil. cbn [andb].
      eexists _, _. split; [reflexivity|]. unfold m_set_len. cbn [vs ve vc app].
      rewrite ptr_add_ok. 2:{ destruct TOK as (_ & _ & _ & _ & _ & _ & _ & _ & T9 & T10). lia. }
      replace (a + (0 + 0) * sz) with a by lia. split; [exact P|]. split; [left; auto|].
      intros x b Hb Hx. cbn [mem]. apply moved_out. lia. }
    subst l. rewrite <- !app_assoc in R1. rewrite !app_length in R2.
    rewrite !app_length.
    assert (m_slice s h (slot s (vs v) from) (i - from) = Some b1) as ->.
    { replace (i - from) with (N.of_nat (length b1)) by lia. rewrite Efr. eapply slice_read; eauto. }
    assert (m_slice s h (slot s (vs v) i) (to - i) = Some b2) as ->.
    { replace (to - i) with (N.of_nat (length b2)) by lia. rewrite Ei, Efr.
      replace (N.of_nat (length la) + N.of_nat (length b1)) with (N.of_nat (length (la ++ b1))) by (rewrite app_length; lia).
      eapply (slice_read h (vs v) (la ++ b1) b2 lc c F P). rewrite <- app_assoc. exact R1. }
    pose proof (repd_bounds _ _ _ _ R1) as (_ & _ & _ & _ & _ & _ & _ & _ & B8 & B9 & B10 & _).
    rewrite !app_length in B8, B9.
    apply elems_app in B10. destruct B10 as [E1 E2]. apply elems_app in E2. destruct E2 as [E2 E3].
    apply elems_app in E3. destruct E3 as [E3 E4].
    replace (N.of_nat (length la + (length b1 + length b2) + length lc) - to) with (N.of_nat (length lc)) by lia.
    destruct (data_move h (vs v) _ (la ++ lc) c F (slot s (vs v) to) (slot s (vs v) from) (N.of_nat (length lc) * sz) P R1)
      as (h' & M & P' & K & R'); try (unfold slot; lia).
    - apply elems_app. unfold slot. rewrite Efr. split.
      + eapply elems_ext; [|exact E1]. intros x Hx. symmetry. apply moved_out. lia.
      + rewrite <- (N.add_0_r (vs v + N.of_nat (length la) * sz)) at 2. apply elems_moved; [lia|].
        replace (vs v + to * sz + 0) with (vs v + N.of_nat (length la) * sz + N.of_nat (length b1) * sz + N.of_nat (length b2) * sz)
          by lia. exact E4.
    - rewrite app_length. lia.
    - rewrite M. eexists _, h'. split; [reflexivity|]. eapply set_len_ok; eauto. rewrite app_length. lia.
  Qed.

  Lemma drop_ok : forall h v l c F, perm h (oblock (vs v) c) F -> vrep (mem h) v l c ->
    exists h', m_drop s psz h v = Some (l, h') /\ perm h' [] F /\ mem h' = mem h.
  Proof.
    intros h v l c F P R. unfold m_drop. rewrite (read_ok h v l c F P R).
    pose proof (vrep_len _ _ _ _ R) as (_ & L2 & _). rewrite L2.
    destruct R as [(-> & -> & ->) | (R1 & _)].
    - exists h. split; [reflexivity|]. split; [exact P | reflexivity].
    - destruct (N.eqb_spec c 0) as [-> | NZ]; [apply repd_bounds in R1; lia|]. cbn [negb].
      destruct (free_ok h (vs v) l c F P R1) as (r & -> & P'). eexists. split; [reflexivity|]. split; [exact P' | reflexivity].
  Qed.

  (** ** Boxed slices *)
  Lemma into_boxed_ok : forall h v l c F, perm h (oblock (vs v) c) F -> vrep (mem h) v l c -> l <> [] ->
    exists b h', m_into_boxed s psz h v = Some (b, h') /\ perm h' (oblock (bs_ b) c) F /\ brep (mem h') b l c /\
      keeps F (mem h) (mem h').
  Proof.
    intros h v l c F P R NE. unfold m_into_boxed. pose proof (vrep_len _ _ _ _ R) as (_ & L2 & _). rewrite L2.
    destruct (vrep_nonempty _ _ _ _ R NE) as (R1 & R2 & R3).
    pose proof (repd_bounds _ _ _ _ R1) as (B0 & B1 & B2 & B3 & B4 & B5 & B6 & B7 & B8 & B9 & B10 & B11).
    destruct (N.eqb_spec c 0); [lia|]. cbn [negb]. rewrite oblock_in in P by lia.
    assert (32 <= psz) by apply TOK. unfold prefix_ptr.
    assert (N.of_nat (length (map Some (enc 8 c))) = 8) as L8 by (rewrite map_length, enc_length; reflexivity).
    rewrite (h_write_ok h _ _ F _ _ P) by lia.
    eexists _, _. split; [reflexivity|]. cbn [bs_ be mem blocks]. rewrite oblock_in by lia.
    split; [exact P|]. split; [|eapply keeps_store; [exact P | lia | lia]].
    split; [|split; [exact R2|split; [exact NE|]]].
    - destruct R1 as (o & E & H0 & H1 & H2 & H3 & H4 & H5 & H6 & H7 & H8).
      assert (vs v - psz = o) as Eo by lia. rewrite Eo. cbn [bs_] in *.
      cbn [bs_]. exists o. repeat split; auto.
      + eapply elems_ext; [|exact H7]. intros x Hx. symmetry. apply store_out. lia.
      + rewrite <- H8. apply load_store_out. change (N.of_nat 8) with 8. lia.
    - cbn [bs_]. rewrite <- (enc_length 8 c) at 2. apply load_store_same.
  Qed.
  Lemma brep_len : forall m b l c, brep m b l c -> b_len s b = N.of_nat (length l) /\ 0 < N.of_nat (length l).
  Proof.
    intros m b l c (R & E & NE & _).
    pose proof (repd_bounds _ _ _ _ R) as (B0 & B1 & B2 & B3 & B4 & B5 & B6 & B7 & B8 & B9 & B10 & B11).
    unfold b_len. rewrite E, ptr_diff_ok by lia. split; [reflexivity|]. destruct l; [contradiction | cbn [length]; lia].
  Qed.
  Lemma b_cap_ok : forall h b l c F, perm h (oblock (bs_ b) c) F -> brep (mem h) b l c -> b_cap psz h b = Some c.
  Proof.
    intros h b l c F P (R & E & NE & C).
    pose proof (repd_bounds _ _ _ _ R) as (B0 & B1 & B2 & B3 & B4 & B5 & B6 & B7 & B8 & B9 & B10 & B11).
    assert (32 <= psz) by apply TOK. rewrite oblock_in in P by lia.
    unfold b_cap, prefix_ptr. erewrite h_read_ok; [|exact P| | |exact C]; [|lia|change (N.of_nat 8) with 8; lia].
    cbn [option_map]. destruct tok_nz as (Z1 & _). pose proof (N.mul_le_mono_l 1 sz c ltac:(lia)).
    rewrite dec_enc8 by lia. reflexivity.
  Qed.
  Lemma into_vec_ok : forall h b l c F, perm h (oblock (bs_ b) c) F -> brep (mem h) b l c ->
    exists v, m_into_vec s psz h b = Some v /\ post F (mem h) h v l c.
  Proof.
    intros h b l c F P R. unfold m_into_vec. destruct (brep_len _ _ _ _ R) as [-> L].
    destruct (N.eqb_spec (N.of_nat (length l)) 0); [lia|]. rewrite (b_cap_ok h b l c F P R).
    destruct R as (R & E & NE & C).
    pose proof (repd_bounds _ _ _ _ R) as (B0 & B1 & B2 & B3 & B4 & B5 & B6 & B7 & B8 & B9 & B10 & B11).
    destruct (N.eqb_spec c 0); [lia|]. cbn [negb]. eexists. split; [reflexivity|].
    split; [exact P|]. split; [|apply keeps_refl]. right. cbn [vs ve vc]. split; [exact R|]. split; [exact E|].
    apply ptr_add_ok. lia.
  Qed.
  Lemma b_push_ok : forall h b l c F e, perm h (oblock (bs_ b) c) F -> brep (mem h) b l c -> length e = s ->
    b_push s psz h b e = Some (false, b, h) \/
    exists b' h', b_push s psz h b e = Some (true, b', h') /\ perm h' (oblock (bs_ b') c) F /\
      brep (mem h') b' (l ++ [e]) c /\ keeps F (mem h) (mem h').
  Proof.
    intros h b l c F e P R L. unfold b_push. destruct (brep_len _ _ _ _ R) as [-> Lp]. rewrite (b_cap_ok h b l c F P R).
    destruct (N.leb_spec c (N.of_nat (length l))) as [H | H]; [left; reflexivity | right].
    destruct R as (R & E & NE & C).
    pose proof (repd_bounds _ _ _ _ R) as (B0 & B1 & B2 & B3 & B4 & B5 & B6 & B7 & B8 & B9 & B10 & B11).
    pose proof (mul_le (N.of_nat (length l) + 1) c ltac:(lia)) as ML. assert (32 <= psz) by apply TOK.
    destruct (data_write h (bs_ b) l (l ++ [e]) c F (be b) (map Some e) P R) as (h' & W & P' & K & R').
    - lia.
    - rewrite map_length, L. lia.
    - rewrite E. apply elems_snoc; auto.
    - rewrite app_length. cbn [length]. lia.
    - rewrite W. unfold h_write in W. destruct (in_block h (be b) _); [|discriminate]. injection W as W.
      eexists _, h'. split; [reflexivity|]. cbn [bs_ be].
      split; [exact P'|]. split; [|exact K]. split; [exact R'|]. split; [cbn [be bs_]; rewrite app_length, E; cbn [length]; lia|].
      split; [destruct l; discriminate|]. cbn [bs_]. rewrite <- C, <- W. cbn [mem].
      apply load_store_out. change (N.of_nat 8) with 8. lia.
  Qed.
  Lemma b_read_ok : forall h b l c F, perm h (oblock (bs_ b) c) F -> brep (mem h) b l c ->
    m_slice s h (bs_ b) (b_len s b) = Some l.
  Proof.
    intros h b l c F P R. destruct (brep_len _ _ _ _ R) as [-> L]. destruct R as (R & _).
    pose proof (slice_read h (bs_ b) [] l [] c F P) as X. cbn [app length] in X. rewrite app_nil_r in X.
    specialize (X R). unfold slot in X. change (N.of_nat 0) with 0 in X. replace (bs_ b + 0 * sz) with (bs_ b) in X by lia. exact X.
  Qed.
  Lemma b_drop_ok : forall h b l c F, perm h (oblock (bs_ b) c) F -> brep (mem h) b l c ->
    exists h', b_drop s psz h b = Some (l, h') /\ perm h' [] F /\ mem h' = mem h.
  Proof.
    intros h b l c F P R. unfold b_drop. rewrite (b_read_ok h b l c F P R). destruct (brep_len _ _ _ _ R) as [-> L].
    destruct (N.eqb_spec (N.of_nat (length l)) 0); [lia|]. cbn [negb]. destruct R as (R & _).
    destruct (free_ok h (bs_ b) l c F P R) as (r & -> & P'). eexists. split; [reflexivity|]. split; [exact P' | reflexivity].
  Qed.

  (** ** All objects together *)
  (** An object with the list it stands for and its capacity. *)
  Definition gobj : Type := (obj * list elem * N)%type.
  Definition orep (m : N -> option N) (g : gobj) : Prop :=
    match g with (OV v, l, c) => vrep m v l c | (OB b, l, c) => brep m b l c end.
  Definition gbl (g : gobj) : list (N * N) :=
    match g with (OV v, _, c) => oblock (vs v) c | (OB b, _, c) => oblock (bs_ b) c end.
  Definition gblocks (g : option gobj) : list (N * N) := match g with None => [] | Some g => gbl g end.
  Definition gw (g : option gobj) : option obj := match g with None => None | Some (x, _, _) => Some x end.
  Definition ga (g : option gobj) : option aobj :=
    match g with None => None | Some (OV _, l, _) => Some (AV l) | Some (OB _, l, _) => Some (AB l) end.
  Definition inv (F0 : list (N * N)) (m0 : N -> option N) (gs : list (option gobj)) (h : heap) : Prop :=
    perm h (flat_map gblocks gs) F0 /\ (forall g, In (Some g) gs -> orep (mem h) g) /\ keeps F0 m0 (mem h).

  Lemma orep_keep : forall m m' g F, orep m g -> keeps F m m' -> incl (gbl g) F -> orep m' g.
  Proof.
    intros m m' [[[v | b] l] c] F R K I; cbn [orep gbl] in *; [eapply vrep_keep | eapply brep_keep]; eauto.
  Qed.
  Lemma perm_swap_mid : forall h A B C D, perm h (A ++ B ++ C) D <-> perm h B (A ++ C ++ D).
  Proof.
    intros h A B C D. unfold perm.
    assert (Permutation ((A ++ B ++ C) ++ D) (B ++ A ++ C ++ D)) as X.
    { rewrite <- !app_assoc. rewrite (app_assoc A B (C ++ D)), (app_assoc B A (C ++ D)).
      apply Permutation_app_tail. apply Permutation_app_comm. }
    split; intros [H1 H2]; split; auto; eapply perm_trans; eauto. apply Permutation_sym, X.
  Qed.
  Definition frest (F0 : list (N * N)) (g1 g2 : list (option gobj)) : list (N * N) :=
    flat_map gblocks g1 ++ flat_map gblocks g2 ++ F0.
  Lemma frest_in : forall F0 g1 g2 g, In (Some g) (g1 ++ g2) -> incl (gbl g) (frest F0 g1 g2).
  Proof.
    intros F0 g1 g2 g H x Hx. unfold frest. rewrite !in_app_iff.
    apply in_app_iff in H. destruct H as [H | H]; [left | right; left]; apply in_flat_map; exists (Some g); auto.
  Qed.
  Lemma inv_focus : forall F0 m0 g1 g2 g h, inv F0 m0 (g1 ++ Some g :: g2) h ->
    perm h (gbl g) (frest F0 g1 g2) /\ orep (mem h) g.
  Proof.
    intros F0 m0 g1 g2 g h (P & R & K). split.
    - rewrite flat_map_app in P. cbn [flat_map gblocks] in P. apply perm_swap_mid in P. exact P.
    - apply R. apply in_or_app. right. left. reflexivity.
  Qed.
  Lemma inv_back : forall F0 m0 g1 g2 g g' h h', inv F0 m0 (g1 ++ Some g :: g2) h ->
    perm h' (gbl g') (frest F0 g1 g2) -> orep (mem h') g' -> keeps (frest F0 g1 g2) (mem h) (mem h') ->
    inv F0 m0 (g1 ++ Some g' :: g2) h'.
  Proof.
    intros F0 m0 g1 g2 g g' h h' (P & R & K) P' R' K'. split; [|split].
    - rewrite flat_map_app. cbn [flat_map gblocks]. apply perm_swap_mid. exact P'.
    - intros x Hx. apply in_elt_inv in Hx. destruct Hx as [Hx | Hx]; [injection Hx as <-; exact R'|].
      eapply orep_keep; [| exact K' | apply frest_in; exact Hx].
      apply R. apply in_app_iff in Hx. apply in_app_iff. destruct Hx; [left | right; right]; auto.
    - eapply keeps_trans; [exact K|]. intros x b Hb Hx. apply (K' x b); [|exact Hx].
      unfold frest. rewrite !in_app_iff. auto.
  Qed.
  Lemma inv_gone : forall F0 m0 g1 g2 g h h', inv F0 m0 (g1 ++ Some g :: g2) h ->
    perm h' [] (frest F0 g1 g2) -> mem h' = mem h -> inv F0 m0 (g1 ++ None :: g2) h'.
  Proof.
    intros F0 m0 g1 g2 g h h' (P & R & K) P' E. unfold inv. rewrite E. split; [|split; [|exact K]].
    - rewrite flat_map_app. cbn [flat_map gblocks]. apply (perm_swap_mid h' _ [] _ F0). exact P'.
    - intros x Hx. apply in_elt_inv in Hx. destruct Hx as [Hx | Hx]; [discriminate|].
      apply R. apply in_app_iff in Hx. apply in_app_iff. destruct Hx; [left | right; right]; auto.
  Qed.
  Lemma inv_new : forall F0 m0 gs g h h', inv F0 m0 gs h -> perm h' (gbl g) (flat_map gblocks gs ++ F0) ->
    orep (mem h') g -> keeps (flat_map gblocks gs ++ F0) (mem h) (mem h') -> inv F0 m0 (gs ++ [Some g]) h'.
  Proof.
    intros F0 m0 gs g h h' (P & R & K) P' R' K'. split; [|split].
    - rewrite flat_map_app. cbn [flat_map gblocks]. apply (perm_swap_mid h' _ _ [] F0). cbn [app]. exact P'.
    - intros x Hx. apply in_app_iff in Hx. destruct Hx as [Hx | [Hx | []]]; [|injection Hx as <-; exact R'].
      eapply orep_keep; [apply R; exact Hx | exact K' |]. intros y Hy. apply in_or_app. left. apply in_flat_map. exists (Some x); auto.
    - eapply keeps_trans; [exact K|]. intros x b Hb Hx. apply (K' x b); [|exact Hx]. apply in_or_app. auto.
  Qed.

  Lemma upd_mid : forall (A : Type) (l1 l2 : list A) x y, upd (length l1) y (l1 ++ x :: l2) = l1 ++ y :: l2.
  Proof. induction l1 as [|z l1 IH]; intros; cbn [length app upd]; [reflexivity | rewrite IH; reflexivity]. Qed.
  Lemma upd_map : forall (A B : Type) (f : A -> B) (l1 l2 : list A) x y,
    upd (length l1) (f y) (map f (l1 ++ x :: l2)) = map f (l1 ++ y :: l2).
  Proof. intros. rewrite !map_app. cbn [map]. rewrite <- (map_length f l1). apply upd_mid. Qed.
  Lemma upd_same : forall (A : Type) (l : list A) i x, nth_error l i = Some x -> upd i x l = l.
  Proof.
    induction l as [|y l IH]; intros i x H; [destruct i; reflexivity|]. destruct i as [|i]; cbn in *; [congruence | rewrite IH; auto].
  Qed.

  (** What one operation does. *)
  Definition good (F0 : list (N * N)) (m0 : N -> option N) (o : op) (gs : list (option gobj)) (h : heap) : Prop :=
    (exists b gs' h', step s a psz pal o (map gw gs, h) = Some (b, (map gw gs', h')) /\ inv F0 m0 gs' h' /\
       spec_step o (map ga gs) = (b, map ga gs')) \/
    (exists i l, target o = Some i /\ nth_error (map ga gs) i = Some (Some (AV l)) /\ refused s psz pal h l o /\
       step s a psz pal o (map gw gs, h) = Some (Obs false [] [], (map gw gs, h))) \/
    (exists i e ans l, o = Push i e ans /\ nth_error (map ga gs) i = Some (Some (AB l)) /\
       step s a psz pal o (map gw gs, h) = Some (Obs false [] [], (map gw gs, h))).

  Lemma denied_refused : forall h l o k ans, may_ask s l o = Some (k, ans) -> denied h k ans -> refused s psz pal h l o.
  Proof. intros h l o k ans M (n & r & H1 & H2 & H3). exists k, ans, n, r. auto. Qed.

  Lemma good_vec : forall F0 m0 o (g1 g2 : list (option gobj)) v l c h, op_ok s o -> target o = Some (length g1) ->
    inv F0 m0 (g1 ++ Some (OV v, l, c) :: g2) h -> good F0 m0 o (g1 ++ Some (OV v, l, c) :: g2) h.
  Proof.
    intros F0 m0 o g1 g2 v l c h OK T I.
    set (gs := g1 ++ Some (OV v, l, c) :: g2) in *.
    destruct (inv_focus _ _ _ _ _ _ I) as [P R]. cbn [gbl orep] in P, R.
    assert (forall (A : Type) (f : option gobj -> A), nth_error (map f gs) (length g1) = Some (f (Some (OV v, l, c)))) as NTH.
    { intros A f. unfold gs. rewrite map_app. cbn [map]. rewrite <- (map_length f g1).
      rewrite nth_error_app2, Nat.sub_diag by apply Nat.le_refl. reflexivity. }
    assert (step s a psz pal o (map gw gs, h) = step_vec s a psz pal (length g1) v o (map gw gs) h) as SE.
    { unfold step. rewrite T, NTH. reflexivity. }
    assert (spec_step o (map ga gs) = spec_vec (length g1) l o (map ga gs)) as PE.
    { unfold spec_step. rewrite T, NTH. reflexivity. }
    assert (forall v' l' c', upd (length g1) (Some (OV v')) (map gw gs) = map gw (g1 ++ Some (OV v', l', c') :: g2)) as UW.
    { intros v' l' c'. exact (upd_map _ _ gw g1 g2 _ (Some (OV v', l', c'))). }
    assert (forall v' l' c', upd (length g1) (Some (AV l')) (map ga gs) = map ga (g1 ++ Some (OV v', l', c') :: g2)) as UA.
    { intros v' l' c'. exact (upd_map _ _ ga g1 g2 _ (Some (OV v', l', c'))). }
    assert (forall v' l' c' h', post (frest F0 g1 g2) (mem h) h' v' l' c' -> inv F0 m0 (g1 ++ Some (OV v', l', c') :: g2) h') as BK.
    { intros v' l' c' h' (P' & R' & K'). eapply inv_back; eauto. }
    assert (forall (b : obs) v' l' c' h', post (frest F0 g1 g2) (mem h) h' v' l' c' -> exists (b0 : obs) gs' h'',
      Some (b, (upd (length g1) (Some (OV v')) (map gw gs), h')) = Some (b0, (map gw gs', h'')) /\ inv F0 m0 gs' h'' /\
      (b, upd (length g1) (Some (AV l')) (map ga gs)) = (b0, map ga gs')) as DONE.
    { intros b v' l' c' h' Q. exists b, (g1 ++ Some (OV v', l', c') :: g2), h'. rewrite (UW v' l' c'), (UA v' l' c').
      split; [reflexivity|]. split; [apply BK; exact Q | reflexivity]. }
    assert (upd (length g1) (Some (OV v)) (map gw gs) = map gw gs) as US by (apply upd_same; apply (NTH _ gw)).
    assert (map ga (g1 ++ Some (OV v, l, c) :: g2) = map ga gs) as GS by reflexivity.
    assert (forall v' c', map ga (g1 ++ Some (OV v', l, c') :: g2) = map ga gs) as GSL.
    { intros. unfold gs. rewrite !map_app. reflexivity. }
    unfold good. rewrite SE, PE. clear SE PE.
    destruct o as [|i n ans|i e ans|i|i k|i j k|i k|i n|i es ans|i es hi ans|i ans|i k|i k e|i|i from to k|i|i|i];
      cbn [target] in T; try discriminate; injection T as ->; cbn [op_ok] in OK; cbn [step_vec spec_vec].
    - (* reserve *)
      pose proof (vrep_bound _ _ _ _ R) as VB. pose proof (vrep_len _ _ _ _ R) as (_ & _ & _ & LC & _). pose proof (mul_le _ _ LC).
      assert (pal <= 2 ^ 60) by apply TOK.
      destruct (reserve_ok' h v l c _ n ans P R) as [(-> & _ & D) | (v' & c' & h' & -> & Q & _)]; [lia | right; left | left].
      + exists (length g1), l. split; [reflexivity|]. split; [apply (NTH _ ga)|]. rewrite US.
        split; [|reflexivity]. eapply denied_refused; [reflexivity | exact D].
      + eexists _, (g1 ++ Some (OV v', l, c') :: g2), h'. rewrite (UW v' l c'), GSL. split; [reflexivity|]. auto.
    - (* push *)
      destruct (push_ok h v l c _ e ans P R OK) as [(-> & _ & D) | (v' & c' & h' & -> & Q)]; [right; left | left].
      + exists (length g1), l. split; [reflexivity|]. split; [apply (NTH _ ga)|]. rewrite US.
        split; [|reflexivity]. eapply denied_refused; [reflexivity | exact D].
      + eexists _, (g1 ++ Some (OV v', l ++ [e], c') :: g2), h'. rewrite (UW v' (l ++ [e]) c'), (UA v' (l ++ [e]) c'). split; [reflexivity|]. auto.
    - (* pop *)
      left. destruct (pop_ok h v l c _ P R) as (g & v' & -> & X). destruct l as [|x l0] eqn:El.
      + destruct X as [-> ->]. eexists _, gs, h. rewrite US. split; [reflexivity|]. auto.
      + destruct X as [-> Q]. rewrite <- El in *. eexists _, (g1 ++ Some (OV v', removelast l, c) :: g2), h.
        rewrite (UW v' (removelast l) c), (UA v' (removelast l) c). split; [reflexivity|]. split; auto.
    - (* remove *)
      left. pose proof (remove_ok h v l c _ k P R) as X. destruct (nthN l k) as [e|].
      + destruct X as (v' & h' & -> & Q). eapply DONE; exact Q.
      + rewrite X, US. eexists _, gs, h. split; [reflexivity|]. auto.
    - (* swap *)
      left. pose proof (swap_ok h v l c _ j k P R) as X. destruct (nthN l j) as [x|]; [destruct (nthN l k) as [y|]|].
      + destruct X as (h' & -> & Q). eapply DONE; exact Q.
      + rewrite X, US. eexists _, gs, h. split; [reflexivity|]. auto.
      + rewrite X, US. eexists _, gs, h. split; [reflexivity|]. auto.
    - (* swap_remove *)
      left. pose proof (swap_remove_ok h v l c _ k P R) as X. destruct (nthN l k) as [e|].
      + destruct X as (v' & h' & -> & Q). eapply DONE; exact Q.
      + rewrite X, US. eexists _, gs, h. split; [reflexivity|]. auto.
    - (* truncate *)
      left. destruct (truncate_ok h v l c _ n P R) as (v' & -> & Q). eapply DONE; exact Q.
    - (* copy_extend *)
      destruct OK as [OK1 OK2].
      destruct (copy_extend_ok h v l c _ es ans P R OK1 OK2) as [(-> & D) | (v' & c' & h' & -> & Q)]; [right; left | left].
      + exists (length g1), l. split; [reflexivity|]. split; [apply (NTH _ ga)|]. rewrite US.
        split; [|reflexivity]. eapply denied_refused; [reflexivity | exact D].
      + eapply DONE; exact Q.
    - (* extend *)
      destruct OK as (OK1 & OK2 & OK3).
      destruct (extend_ok h v l c _ es hi ans P R OK1 OK2 OK3) as [(-> & D) | (v' & c' & h' & -> & Q)]; [right; left | left].
      + exists (length g1), l. split; [reflexivity|]. split; [apply (NTH _ ga)|]. rewrite US.
        split; [|reflexivity]. eapply denied_refused; [reflexivity | exact D].
      + eapply DONE; exact Q.
    - (* clone *)
      destruct (clone_ok h v l c _ ans P R) as [(-> & D) | (r & c' & h' & -> & (P' & R' & K'))]; [right; left | left].
      + exists (length g1), l. split; [reflexivity|]. split; [apply (NTH _ ga)|].
        split; [|reflexivity]. eapply denied_refused; [reflexivity | exact D].
      + eexists _, (gs ++ [Some (OV r, l, c')]), h'. rewrite !map_app. split; [reflexivity|]. split; [|reflexivity].
        assert (forall x, In x (flat_map gblocks gs ++ F0) -> In x (oblock (vs v) c ++ frest F0 g1 g2)) as IN.
        { intros x Hx. unfold gs in Hx. rewrite flat_map_app in Hx. cbn [flat_map gblocks gbl] in Hx.
          unfold frest. rewrite !in_app_iff in *. tauto. }
        apply inv_new with (h := h); auto.
        * unfold gs. rewrite flat_map_app. cbn [flat_map gblocks gbl]. destruct P' as [P1 P2]. split; [|exact P2].
          eapply perm_trans; [exact P1|]. apply Permutation_app_head. unfold frest. rewrite <- !app_assoc.
          apply Permutation_app_swap_app.
        * intros x b Hb Hx. apply (K' x b); auto.
    - (* get *)
      left. unfold m_get. pose proof (vrep_len _ _ _ _ R) as (-> & _). destruct (nthN l k) as [e|] eqn:Nk.
      + apply nthN_lt in Nk as Lk. apply N.ltb_lt in Lk. rewrite Lk. destruct (get_ok h v l c _ k e P R Nk) as [-> _].
        eexists _, gs, h. split; [reflexivity|]. auto.
      + apply nthN_ge in Nk. destruct (N.ltb_spec k (N.of_nat (length l))); [lia|]. eexists _, gs, h. split; [reflexivity|]. auto.
    - (* set *)
      left. unfold m_set. pose proof (vrep_len _ _ _ _ R) as (-> & _). destruct (nthN l k) as [e0|] eqn:Nk.
      + apply nthN_lt in Nk as Lk. apply N.ltb_lt in Lk. rewrite Lk. destruct (set_ok h v l c _ k e0 e P R Nk OK) as (h' & -> & Q).
        eapply DONE; exact Q.
      + apply nthN_ge in Nk. destruct (N.ltb_spec k (N.of_nat (length l))); [lia|]. rewrite US. eexists _, gs, h. split; [reflexivity|]. auto.
    - (* read *)
      left. rewrite (read_ok h v l c _ P R). eexists _, gs, h. split; [reflexivity|]. auto.
    - (* drain *)
      left. pose proof (drain_ok h v l c _ from to k P R) as X. destruct ((from <=? to) && (to <=? N.of_nat (length l))).
      + destruct X as (v' & h' & -> & Q). eapply DONE; exact Q.
      + rewrite X, US. eexists _, gs, h. split; [reflexivity|]. auto.
    - (* into boxed *)
      left. pose proof (vrep_len _ _ _ _ R) as (-> & _). destruct (N.eqb_spec (N.of_nat (length l)) 0) as [Z | Z].
      + destruct l; [|discriminate]. eexists _, gs, h. split; [reflexivity|]. auto.
      + destruct (into_boxed_ok h v l c _ P R) as (b & h' & -> & P' & R' & K'); [intros ->; apply Z; reflexivity|].
        eexists _, (g1 ++ Some (OB b, l, c) :: g2), h'.
        rewrite (upd_map _ _ gw g1 g2 _ (Some (OB b, l, c)) : upd (length g1) (Some (OB b)) (map gw gs) = _).
        split; [reflexivity|]. split; [eapply inv_back; eauto|].
        destruct l as [|x l0] eqn:El; [contradiction Z; reflexivity|]. rewrite <- El in *.
        rewrite (upd_map _ _ ga g1 g2 _ (Some (OB b, l, c)) : upd (length g1) (Some (AB l)) (map ga gs) = _). reflexivity.
    - (* into vec *)
      left. eexists _, gs, h. split; [reflexivity|]. auto.
    - (* drop *)
      left. destruct (drop_ok h v l c _ P R) as (h' & -> & P' & E'). eexists _, (g1 ++ None :: g2), h'.
      rewrite (upd_map _ _ gw g1 g2 _ None : upd (length g1) None (map gw gs) = _).
      rewrite (upd_map _ _ ga g1 g2 _ None : upd (length g1) None (map ga gs) = _).
      split; [reflexivity|]. split; [eapply inv_gone; eauto | reflexivity].
  Qed.

  Lemma good_box : forall F0 m0 o (g1 g2 : list (option gobj)) b l c h, op_ok s o -> target o = Some (length g1) ->
    inv F0 m0 (g1 ++ Some (OB b, l, c) :: g2) h -> good F0 m0 o (g1 ++ Some (OB b, l, c) :: g2) h.
  Proof.
    intros F0 m0 o g1 g2 b l c h OK T I.
    set (gs := g1 ++ Some (OB b, l, c) :: g2) in *.
    destruct (inv_focus _ _ _ _ _ _ I) as [P R]. cbn [gbl orep] in P, R.
    assert (forall (A : Type) (f : option gobj -> A), nth_error (map f gs) (length g1) = Some (f (Some (OB b, l, c)))) as NTH.
    { intros A f. unfold gs. rewrite map_app. cbn [map]. rewrite <- (map_length f g1).
      rewrite nth_error_app2, Nat.sub_diag by apply Nat.le_refl. reflexivity. }
    assert (step s a psz pal o (map gw gs, h) = step_box s psz (length g1) b o (map gw gs) h) as SE.
    { unfold step. rewrite T, NTH. reflexivity. }
    assert (spec_step o (map ga gs) = spec_box (length g1) l o (map ga gs)) as PE.
    { unfold spec_step. rewrite T, NTH. reflexivity. }
    assert (upd (length g1) (Some (OB b)) (map gw gs) = map gw gs) as US by (apply upd_same; apply (NTH _ gw)).
    unfold good. rewrite SE, PE. clear SE PE.
    destruct o as [|i n ans|i e ans|i|i k|i j k|i k|i n|i es ans|i es hi ans|i ans|i k|i k e|i|i from to k|i|i|i];
      cbn [target] in T; try discriminate; injection T as ->; cbn [op_ok] in OK; cbn [step_box spec_box];
      try (left; exists (Obs false [] []), gs, h; auto; fail).
    - (* push *)
      destruct (b_push_ok h b l c _ e P R OK) as [-> | (b' & h' & -> & P' & R' & K')]; [right; right | left].
      + exists (length g1), e, ans, l. rewrite US. split; [reflexivity|]. split; [apply (NTH _ ga) | reflexivity].
      + eexists _, (g1 ++ Some (OB b', l ++ [e], c) :: g2), h'.
        rewrite (upd_map _ _ gw g1 g2 _ (Some (OB b', l ++ [e], c)) : upd (length g1) (Some (OB b')) (map gw gs) = _).
        rewrite (upd_map _ _ ga g1 g2 _ (Some (OB b', l ++ [e], c)) : upd (length g1) (Some (AB (l ++ [e]))) (map ga gs) = _).
        split; [reflexivity|]. split; [eapply inv_back; eauto | reflexivity].
    - (* read *)
      left. rewrite (b_read_ok h b l c _ P R). eexists _, gs, h. split; [reflexivity|]. auto.
    - (* into vec *)
      left. destruct (into_vec_ok h b l c _ P R) as (v & -> & (P' & R' & K')).
      eexists _, (g1 ++ Some (OV v, l, c) :: g2), h.
      rewrite (upd_map _ _ gw g1 g2 _ (Some (OV v, l, c)) : upd (length g1) (Some (OV v)) (map gw gs) = _).
      rewrite (upd_map _ _ ga g1 g2 _ (Some (OV v, l, c)) : upd (length g1) (Some (AV l)) (map ga gs) = _).
      split; [reflexivity|]. split; [eapply inv_back; eauto | reflexivity].
    - (* drop *)
      left. destruct (b_drop_ok h b l c _ P R) as (h' & -> & P' & E'). eexists _, (g1 ++ None :: g2), h'.
      rewrite (upd_map _ _ gw g1 g2 _ None : upd (length g1) None (map gw gs) = _).
      rewrite (upd_map _ _ ga g1 g2 _ None : upd (length g1) None (map ga gs) = _).
      split; [reflexivity|]. split; [eapply inv_gone; eauto | reflexivity].
  Qed.

  Lemma good_step : forall F0 m0 o gs h, op_ok s o -> inv F0 m0 gs h -> good F0 m0 o gs h.
  Proof.
    intros F0 m0 o gs h OK I. destruct (target o) as [i|] eqn:T.
    - destruct (nth_error gs i) as [[[[[v | b] l] c]|]|] eqn:NE.
      + apply nth_error_split in NE. destruct NE as (g1 & g2 & -> & <-). apply good_vec; auto.
      + apply nth_error_split in NE. destruct NE as (g1 & g2 & -> & <-). apply good_box; auto.
      + left. exists (Obs false [] []), gs, h. unfold step, spec_step. rewrite T, !nth_error_map, NE. cbn. auto.
      + left. exists (Obs false [] []), gs, h. unfold step, spec_step. rewrite T, !nth_error_map, NE. cbn. auto.
    - left. exists (Obs true [] []), (gs ++ [Some (OV (m_new a), [], 0)]), h. unfold step, spec_step. rewrite T, !map_app.
      split; [reflexivity|]. split; [|reflexivity]. apply inv_new with (h := h); auto.
      + destruct I as (P & _). exact P.
      + left. auto.
      + apply keeps_refl.
  Qed.

  Lemma run_good : forall os F0 m0 gs h, Forall (op_ok s) os -> inv F0 m0 gs h ->
    exists tr gs' h', run s a psz pal os (map gw gs, h) = Some (tr, (map gw gs', h')) /\
      history s a psz pal os (map gw gs, h) (map ga gs) (map gw gs', h') (map ga gs') /\ inv F0 m0 gs' h'.
  Proof.
    induction os as [|o os IH]; intros F0 m0 gs h OK I.
    - exists [], gs, h. split; [reflexivity|]. split; [constructor | exact I].
    - inversion OK as [|? ? OK1 OK2]; subst.
      destruct (good_step F0 m0 o gs h OK1 I) as [(b & gs1 & h1 & E1 & I1 & S1) | [(i & l & T & N1 & D & E1) | (i & e & ans & l & Eo & N1 & E1)]].
      + destruct (IH F0 m0 gs1 h1 OK2 I1) as (tr & gs' & h' & E & H & I'). exists (b :: tr), gs', h'.
        cbn [run]. rewrite E1, E. split; [reflexivity|]. split; [|exact I']. eapply hi_done; eauto.
      + destruct (IH F0 m0 gs h OK2 I) as (tr & gs' & h' & E & H & I'). eexists (_ :: tr), gs', h'.
        cbn [run]. rewrite E1, E. split; [reflexivity|]. split; [|exact I']. eapply hi_refused; eauto.
      + destruct (IH F0 m0 gs h OK2 I) as (tr & gs' & h' & E & H & I'). eexists (_ :: tr), gs', h'.
        cbn [run]. rewrite E1, E. split; [reflexivity|]. split; [|exact I']. eapply hi_full; eauto.
  Qed.
  Lemma inv_start : forall h, heap_ok h -> inv (blocks h) (mem h) [] h.
  Proof.
    intros h H. split; [split; [apply Permutation_refl | exact H] | split; [intros g [] | apply keeps_refl]].
  Qed.

  (** ** Room for pushes *)
  Lemma h_write_blocks : forall h p bs h', h_write h p bs = Some h' -> blocks h' = blocks h.
  Proof. intros h p bs h' H. unfold h_write in H. destruct (in_block _ _ _); [|discriminate]. injection H as <-. reflexivity. Qed.
  Lemma nth_mid : forall (A B : Type) (f : A -> B) (g1 g2 : list A) x,
    nth_error (map f (g1 ++ x :: g2)) (length g1) = Some (f x).
  Proof.
    intros A B f g1 g2 x. rewrite map_app. cbn [map]. rewrite <- (map_length f g1).
    rewrite nth_error_app2, Nat.sub_diag by apply Nat.le_refl. reflexivity.
  Qed.
  Lemma pushes_vec : forall (ps : list (elem * N)) F0 m0 (g1 g2 : list (option gobj)) v l c h,
    inv F0 m0 (g1 ++ Some (OV v, l, c) :: g2) h -> Forall (fun p => length (fst p) = s) ps ->
    N.of_nat (length l) + N.of_nat (length ps) <= c ->
    exists w' h', run s a psz pal (map (fun p => Push (length g1) (fst p) (snd p)) ps)
                    (map gw (g1 ++ Some (OV v, l, c) :: g2), h) = Some (map (fun _ => Obs true [] []) ps, (w', h')) /\
      blocks h' = blocks h.
  Proof.
    induction ps as [|[e ans] ps IH]; intros F0 m0 g1 g2 v l c h I L C.
    - eexists _, h. split; reflexivity.
    - inversion L as [|? ? L1 L2]; subst. cbn [fst] in L1. cbn [length] in C.
      destruct (inv_focus _ _ _ _ _ _ I) as [P R]. cbn [gbl orep] in P, R.
      pose proof (vrep_len _ _ _ _ R) as (_ & _ & _ & _ & V5).
      destruct (write_end_ok h v l c _ e P R) as (h1 & W & (P1 & R1 & K1)); [lia | auto |].
      set (v' := MV (vs v) (ptr_add s (ve v) 1) (vc v)) in *.
      assert (inv F0 m0 (g1 ++ Some (OV v', l ++ [e], c) :: g2) h1) as I1 by (eapply inv_back; eauto).
      destruct (IH F0 m0 g1 g2 v' (l ++ [e]) c h1 I1 L2) as (w' & h' & E & B). { rewrite app_length. cbn [length]. lia. }
      exists w', h'. split; [|rewrite B; eapply h_write_blocks; eauto].
      cbn [map run fst snd]. unfold step at 1. cbn [target].
      rewrite (nth_mid _ _ gw g1 g2). cbn [gw step_vec]. unfold m_push.
      destruct (N.eqb_spec (ve v) (vc v)) as [Efull | _].
      { assert (N.of_nat (length l) = c) by tauto. lia. }
      rewrite W. fold v'. rewrite (upd_map _ _ gw g1 g2 _ (Some (OV v', l ++ [e], c)) : upd _ (Some (OV v')) _ = _).
      match goal with |- match ?x with _ => _ end = _ => replace x with (Some (map (fun _ : elem * N => Obs true [] []) ps, (w', h'))) by (symmetry; exact E) end.
      reflexivity.
  Qed.
  Lemma pushes_box : forall (ps : list (elem * N)) F0 m0 (g1 g2 : list (option gobj)) b l c h,
    inv F0 m0 (g1 ++ Some (OB b, l, c) :: g2) h -> Forall (fun p => length (fst p) = s) ps ->
    N.of_nat (length l) + N.of_nat (length ps) <= c ->
    exists w' h', run s a psz pal (map (fun p => Push (length g1) (fst p) (snd p)) ps)
                    (map gw (g1 ++ Some (OB b, l, c) :: g2), h) = Some (map (fun _ => Obs true [] []) ps, (w', h')) /\
      blocks h' = blocks h.
  Proof.
    induction ps as [|[e ans] ps IH]; intros F0 m0 g1 g2 b l c h I L C.
    - eexists _, h. split; reflexivity.
    - inversion L as [|? ? L1 L2]; subst. cbn [fst] in L1. cbn [length] in C.
      destruct (inv_focus _ _ _ _ _ _ I) as [P R]. cbn [gbl orep] in P, R.
      destruct (b_push_ok h b l c _ e P R L1) as [X | (b' & h1 & E1 & P1 & R1 & K1)].
      { exfalso. unfold b_push in X. destruct (brep_len _ _ _ _ R) as [V1 _]. rewrite V1, (b_cap_ok h b l c _ P R) in X.
        destruct (N.leb_spec c (N.of_nat (length l))); [lia|]. destruct (h_write h (be b) _); discriminate. }
      assert (inv F0 m0 (g1 ++ Some (OB b', l ++ [e], c) :: g2) h1) as I1 by (eapply inv_back; eauto).
      destruct (IH F0 m0 g1 g2 b' (l ++ [e]) c h1 I1 L2) as (w' & h' & E & B). { rewrite app_length. cbn [length]. lia. }
      exists w', h'. split.
      + cbn [map run fst snd]. unfold step at 1. cbn [target].
        rewrite (nth_mid _ _ gw g1 g2). cbn [gw step_box]. rewrite E1.
        rewrite (upd_map _ _ gw g1 g2 _ (Some (OB b', l ++ [e], c)) : upd _ (Some (OB b')) _ = _).
        match goal with |- match ?x with _ => _ end = _ => replace x with (Some (map (fun _ : elem * N => Obs true [] []) ps, (w', h'))) by (symmetry; exact E) end.
      reflexivity.
      + rewrite B. unfold b_push in E1. destruct (b_cap psz h b) as [c0|]; [|discriminate].
        destruct (c0 <=? b_len s b); [discriminate|]. destruct (h_write h (be b) (map Some e)) as [h2|] eqn:W; [|discriminate].
        injection E1 as _ <-. eapply h_write_blocks; eauto.
  Qed.
  (** Where a reserve succeeded, and what it left. *)
  Lemma reserved : forall F0 m0 gs h i n ans st, inv F0 m0 gs h -> op_ok s (Reserve i n ans) ->
    step s a psz pal (Reserve i n ans) (map gw gs, h) = Some (Obs true [] [], st) ->
    exists g1 g2 v l c h', i = length g1 /\ st = (map gw (g1 ++ Some (OV v, l, c) :: g2), h') /\
      inv F0 m0 (g1 ++ Some (OV v, l, c) :: g2) h' /\ N.of_nat (length l) + n <= c.
  Proof.
    intros F0 m0 gs h i n ans st I OK E. cbn [op_ok] in OK. unfold step in E. cbn [target] in E. rewrite nth_error_map in E.
    destruct (nth_error gs i) as [[[[[v | b] l] c]|]|] eqn:NE; cbn [option_map gw] in E; try discriminate.
    apply nth_error_split in NE. destruct NE as (g1 & g2 & -> & <-). cbn [step_vec] in E.
    destruct (inv_focus _ _ _ _ _ _ I) as [P R]. cbn [gbl orep] in P, R.
    pose proof (vrep_bound _ _ _ _ R) as VB. pose proof (vrep_len _ _ _ _ R) as (_ & _ & _ & LC & _). pose proof (mul_le _ _ LC).
    assert (pal <= 2 ^ 60) by apply TOK.
    destruct (reserve_ok' h v l c _ n ans P R) as [(X & _ & D) | (v' & c' & h' & X & (P' & R' & K') & C)];
      [lia | rewrite X in E; discriminate | rewrite X in E].
    rewrite (upd_map _ _ gw g1 g2 _ (Some (OV v', l, c')) : upd _ (Some (OV v')) _ = _) in E. injection E as <-.
    exists g1, g2, v', l, c', h'. split; [reflexivity|]. split; [reflexivity|]. split; [eapply inv_back; eauto | exact C].
  Qed.
  Lemma boxed_after : forall F0 m0 (g1 g2 : list (option gobj)) v l c h st, inv F0 m0 (g1 ++ Some (OV v, l, c) :: g2) h ->
    step s a psz pal (IntoBoxed (length g1)) (map gw (g1 ++ Some (OV v, l, c) :: g2), h) = Some (Obs true [] [], st) ->
    exists b h', st = (map gw (g1 ++ Some (OB b, l, c) :: g2), h') /\ inv F0 m0 (g1 ++ Some (OB b, l, c) :: g2) h'.
  Proof.
    intros F0 m0 g1 g2 v l c h st I E. unfold step in E. cbn [target] in E. rewrite (nth_mid _ _ gw g1 g2) in E.
    cbn [gw step_vec] in E. destruct (inv_focus _ _ _ _ _ _ I) as [P R]. cbn [gbl orep] in P, R.
    pose proof (vrep_len _ _ _ _ R) as (V1 & _). rewrite V1 in E.
    destruct (N.eqb_spec (N.of_nat (length l)) 0) as [Z | Z]; [discriminate|].
    destruct (into_boxed_ok h v l c _ P R) as (b & h' & X & P' & R' & K'); [intros ->; apply Z; reflexivity|].
    rewrite X in E. rewrite (upd_map _ _ gw g1 g2 _ (Some (OB b, l, c)) : upd _ (Some (OB b)) _ = _) in E. injection E as <-.
    exists b, h'. split; [reflexivity|]. eapply inv_back; eauto.
  Qed.
End Mem.
