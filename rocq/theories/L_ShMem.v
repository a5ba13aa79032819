(** Lemmas for C91. *)
From Coq Require Import NArith Arith List Bool Lia Permutation.
From Verif Require Import M_Alloc S_Alloc L_Alloc M_Vec M_VecMem S_VecMem L_VecMem M_ShMem S_ShMem.
Import ListNotations.
Local Open Scope N_scope.
Ltac Zify.zify_post_hook ::= idtac.

(** ** Counting handles *)
Lemma strongs_app : forall c l1 l2, strongs c (l1 ++ l2) = strongs c l1 + strongs c l2.
Proof.
  intros c l1 l2. induction l1 as [|[[d|d]|] l1 IH]; cbn [app strongs]; try rewrite IH; try reflexivity. lia.
Qed.
Lemma weaks_app : forall c l1 l2, weaks c (l1 ++ l2) = weaks c l1 + weaks c l2.
Proof.
  intros c l1 l2. induction l1 as [|[[d|d]|] l1 IH]; cbn [app weaks]; try rewrite IH; try reflexivity. lia.
Qed.
Lemma strongs_le : forall c l, strongs c l <= N.of_nat (length l).
Proof. intros c l. induction l as [|[[d|d]|] l IH]; cbn [strongs length]; [lia| | |]; [destruct (Nat.eqb d c)| |]; lia. Qed.
Lemma weaks_le : forall c l, weaks c l <= N.of_nat (length l).
Proof. intros c l. induction l as [|[[d|d]|] l IH]; cbn [weaks length]; [lia| | |]; [|destruct (Nat.eqb d c)|]; lia. Qed.
Definition one (x : ahandle) (c : nat) : N * N :=
  match x with
  | AS d => (if Nat.eqb d c then 1 else 0, 0)
  | AW d => (0, if Nat.eqb d c then 1 else 0)
  end.
Lemma count_new : forall c l x, strongs c (l ++ [Some x]) = strongs c l + fst (one x c) /\
  weaks c (l ++ [Some x]) = weaks c l + snd (one x c).
Proof. intros c l x. rewrite strongs_app, weaks_app. destruct x; cbn [strongs weaks one fst snd]; lia. Qed.
Lemma count_gone : forall c l1 x l2, strongs c (l1 ++ Some x :: l2) = strongs c (l1 ++ None :: l2) + fst (one x c) /\
  weaks c (l1 ++ Some x :: l2) = weaks c (l1 ++ None :: l2) + snd (one x c).
Proof. intros c l1 x l2. rewrite !strongs_app, !weaks_app. destruct x; cbn [strongs weaks one fst snd]; lia. Qed.

Lemma usz_small : forall x, x < 2 ^ 64 -> usz x = x.
Proof. intros x H. unfold usz. apply N.mod_small. exact H. Qed.
Lemma inc_ok : forall x, x < 2 ^ 63 -> inc x = x + 1.
Proof. intros x H. unfold inc. apply usz_small. lia. Qed.
Lemma decr_ok : forall x, 0 < x -> x < 2 ^ 64 -> decr x = x - 1.
Proof.
  intros x H0 H. unfold decr, usz. replace (x + (2 ^ 64 - 1)) with ((x - 1) + 1 * 2 ^ 64) by lia.
  rewrite N.mod_add by lia. apply N.mod_small. lia.
Qed.
Lemma lor_top : forall x, x < 2 ^ 63 -> N.lor x top = x + top.
Proof.
  intros x H. unfold top. assert (N.land x (2 ^ 63) = 0) as L.
  { apply N.bits_inj_0. intros n. rewrite N.land_spec, N.pow2_bits_eqb.
    destruct (N.eqb_spec 63 n) as [<-|]; [|now rewrite andb_false_r].
    rewrite andb_true_r. destruct (N.eq_dec x 0) as [->|]; [apply N.bits_0|].
    apply N.bits_above_log2. apply N.log2_lt_pow2; lia. }
  rewrite N.add_nocarry_lxor by exact L. rewrite N.lxor_lor by exact L. reflexivity.
Qed.
Lemma clear_top : forall x, x < 2 ^ 63 -> N.land (x + top) (top - 1) = x.
Proof.
  intros x H. unfold top. replace (2 ^ 63 - 1) with (N.ones 63) by reflexivity. rewrite N.land_ones.
  replace (x + 2 ^ 63) with (x + 1 * 2 ^ 63) by lia. rewrite N.mod_add by lia. now apply N.mod_small.
Qed.

Section Mem.
  Context (s : nat) (a psz pal : N) (copy : bool) (TOK : types_ok s a psz pal).
  Notation sz := (N.of_nat s).
  Notation repd := (repd s a psz pal).
  Notation vrep := (vrep s a psz pal).
  Notation bsize := (bsize s a psz pal).
  Notation oblock := (oblock s a psz pal).
  Notation gblocks := (gblocks s a psz pal).
  Notation orep := (orep s a psz pal).
  Notation inv := (inv s a psz pal).
  Notation bounds := (repd_bounds s a psz pal TOK).

  (** ** A cell: a slice and the words before it *)
  Definition base (m : N -> option N) (b : mbox) (l : list elem) (c : N) : Prop :=
    repd m (bs_ b) l c /\ be b = bs_ b + N.of_nat (length l) * sz.
  Definition wd (m : N -> option N) (b : mbox) (off x : N) : Prop :=
    load m (bs_ b - psz + off) 8 = Some (enc 8 x).
  Definition cvec (b : mbox) (c : N) : mvec := MV (bs_ b) (be b) (bs_ b + c * sz).
  Lemma base_vec : forall m b l c, base m b l c -> vrep m (cvec b c) l c.
  Proof. intros m b l c (R & E). right. cbn [cvec vs ve vc]. auto. Qed.
  Lemma base_pos : forall m b l c, base m b l c -> c <> 0.
  Proof. intros m b l c (R & _). apply bounds in R. lia. Qed.
  Lemma base_len : forall m b l c, base m b l c -> b_len s b = N.of_nat (length l).
  Proof. intros m b l c H. apply base_vec in H. apply (vrep_len s a psz pal TOK) in H. apply H. Qed.

  Lemma word_ok : forall h b l c F off x, perm h (oblock (bs_ b) c) F -> base (mem h) b l c ->
    wd (mem h) b off x -> off + 8 <= 32 -> x < 2 ^ 64 -> word psz h b off = Some x.
  Proof.
    intros h b l c F off x P (R & E) W O X.
    pose proof (bounds _ _ _ _ R) as (B0 & B1 & B2 & B3 & B4 & B5 & B6 & _).
    assert (32 <= psz) by apply TOK. rewrite oblock_in in P by lia.
    unfold word, prefix_ptr. erewrite h_read_ok; [|exact P| | |exact W]; [|lia|change (N.of_nat 8) with 8; lia].
    cbn [option_map]. rewrite dec_enc8 by exact X. reflexivity.
  Qed.
  (** Writes to the prefix, below the origin or above it. *)
  Lemma hdr_write : forall h b l c F off bs, perm h (oblock (bs_ b) c) F -> base (mem h) b l c ->
    off + N.of_nat (length bs) <= 24 \/ 32 <= off -> off + N.of_nat (length bs) <= psz ->
    exists m', h_write h (prefix_ptr psz (bs_ b) + off) bs = Some (Heap (blocks h) m') /\
      perm (Heap (blocks h) m') (oblock (bs_ b) c) F /\ base m' b l c /\ keeps F (mem h) m' /\
      m' = store (mem h) (bs_ b - psz + off) bs.
  Proof.
    intros h b l c F off bs P (R & E) O L.
    pose proof (bounds _ _ _ _ R) as (B0 & B1 & B2 & B3 & B4 & B5 & B6 & B7 & B8 & B9 & B10 & B11).
    assert (32 <= psz) by apply TOK. pose proof P as P'. rewrite oblock_in in P by lia.
    unfold prefix_ptr. eexists. split; [eapply h_write_ok; [exact P|lia|lia]|]. split; [exact P'|]. split; [|split; [|reflexivity]].
    - split; [|exact E]. destruct R as (o & Eo & H0 & H1 & H2 & H3 & H4 & H5 & H6 & H7 & H8).
      assert (bs_ b - psz = o) as Eo' by lia. rewrite Eo'. exists o.
      split; [auto|]. split; [auto|]. split; [auto|]. split; [auto|]. split; [auto|]. split; [auto|].
      split; [auto|]. split; [auto|]. split.
      + eapply elems_ext; [|exact H7]. intros x Hx. symmetry. apply store_out. lia.
      + rewrite <- H8. apply load_store_out. change (N.of_nat 8) with 8. lia.
    - eapply keeps_store; [exact P|lia|lia].
  Qed.
  Lemma put_ok : forall h b l c F off x, perm h (oblock (bs_ b) c) F -> base (mem h) b l c -> off + 8 <= 24 ->
    exists h', put_word psz h b off x = Some h' /\ blocks h' = blocks h /\
      perm h' (oblock (bs_ b) c) F /\ base (mem h') b l c /\ keeps F (mem h) (mem h') /\
      wd (mem h') b off x /\ (forall off' y, off' + 8 <= off \/ off + 8 <= off' -> wd (mem h) b off' y -> wd (mem h') b off' y).
  Proof.
    intros h b l c F off x P B O.
    assert (N.of_nat (length (map Some (enc 8 x))) = 8) as L8 by (rewrite map_length, enc_length; reflexivity).
    assert (32 <= psz) by apply TOK.
    destruct (hdr_write h b l c F off (map Some (enc 8 x)) P B) as (m' & W & P' & B' & K & E); [lia|lia|].
    exists (Heap (blocks h) m'). split; [exact W|]. split; [reflexivity|]. split; [exact P'|]. split; [exact B'|]. split; [exact K|].
    cbn [mem]. subst m'. split.
    - unfold wd. rewrite <- (enc_length 8 x) at 2. apply load_store_same.
    - intros off' y D Y. unfold wd in *. rewrite <- Y. apply load_store_out. rewrite L8. change (N.of_nat 8) with 8. lia.
  Qed.
  Lemma alloc_slot_ok : forall h b l c F, perm h (oblock (bs_ b) c) F -> base (mem h) b l c ->
    exists h', put_alloc psz h (bs_ b) = Some h' /\ blocks h' = blocks h /\
      perm h' (oblock (bs_ b) c) F /\ base (mem h') b l c /\ keeps F (mem h) (mem h') /\
      (forall off' y, off' + 8 <= 32 -> wd (mem h) b off' y -> wd (mem h') b off' y).
  Proof.
    intros h b l c F P B. assert (32 <= psz) by apply TOK.
    assert (N.of_nat (length (repeat (@None N) (N.to_nat (psz - 32)))) = psz - 32) as L by (rewrite repeat_length; lia).
    destruct (hdr_write h b l c F 32 (repeat None (N.to_nat (psz - 32))) P B) as (m' & W & P' & B' & K & E); [lia|lia|].
    exists (Heap (blocks h) m'). split; [exact W|]. split; [reflexivity|]. split; [exact P'|]. split; [exact B'|]. split; [exact K|].
    cbn [mem]. subst m'. intros off' y D Y. unfold wd in *. rewrite <- Y. apply load_store_out. change (N.of_nat 8) with 8. lia.
  Qed.

  (** Counters [st] and [wk], capacity [c]. *)
  Definition crep (m : N -> option N) (b : mbox) (l : list elem) (c st wk : N) : Prop :=
    base m b l c /\ wd m b 0 st /\ wd m b 8 wk /\ wd m b 16 c /\ st < 2 ^ 64 /\ wk < 2 ^ 64.
  (** [crep] after an operation on the cell that leaves the rest [F]. *)
  Definition cpost (F : list (N * N)) (m : N -> option N) (h' : heap) b l c st wk : Prop :=
    perm h' (oblock (bs_ b) c) F /\ crep (mem h') b l c st wk /\ keeps F m (mem h').

  Lemma crep_words : forall h b l c F st wk, perm h (oblock (bs_ b) c) F -> crep (mem h) b l c st wk ->
    word psz h b 0 = Some st /\ word psz h b 8 = Some wk /\ word psz h b 16 = Some c.
  Proof.
    intros h b l c F st wk P (B & W0 & W8 & W16 & S0 & S8).
    pose proof B as (R & _). apply bounds in R. destruct R as (_ & _ & _ & R3 & _). destruct (tok_nz s a psz pal TOK) as (Z & _).
    pose proof (N.mul_le_mono_l 1 sz c ltac:(lia)). assert (32 <= psz) by apply TOK.
    split; [|split]; eapply word_ok; eauto; lia.
  Qed.
  Lemma strong_rmw : forall h b l c F st wk f, perm h (oblock (bs_ b) c) F -> crep (mem h) b l c st wk -> f st < 2 ^ 64 ->
    exists h', rmw psz h b 0 f = Some (st, h') /\ cpost F (mem h) h' b l c (f st) wk.
  Proof.
    intros h b l c F st wk f P C S. destruct (crep_words _ _ _ _ _ _ _ P C) as (W & _). unfold rmw. rewrite W.
    destruct C as (B & W0 & W8 & W16 & S0 & S8).
    destruct (put_ok h b l c F 0 (f st) P B) as (h' & E & _ & P' & B' & K & X & Y); [lia|]. rewrite E.
    exists h'. split; [reflexivity|]. split; [exact P'|]. split; [|exact K].
    split; [exact B'|]. split; [exact X|]. split; [apply Y; [lia|exact W8]|]. split; [apply Y; [lia|exact W16]|]. auto.
  Qed.
  Lemma weak_rmw : forall h b l c F st wk f, perm h (oblock (bs_ b) c) F -> crep (mem h) b l c st wk -> f wk < 2 ^ 64 ->
    exists h', rmw psz h b 8 f = Some (wk, h') /\ cpost F (mem h) h' b l c st (f wk).
  Proof.
    intros h b l c F st wk f P C S. destruct (crep_words _ _ _ _ _ _ _ P C) as (_ & W & _). unfold rmw. rewrite W.
    destruct C as (B & W0 & W8 & W16 & S0 & S8).
    destruct (put_ok h b l c F 8 (f wk) P B) as (h' & E & _ & P' & B' & K & X & Y); [lia|]. rewrite E.
    exists h'. split; [reflexivity|]. split; [exact P'|]. split; [|exact K].
    split; [exact B'|]. split; [apply Y; [lia|exact W0]|]. split; [exact X|]. split; [apply Y; [lia|exact W16]|]. auto.
  Qed.
  Lemma cpost_trans : forall F m h1 h2 b l c st wk st' wk', keeps F m (mem h1) -> cpost F (mem h1) h2 b l c st' wk' ->
    crep (mem h1) b l c st wk -> cpost F m h2 b l c st' wk'.
  Proof. intros F m h1 h2 b l c st wk st' wk' K (P & C & K') _. split; [exact P|]. split; [exact C|]. eapply keeps_trans; eauto. Qed.

  (** ** The operations on a cell *)
  Lemma s_clone_ok : forall h b l c F st wk, perm h (oblock (bs_ b) c) F -> crep (mem h) b l c st wk -> st + 1 < 2 ^ 63 ->
    exists h', s_clone psz h b = Some h' /\ cpost F (mem h) h' b l c (st + 1) wk.
  Proof.
    intros h b l c F st wk P C S. assert (inc st = st + 1) as I by (apply inc_ok; lia).
    destruct (strong_rmw h b l c F st wk inc P C) as (h' & E & Q); [lia|]. rewrite I in Q.
    exists h'. unfold s_clone. rewrite E. auto.
  Qed.
  Lemma w_clone_ok : forall h b l c F st wk, perm h (oblock (bs_ b) c) F -> crep (mem h) b l c st wk -> wk + 1 < 2 ^ 63 ->
    exists h', w_clone psz h b = Some h' /\ cpost F (mem h) h' b l c st (wk + 1).
  Proof.
    intros h b l c F st wk P C S. assert (inc wk = wk + 1) as I by (apply inc_ok; lia).
    destruct (weak_rmw h b l c F st wk inc P C) as (h' & E & Q); [lia|]. rewrite I in Q.
    exists h'. unfold w_clone. rewrite E. auto.
  Qed.
  Lemma w_force_ok : forall h b l c F st wk, perm h (oblock (bs_ b) c) F -> crep (mem h) b l c st wk ->
    st + 1 < 2 ^ 63 -> wk + 1 < 2 ^ 63 ->
    exists h', w_force psz h b = Some h' /\ cpost F (mem h) h' b l c (st + 1) (if st =? 0 then wk + 1 else wk).
  Proof.
    intros h b l c F st wk P C S W. assert (inc st = st + 1) as I by (apply inc_ok; lia).
    destruct (strong_rmw h b l c F st wk inc P C) as (h1 & E & (P1 & C1 & K1)); [lia|]. rewrite I in C1.
    unfold w_force. rewrite E. destruct (N.eqb_spec st top) as [T|_]; [unfold top in T; lia|]. rewrite orb_false_r.
    destruct (N.eqb_spec st 0) as [Z|Z].
    - assert (inc wk = wk + 1) as I2 by (apply inc_ok; lia).
      destruct (weak_rmw h1 b l c F (st + 1) wk inc P1 C1) as (h2 & E2 & (P2 & C2 & K2)); [lia|]. rewrite I2 in C2.
      exists h2. rewrite E2. split; [reflexivity|]. split; [exact P2|]. split; [exact C2|]. eapply keeps_trans; eauto.
    - exists h1. split; [reflexivity|]. split; [exact P1|]. split; [exact C1|exact K1].
  Qed.
  Lemma w_drop_ok : forall h b l c F st wk, perm h (oblock (bs_ b) c) F -> crep (mem h) b l c st wk -> 0 < wk ->
    exists h', w_drop psz h b = Some h' /\
      ((1 < wk /\ cpost F (mem h) h' b l c st (wk - 1)) \/ (wk = 1 /\ perm h' [] F /\ keeps F (mem h) (mem h'))).
  Proof.
    intros h b l c F st wk P C W. pose proof C as (_ & _ & _ & _ & _ & S8). assert (decr wk = wk - 1) as I by (apply decr_ok; lia).
    destruct (weak_rmw h b l c F st wk decr P C) as (h1 & E & (P1 & C1 & K1)); [lia|]. rewrite I in C1.
    unfold w_drop. rewrite E. destruct (N.eqb_spec wk 1) as [Z|Z]; cbn [negb].
    - pose proof C1 as ((R1 & _) & _). destruct (free_ok s a psz pal TOK h1 (bs_ b) l c F P1 R1) as (r & E2 & P2).
      exists (Heap r (mem h1)). split; [exact E2|]. right. split; [exact Z|]. split; [exact P2|exact K1].
    - exists h1. split; [reflexivity|]. left. split; [lia|]. split; [exact P1|]. split; [exact C1|exact K1].
  Qed.
  Lemma s_read_ok : forall h b l c F, perm h (oblock (bs_ b) c) F -> base (mem h) b l c -> m_slice s h (bs_ b) (b_len s b) = Some l.
  Proof.
    intros h b l c F P B. pose proof (base_vec _ _ _ _ B) as V.
    exact (read_ok s a psz pal TOK h (cvec b c) l c F P V).
  Qed.
  Lemma s_drop_ok : forall h b l c F st wk, perm h (oblock (bs_ b) c) F -> crep (mem h) b l c st wk -> 0 < st -> 0 < wk ->
    exists h', s_drop s psz copy h b = Some (if (st =? 1) && negb copy then l else [], h') /\
      ((1 < st /\ cpost F (mem h) h' b l c (st - 1) wk) \/
       (st = 1 /\ 1 < wk /\ cpost F (mem h) h' b l c 0 (wk - 1)) \/
       (st = 1 /\ wk = 1 /\ perm h' [] F /\ keeps F (mem h) (mem h'))).
  Proof.
    intros h b l c F st wk P C S W. pose proof C as (_ & _ & _ & _ & S0 & S8). assert (decr st = st - 1) as I by (apply decr_ok; lia).
    destruct (strong_rmw h b l c F st wk decr P C) as (h1 & E & (P1 & C1 & K1)); [lia|]. rewrite I in C1.
    unfold s_drop. rewrite E. destruct (N.eqb_spec st 1) as [Z|Z]; cbn [negb andb].
    - pose proof C1 as (B1 & _). rewrite (s_read_ok h1 b l c F P1 B1).
      destruct (w_drop_ok h1 b l c F (st - 1) wk P1 C1 W) as (h2 & E2 & [(L & P2 & C2 & K2)|(L & P2 & K2)]); rewrite E2;
        exists h2; (split; [destruct copy; reflexivity|]); right; [left|right].
      + split; [exact Z|]. split; [exact L|]. split; [exact P2|]. rewrite Z in C2. split; [exact C2|]. eapply keeps_trans; eauto.
      + split; [exact Z|]. split; [exact L|]. split; [exact P2|]. eapply keeps_trans; eauto.
    - exists h1. split; [reflexivity|]. left. split; [lia|]. split; [exact P1|]. split; [exact C1|exact K1].
  Qed.
  Lemma w_upgrade_ok : forall h b l c F st wk, perm h (oblock (bs_ b) c) F -> crep (mem h) b l c st wk -> st + 1 < 2 ^ 63 ->
    exists h', w_upgrade psz h b = Some (0 <? st, h') /\ cpost F (mem h) h' b l c (if 0 <? st then st + 1 else 0) wk.
  Proof.
    intros h b l c F st wk P C S. pose proof C as (_ & _ & _ & _ & S0 & S8).
    assert (N.lor st top = st + top) as I by (apply lor_top; lia).
    assert (top = 2 ^ 63) as T by reflexivity.
    destruct (strong_rmw h b l c F st wk (fun x => N.lor x top) P C) as (h1 & E & (P1 & C1 & K1)); [rewrite I, T; lia|].
    cbv beta in C1. rewrite I in C1. unfold w_upgrade. rewrite E.
    destruct (N.eqb_spec st top) as [X|_]; [lia|]. rewrite orb_false_r.
    destruct (N.eqb_spec st 0) as [Z|Z].
    - pose proof C1 as (B1 & W0 & W8 & W16 & _).
      destruct (put_ok h1 b l c F 0 0 P1 B1) as (h2 & E2 & _ & P2 & B2 & K2 & X & Y); [lia|]. rewrite E2.
      exists h2. subst st. split; [reflexivity|]. split; [exact P2|]. split; [|eapply keeps_trans; eauto].
      cbn [N.ltb N.compare]. split; [exact B2|]. split; [exact X|]. split; [apply Y; [lia|exact W8]|]. split; [apply Y; [lia|exact W16]|].
      split; [lia|exact S8].
    - destruct (N.ltb_spec 0 st) as [_|X]; [|lia].
      assert (inc (st + top) = st + 1 + top) as I2. { unfold inc. rewrite usz_small by lia. lia. }
      destruct (strong_rmw h1 b l c F (st + top) wk inc P1 C1) as (h2 & E2 & (P2 & C2 & K2)); [rewrite I2; lia|].
      rewrite I2 in C2. rewrite E2. assert (N.land (st + 1 + top) (top - 1) = st + 1) as I3 by (apply clear_top; lia).
      destruct (strong_rmw h2 b l c F (st + 1 + top) wk (fun x => N.land x (top - 1)) P2 C2) as (h3 & E3 & (P3 & C3 & K3)); [rewrite I3; lia|].
      cbv beta in C3. rewrite I3 in C3. rewrite E3. exists h3. split; [reflexivity|]. split; [exact P3|]. split; [exact C3|].
      eapply keeps_trans; [exact K1|]. eapply keeps_trans; eauto.
  Qed.
  Lemma s_of_vec_ok : forall h v l c F ans, perm h (oblock (vs v) c) F -> vrep (mem h) v l c -> c <> 0 ->
    exists h', s_of_vec s a psz pal h v ans = Some (Some (MB (vs v) (ve v)), h') /\
      cpost F (mem h) h' (MB (vs v) (ve v)) l c 1 1.
  Proof.
    intros h v l c F ans P V NZ. pose proof (vrep_len s a psz pal TOK _ _ _ _ V) as (_ & L2 & _).
    destruct V as [(Z & _)|(R & E1 & E2)]; [contradiction|].
    unfold s_of_vec. rewrite L2. destruct (N.eqb_spec c 0) as [Z|_]; [contradiction|]. cbn [negb]. cbv zeta.
    set (b := MB (vs v) (ve v)) in *.
    assert (base (mem h) b l c) as B by (split; [exact R|exact E1]).
    change (vs v) with (bs_ b) in P.
    destruct (put_ok h b l c F 0 1 P B) as (h1 & W1 & _ & P1 & B1 & K1 & X1 & Y1); [lia|]. rewrite W1.
    destruct (put_ok h1 b l c F 8 1 P1 B1) as (h2 & W2 & _ & P2 & B2 & K2 & X2 & Y2); [lia|]. rewrite W2.
    destruct (put_ok h2 b l c F 16 c P2 B2) as (h3 & W3 & _ & P3 & B3 & K3 & X3 & Y3); [lia|]. rewrite W3.
    destruct (alloc_slot_ok h3 b l c F P3 B3) as (h4 & W4 & _ & P4 & B4 & K4 & Y4). rewrite W4.
    exists h4. split; [reflexivity|]. split; [exact P4|]. split.
    - split; [exact B4|]. split; [apply Y4; [lia|]; apply Y3; [lia|]; apply Y2; [lia|]; exact X1|].
      split; [apply Y4; [lia|]; apply Y3; [lia|]; exact X2|]. split; [apply Y4; [lia|]; exact X3|]. split; lia.
    - eapply keeps_trans; [exact K1|]. eapply keeps_trans; [exact K2|]. eapply keeps_trans; [exact K3|exact K4].
  Qed.
  Lemma s_unique_ok : forall h b l c F st wk, perm h (oblock (bs_ b) c) F -> crep (mem h) b l c st wk ->
    s_unique psz h b = Some ((st =? 1) && (wk =? 1)).
  Proof.
    intros h b l c F st wk P C. destruct (crep_words _ _ _ _ _ _ _ P C) as (W0 & W8 & _). unfold s_unique. rewrite W0, W8. reflexivity.
  Qed.
  Lemma s_into_vec_ok : forall h b l c F st wk, perm h (oblock (bs_ b) c) F -> crep (mem h) b l c st wk ->
    s_into_vec s psz h b = Some (if (st =? 1) && (wk =? 1) then Some (cvec b c) else None).
  Proof.
    intros h b l c F st wk P C. unfold s_into_vec. rewrite (s_unique_ok _ _ _ _ _ _ _ P C).
    destruct ((st =? 1) && (wk =? 1)); [|reflexivity].
    destruct (crep_words _ _ _ _ _ _ _ P C) as (_ & _ & W). rewrite W. unfold cvec. do 3 f_equal.
    destruct C as ((R & _) & _). apply bounds in R. apply ptr_add_ok. lia.
  Qed.
  Lemma s_set_ok : forall h b l c F st wk k e, perm h (oblock (bs_ b) c) F -> crep (mem h) b l c st wk -> length e = s ->
    let ok := (st =? 1) && (wk =? 1) && (k <? N.of_nat (length l)) in
    exists h', s_set s psz h b k e = Some (ok, h') /\
      if ok then cpost F (mem h) h' b (putN k e l) c st wk else h' = h.
  Proof.
    intros h b l c F st wk k e P C L ok. unfold s_set. rewrite (s_unique_ok _ _ _ _ _ _ _ P C).
    pose proof C as (B & W0 & W8 & W16 & S0 & S8). rewrite (base_len _ _ _ _ B). subst ok.
    destruct ((st =? 1) && (wk =? 1)); cbn [andb]; [|exists h; auto].
    destruct (N.ltb_spec k (N.of_nat (length l))) as [H|H]; [|exists h; auto].
    destruct (nthN_some l k H) as (e0 & N0). pose proof (base_vec _ _ _ _ B) as V.
    pose proof (nthN_split l k) as X. rewrite N0 in X. destruct X as (l1 & l2 & El & Ek & _).
    destruct B as (R & Eb). pose proof (bounds _ _ _ _ R) as (B0 & B1 & B2 & B3 & B4 & B5 & B6 & B7 & B8 & B9 & B10 & B11).
    assert (length (putN k e l) = length l) as LL by (subst l k; rewrite putN_mid, !app_length; reflexivity).
    pose proof (slot_read s a psz pal TOK h (bs_ b) l1 e0 l2 c F P) as SR. rewrite <- El, <- Ek in SR. specialize (SR R). destruct SR as (_ & _ & A & _).
    destruct (data_write s a psz pal TOK h (bs_ b) l (putN k e l) c F (slot s (bs_ b) k) (map Some e) P R) as (h' & W & P' & K & R').
    - unfold slot. lia.
    - rewrite map_length, L. exact A.
    - subst l k. rewrite putN_mid. eapply elems_put; eauto.
    - rewrite LL. exact B8.
    - exists h'. rewrite W. split; [reflexivity|]. split; [exact P'|]. split; [|exact K].
      assert (32 <= psz) by apply TOK.
      assert (forall off y, off + 8 <= 32 -> wd (mem h) b off y -> wd (mem h') b off y) as Y.
      { intros off y O Y. unfold wd in *. rewrite <- Y. unfold h_write in W. destruct (in_block _ _ _); [|discriminate].
        injection W as <-. cbn [mem]. apply load_store_out. left. unfold slot. change (N.of_nat 8) with 8. lia. }
      split; [split; [exact R'|rewrite LL; exact Eb]|]. split; [apply Y; [lia|exact W0]|]. split; [apply Y; [lia|exact W8]|].
      split; [apply Y; [lia|exact W16]|]. auto.
  Qed.
  Lemma crep_keep : forall m m' b l c st wk F, crep m b l c st wk -> keeps F m m' -> incl (oblock (bs_ b) c) F -> crep m' b l c st wk.
  Proof.
    intros m m' b l c st wk F (B & W0 & W8 & W16 & S) K I. pose proof B as (R & E).
    pose proof (bounds _ _ _ _ R) as (B0 & B1 & B2 & B3 & B4 & B5 & B6 & B7 & B8 & B9 & B10 & B11).
    assert (In (bs_ b - psz, bsize c) F) as I' by (apply I; rewrite oblock_in by lia; left; reflexivity).
    assert (32 <= psz) by apply TOK.
    assert (forall off y, off + 8 <= 32 -> wd m b off y -> wd m' b off y) as Y.
    { intros off y O Y. unfold wd in *. rewrite <- Y. apply load_ext. intros x Hx. apply (K x _ I'). cbn [fst snd].
      change (N.of_nat 8) with 8 in Hx. lia. }
    split; [split; [|exact E]|].
    - eapply repd_keep; eauto.
    - split; [apply Y; [lia|exact W0]|]. split; [apply Y; [lia|exact W8]|]. split; [apply Y; [lia|exact W16]|]. exact S.
  Qed.

  (** ** All objects and cells *)
  Definition gcell : Type := (mbox * list elem * N)%type.
  Definition cbl (k : option gcell) : list (N * N) :=
    match k with None => [] | Some (b, _, c) => oblock (bs_ b) c end.
  Definition core (F0 : list (N * N)) (m0 : N -> option N) (gs : list (option gobj)) (cs : list (option gcell))
    (st wk : nat -> N) (h : heap) : Prop :=
    perm h (flat_map gblocks gs) (flat_map cbl cs ++ F0) /\ (forall g, In (Some g) gs -> orep (mem h) g) /\
    (forall i b l c, nth_error cs i = Some (Some (b, l, c)) -> crep (mem h) b l c (st i) (wk i)) /\ keeps F0 m0 (mem h).
  Definition crest (F0 : list (N * N)) (gs : list (option gobj)) (c1 c2 : list (option gcell)) : list (N * N) :=
    flat_map gblocks gs ++ flat_map cbl c1 ++ flat_map cbl c2 ++ F0.

  Lemma perm_move : forall h A B C D E, perm h A ((B ++ C ++ D) ++ E) <-> perm h C (A ++ B ++ D ++ E).
  Proof.
    intros h A B C D E. unfold perm.
    assert (Permutation (A ++ (B ++ C ++ D) ++ E) (C ++ A ++ B ++ D ++ E)) as X.
    { rewrite <- !app_assoc. rewrite (app_assoc A B), (app_assoc A B). rewrite (app_assoc (A ++ B) C), (app_assoc C (A ++ B)).
      apply Permutation_app_tail. apply Permutation_app_comm. }
    split; intros [H1 H2]; split; auto; eapply perm_trans; eauto. apply Permutation_sym, X.
  Qed.
  Lemma core_inv : forall F0 m0 gs cs st wk h, core F0 m0 gs cs st wk h -> inv (flat_map cbl cs ++ F0) (mem h) gs h.
  Proof. intros F0 m0 gs cs st wk h (P & R & _). split; [exact P|]. split; [exact R|apply keeps_refl]. Qed.
  Lemma cell_in : forall cs i b l c, nth_error cs i = Some (Some (b, l, c)) -> incl (oblock (bs_ b) c) (flat_map cbl cs).
  Proof. intros cs i b l c H x Hx. apply in_flat_map. exists (Some (b, l, c)). split; [eapply nth_error_In; eauto|exact Hx]. Qed.
  Lemma inv_core : forall F0 m0 gs gs' cs st wk h h', core F0 m0 gs cs st wk h -> inv (flat_map cbl cs ++ F0) (mem h) gs' h' ->
    core F0 m0 gs' cs st wk h'.
  Proof.
    intros F0 m0 gs gs' cs st wk h h' (P & R & C & K) (P' & R' & K'). split; [exact P'|]. split; [exact R'|]. split.
    - intros i b l c E. eapply crep_keep; [apply C; exact E|exact K'|]. intros x Hx. apply in_or_app. left. eapply cell_in; eauto.
    - eapply keeps_trans; [exact K|]. intros x b Hb Hx. apply (K' x b); [|exact Hx]. apply in_or_app. auto.
  Qed.
  Lemma nth_mid' : forall (A : Type) (l1 l2 : list A) x, nth_error (l1 ++ x :: l2) (length l1) = Some x.
  Proof. intros A l1 l2 x. rewrite nth_error_app2, Nat.sub_diag by apply Nat.le_refl. reflexivity. Qed.
  Lemma nth_other : forall (A : Type) (l1 l2 : list A) x y i, i <> length l1 -> nth_error (l1 ++ x :: l2) i = nth_error (l1 ++ y :: l2) i.
  Proof.
    intros A l1 l2 x y i H. destruct (Nat.lt_ge_cases i (length l1)) as [L|L].
    - rewrite !nth_error_app1 by exact L. reflexivity.
    - rewrite !nth_error_app2 by exact L. destruct (i - length l1)%nat as [|n] eqn:E; [lia|reflexivity].
  Qed.
  Lemma core_focus : forall F0 m0 gs c1 c2 b l c st wk h, core F0 m0 gs (c1 ++ Some (b, l, c) :: c2) st wk h ->
    perm h (oblock (bs_ b) c) (crest F0 gs c1 c2) /\ crep (mem h) b l c (st (length c1)) (wk (length c1)).
  Proof.
    intros F0 m0 gs c1 c2 b l c st wk h (P & R & C & K). split; [|apply C, nth_mid'].
    rewrite flat_map_app in P. cbn [flat_map cbl] in P. apply perm_move in P. exact P.
  Qed.
  Lemma core_set : forall F0 m0 gs c1 c2 k k' st wk st' wk' h h',
    core F0 m0 gs (c1 ++ k :: c2) st wk h ->
    perm h' (cbl k') (crest F0 gs c1 c2) -> keeps (crest F0 gs c1 c2) (mem h) (mem h') ->
    (forall b l c, k' = Some (b, l, c) -> crep (mem h') b l c (st' (length c1)) (wk' (length c1))) ->
    (forall i, i <> length c1 -> st' i = st i /\ wk' i = wk i) ->
    core F0 m0 gs (c1 ++ k' :: c2) st' wk' h'.
  Proof.
    intros F0 m0 gs c1 c2 k k' st wk st' wk' h h' (P & R & C & K) P' K' N O. split; [|split; [|split]].
    - rewrite flat_map_app. cbn [flat_map]. apply perm_move. exact P'.
    - intros g Hg. eapply orep_keep; [exact TOK|apply R; exact Hg|exact K'|].
      intros x Hx. unfold crest. apply in_or_app. left. apply in_flat_map. exists (Some g). auto.
    - intros i b l c E. destruct (Nat.eq_dec i (length c1)) as [->|NE].
      + rewrite nth_mid' in E. injection E as ->. apply N. reflexivity.
      + destruct (O i NE) as [-> ->]. rewrite (nth_other _ c1 c2 k' k i NE) in E.
        eapply crep_keep; [apply C; exact E|exact K'|].
        assert (In (Some (b, l, c)) (c1 ++ c2)) as I.
        { apply in_or_app. destruct (Nat.lt_ge_cases i (length c1)) as [L|L].
          - rewrite nth_error_app1 in E by exact L. left. eapply nth_error_In; eauto.
          - rewrite nth_error_app2 in E by exact L. destruct (i - length c1)%nat as [|n] eqn:E2; [lia|]. right. eapply nth_error_In; exact E. }
        intros x Hx. unfold crest. apply in_or_app. right. rewrite app_assoc. apply in_or_app. left. rewrite <- flat_map_app.
        apply in_flat_map. exists (Some (b, l, c)). auto.
    - eapply keeps_trans; [exact K|]. intros x b Hb Hx. apply (K' x b); [|exact Hx]. unfold crest. rewrite !in_app_iff. auto.
  Qed.
  (** A vector becomes a cell. *)
  Lemma core_share : forall F0 m0 g1 g2 v l c cs b st wk st' wk' h h',
    core F0 m0 (g1 ++ Some (OV v, l, c) :: g2) cs st wk h -> oblock (vs v) c = oblock (bs_ b) c ->
    cpost (frest s a psz pal (flat_map cbl cs ++ F0) g1 g2) (mem h) h' b l c (st' (length cs)) (wk' (length cs)) ->
    (forall i, i <> length cs -> st' i = st i /\ wk' i = wk i) ->
    core F0 m0 (g1 ++ None :: g2) (cs ++ [Some (b, l, c)]) st' wk' h'.
  Proof.
    intros F0 m0 g1 g2 v l c cs b st wk st' wk' h h' (P & R & C & K) EB (P' & C' & K') O. unfold frest in *. split; [|split; [|split]].
    - rewrite !flat_map_app. cbn [flat_map L_VecMem.gblocks cbl]. apply perm_move. cbn [app]. rewrite <- !app_assoc. exact P'.
    - intros g Hg. apply in_elt_inv in Hg. destruct Hg as [Hg|Hg]; [discriminate|].
      eapply orep_keep; [exact TOK| |exact K'|].
      + apply R. apply in_app_iff in Hg. apply in_or_app. destruct Hg; [left|right; right]; auto.
      + intros x Hx. rewrite !in_app_iff. apply in_app_iff in Hg. destruct Hg as [Hg|Hg]; [left|right; left]; apply in_flat_map; exists (Some g); auto.
    - intros i b0 l0 c0 E. destruct (Nat.eq_dec i (length cs)) as [->|NE].
      + rewrite nth_mid' in E. injection E as <- <- <-. exact C'.
      + destruct (O i NE) as [-> ->]. assert (nth_error cs i = Some (Some (b0, l0, c0))) as E'.
        { assert (i < length (cs ++ [Some (b, l, c)]))%nat as L by (apply nth_error_Some; congruence). rewrite app_length in L. cbn in L.
          rewrite nth_error_app1 in E by lia. exact E. }
        eapply crep_keep; [apply C; exact E'|exact K'|]. intros x Hx. rewrite !in_app_iff. right. right. left. eapply cell_in; eauto.
    - eapply keeps_trans; [exact K|]. intros x b0 Hb Hx. apply (K' x b0); [|exact Hx]. rewrite !in_app_iff. auto.
  Qed.
  (** A cell becomes a vector. *)
  Lemma core_unshare : forall F0 m0 gs c1 c2 b l c st wk st' wk' h, core F0 m0 gs (c1 ++ Some (b, l, c) :: c2) st wk h ->
    (forall i, i <> length c1 -> st' i = st i /\ wk' i = wk i) ->
    core F0 m0 (gs ++ [Some (OV (cvec b c), l, c)]) (c1 ++ None :: c2) st' wk' h.
  Proof.
    intros F0 m0 gs c1 c2 b l c st wk st' wk' h X O. destruct (core_focus _ _ _ _ _ _ _ _ _ _ _ X) as [P1 C1]. destruct X as (P & R & C & K).
    split; [|split; [|split; [|exact K]]].
    - rewrite !flat_map_app. cbn [flat_map L_VecMem.gblocks gbl cbl app]. rewrite app_nil_r.
      unfold crest in P1. cbn [cvec vs].
      destruct P1 as [P1 W]. split; [|exact W]. eapply perm_trans; [exact P1|].
      rewrite <- !app_assoc. rewrite (app_assoc (oblock (bs_ b) c)), (app_assoc (flat_map gblocks gs) (oblock (bs_ b) c)).
      apply Permutation_app_tail. apply Permutation_app_comm.
    - intros g Hg. apply in_app_iff in Hg. destruct Hg as [Hg|[Hg|[]]]; [apply R; exact Hg|]. injection Hg as <-.
      cbn [L_VecMem.orep]. apply base_vec. apply C1.
    - intros i b0 l0 c0 E. destruct (Nat.eq_dec i (length c1)) as [->|NE]; [rewrite nth_mid' in E; discriminate|].
      destruct (O i NE) as [-> ->]. apply C. rewrite <- E. apply nth_other. exact NE.
  Qed.

  (** ** Handles *)
  Definition ghand : Type := (ahandle * mbox)%type.
  Definition cell_of (x : ahandle) : nat := match x with AS c => c | AW c => c end.
  Definition hc (g : option ghand) : option handle :=
    match g with None => None | Some (AS _, b) => Some (HS b) | Some (AW _, b) => Some (HW b) end.
  Definition ha (g : option ghand) : option ahandle := match g with None => None | Some (x, _) => Some x end.
  Definition stw (gh : list (option ghand)) (i : nat) : N := strongs i (map ha gh).
  Definition wkh (gh : list (option ghand)) (i : nat) : N := weaks i (map ha gh).
  Definition wkw (gh : list (option ghand)) (i : nat) : N := wkh gh i + (if 0 <? stw gh i then 1 else 0).
  Definition hinv (gh : list (option ghand)) (cs : list (option gcell)) (acs : list (list elem)) : Prop :=
    length acs = length cs /\
    (forall i b l c, nth_error cs i = Some (Some (b, l, c)) -> nth_error acs i = Some l /\ 0 < stw gh i + wkh gh i) /\
    (forall x b, In (Some (x, b)) gh -> exists l c, nth_error cs (cell_of x) = Some (Some (b, l, c))).
  Definition sinv F0 m0 gs gh cs acs h : Prop := core F0 m0 gs cs (stw gh) (wkw gh) h /\ hinv gh cs acs.

  Lemma one_other : forall x i, i <> cell_of x -> one x i = (0, 0).
  Proof. intros [d|d] i H; cbn [one cell_of] in *; destruct (Nat.eqb_spec d i); congruence. Qed.
  Lemma new_counts : forall (gh : list (option ghand)) x b i, stw (gh ++ [Some (x, b)]) i = stw gh i + fst (one x i) /\
    wkh (gh ++ [Some (x, b)]) i = wkh gh i + snd (one x i).
  Proof. intros gh x b i. unfold stw, wkh. rewrite map_app. apply count_new. Qed.
  Lemma gone_counts : forall (g1 g2 : list (option ghand)) x b i, stw (g1 ++ Some (x, b) :: g2) i = stw (g1 ++ None :: g2) i + fst (one x i) /\
    wkh (g1 ++ Some (x, b) :: g2) i = wkh (g1 ++ None :: g2) i + snd (one x i).
  Proof. intros g1 g2 x b i. unfold stw, wkh. rewrite !map_app. apply count_gone. Qed.
  Lemma counts_le : forall (gh : list (option ghand)) i, stw gh i <= N.of_nat (length gh) /\ wkh gh i <= N.of_nat (length gh).
  Proof. intros gh i. unfold stw, wkh. rewrite <- (map_length ha gh). split; [apply strongs_le|apply weaks_le]. Qed.
  Lemma new_same : forall (gh : list (option ghand)) x b i, i <> cell_of x ->
    stw (gh ++ [Some (x, b)]) i = stw gh i /\ wkw (gh ++ [Some (x, b)]) i = wkw gh i.
  Proof.
    intros gh x b i H. destruct (new_counts gh x b i) as [E1 E2]. rewrite (one_other x i H) in *. cbn [fst snd] in *.
    assert (stw (gh ++ [Some (x, b)]) i = stw gh i) as E by lia. split; [exact E|]. unfold wkw. rewrite E. lia.
  Qed.
  Lemma gone_same : forall (g1 g2 : list (option ghand)) x b i, i <> cell_of x ->
    stw (g1 ++ None :: g2) i = stw (g1 ++ Some (x, b) :: g2) i /\ wkw (g1 ++ None :: g2) i = wkw (g1 ++ Some (x, b) :: g2) i.
  Proof.
    intros g1 g2 x b i H. destruct (gone_counts g1 g2 x b i) as [E1 E2]. rewrite (one_other x i H) in *. cbn [fst snd] in *.
    assert (stw (g1 ++ None :: g2) i = stw (g1 ++ Some (x, b) :: g2) i) as E by lia. split; [exact E|]. unfold wkw. rewrite E. lia.
  Qed.

  (** What is at a handle. *)
  Lemma at_handle : forall F0 m0 gs gh cs acs h x b, sinv F0 m0 gs gh cs acs h -> In (Some (x, b)) gh ->
    exists c1 c2 l c, cs = c1 ++ Some (b, l, c) :: c2 /\ length c1 = cell_of x /\ nth_error acs (cell_of x) = Some l /\
      perm h (oblock (bs_ b) c) (crest F0 gs c1 c2) /\
      crep (mem h) b l c (stw gh (cell_of x)) (wkw gh (cell_of x)).
  Proof.
    intros F0 m0 gs gh cs acs h x b (C & H1 & H2 & H3) I. destruct (H3 x b I) as (l & c & E).
    destruct (H2 _ _ _ _ E) as [A _]. apply nth_error_split in E. destruct E as (c1 & c2 & -> & L).
    exists c1, c2, l, c. split; [reflexivity|]. split; [exact L|]. split; [exact A|].
    rewrite <- L. eapply core_focus; eauto.
  Qed.
  Lemma add_handle : forall F0 m0 gs gh c1 c2 acs h h' x b l c, sinv F0 m0 gs gh (c1 ++ Some (b, l, c) :: c2) acs h ->
    cell_of x = length c1 ->
    cpost (crest F0 gs c1 c2) (mem h) h' b l c (stw (gh ++ [Some (x, b)]) (cell_of x)) (wkw (gh ++ [Some (x, b)]) (cell_of x)) ->
    sinv F0 m0 gs (gh ++ [Some (x, b)]) (c1 ++ Some (b, l, c) :: c2) acs h'.
  Proof.
    intros F0 m0 gs gh c1 c2 acs h h' x b l c (C & H1 & H2 & H3) Ex (P & C' & K). rewrite Ex in C'. split.
    - eapply core_set; [exact C|exact P|exact K| |].
      + intros b0 l0 c0 E. injection E as <- <- <-. exact C'.
      + intros i NE. apply new_same. rewrite Ex. exact NE.
    - split; [exact H1|]. split.
      + intros i b0 l0 c0 E. destruct (H2 _ _ _ _ E) as [A B]. split; [exact A|].
        destruct (new_counts gh x b i). lia.
      + intros y b0 I. apply in_app_iff in I. destruct I as [I|[I|[]]]; [apply H3; exact I|]. injection I as <- <-.
        exists l, c. rewrite Ex. apply nth_mid'.
  Qed.
  Lemma drop_handle : forall F0 m0 gs (g1 g2 : list (option ghand)) c1 c2 acs h h' x b l c,
    sinv F0 m0 gs (g1 ++ Some (x, b) :: g2) (c1 ++ Some (b, l, c) :: c2) acs h -> cell_of x = length c1 ->
    let gh' := g1 ++ None :: g2 in
    (0 < stw gh' (cell_of x) + wkh gh' (cell_of x) /\
     cpost (crest F0 gs c1 c2) (mem h) h' b l c (stw gh' (cell_of x)) (wkw gh' (cell_of x))) ->
    sinv F0 m0 gs gh' (c1 ++ Some (b, l, c) :: c2) acs h'.
  Proof.
    intros F0 m0 gs g1 g2 c1 c2 acs h h' x b l c (C & H1 & H2 & H3) Ex gh' (Q & P & C' & K). rewrite Ex in *. split.
    - eapply core_set; [exact C|exact P|exact K| |].
      + intros b0 l0 c0 E. injection E as <- <- <-. exact C'.
      + intros i NE. apply gone_same. rewrite Ex. exact NE.
    - split; [exact H1|]. split.
      + intros i b0 l0 c0 E. destruct (H2 _ _ _ _ E) as [A B]. split; [exact A|].
        destruct (Nat.eq_dec i (length c1)) as [->|NE]; [exact Q|].
        destruct (gone_counts g1 g2 x b i) as [E1 E2]. rewrite (one_other x i) in * by (rewrite Ex; exact NE). cbn [fst snd] in *. subst gh'. lia.
      + intros y b0 I. apply H3. subst gh'. apply in_elt_inv in I. destruct I as [I|I]; [discriminate|].
        apply in_app_iff in I. apply in_or_app. destruct I; [left|right; right]; auto.
  Qed.
  (** No handle is left. *)
  Lemma no_handle : forall (gh : list (option ghand)) x b, In (Some (x, b)) gh -> 0 < stw gh (cell_of x) + wkh gh (cell_of x).
  Proof.
    intros gh x b I. apply (@in_split (option ghand)) in I. destruct I as (g1 & g2 & ->).
    destruct (gone_counts g1 g2 x b (cell_of x)) as [E1 E2]. change (option (ahandle * mbox)) with (option ghand) in *. rewrite E1, E2.
    clear E1 E2. destruct x as [d|d]; cbn [one cell_of fst snd] in *; rewrite Nat.eqb_refl in *; cbn [fst snd]; lia.
  Qed.
  Lemma last_handle : forall (g1 g2 : list (option ghand)) (c1 c2 : list (option gcell)) acs x b l c,
    hinv (g1 ++ Some (x, b) :: g2) (c1 ++ Some (b, l, c) :: c2) acs -> cell_of x = length c1 ->
    stw (g1 ++ None :: g2) (cell_of x) = 0 -> wkh (g1 ++ None :: g2) (cell_of x) = 0 ->
    hinv (g1 ++ None :: g2) (c1 ++ None :: c2) acs.
  Proof.
    intros g1 g2 c1 c2 acs x b l c (H1 & H2 & H3) Ex Z1 Z2. split; [rewrite H1, !app_length; reflexivity|]. split.
    - intros i b0 l0 c0 E. destruct (Nat.eq_dec i (length c1)) as [->|NE]; [rewrite nth_mid' in E; discriminate|].
      rewrite (nth_other _ c1 c2 None (Some (b, l, c)) i NE) in E. destruct (H2 _ _ _ _ E) as [A B]. split; [exact A|].
      destruct (gone_counts g1 g2 x b i) as [E1 E2]. rewrite (one_other x i) in * by (rewrite Ex; exact NE). cbn [fst snd] in *. lia.
    - intros y b0 I. pose proof (no_handle _ _ _ I) as Z. destruct (H3 y b0) as (l0 & c0 & E).
      { apply in_elt_inv in I. destruct I as [I|I]; [discriminate|]. apply in_app_iff in I. apply in_or_app. destruct I; [left|right; right]; auto. }
      exists l0, c0. rewrite <- E. apply nth_other. intros EE. assert (cell_of y = cell_of x) as EY by (rewrite Ex; exact EE). rewrite EY, Z1, Z2 in Z.
      clear - Z. lia.
  Qed.
  Lemma free_handle : forall F0 m0 gs (g1 g2 : list (option ghand)) c1 c2 acs h h' x b l c,
    sinv F0 m0 gs (g1 ++ Some (x, b) :: g2) (c1 ++ Some (b, l, c) :: c2) acs h -> cell_of x = length c1 ->
    stw (g1 ++ None :: g2) (cell_of x) = 0 -> wkh (g1 ++ None :: g2) (cell_of x) = 0 ->
    perm h' [] (crest F0 gs c1 c2) -> keeps (crest F0 gs c1 c2) (mem h) (mem h') ->
    sinv F0 m0 gs (g1 ++ None :: g2) (c1 ++ None :: c2) acs h'.
  Proof.
    intros F0 m0 gs g1 g2 c1 c2 acs h h' x b l c (C & H) Ex Z1 Z2 P K. split.
    - eapply core_set; [exact C|exact P|exact K| |].
      + intros b0 l0 c0 E. discriminate.
      + intros i NE. apply gone_same. rewrite Ex. exact NE.
    - eapply last_handle; eauto.
  Qed.

  (** ** One operation *)
  Definition sgood (F0 : list (N * N)) (m0 : N -> option N) (o : sop) (gs : list (option gobj)) (gh : list (option ghand))
    (acs : list (list elem)) (h : heap) : Prop :=
    (exists b gs' gh' cs' acs' h', sstep s a psz pal copy o (map gw gs, map hc gh, h) = Some (b, (map gw gs', map hc gh', h')) /\
       sinv F0 m0 gs' gh' cs' acs' h' /\ (length gh' <= S (length gh))%nat /\
       spec_sstep copy o (map ga gs, map ha gh, acs) = (b, (map ga gs', map ha gh', acs'))) \/
    (exists p i l, o = Owned p /\ target p = Some i /\ nth_error (map ga gs) i = Some (Some (AV l)) /\ refused s psz pal h l p /\
       sstep s a psz pal copy o (map gw gs, map hc gh, h) = Some (no, (map gw gs, map hc gh, h))) \/
    (exists i e ans l, o = Owned (Push i e ans) /\ nth_error (map ga gs) i = Some (Some (AB l)) /\
       sstep s a psz pal copy o (map gw gs, map hc gh, h) = Some (no, (map gw gs, map hc gh, h))) \/
    (exists i, o = Share i /\ nth_error (map ga gs) i = Some (Some (AV [])) /\
       sstep s a psz pal copy o (map gw gs, map hc gh, h) = Some (no, (map gw gs, map hc gh, h))).

  Lemma sgood_owned : forall F0 m0 p gs gh cs acs h, op_ok s p -> sinv F0 m0 gs gh cs acs h -> sgood F0 m0 (Owned p) gs gh acs h.
  Proof.
    intros F0 m0 p gs gh cs acs h OK (C & H). pose proof (core_inv _ _ _ _ _ _ _ C) as I.
    destruct (good_step s a psz pal TOK _ _ p gs h OK I) as [(b & gs' & h' & E & I' & Sp)|[(i & l & T & N1 & R & E)|(i & e & ans & l & Eo & N1 & E)]].
    - left. exists (b, []), gs', gh, cs, acs, h'. cbn [sstep spec_sstep]. rewrite E, Sp. split; [reflexivity|]. split; [|split; [lia|reflexivity]].
      split; [eapply inv_core; eauto|exact H].
    - right. left. exists p, i, l. cbn [sstep]. rewrite E. auto.
    - right. right. left. exists i, e, ans, l. subst p. cbn [sstep]. rewrite E. auto.
  Qed.
  Lemma sgood_nothing : forall F0 m0 o gs gh cs acs h, sinv F0 m0 gs gh cs acs h ->
    sstep s a psz pal copy o (map gw gs, map hc gh, h) = Some (no, (map gw gs, map hc gh, h)) ->
    spec_sstep copy o (map ga gs, map ha gh, acs) = (no, (map ga gs, map ha gh, acs)) -> sgood F0 m0 o gs gh acs h.
  Proof. intros. left. exists no, gs, gh, cs, acs, h. split; [assumption|]. split; [assumption|]. split; [lia|assumption]. Qed.

  Lemma sgood_share : forall F0 m0 i gs gh cs acs h, sinv F0 m0 gs gh cs acs h -> N.of_nat (length gh) < 2 ^ 62 ->
    sgood F0 m0 (Share i) gs gh acs h.
  Proof.
    intros F0 m0 i gs gh cs acs h I B.
    destruct (nth_error gs i) as [[[[[v | b] l] c]|]|] eqn:NE;
      try (apply (sgood_nothing F0 m0 _ gs gh cs acs h I); cbn [sstep spec_sstep]; rewrite nth_error_map, NE; reflexivity).
    apply nth_error_split in NE. destruct NE as (g1 & g2 & -> & <-).
    pose proof I as (C & H). pose proof (core_inv _ _ _ _ _ _ _ C) as J. destruct (inv_focus s a psz pal _ _ _ _ _ _ J) as [P R]. cbn [gbl L_VecMem.orep] in P, R.
    pose proof (vrep_len s a psz pal TOK _ _ _ _ R) as (_ & L2 & _ & L4 & _).
    destruct (N.eqb_spec c 0) as [Z|Z].
    - right. right. right. exists (length g1). split; [reflexivity|]. rewrite (nth_mid _ _ ga g1 g2). cbn [ga].
      assert (l = []) as -> by (destruct l; [reflexivity|cbn [length] in L4; lia]). split; [reflexivity|].
      cbn [sstep]. rewrite (nth_mid _ _ gw g1 g2). cbn [gw]. rewrite L2, Z. reflexivity.
    - destruct (s_of_vec_ok h v l c _ 0 P R Z) as (h' & E & Q). left.
      assert (stw gh (length cs) = 0 /\ wkh gh (length cs) = 0) as [Z1 Z2].
      { destruct H as (H1 & H2 & H3).
        assert (forall x b, In (Some (x, b)) gh -> cell_of x <> length cs) as X.
        { intros x b0 Ib EE. destruct (H3 x b0 Ib) as (l0 & c0 & E0). rewrite EE in E0.
          assert (length cs < length cs)%nat by (apply nth_error_Some; congruence). lia. }
        clear - X. unfold stw, wkh. induction gh as [|[[x b0]|] gh IH]; [split; reflexivity| |].
        - assert (strongs (length cs) (map ha gh) = 0 /\ weaks (length cs) (map ha gh) = 0) as [A1 A2].
          { apply IH. intros y b1 Hy. apply (X y b1). right. exact Hy. }
          specialize (X x b0 (or_introl eq_refl)). cbn [map ha].
          destruct x as [d|d]; cbn [strongs weaks cell_of] in *; destruct (Nat.eqb_spec d (length cs)); try contradiction; rewrite ?A1, ?A2; auto.
        - cbn [map ha strongs weaks]. apply IH. intros y b1 Hy. apply (X y b1). right. exact Hy. }
      set (b := MB (vs v) (ve v)) in *. set (gh' := gh ++ [Some (AS (length cs), b)]).
      destruct (new_counts gh (AS (length cs)) b (length cs)) as [N1 N2]. cbn [one fst snd] in N1, N2. rewrite Nat.eqb_refl in N1. fold gh' in N1, N2.
      assert (stw gh' (length cs) = 1) as S1 by lia. assert (wkw gh' (length cs) = 1) as W1. { unfold wkw. rewrite S1, N2, Z2. reflexivity. }
      exists yes, (g1 ++ None :: g2), gh', (cs ++ [Some (b, l, c)]), (acs ++ [l]), h'.
      cbn [sstep spec_sstep]. rewrite (nth_mid _ _ gw g1 g2), (nth_mid _ _ ga g1 g2). cbn [gw ga]. rewrite L2.
      destruct (N.eqb_spec c 0) as [?|_]; [contradiction|]. rewrite E. split; [|split; [|split]].
      + rewrite (upd_map _ _ gw g1 g2 _ None : upd _ None _ = _). unfold gh'. rewrite (map_app hc). reflexivity.
      + split.
        * eapply core_share; [exact C|reflexivity| |].
          -- rewrite S1, W1. exact Q.
          -- intros j NE. apply new_same. exact NE.
        * destruct H as (H1 & H2 & H3). split; [rewrite !app_length, H1; reflexivity|]. split.
          -- intros j b0 l0 c0 E0. destruct (Nat.eq_dec j (length cs)) as [->|NE].
             ++ rewrite nth_mid' in E0. injection E0 as <- <- <-. split; [rewrite <- H1; apply nth_mid'|lia].
             ++ assert (j < length (cs ++ [Some (b, l, c)]))%nat as L by (apply nth_error_Some; congruence). rewrite app_length in L. cbn in L.
                rewrite nth_error_app1 in E0 by lia. destruct (H2 _ _ _ _ E0) as [A1 A2]. split; [rewrite nth_error_app1 by lia; exact A1|].
                destruct (new_counts gh (AS (length cs)) b j). subst gh'. lia.
          -- intros x b0 Ib. apply in_app_iff in Ib. destruct Ib as [Ib|[Ib|[]]].
             ++ destruct (H3 _ _ Ib) as (l0 & c0 & E0). exists l0, c0. rewrite nth_error_app1; [exact E0|]. apply nth_error_Some. congruence.
             ++ injection Ib as <- <-. exists l, c. apply nth_mid'.
      + unfold gh'. rewrite app_length. cbn. lia.
      + rewrite (upd_map _ _ ga g1 g2 _ None : upd _ None _ = _). unfold gh'. rewrite (map_app ha). cbn [map ha]. destruct H as (H1 & _). rewrite H1. reflexivity.
  Qed.

  (** The counts at a handle's own list. *)
  Lemma has_strong : forall (gh : list (option ghand)) n b, In (Some (AS n, b)) gh -> 1 <= stw gh n.
  Proof.
    intros gh n b I. apply (@in_split (option ghand)) in I. destruct I as (g1 & g2 & ->).
    destruct (gone_counts g1 g2 (AS n) b n) as [E _]. change (option (ahandle * mbox)) with (option ghand) in *. rewrite E.
    cbn [one fst]. rewrite Nat.eqb_refl. cbn [fst]. clear. lia.
  Qed.
  Lemma has_weak : forall (gh : list (option ghand)) n b, In (Some (AW n, b)) gh -> 1 <= wkh gh n.
  Proof.
    intros gh n b I. apply (@in_split (option ghand)) in I. destruct I as (g1 & g2 & ->).
    destruct (gone_counts g1 g2 (AW n) b n) as [_ E]. change (option (ahandle * mbox)) with (option ghand) in *. rewrite E.
    cbn [one snd]. rewrite Nat.eqb_refl. cbn [snd]. clear. lia.
  Qed.
  Lemma add_strong : forall (gh : list (option ghand)) n b, stw (gh ++ [Some (AS n, b)]) n = stw gh n + 1 /\
    wkw (gh ++ [Some (AS n, b)]) n = (if stw gh n =? 0 then wkw gh n + 1 else wkw gh n).
  Proof.
    intros gh n b. destruct (new_counts gh (AS n) b n) as [E1 E2]. cbn [one] in *. rewrite Nat.eqb_refl in *. cbn [fst snd] in *.
    unfold wkw. rewrite E1, E2. split; [reflexivity|]. destruct (N.ltb_spec 0 (stw gh n + 1)), (N.eqb_spec (stw gh n) 0), (N.ltb_spec 0 (stw gh n)); lia.
  Qed.
  Lemma add_weak : forall (gh : list (option ghand)) n b, stw (gh ++ [Some (AW n, b)]) n = stw gh n /\
    wkw (gh ++ [Some (AW n, b)]) n = wkw gh n + 1.
  Proof.
    intros gh n b. destruct (new_counts gh (AW n) b n) as [E1 E2]. cbn [one] in *. rewrite Nat.eqb_refl in *. cbn [fst snd] in *.
    unfold wkw. rewrite E1, E2. rewrite N.add_0_r. split; [reflexivity|lia].
  Qed.
  Lemma lose_strong : forall (g1 g2 : list (option ghand)) n b, stw (g1 ++ None :: g2) n = stw (g1 ++ Some (AS n, b) :: g2) n - 1 /\
    wkh (g1 ++ None :: g2) n = wkh (g1 ++ Some (AS n, b) :: g2) n.
  Proof.
    intros g1 g2 n b. destruct (gone_counts g1 g2 (AS n) b n) as [E1 E2]. cbn [one] in *. rewrite Nat.eqb_refl in *. cbn [fst snd] in *.
    rewrite E1, E2. lia.
  Qed.
  Lemma lose_weak : forall (g1 g2 : list (option ghand)) n b, stw (g1 ++ None :: g2) n = stw (g1 ++ Some (AW n, b) :: g2) n /\
    wkh (g1 ++ None :: g2) n = wkh (g1 ++ Some (AW n, b) :: g2) n - 1.
  Proof.
    intros g1 g2 n b. destruct (gone_counts g1 g2 (AW n) b n) as [E1 E2]. cbn [one] in *. rewrite Nat.eqb_refl in *. cbn [fst snd] in *.
    rewrite E1, E2. lia.
  Qed.
  Lemma wkw_strong : forall (gh : list (option ghand)) n, 1 <= stw gh n -> wkw gh n = wkh gh n + 1.
  Proof. intros gh n H. unfold wkw. destruct (N.ltb_spec 0 (stw gh n)); lia. Qed.
  Lemma alone_eq : forall (gh : list (option ghand)) n, alone n (map ha gh) = (stw gh n =? 1) && (wkw gh n =? 1).
  Proof.
    intros gh n. unfold alone. fold (stw gh n) (wkh gh n). destruct (N.eqb_spec (stw gh n) 1) as [E|]; [|reflexivity]. cbn [andb].
    rewrite wkw_strong by lia. destruct (N.eqb_spec (wkh gh n) 0), (N.eqb_spec (wkh gh n + 1) 1); lia.
  Qed.
  Lemma lengths : forall (gh : list (option ghand)) x, (length (gh ++ [x]) <= S (length gh))%nat.
  Proof. intros. rewrite app_length. cbn. lia. Qed.
  Lemma lengths' : forall (g1 g2 : list (option ghand)) x y, (length (g1 ++ y :: g2) <= S (length (g1 ++ x :: g2)))%nat.
  Proof. intros. rewrite !app_length. cbn. lia. Qed.

  Lemma sgood_strong : forall F0 m0 o gs (g1 g2 : list (option ghand)) n b cs acs h, sop_ok s o ->
    let gh := g1 ++ Some (AS n, b) :: g2 in
    starget o = Some (length g1) -> sinv F0 m0 gs gh cs acs h -> N.of_nat (length gh) < 2 ^ 62 ->
    sgood F0 m0 o gs gh acs h.
  Proof.
    intros F0 m0 o gs g1 g2 n b cs acs h OK gh T I B.
    assert (In (Some (AS n, b)) gh) as In1 by apply in_elt.
    destruct (at_handle _ _ _ _ _ _ _ _ _ I In1) as (c1 & c2 & l & c & -> & L1 & A & P & C). cbn [cell_of] in L1, A, C.
    pose proof (has_strong _ _ _ In1) as S1. destruct (counts_le gh n) as [B1 B2]. pose proof (wkw_strong _ _ S1) as W1.
    assert (2 ^ 62 + 2 ^ 62 = 2 ^ 63) as TW by reflexivity.
    assert (nth_error (map hc gh) (length g1) = Some (Some (HS b))) as X1 by exact (nth_mid _ _ hc g1 g2 (Some (AS n, b))).
    assert (nth_error (map ha gh) (length g1) = Some (Some (AS n))) as X2 by exact (nth_mid _ _ ha g1 g2 (Some (AS n, b))).
    assert (forall o', starget o' = Some (length g1) -> sstep s a psz pal copy o' (map gw gs, map hc gh, h) =
              step_strong s psz copy (length g1) b o' (map gw gs) (map hc gh) h) as Y1.
    { intros o' T'. destruct o'; cbn [starget] in T'; try discriminate; injection T' as ->; cbn [sstep starget]; rewrite X1; reflexivity. }
    assert (forall o', starget o' = Some (length g1) -> spec_sstep copy o' (map ga gs, map ha gh, acs) =
              spec_strong copy (length g1) n l o' (map ga gs, map ha gh, acs)) as Y2.
    { intros o' T'. destruct o'; cbn [starget] in T'; try discriminate; injection T' as ->; cbn [spec_sstep]; rewrite X2, A; reflexivity. }
    unfold sgood. rewrite (Y1 o T), (Y2 o T). destruct o; cbn [starget] in T; try discriminate; injection T as ->; cbn [step_strong spec_strong].
    - (* clone *)
      destruct (s_clone_ok _ _ _ _ _ _ _ P C) as (h' & E & Q); [lia|]. rewrite E. left.
      exists yes, gs, (gh ++ [Some (AS n, b)]), (c1 ++ Some (b, l, c) :: c2), acs, h'. rewrite !(map_app _ gh). split; [reflexivity|].
      split; [|split; [apply lengths|reflexivity]]. eapply add_handle; [exact I|exact (eq_sym L1)|]. cbn [cell_of].
      destruct (add_strong gh n b) as [-> ->]. destruct (N.eqb_spec (stw gh n) 0); [lia|]. exact Q.
    - (* downgrade *)
      destruct (w_clone_ok _ _ _ _ _ _ _ P C) as (h' & E & Q); [lia|]. rewrite E. left.
      exists yes, gs, (gh ++ [Some (AW n, b)]), (c1 ++ Some (b, l, c) :: c2), acs, h'. rewrite !(map_app _ gh). split; [reflexivity|].
      split; [|split; [apply lengths|reflexivity]]. eapply add_handle; [exact I|exact (eq_sym L1)|]. cbn [cell_of].
      destruct (add_weak gh n b) as [-> ->]. exact Q.
    - left. exists no, gs, gh, (c1 ++ Some (b, l, c) :: c2), acs, h. split; [reflexivity|]. split; [exact I|]. split; [lia|reflexivity].
    - left. exists no, gs, gh, (c1 ++ Some (b, l, c) :: c2), acs, h. split; [reflexivity|]. split; [exact I|]. split; [lia|reflexivity].
    - (* unshare *)
      rewrite (s_into_vec_ok _ _ _ _ _ _ _ P C). rewrite alone_eq. left.
      destruct ((stw gh n =? 1) && (wkw gh n =? 1)) eqn:U.
      2:{ exists no, gs, gh, (c1 ++ Some (b, l, c) :: c2), acs, h. split; [reflexivity|]. split; [exact I|]. split; [lia|reflexivity]. }
      apply andb_true_iff in U. destruct U as [U1 U2]. apply N.eqb_eq in U1, U2. destruct (lose_strong g1 g2 n b) as [D1 D2].
      exists yes, (gs ++ [Some (OV (cvec b c), l, c)]), (g1 ++ None :: g2), (c1 ++ None :: c2), acs, h. rewrite !(map_app _ gs).
      split; [rewrite <- (upd_map _ _ hc g1 g2 (Some (AS n, b)) None); reflexivity|]. split; [|split; [apply lengths'|]].
      + destruct I as [I1 I2]. split.
        * eapply core_unshare; [exact I1|]. intros i NE. apply (gone_same g1 g2 (AS n) b). cbn [cell_of]. rewrite <- L1. exact NE.
        * eapply last_handle; [exact I2|exact (eq_sym L1)| |]; cbn [cell_of]; fold gh in D1, D2; lia.
      + rewrite <- (upd_map _ _ ha g1 g2 (Some (AS n, b)) None). reflexivity.
    - (* read *)
      rewrite (s_read_ok _ _ _ _ _ P (proj1 C)). left. eexists _, gs, gh, (c1 ++ Some (b, l, c) :: c2), acs, h. split; [reflexivity|]. split; [exact I|]. split; [lia|reflexivity].
    - (* set *)
      destruct (s_set_ok _ _ _ _ _ _ _ k e P C OK) as (h' & E & Q). rewrite E. rewrite alone_eq. left.
      destruct ((stw gh n =? 1) && (wkw gh n =? 1) && (k <? N.of_nat (length l))) eqn:U.
      2:{ subst h'. exists no, gs, gh, (c1 ++ Some (b, l, c) :: c2), acs, h. split; [reflexivity|]. split; [exact I|]. split; [lia|reflexivity]. }
      destruct I as (I1 & H1 & H2 & H3). destruct Q as (Q1 & Q2 & Q3).
      exists yes, gs, gh, (c1 ++ Some (b, putN k e l, c) :: c2), (upd n (putN k e l) acs), h'. split; [reflexivity|]. split; [|split; [lia|reflexivity]].
      apply nth_error_split in A. destruct A as (a1 & a2 & Ea & La). subst acs. rewrite <- La, upd_mid. split.
      + eapply core_set; [exact I1|exact Q1|exact Q3| |intros; split; reflexivity].
        intros b0 l0 c0 E0. injection E0 as <- <- <-. rewrite <- L1 in Q2. exact Q2.
      + split; [revert H1; rewrite !app_length; cbn [length]; lia|]. split.
        * intros i b0 l0 c0 E0. destruct (Nat.eq_dec i (length c1)) as [->|NE].
          -- rewrite nth_mid' in E0. injection E0 as <- <- <-. destruct (H2 (length c1) b l c (nth_mid' _ _ _ _)) as [_ Z]. split; [|exact Z].
             replace (length c1) with (length a1) by lia. apply nth_mid'.
          -- rewrite (nth_other _ c1 c2 _ (Some (b, l, c)) i NE) in E0. destruct (H2 _ _ _ _ E0) as [Z1 Z2]. split; [|exact Z2].
             rewrite <- Z1. apply nth_other. rewrite La, <- L1. exact NE.
        * intros x b0 Ix. destruct (H3 x b0 Ix) as (l0 & c0 & E0). destruct (Nat.eq_dec (cell_of x) (length c1)) as [EE|NE].
          -- rewrite EE in *. rewrite nth_mid' in E0. injection E0 as <- <- <-. exists (putN k e l), c. apply nth_mid'.
          -- exists l0, c0. rewrite <- E0. apply nth_other. exact NE.
    - (* counts *)
      destruct (crep_words _ _ _ _ _ _ _ P C) as (-> & -> & _). left. eexists _, gs, gh, (c1 ++ Some (b, l, c) :: c2), acs, h. split; [reflexivity|]. split; [exact I|].
      split; [lia|]. unfold stw. fold (wkh gh n). rewrite W1. reflexivity.
    - (* drop *)
      destruct (s_drop_ok _ _ _ _ _ _ _ P C) as (h' & E & Q); [lia|lia|]. rewrite E. left. destruct (lose_strong g1 g2 n b) as [D1 D2]. fold gh in D1, D2.
      assert (exists cs', sinv F0 m0 gs (g1 ++ None :: g2) cs' acs h') as (cs' & I').
      { destruct Q as [(Q1 & Q)|[(Q1 & Q2 & Q)|(Q1 & Q2 & Q & K)]].
        - exists (c1 ++ Some (b, l, c) :: c2). eapply drop_handle; [exact I|exact (eq_sym L1)|]. cbn [cell_of]. split; [lia|].
          rewrite D1. unfold wkw. rewrite D1, D2. destruct (N.ltb_spec 0 (stw gh n - 1)); [|lia]. rewrite <- W1. exact Q.
        - exists (c1 ++ Some (b, l, c) :: c2). eapply drop_handle; [exact I|exact (eq_sym L1)|]. cbn [cell_of]. split; [lia|].
          unfold wkw. rewrite D1, D2, Q1. cbn [N.ltb N.compare N.sub Pos.sub_mask Pos.pred_mask]. replace (wkh gh n + 0) with (wkw gh n - 1) by lia. exact Q.
        - exists (c1 ++ None :: c2). eapply free_handle; [exact I|exact (eq_sym L1)| | |exact Q|exact K]; cbn [cell_of]; lia. }
      eexists _, gs, (g1 ++ None :: g2), cs', acs, h'.
      split; [rewrite <- (upd_map _ _ hc g1 g2 (Some (AS n, b)) None); reflexivity|]. split; [exact I'|split; [apply lengths'|]].
      rewrite <- (upd_map _ _ ha g1 g2 (Some (AS n, b)) None). reflexivity.
  Qed.

  Lemma sgood_weak : forall F0 m0 o gs (g1 g2 : list (option ghand)) n b cs acs h,
    let gh := g1 ++ Some (AW n, b) :: g2 in
    starget o = Some (length g1) -> sinv F0 m0 gs gh cs acs h -> N.of_nat (length gh) < 2 ^ 62 ->
    sgood F0 m0 o gs gh acs h.
  Proof.
    intros F0 m0 o gs g1 g2 n b cs acs h gh T I B.
    assert (In (Some (AW n, b)) gh) as In1 by apply in_elt.
    destruct (at_handle _ _ _ _ _ _ _ _ _ I In1) as (c1 & c2 & l & c & -> & L1 & A & P & C). cbn [cell_of] in L1, A, C.
    pose proof (has_weak _ _ _ In1) as S1. destruct (counts_le gh n) as [B1 B2].
    assert (1 <= wkw gh n <= N.of_nat (length gh) + 1) as W1. { unfold wkw. destruct (0 <? stw gh n); clear - S1 B2; lia. }
    assert (2 ^ 62 + 2 ^ 62 = 2 ^ 63) as TW by reflexivity.
    assert (nth_error (map hc gh) (length g1) = Some (Some (HW b))) as X1 by exact (nth_mid _ _ hc g1 g2 (Some (AW n, b))).
    assert (nth_error (map ha gh) (length g1) = Some (Some (AW n))) as X2 by exact (nth_mid _ _ ha g1 g2 (Some (AW n, b))).
    assert (forall o', starget o' = Some (length g1) -> sstep s a psz pal copy o' (map gw gs, map hc gh, h) =
              step_weak psz copy (length g1) b o' (map gw gs) (map hc gh) h) as Y1.
    { intros o' T'. destruct o'; cbn [starget] in T'; try discriminate; injection T' as ->; cbn [sstep starget]; rewrite X1; reflexivity. }
    assert (forall o', starget o' = Some (length g1) -> spec_sstep copy o' (map ga gs, map ha gh, acs) =
              spec_weak copy (length g1) n o' (map ga gs, map ha gh, acs)) as Y2.
    { intros o' T'. destruct o'; cbn [starget] in T'; try discriminate; injection T' as ->; cbn [spec_sstep]; rewrite X2; reflexivity. }
    assert (forall h', cpost (crest F0 gs c1 c2) (mem h) h' b l c (stw (gh ++ [Some (AS n, b)]) n) (wkw (gh ++ [Some (AS n, b)]) n) ->
      exists gs' gh' cs' acs' h'', Some (yes, (map gw gs, map hc gh ++ [Some (HS b)], h')) = Some (yes, (map gw gs', map hc gh', h'')) /\
       sinv F0 m0 gs' gh' cs' acs' h'' /\ (length gh' <= S (length gh))%nat /\
       (yes, (map ga gs, map ha gh ++ [Some (AS n)], acs)) = (yes, (map ga gs', map ha gh', acs'))) as NS.
    { intros h' Q. exists gs, (gh ++ [Some (AS n, b)]), (c1 ++ Some (b, l, c) :: c2), acs, h'. rewrite !(map_app _ gh). split; [reflexivity|].
      split; [|split; [apply lengths|reflexivity]]. eapply add_handle; [exact I|exact (eq_sym L1)|exact Q]. }
    unfold sgood. rewrite (Y1 o T), (Y2 o T). destruct o; cbn [starget] in T; try discriminate; injection T as ->; cbn [step_weak spec_weak];
      try (left; exists no, gs, gh, (c1 ++ Some (b, l, c) :: c2), acs, h; split; [reflexivity|]; split; [exact I|]; split; [lia|reflexivity]).
    - (* clone *)
      destruct (w_clone_ok _ _ _ _ _ _ _ P C) as (h' & E & Q); [lia|]. rewrite E. left.
      exists yes, gs, (gh ++ [Some (AW n, b)]), (c1 ++ Some (b, l, c) :: c2), acs, h'. rewrite !(map_app _ gh). split; [reflexivity|].
      split; [|split; [apply lengths|reflexivity]]. eapply add_handle; [exact I|exact (eq_sym L1)|]. cbn [cell_of].
      destruct (add_weak gh n b) as [-> ->]. exact Q.
    - (* upgrade *)
      destruct (w_upgrade_ok _ _ _ _ _ _ _ P C) as (h' & E & Q); [lia|]. rewrite E. fold (stw gh n). left.
      destruct (N.ltb_spec 0 (stw gh n)) as [U|U].
      + exists yes. apply NS. destruct (add_strong gh n b) as [-> ->]. destruct (N.eqb_spec (stw gh n) 0); [lia|]. exact Q.
      + exists no, gs, gh, (c1 ++ Some (b, l, c) :: c2), acs, h'. split; [reflexivity|]. split; [|split; [lia|reflexivity]].
        destruct I as [I1 I2]. destruct Q as (Q1 & Q2 & Q3). split; [|exact I2].
        eapply core_set; [exact I1|exact Q1|exact Q3| |intros; split; reflexivity].
        intros b0 l0 c0 E0. injection E0 as <- <- <-. replace 0 with (stw gh n) in Q2 by lia. rewrite <- L1 in Q2. exact Q2.
    - (* force *)
      destruct copy eqn:CP;
        [|left; exists no, gs, gh, (c1 ++ Some (b, l, c) :: c2), acs, h; split; [reflexivity|]; split; [exact I|]; split; [lia|reflexivity]].
      destruct (w_force_ok _ _ _ _ _ _ _ P C) as (h' & E & Q); [lia|lia|]. rewrite E. left.
      exists yes. apply NS. destruct (add_strong gh n b) as [-> ->]. exact Q.
    - (* drop *)
      destruct (w_drop_ok _ _ _ _ _ _ _ P C) as (h' & E & Q); [lia|]. rewrite E. left. destruct (lose_weak g1 g2 n b) as [D1 D2]. fold gh in D1, D2.
      assert (wkw (g1 ++ None :: g2) n = wkw gh n - 1) as D3. { unfold wkw. rewrite D1, D2. destruct (0 <? stw gh n); clear - S1; lia. }
      assert (exists cs', sinv F0 m0 gs (g1 ++ None :: g2) cs' acs h') as (cs' & I').
      { destruct Q as [(Q1 & Q)|(Q1 & Q & K)].
        - exists (c1 ++ Some (b, l, c) :: c2). eapply drop_handle; [exact I|exact (eq_sym L1)|]. cbn [cell_of]. split; [|rewrite D1, D3; exact Q].
          rewrite D1, D2. unfold wkw in Q1. destruct (N.ltb_spec 0 (stw gh n)); lia.
        - exists (c1 ++ None :: c2). eapply free_handle; [exact I|exact (eq_sym L1)| | |exact Q|exact K]; cbn [cell_of];
            rewrite ?D1, ?D2; unfold wkw in Q1; destruct (N.ltb_spec 0 (stw gh n)); lia. }
      exists yes, gs, (g1 ++ None :: g2), cs', acs, h'.
      split; [rewrite <- (upd_map _ _ hc g1 g2 (Some (AW n, b)) None); reflexivity|]. split; [exact I'|split; [apply lengths'|]].
      rewrite <- (upd_map _ _ ha g1 g2 (Some (AW n, b)) None). reflexivity.
  Qed.

  Lemma sgood_step : forall F0 m0 o gs gh cs acs h, sop_ok s o -> sinv F0 m0 gs gh cs acs h -> N.of_nat (length gh) < 2 ^ 62 ->
    sgood F0 m0 o gs gh acs h.
  Proof.
    intros F0 m0 o gs gh cs acs h OK I B. destruct (starget o) as [j|] eqn:T.
    2:{ destruct o; cbn [starget] in T; try discriminate; [eapply sgood_owned; eauto|eapply sgood_share; eauto]. }
    destruct (nth_error gh j) as [[[[n|n] b]|]|] eqn:NE.
    - apply nth_error_split in NE. destruct NE as (g1 & g2 & -> & <-). exact (sgood_strong F0 m0 o gs g1 g2 n b cs acs h OK T I B).
    - apply nth_error_split in NE. destruct NE as (g1 & g2 & -> & <-). exact (sgood_weak F0 m0 o gs g1 g2 n b cs acs h T I B).
    - apply (sgood_nothing F0 m0 o gs gh cs acs h I); destruct o; cbn [starget] in T; try discriminate; injection T as ->;
        cbn [sstep spec_sstep starget]; rewrite nth_error_map, NE; reflexivity.
    - apply (sgood_nothing F0 m0 o gs gh cs acs h I); destruct o; cbn [starget] in T; try discriminate; injection T as ->;
        cbn [sstep spec_sstep starget]; rewrite nth_error_map, NE; reflexivity.
  Qed.

  Lemma srun_good : forall os F0 m0 gs gh cs acs h, Forall (sop_ok s) os -> sinv F0 m0 gs gh cs acs h ->
    N.of_nat (length gh + length os) < 2 ^ 62 ->
    exists tr gs' gh' cs' acs' h', srun s a psz pal copy os (map gw gs, map hc gh, h) = Some (tr, (map gw gs', map hc gh', h')) /\
      shistory s a psz pal copy os (map gw gs, map hc gh, h) (map ga gs, map ha gh, acs)
        (map gw gs', map hc gh', h') (map ga gs', map ha gh', acs') /\ sinv F0 m0 gs' gh' cs' acs' h'.
  Proof.
    induction os as [|o os IH]; intros F0 m0 gs gh cs acs h OK I B.
    - exists [], gs, gh, cs, acs, h. split; [reflexivity|]. split; [constructor|exact I].
    - inversion OK as [|? ? OK1 OK2]; subst. cbn [length] in B.
      destruct (sgood_step F0 m0 o gs gh cs acs h OK1 I) as
        [(b & gs1 & gh1 & cs1 & acs1 & h1 & E1 & I1 & L1 & S1)|[(p & i & l & -> & T & N1 & R & E1)|[(i & e & ans & l & -> & N1 & E1)|(i & -> & N1 & E1)]]]; [lia| | | |].
      + destruct (IH F0 m0 gs1 gh1 cs1 acs1 h1 OK2 I1) as (tr & gs' & gh' & cs' & acs' & h' & E & H & I'); [lia|].
        exists (b :: tr), gs', gh', cs', acs', h'. cbn [srun]. rewrite E1, E. split; [reflexivity|]. split; [|exact I'].
        eapply sh_done; eauto.
      + destruct (IH F0 m0 gs gh cs acs h OK2 I) as (tr & gs' & gh' & cs' & acs' & h' & E & H & I'); [lia|].
        exists (no :: tr), gs', gh', cs', acs', h'. cbn [srun]. rewrite E1, E. split; [reflexivity|]. split; [|exact I'].
        eapply sh_refused; eauto.
      + destruct (IH F0 m0 gs gh cs acs h OK2 I) as (tr & gs' & gh' & cs' & acs' & h' & E & H & I'); [lia|].
        exists (no :: tr), gs', gh', cs', acs', h'. cbn [srun]. rewrite E1, E. split; [reflexivity|]. split; [|exact I'].
        eapply sh_full; eauto.
      + destruct (IH F0 m0 gs gh cs acs h OK2 I) as (tr & gs' & gh' & cs' & acs' & h' & E & H & I'); [lia|].
        exists (no :: tr), gs', gh', cs', acs', h'. cbn [srun]. rewrite E1, E. split; [reflexivity|]. split; [|exact I'].
        eapply sh_empty; eauto.
  Qed.
  Lemma sinv_start : forall h, heap_ok h -> sinv (blocks h) (mem h) [] [] [] [] h.
  Proof.
    intros h H. split; [|split; [reflexivity|split; [intros [|i] ? ? ? E; discriminate|intros x b []]]].
    split; [split; [apply Permutation_refl|exact H]|]. split; [intros g []|]. split; [intros [|i] ? ? ? E; discriminate|apply keeps_refl].
  Qed.

  (** ** Nothing left *)
  Lemma no_objects : forall gs, (forall x, In x (map gw gs) -> x = None) -> flat_map gblocks gs = [].
  Proof.
    induction gs as [|g gs IH]; intros D; [reflexivity|]. cbn [flat_map]. rewrite IH by (intros x Hx; apply D; right; exact Hx).
    specialize (D (gw g) (or_introl eq_refl)). destruct g as [[[x l] c]|]; [discriminate|reflexivity].
  Qed.
  Lemma no_cells : forall gh cs acs, hinv gh cs acs -> (forall x, In x (map hc gh) -> x = None) -> flat_map cbl cs = [].
  Proof.
    intros gh cs acs (_ & H & _) D.
    assert (forall i, stw gh i + wkh gh i = 0) as Z.
    { intros i. clear - D. unfold stw, wkh. induction gh as [|g gh IH]; [reflexivity|].
      specialize (IH (fun x Hx => D x (or_intror Hx))). specialize (D (hc g) (or_introl eq_refl)).
      destruct g as [[[n|n] b]|]; try discriminate. cbn [map ha strongs weaks]. exact IH. }
    assert (forall k, In k cs -> k = None) as X.
    { intros [[[b l] c]|] Hk; [|reflexivity]. apply In_nth_error in Hk. destruct Hk as (i & E). destruct (H _ _ _ _ E) as [_ Q]. rewrite Z in Q. clear - Q. lia. }
    clear - X. induction cs as [|k cs IH]; [reflexivity|]. cbn [flat_map]. rewrite IH by (intros x Hx; apply X; right; exact Hx).
    rewrite (X k (or_introl eq_refl)). reflexivity.
  Qed.
End Mem.
