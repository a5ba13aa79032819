(** Lemmas behind P_View. *)
From Coq Require Import NArith List Bool Arith Lia ZifyBool ZifyN ZifyNat.
From Verif Require Import M_String S_String L_String M_View S_View.
Import ListNotations.
Local Open Scope nat_scope.

Definition valid (l : list N) : Prop := exists t, is_text l t.
Lemma valid_app l m : valid l -> valid m -> valid (l ++ m).
Proof. intros (t & F & ->) (u & G & ->). exists (t ++ u). split; [apply Forall_app; auto|symmetry; apply encode_app]. Qed.
Lemma valid_nil : valid [].
Proof. exists []. split; [constructor|reflexivity]. Qed.
Lemma from_utf8_valid l : from_utf8 l = true <-> valid l.
Proof. apply from_utf8_iff. Qed.

Local Open Scope N_scope.
Lemma utf8_shape c : scalar c -> exists a w, utf8 c = a :: w /\ within 128 191 a = false /\ Forall (fun b => within 128 191 b = true) w.
Proof.
  intros S. unfold utf8. pose proof (N.mod_lt c 64 ltac:(discriminate)). pose proof (N.mod_lt (c / 64) 64 ltac:(discriminate)). pose proof (N.mod_lt (c / 4096) 64 ltac:(discriminate)).
  assert (D : c < 1114112) by (destruct S; lia).
  assert (c / 64 < 17408) by (apply N.div_lt_upper_bound; lia). assert (c / 4096 < 272) by (apply N.div_lt_upper_bound; lia).
  destruct (c <? 128) eqn:E1; [|destruct (c <? 2048) eqn:E2; [|destruct (c <? 65536) eqn:E3]]; do 2 eexists; (split; [reflexivity|]); (split; [|repeat (constructor; [apply within_spec; lia|]); constructor]).
  - unfold within; lia.
  - unfold within. lia.
  - unfold within. lia.
  - unfold within. assert (c / 262144 < 5) by (apply N.div_lt_upper_bound; lia). lia.
Qed.
Lemma continuation_invalid b l : within 128 191 b = true -> ~ valid (b :: l).
Proof.
  intros W (t & F & E). destruct t as [|c t]; [discriminate E|]. rewrite encode_cons in E. inversion F; subst.
  destruct (utf8_shape c) as (a & w & U & A & _); [assumption|]. rewrite U in E. cbn in E. injection E as -> _. congruence.
Qed.
Local Open Scope nat_scope.

Lemma boundary_skip l i n : i <= length l -> boundary (skipn i l) n = boundary l (i + n).
Proof.
  revert i. induction l as [|x l IH]; intros [|i] H; try reflexivity; cbn in *; try lia.
  rewrite IH by lia. unfold boundary. cbn. reflexivity.
Qed.
Lemma boundary_valid t : forall i, Forall scalar t -> i <= length (encode t) ->
  boundary (encode t) i = true -> valid (firstn i (encode t)) /\ valid (skipn i (encode t)).
Proof.
  induction t as [|c t IH]; intros i F L B.
  { cbn in *. replace i with 0 by lia. split; apply valid_nil. }
  inversion F; subst. rewrite encode_cons in *. destruct (utf8_shape c) as (a & w & U & A & W); [assumption|].
  destruct (Nat.eq_dec i 0) as [->|NZ].
  { split; [apply valid_nil|]. cbn. exists (c :: t). split; [assumption|]. symmetry. apply encode_cons. }
  destruct (le_lt_dec (length (utf8 c)) i) as [G|G].
  - destruct (IH (i - length (utf8 c))) as (V1 & V2); [assumption|rewrite app_length in L; lia| |].
    { revert B. unfold boundary. rewrite nth_error_app2 by assumption. destruct (nth_error (encode t) _); [easy|]. rewrite app_length. lia. }
    rewrite firstn_app, skipn_app, (firstn_all2 (utf8 c)), (skipn_all2 (utf8 c)) by assumption. split; [|exact V2].
    apply valid_app; [|exact V1]. exists [c]. split; [constructor; auto|]. cbn. rewrite app_nil_r. reflexivity.
  - exfalso. unfold boundary in B. rewrite U in *. destruct i as [|i]; [lia|]. cbn in B, G. rewrite nth_error_app1 in B by lia.
    destruct (nth_error w i) eqn:E; [|apply nth_error_None in E; lia].
    apply nth_error_In in E. rewrite Forall_forall in W. rewrite (W _ E) in B. discriminate.
Qed.
Lemma valid_boundary l i : i <= length l -> valid (skipn i l) -> boundary l i = true.
Proof.
  intros L V. unfold boundary. destruct (nth_error l i) eqn:E.
  - destruct (within 128 191 n) eqn:W; [|reflexivity]. exfalso. refine (continuation_invalid n (skipn (S i) l) W _).
    apply nth_error_split in E. destruct E as (l1 & l2 & -> & <-). rewrite skipn_app, skipn_all, Nat.sub_diag in V. cbn [app] in V.
    rewrite (skipn_app (S (length l1))), skipn_all2 by lia. replace (S (length l1) - length l1) with 1 by lia. exact V.
  - apply nth_error_None in E. apply Nat.eqb_eq. lia.
Qed.
Lemma skipn_plus {X} i n : forall (l : list X), skipn n (skipn i l) = skipn (i + n) l.
Proof. induction i as [|i IH]; intros [|x l]; try reflexivity; [destruct n; reflexivity|]. cbn. apply IH. Qed.
Lemma cut_spec l i n : valid l -> i + n <= length l -> boundary l i && boundary l (i + n) = true <-> cut_ok l i n.
Proof.
  intros V L. split.
  - intros B. apply andb_prop in B. destruct B as (B1 & B2). destruct V as (t & F & ->).
    destruct (boundary_valid t i F) as ((u & U) & (w & F' & W)); [lia|assumption|].
    rewrite <- (boundary_skip (encode t) i n) in B2 by lia. rewrite W in B2.
    destruct (boundary_valid w n F') as ((x & X) & (y & Y)); [rewrite <- W, skipn_length; lia|assumption|].
    rewrite <- W in X, Y. rewrite skipn_plus in Y. exists u, x, y. auto.
  - intros (t & u & w & T & U & W). rewrite (valid_boundary l i), (valid_boundary l (i + n)); [reflexivity|lia|exists w; exact W|lia|].
    rewrite <- (firstn_skipn n (skipn i l)), skipn_plus. apply valid_app; [exists u|exists w]; assumption.
Qed.

Section Run.
Variables b a : list N.
Definition base (k : kind) (r : fat) (c : copy) (now B : list N) : Prop :=
  ckind c = k /\ start r = length B /\ len r = length now /\ (txt k = true -> valid now).
Inductive inv : list (kind * fat) -> list copy -> list N -> list N -> list N -> Prop :=
| inv_one k r c now B A : base k r c now B -> B = b ++ pre c -> A = post c ++ a -> inv [(k, r)] [c] now B A
| inv_more k r c now B A k' r' c' st cs B' A' : base k r c now B -> B = B' ++ pre c -> A = post c ++ A' -> (mut k = true -> mut k' = true) ->
    (txt k' = true -> mut k = true -> txt k = true /\ valid (pre c) /\ valid (post c)) ->
    inv ((k', r') :: st) (c' :: cs) (pre c ++ now ++ post c) B' A' ->
    inv ((k, r) :: (k', r') :: st) (c :: c' :: cs) now B A.
Definition related (m : list N) (st : list (kind * fat)) (cs : list copy) : Prop :=
  exists c rest B A, cs = c :: rest /\ inv st cs (shown c) B A /\ m = B ++ shown c ++ A.

Lemma inv_base k r st c cs now B A : inv ((k, r) :: st) (c :: cs) now B A -> base k r c now B.
Proof. inversion 1; assumption. Qed.
Lemma inv_shown st c cs now B A x : inv st (c :: cs) now B A -> inv st (Copy (ckind c) (pre c) x (post c) :: cs) now B A.
Proof. inversion 1; subst; [apply inv_one; auto|eapply inv_more; eauto]. Qed.
Lemma inv_change st cs now B A now' : inv st cs now B A -> length now' = length now ->
  match st with (k, _) :: _ => mut k = true /\ (txt k = true -> valid now') | [] => True end -> inv st cs now' B A.
Proof.
  intros I. revert now'. induction I as [k r c now B A (K & S & L & V) EB EA|k r c now B A k' r' c' st cs B' A' (K & S & L & V) EB EA M T I IH]; intros now' E Q.
  - constructor; try assumption. destruct Q as (_ & Q). repeat split; try assumption. congruence.
  - destruct Q as (Q & Q'). econstructor; try eassumption; [repeat split; try assumption; congruence|].
    apply IH; [rewrite !app_length; congruence|]. split; [auto|]. intros T'. destruct (T T' Q) as (T1 & T2 & T3). auto using valid_app.
Qed.
Lemma inv_back k r k' r' st c c' cs now B A : inv ((k, r) :: (k', r') :: st) (c :: c' :: cs) now B A -> now = shown c ->
  exists B' A', inv ((k', r') :: st) (back c c' :: cs) (shown (back c c')) B' A' /\ B ++ now ++ A = B' ++ shown (back c c') ++ A'.
Proof.
  intros I ->. inversion I as [|? ? ? ? ? ? ? ? ? ? ? B' A' (K & S & L & V) EB EA M T J]; subst. exists B', A'.
  split; [apply inv_shown; exact J|]. cbn [back shown]. rewrite <- !app_assoc; reflexivity.
Qed.
Lemma inv_settle st c cs B A : inv st (c :: cs) (shown c) B A ->
  B ++ shown c ++ A = b ++ pre (settle c cs) ++ shown (settle c cs) ++ post (settle c cs) ++ a.
Proof.
  revert st c B A. induction cs as [|d cs IH]; intros st c B A I.
  - inversion I; subst. cbn. rewrite <- !app_assoc. reflexivity.
  - inversion I; subst. destruct (inv_back _ _ _ _ _ _ _ _ _ _ _ I eq_refl) as (B1 & A1 & J & E). rewrite E. cbn [settle]. exact (IH _ _ _ _ J).
Qed.
Lemma inv_reads st cs now B A m : inv st cs now B A -> m = B ++ now ++ A -> Forall (fun x => exists l, read_as (txt (fst x)) m (snd x) = Some l) st.
Proof.
  intros I. induction I as [k r c now B A (K & S & L & V) EB EA|k r c now B A k' r' c' st cs B' A' (K & S & L & V) EB EA M T I IH]; intros E.
  1: constructor; [|constructor]. 2: constructor; [|apply IH; rewrite E, EB, EA, <- !app_assoc; reflexivity].
  all: exists now; cbn [fst snd]; unfold read_as, read; rewrite S, L, E;
    replace (length B + length now <=? length (B ++ now ++ A)) with true by (rewrite !app_length; lia);
    rewrite skipn_app, skipn_all, Nat.sub_diag; cbn [app skipn]; rewrite firstn_app, firstn_all, Nat.sub_diag, firstn_O, app_nil_r;
    destruct (txt k); [rewrite (proj2 (from_utf8_valid now)) by auto|]; reflexivity.
Qed.
Lemma read_top k r c B A : base k r c (shown c) B -> read_as (txt k) (B ++ shown c ++ A) r = Some (shown c).
Proof.
  intros (K & S & L & V). unfold read_as, read. rewrite S, L.
  replace (length B + length (shown c) <=? length (B ++ shown c ++ A)) with true by (rewrite !app_length; lia).
  rewrite skipn_app, skipn_all, Nat.sub_diag; cbn [app skipn]; rewrite firstn_app, firstn_all, Nat.sub_diag, firstn_O, app_nil_r.
  destruct (txt k); [rewrite (proj2 (from_utf8_valid (shown c))) by auto|]; reflexivity.
Qed.
Lemma write_at (B l l' A : list N) : length l' = length l -> write (B ++ l ++ A) (length B) l' = Some (B ++ l' ++ A).
Proof.
  intros E. unfold write. replace (_ <=? _) with true by (rewrite !app_length; lia).
  rewrite firstn_app, firstn_all, Nat.sub_diag, firstn_O, app_nil_r. do 3 f_equal.
  rewrite skipn_app, (skipn_all2 B) by lia. rewrite E. replace (length B + length l - length B) with (length l) by lia.
  rewrite skipn_app, skipn_all, Nat.sub_diag. reflexivity.
Qed.

Lemma convert_spec k k' : match convert k k' with Some f => converts k k' = true /\ forall r, start (f r) = start r /\ len (f r) = len r | None => converts k k' = false end.
Proof. destruct k as [[|] [|] [|]], k' as [[|] [|] [|]]; cbn; auto. Qed.
Lemma borrow_spec k m : match borrow k m with Some f => borrows k m = true /\ forall r, start (f r) = start r /\ len (f r) = len r | None => borrows k m = false end.
Proof. destruct k as [[|] [|] [|]], m; cbn; auto. Qed.
Lemma converts_txt k k' : converts k k' = true -> txt k' = txt k /\ (mut k' = true -> mut k = true).
Proof. destruct k as [[|] [|] [|]], k' as [[|] [|] [|]]; cbn; auto; discriminate. Qed.

(** The top of the stack is replaced: it shows the same, or less, or becomes less mutable. *)
Lemma inv_replace k r st c cs now B A k2 r2 c2 now2 B2 A2 :
  inv ((k, r) :: st) (c :: cs) now B A -> base k2 r2 c2 now2 B2 -> (mut k2 = true -> mut k = true) ->
  (exists u v, B2 = B ++ u /\ A2 = v ++ A /\ pre c2 = pre c ++ u /\ post c2 = v ++ post c /\ now = u ++ now2 ++ v /\
    (txt k = true -> mut k2 = true -> txt k2 = true /\ valid u /\ valid v)) -> inv ((k2, r2) :: st) (c2 :: cs) now2 B2 A2.
Proof.
  intros I Q M (u & v & -> & -> & P1 & P2 & N & T). inversion I as [? ? ? ? ? ? (K & S & L & V) EB EA|? ? ? ? ? ? ? ? ? ? ? B' A' (K & S & L & V) EB EA M' T' J]; subst.
  - constructor; [exact Q|rewrite P1, !app_assoc; reflexivity|rewrite P2, !app_assoc; reflexivity].
  - apply (inv_more k2 r2 c2 now2 _ _ k' r' c' st0 cs0 B' A').
    + exact Q.
    + rewrite P1, !app_assoc; reflexivity.
    + rewrite P2, !app_assoc; reflexivity.
    + auto.
    + intros T1 T2. destruct (T' T1 (M T2)) as (T3 & T4 & T5). destruct (T T3 T2) as (T6 & T7 & T8). rewrite P1, P2. auto using valid_app.
    + rewrite P1, P2. replace ((pre c ++ u) ++ now2 ++ v ++ post c) with (pre c ++ (u ++ now2 ++ v) ++ post c) by (rewrite <- !app_assoc; reflexivity). exact J.
Qed.

Lemma step_spec m st cs x : related m st cs ->
  exists m1 st1 s cs1, act_step m st x = Some (m1, st1, s) /\ copy_step cs x cs1 s /\ related m1 st1 cs1.
Proof.
  intros (c & rest & B & A & -> & I & ->). destruct st as [|(k, r) st]; [inversion I|].
  pose proof (inv_base _ _ _ _ _ _ _ _ I) as Q. pose proof (read_top k r c B A Q) as RD. pose proof Q as (K & S & L & V).
  assert (SAME : forall s, copy_step (c :: rest) x (c :: rest) s -> act_step (B ++ shown c ++ A) ((k, r) :: st) x = Some (B ++ shown c ++ A, (k, r) :: st, s) ->
    exists m1 st1 s cs1, act_step (B ++ shown c ++ A) ((k, r) :: st) x = Some (m1, st1, s) /\ copy_step (c :: rest) x cs1 s /\ related m1 st1 cs1).
  { intros s H E. exists (B ++ shown c ++ A), ((k, r) :: st), s, (c :: rest). repeat (split; [assumption|]). exists c, rest, B, A. auto. }
  assert (NEW : forall k2 r2 c2 u v s, copy_step (c :: rest) x (c2 :: rest) s -> act_step (B ++ shown c ++ A) ((k, r) :: st) x = Some (B ++ shown c ++ A, (k2, r2) :: st, s) ->
    base k2 r2 c2 (shown c2) (B ++ u) -> (mut k2 = true -> mut k = true) -> pre c2 = pre c ++ u -> post c2 = v ++ post c -> shown c = u ++ shown c2 ++ v ->
    (txt k = true -> mut k2 = true -> txt k2 = true /\ valid u /\ valid v) ->
    exists m1 st1 s cs1, act_step (B ++ shown c ++ A) ((k, r) :: st) x = Some (m1, st1, s) /\ copy_step (c :: rest) x cs1 s /\ related m1 st1 cs1).
  { intros k2 r2 c2 u v s H E Q2 M P1 P2 N T. exists (B ++ shown c ++ A), ((k2, r2) :: st), s, (c2 :: rest). repeat (split; [assumption|]).
    exists c2, rest, (B ++ u), (v ++ A). split; [reflexivity|]. split; [|rewrite N, <- !app_assoc; reflexivity].
    apply (inv_replace k r st c rest (shown c) B A); [assumption|assumption|assumption|]. exists u, v. auto 8. }
  assert (WROTE : forall l' s, copy_step (c :: rest) x (Copy (ckind c) (pre c) l' (post c) :: rest) s -> length l' = length (shown c) -> mut k = true -> (txt k = true -> valid l') ->
    act_step (B ++ shown c ++ A) ((k, r) :: st) x = Some (B ++ l' ++ A, (k, r) :: st, s) ->
    exists m1 st1 s cs1, act_step (B ++ shown c ++ A) ((k, r) :: st) x = Some (m1, st1, s) /\ copy_step (c :: rest) x cs1 s /\ related m1 st1 cs1).
  { intros l' s H E M T E'. do 4 eexists. split; [exact E'|]. split; [exact H|]. do 4 eexists. split; [reflexivity|]. cbn [shown]. split; [|reflexivity].
    apply inv_shown. apply (inv_change _ _ (shown c)); auto. }
  assert (OURS : ours k = true -> match x with Conv _ | Borrow _ | End | Count => False | _ => True end ->
    exists m1 st1 s cs1, act_step (B ++ shown c ++ A) ((k, r) :: st) x = Some (m1, st1, s) /\ copy_step (c :: rest) x cs1 s /\ related m1 st1 cs1).
  { intros O X. apply (SAME Illegal); [apply cs_ours; [rewrite K; exact O|exact X]|]. destruct x; cbn; try contradiction; rewrite O; reflexivity. }
  destruct x as [k'|mu| |i n| | |i y|up| |].
  - cbn [act_step] in *. pose proof (convert_spec k k') as C. destruct (convert k k') as [f|].
    + destruct C as (C & F). destruct (F r) as (F1 & F2). destruct (converts_txt _ _ C) as (T & M).
      apply (NEW k' (f r) (Copy k' (pre c) (shown c) (post c)) [] [] Nothing); cbn [pre post shown]; rewrite ?app_nil_r; auto.
      * constructor. rewrite K. exact C.
      * repeat split; cbn [ckind]; try congruence. rewrite T. exact V.
      * intros T1 T2. rewrite T, T1. auto using valid_nil.
    + apply (SAME Illegal); [constructor; rewrite K; exact C|reflexivity].
  - cbn [act_step] in *. pose proof (borrow_spec k mu) as C. destruct (borrow k mu) as [f|].
    + destruct C as (C & F). destruct (F r) as (F1 & F2).
      do 4 eexists. split; [reflexivity|]. split; [constructor; rewrite K; exact C|].
      do 4 eexists. split; [reflexivity|]. cbn [shown]. split; [|reflexivity].
      apply (inv_more _ _ _ _ _ _ k r c st rest B A); cbn [pre post shown ckind app]; rewrite ?app_nil_r; auto.
      * repeat split; cbn [ckind txt]; try congruence. exact V.
      * cbn [mut]. intros ->. destruct k as [? [|] ?]; [reflexivity|discriminate].
      * cbn [mut txt]. auto using valid_nil.
    + apply (SAME Illegal); [constructor; rewrite K; exact C|reflexivity].
  - cbn [act_step] in *. destruct st as [|(k', r') st].
    + apply (SAME Illegal); [|reflexivity]. inversion I; subst. constructor.
    + inversion I; subst. destruct (inv_back _ _ _ _ _ _ _ _ _ _ _ I eq_refl) as (B1 & A1 & J & E).
      do 4 eexists. split; [reflexivity|]. split; [constructor|]. do 4 eexists. split; [reflexivity|]. split; [exact J|exact E].
  - destruct (ours k) eqn:O; [apply OURS; auto|]. cbn [act_step] in *. rewrite O, RD in *.
    destruct (i + n <=? len r) eqn:LE; cbn [andb] in *.
    + destruct (txt k) eqn:T; cbn [negb orb] in *.
      * pose proof (cut_spec (shown c) i n (V eq_refl) ltac:(lia)) as CS. destruct (boundary (shown c) i && boundary (shown c) (i + n)) eqn:BD.
        -- destruct (proj1 CS eq_refl) as (t & u & w & CT & CU & CW).
           apply (NEW k (Fat (start r + i) n) (Copy (ckind c) (pre c ++ firstn i (shown c)) (firstn n (skipn i (shown c))) (skipn (i + n) (shown c) ++ post c))
             (firstn i (shown c)) (skipn (i + n) (shown c)) Nothing); cbn [pre post shown]; auto.
           ++ constructor; [congruence|lia|]. intros _. exists t, u, w. auto.
           ++ repeat split; cbn [ckind start len]; try assumption; [rewrite app_length, firstn_length; lia|rewrite firstn_length, skipn_length; lia|]. intros _. exists u. exact CU.
           ++ rewrite <- skipn_plus, firstn_skipn, firstn_skipn. reflexivity.
           ++ intros _ _. split; [assumption|]. split; [exists t|exists w]; assumption.
        -- apply (SAME Panicked); [|reflexivity]. apply cs_sub_no; [congruence|]. right. split; [congruence|]. intros X. apply CS in X. discriminate.
      * apply (NEW k (Fat (start r + i) n) (Copy (ckind c) (pre c ++ firstn i (shown c)) (firstn n (skipn i (shown c))) (skipn (i + n) (shown c) ++ post c))
             (firstn i (shown c)) (skipn (i + n) (shown c)) Nothing); cbn [pre post shown]; auto.
        -- constructor; [congruence|lia|]. congruence.
        -- repeat split; cbn [ckind start len]; try assumption; [rewrite app_length, firstn_length; lia|rewrite firstn_length, skipn_length; lia|]. congruence.
        -- rewrite <- skipn_plus, firstn_skipn, firstn_skipn. reflexivity.
        -- congruence.
    + apply (SAME Panicked); [|reflexivity]. apply cs_sub_no; [congruence|]. left. lia.
  - destruct (ours k) eqn:O; [apply OURS; auto|]. cbn [act_step] in *. rewrite O, RD in *. destruct k as [t mu o]. cbn [ours txt mut] in *. subst o.
    destruct t, mu; cbn [andb negb] in *; try (apply (SAME Illegal); [|reflexivity]; apply cs_bytes_no; rewrite K; [reflexivity|discriminate]).
    apply (NEW (Kind false false false) r (Copy (Kind false false false) (pre c) (shown c) (post c)) [] [] Nothing); cbn [pre post shown]; rewrite ?app_nil_r; auto.
    + constructor. exact K.
    + repeat split; cbn [ckind txt]; try assumption. discriminate.
    + cbn [mut]. discriminate.
  - destruct (ours k) eqn:O; [apply OURS; auto|]. cbn [act_step] in *. rewrite O, RD in *. destruct k as [t mu o]. cbn [ours txt mut] in *. subst o.
    destruct t; [apply (SAME Illegal); [|reflexivity]; eapply cs_utf8_no; exact K|].
    destruct (from_utf8 (shown c)) eqn:U.
    + apply from_utf8_valid in U. destruct U as (t & U).
      apply (NEW (Kind true mu false) r (Copy (Kind true mu false) (pre c) (shown c) (post c)) [] [] Nothing); cbn [pre post shown]; rewrite ?app_nil_r; auto.
      * econstructor; eassumption.
      * repeat split; cbn [ckind txt]; try assumption. intros _. exists t. exact U.
      * cbn [txt]. auto using valid_nil.
    + apply (SAME Failed); [|reflexivity]. eapply cs_utf8_failed; [exact K|]. intros t X. assert (Y : valid (shown c)) by (exists t; exact X).
      apply from_utf8_valid in Y. congruence.
  - destruct (ours k) eqn:O; [apply OURS; auto|]. cbn [act_step] in *. rewrite O, RD in *. destruct k as [t mu o]. cbn [ours txt mut] in *. subst o.
    destruct t, mu; cbn [orb negb] in *; try (apply (SAME Illegal); [|reflexivity]; apply cs_write_no; rewrite K; [reflexivity|discriminate]).
    destruct (i <? len r) eqn:LT.
    + destruct (nth_error (shown c) i) as [z|] eqn:NE; [|apply nth_error_None in NE; lia]. apply nth_error_split in NE. destruct NE as (l1 & l2 & E & <-).
      assert (W : write (B ++ shown c ++ A) (start r + length l1) [y] = Some (B ++ (l1 ++ y :: l2) ++ A)).
      { rewrite E, S, <- app_length. replace (B ++ (l1 ++ z :: l2) ++ A) with ((B ++ l1) ++ [z] ++ (l2 ++ A)) by (rewrite <- !app_assoc; reflexivity).
        rewrite write_at by reflexivity. rewrite <- !app_assoc. reflexivity. }
      rewrite W in *. apply (WROTE (l1 ++ y :: l2) Nothing); auto.
      * eapply cs_write; eassumption.
      * rewrite E, !app_length. reflexivity.
      * discriminate.
    + apply (SAME Panicked); [|reflexivity]. apply cs_write_out; [exact K|lia].
  - destruct (ours k) eqn:O; [apply OURS; auto|]. cbn [act_step] in *. rewrite O, RD in *. destruct k as [t mu o]. cbn [ours txt mut] in *. subst o.
    destruct t, mu; cbn [andb] in *; try (apply (SAME Illegal); [|reflexivity]; apply cs_case_no; rewrite K; [reflexivity|discriminate]).
    destruct (V eq_refl) as (t & T). pose proof T as (F & E). destruct (ascii_encode up t F) as (E1 & E2).
    assert (W : write (B ++ shown c ++ A) (start r) (map (ascii_case up) (shown c)) = Some (B ++ map (ascii_case up) (shown c) ++ A)).
    { rewrite S. apply write_at. apply map_length. }
    rewrite W in *. apply (WROTE (map (ascii_case up) (shown c)) Nothing); auto.
    + rewrite E, E1. apply cs_case; assumption.
    + apply map_length.
    + intros _. rewrite E, E1. eexists. split; [|reflexivity]. exact E2.
  - destruct (ours k) eqn:O; [apply OURS; auto|]. cbn [act_step] in *. rewrite O, RD in *. apply (SAME (Elements (shown c))); [|reflexivity]. constructor. congruence.
  - cbn [act_step] in *. apply (SAME (Length (length (shown c)))); [constructor|]. rewrite L. reflexivity.
Qed.
Lemma run_spec acts : forall m st cs, related m st cs ->
  exists m1 st1 s cs1, act_run m st acts = Some (m1, st1, s) /\ copy_run cs acts cs1 s /\ related m1 st1 cs1.
Proof.
  induction acts as [|x acts IH]; intros m st cs R.
  - do 4 eexists. split; [reflexivity|]. split; [constructor|exact R].
  - destruct (step_spec m st cs x R) as (m1 & st1 & s & cs1 & E & C & R1). destruct (IH _ _ _ R1) as (m2 & st2 & l & cs2 & E2 & C2 & R2).
    do 4 eexists. cbn. rewrite E, E2. split; [reflexivity|]. split; [econstructor; eassumption|exact R2].
Qed.
End Run.
