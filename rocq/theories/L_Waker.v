(** Lemmas behind P_Waker. *)
From Coq Require Import List Arith Bool Lia.
From Verif Require Import M_Waker S_Waker.
Import ListNotations.

Lemma owned_dec (a b : owned) : {a = b} + {a <> b}.
Proof. decide equality; apply Nat.eq_dec. Defined.
Definition one (a b : owned) : nat := if owned_dec a b then 1 else 0.
Lemma one_refl a : one a a = 1. Proof. unfold one. destruct (owned_dec a a); congruence. Qed.
Lemma one_neq a b : a <> b -> one a b = 0. Proof. unfold one. destruct (owned_dec a b); congruence. Qed.
Fixpoint cntl (x : owned) (l : list owned) : nat := match l with [] => 0 | y :: l => one x y + cntl x l end.
Fixpoint cnth (x : owned) (h : list block) : nat := match h with [] => 0 | b :: h => (if b_freed b then 0 else one x (b_inner b)) + cnth x h end.
Definition refs (h : list block) (L : list owned) (x : owned) : nat := cntl x L + cnth x h.
Lemma cntl_app x l l' : cntl x (l ++ l') = cntl x l + cntl x l'.
Proof. induction l; cbn; lia. Qed.
Lemma cnth_app x l l' : cnth x (l ++ l') = cnth x l + cnth x l'.
Proof. induction l; cbn; lia. Qed.
Lemma cntl_in x l : 0 < cntl x l <-> In x l.
Proof.
  induction l as [|y l IH]; cbn; [lia|]. unfold one. destruct (owned_dec x y); subst; split; intros H; auto; try lia.
  - right. apply IH. lia.
  - destruct H; [congruence|]. apply IH in H. lia.
Qed.
Lemma cnth_in x h : 0 < cnth x h <-> exists n b, nth_error h n = Some b /\ b_freed b = false /\ b_inner b = x.
Proof.
  induction h as [|b h IH]; cbn.
  - split; [lia|]. intros [[|n] [b [H _]]]; discriminate.
  - split.
    + intros H. destruct (b_freed b) eqn:Ef.
      * destruct (proj1 IH ltac:(lia)) as [n [c Hc]]. exists (S n), c. exact Hc.
      * destruct (owned_dec x (b_inner b)) as [->|Hn]; [exists 0, b; auto|]. rewrite one_neq in H by assumption.
        destruct (proj1 IH ltac:(lia)) as [n [c Hc]]. exists (S n), c. exact Hc.
    + intros [[|n] [c [E [Hf Hi]]]]; cbn in E.
      * injection E as ->. rewrite Hf, <- Hi, one_refl. lia.
      * assert (0 < cnth x h) by (apply IH; eauto). lia.
Qed.
Lemma upd_len h n b : length (upd h n b) = length h.
Proof. revert n. induction h; intros [|n]; cbn; auto. Qed.
Lemma upd_nth h n b m : n < length h -> nth_error (upd h n b) m = if m =? n then Some b else nth_error h m.
Proof. revert n m. induction h as [|c h IH]; intros [|n] [|m] H; cbn in *; try lia; auto. apply IH. lia. Qed.
Lemma upd_cnth x h n b c : nth_error h n = Some b -> cnth x (upd h n c) + (if b_freed b then 0 else one x (b_inner b)) = cnth x h + (if b_freed c then 0 else one x (b_inner c)).
Proof.
  revert n. induction h as [|d h IH]; intros [|n] H; cbn in *; try discriminate.
  - injection H as ->. lia.
  - specialize (IH _ H). lia.
Qed.
Lemma nth_lt {A} (l : list A) n x : nth_error l n = Some x -> n < length l.
Proof. intros H. apply nth_error_Some. congruence. Qed.

Inductive stands (h : list block) : owned -> nat -> Prop :=
| stands_orig i : stands h (OOrig i) i
| stands_shared n b i : nth_error h n = Some b -> stands h (b_inner b) i -> stands h (OShared n) i.
Lemma stands_mono h h' x i : (forall n b, nth_error h n = Some b -> exists b', nth_error h' n = Some b' /\ b_inner b' = b_inner b) ->
  stands h x i -> stands h' x i.
Proof.
  intros H. induction 1 as [|n b i E _ IH]; [constructor|]. destruct (H _ _ E) as [b' [E' Ei]]. econstructor; [exact E'|]. rewrite Ei. exact IH.
Qed.
Lemma upd_mono h n b c : nth_error h n = Some b -> b_inner c = b_inner b ->
  forall m d, nth_error h m = Some d -> exists d', nth_error (upd h n c) m = Some d' /\ b_inner d' = b_inner d.
Proof.
  intros E Ei m d Hm. rewrite upd_nth by (eapply nth_lt; eauto). destruct (Nat.eqb_spec m n) as [Hmn|]; eauto. subst m. exists c. split; congruence.
Qed.
Lemma app_mono h l : forall m (d : block), nth_error h m = Some d -> exists d', nth_error (h ++ l) m = Some d' /\ b_inner d' = b_inner d.
Proof. intros m d Hm. exists d. rewrite nth_error_app1 by (eapply nth_lt; eauto). auto. Qed.

Record inv (w : world) (L : list owned) : Prop := {
  iv_alive : forall n, 0 < refs (w_blocks w) L (OShared n) -> exists b, nth_error (w_blocks w) n = Some b /\ b_freed b = false;
  iv_count : forall n b, nth_error (w_blocks w) n = Some b -> b_freed b = false -> b_alloc b = 0 /\ 0 < b_strong b /\ b_strong b = refs (w_blocks w) L (OShared n);
  iv_order : forall n b m, nth_error (w_blocks w) n = Some b -> b_inner b = OShared m -> m < n;
  iv_orig : forall i, clones i (w_log w) = drops i (w_log w) + refs (w_blocks w) L (OOrig i);
}.

Fixpoint root (k : waker) : owned := match k with Own o => o | Borrowed _ u => root u end.
Fixpoint allocs (k : waker) : Prop := match k with Own _ => True | Borrowed a u => a = 0 /\ allocs u end.
Definition grows (h h' : list block) : Prop := forall n b, nth_error h n = Some b -> exists b', nth_error h' n = Some b' /\ b_inner b' = b_inner b.

Lemma inv_equiv w L L' : (forall x, cntl x L = cntl x L') -> inv w L -> inv w L'.
Proof.
  intros H [A B C D]. assert (forall x, refs (w_blocks w) L' x = refs (w_blocks w) L x) as E by (intros x; unfold refs; rewrite H; reflexivity).
  split; auto.
  - intros n. rewrite E. apply A.
  - intros n b. rewrite E. apply B.
  - intros i. rewrite E. apply D.
Qed.
Lemma one_os n m : one (OShared n) (OShared m) = if n =? m then 1 else 0.
Proof. unfold one. destruct (owned_dec _ _) as [E|E], (Nat.eqb_spec n m); congruence. Qed.
Lemma one_oo n m : one (OOrig n) (OOrig m) = if n =? m then 1 else 0.
Proof. unfold one. destruct (owned_dec _ _) as [E|E], (Nat.eqb_spec n m); congruence. Qed.

Lemma clone_owned_inv w L o : inv w L -> 0 < refs (w_blocks w) L o ->
  exists w', clone_owned w o = Some (w', o) /\ inv w' (o :: L) /\ grows (w_blocks w) (w_blocks w') /\ wakes (w_log w') = wakes (w_log w) /\ length (w_blocks w') = length (w_blocks w).
Proof.
  intros I Hr. pose proof I as [A B C D]. destruct o as [i|n]; cbn [clone_owned].
  - eexists. split; [reflexivity|]. cbn. split; [|split; [intros n b H; eauto|auto]]. split; cbn [w_blocks w_log].
    + intros n. unfold refs. cbn [cntl]. rewrite one_neq by discriminate. apply A.
    + intros n b. unfold refs. cbn [cntl]. rewrite (one_neq (OShared n) (OOrig i)) by discriminate. apply B.
    + exact C.
    + intros j. specialize (D j). unfold refs in *. cbn [cntl clones drops]. rewrite one_oo. lia.
  - destruct (A n Hr) as [b [E Hf]]. rewrite E, Hf. destruct (B n b E Hf) as [Ha [Hs Hc]]. pose proof (nth_lt _ _ _ E) as Hl.
    set (c := Block (S (b_strong b)) (b_inner b) (b_alloc b) false).
    assert (forall x, cnth x (upd (w_blocks w) n c) = cnth x (w_blocks w)) as Hu.
    { intros x. pose proof (upd_cnth x (w_blocks w) n b c E) as H. rewrite Hf in H. cbn in H. lia. }
    eexists. split; [reflexivity|]. cbn. split; [|split; [exact (upd_mono _ _ _ c E eq_refl)|split; [reflexivity|apply upd_len]]].
    split; cbn [w_blocks w_log].
    + intros m Hm. unfold refs in Hm. rewrite Hu in Hm. cbn [cntl] in Hm. rewrite one_os in Hm. rewrite upd_nth by assumption.
      destruct (Nat.eqb_spec m n); [exists c; auto|]. apply A. unfold refs. lia.
    + intros m d Hm Hd. rewrite upd_nth in Hm by assumption. unfold refs. rewrite Hu. cbn [cntl]. rewrite one_os.
      destruct (Nat.eqb_spec m n) as [->|].
      * injection Hm as <-. cbn. unfold refs in Hc. split; [exact Ha|]. split; lia.
      * destruct (B m d Hm Hd) as [H1 [H2 H3]]. unfold refs in H3. split; [exact H1|]. split; lia.
    + intros m d k Hm. rewrite upd_nth in Hm by assumption. destruct (Nat.eqb_spec m n) as [->|]; [|eapply C; eauto].
      injection Hm as <-. cbn. intros H. eapply C; eauto.
    + intros i. specialize (D i). unfold refs in *. rewrite Hu. cbn [cntl]. rewrite one_neq by discriminate. lia.
Qed.
Lemma grows_trans h1 h2 h3 : grows h1 h2 -> grows h2 h3 -> grows h1 h3.
Proof. intros H K n b E. destruct (H _ _ E) as [b' [E' Eb]]. destruct (K _ _ E') as [b2 [E2 Eb2]]. exists b2. split; congruence. Qed.
Lemma clone_inv k : forall w L i, inv w L -> 0 < refs (w_blocks w) L (root k) -> allocs k -> stands (w_blocks w) (root k) i ->
  exists w' o, clone w k = Some (w', o) /\ inv w' (o :: L) /\ grows (w_blocks w) (w_blocks w') /\ wakes (w_log w') = wakes (w_log w) /\ stands (w_blocks w') o i.
Proof.
  induction k as [o|a u IH]; intros w L i I Hr Ha Hs; cbn [clone root allocs] in *.
  - destruct (clone_owned_inv w L o I Hr) as [w' [E [I' [G [W _]]]]]. exists w', o. split; [exact E|]. split; [exact I'|]. split; [exact G|].
    split; [exact W|]. eapply stands_mono; eauto.
  - destruct Ha as [-> Ha]. destruct (IH w L i I Hr Ha Hs) as [w1 [o [E [I' [G [W S1]]]]]]. rewrite E.
    remember (length (w_blocks w1)) as n eqn:En. eexists. eexists. split; [reflexivity|]. cbn [w_blocks w_log].
    pose proof I' as [A B C D].
    assert (refs (w_blocks w1) (o :: L) (OShared n) = 0) as H0.
    { destruct (refs (w_blocks w1) (o :: L) (OShared n)) eqn:E0; [reflexivity|]. destruct (A n ltac:(lia)) as [b [Eb _]].
      apply nth_lt in Eb. lia. }
    assert (forall x, refs (w_blocks w1 ++ [Block 1 o 0 false]) (OShared n :: L) x = one x (OShared n) + refs (w_blocks w1) (o :: L) x) as Hx.
    { intros x. unfold refs. rewrite cnth_app. cbn [cntl cnth b_freed b_inner]. lia. }
    split; [|split; [|split; [exact W|]]].
    + split; cbn [w_blocks w_log].
      * intros m Hm. rewrite Hx in Hm. rewrite one_os in Hm. destruct (Nat.eqb_spec m n) as [Hmn|Hn].
        -- subst m. exists (Block 1 o 0 false). rewrite nth_error_app2 by lia. rewrite En, Nat.sub_diag. auto.
        -- destruct (A m ltac:(lia)) as [b [Eb Hb]]. exists b. rewrite nth_error_app1 by (eapply nth_lt; eauto). auto.
      * intros m d Hm Hd. rewrite Hx, one_os. destruct (Nat.lt_ge_cases m n) as [Hlt|Hge].
        -- rewrite nth_error_app1 in Hm by lia. destruct (B m d Hm Hd) as [H1 [H2 H3]]. destruct (Nat.eqb_spec m n); [lia|]. auto.
        -- pose proof (nth_lt _ _ _ Hm) as Hl. rewrite app_length in Hl. cbn in Hl. assert (m = n) by lia. subst m.
           rewrite nth_error_app2 in Hm by lia. rewrite En, Nat.sub_diag in Hm. cbn in Hm. injection Hm as <-. rewrite Nat.eqb_refl, H0. auto.
      * intros m d k Hm Hd. destruct (Nat.lt_ge_cases m n) as [Hlt|Hge].
        -- rewrite nth_error_app1 in Hm by lia. eapply C; eauto.
        -- pose proof (nth_lt _ _ _ Hm) as Hl. rewrite app_length in Hl. cbn in Hl. assert (m = n) by lia. subst m.
           rewrite nth_error_app2 in Hm by lia. rewrite En, Nat.sub_diag in Hm. cbn in Hm. injection Hm as <-. cbn in Hd. subst o.
           assert (0 < refs (w_blocks w1) (OShared k :: L) (OShared k)) as Hk by (unfold refs; cbn [cntl]; rewrite one_refl; lia).
           destruct (A k Hk) as [b [Eb _]]. apply nth_lt in Eb. lia.
      * intros j. rewrite Hx, one_neq by discriminate. apply D.
    + eapply grows_trans; [exact G|]. intros m d. apply app_mono.
    + econstructor; [rewrite nth_error_app2 by lia; rewrite En, Nat.sub_diag; reflexivity|]. cbn [b_inner].
      eapply stands_mono; [|exact S1]. intros m d. apply app_mono.
Qed.

Definition below (fuel : nat) (o : owned) : Prop := match o with OShared n => n < fuel | _ => True end.
Lemma wake_owned_inv fuel : forall w L o i, inv w L -> 0 < refs (w_blocks w) L o -> stands (w_blocks w) o i -> below fuel o ->
  wake_owned fuel w o = Some (World (w_blocks w) (EWake i :: w_log w)).
Proof.
  induction fuel as [|fuel IH]; intros w L o i I Hr Hs Hb; (destruct o as [j|n]; [inversion Hs; subst; reflexivity|]); cbn in Hb; [lia|].
  destruct (iv_alive _ _ I n Hr) as [b [E Hf]]. cbn [wake_owned]. rewrite E, Hf. inversion Hs as [|? b' ? E' Hs']; subst. assert (b' = b) by congruence. subst b'.
  apply (IH w L); auto.
  - assert (0 < cnth (b_inner b) (w_blocks w)) by (apply cnth_in; eauto). unfold refs. lia.
  - destruct (b_inner b) as [j|m] eqn:Eb; [exact Logic.I|]. pose proof (iv_order _ _ I n b m E Eb). cbn. lia.
Qed.
Lemma alive_below w L o : inv w L -> 0 < refs (w_blocks w) L o -> below (length (w_blocks w)) o.
Proof. intros I Hr. destruct o as [j|n]; cbn; [exact Logic.I|]. destruct (iv_alive _ _ I n Hr) as [b [E _]]. eapply nth_lt; eauto. Qed.
Lemma wake_by_ref_inv k w L i : inv w L -> 0 < refs (w_blocks w) L (root k) -> stands (w_blocks w) (root k) i ->
  wake_by_ref w k = Some (World (w_blocks w) (EWake i :: w_log w)).
Proof.
  intros I. induction k as [o|a u IH]; cbn; intros Hr Hs; [|auto]. eapply wake_owned_inv; eauto. eapply alive_below; eauto.
Qed.
Lemma wake_keeps w L i : inv w L -> inv (World (w_blocks w) (EWake i :: w_log w)) L.
Proof. intros [A B C D]. split; auto. Qed.

Lemma drop_owned_inv fuel : forall w L o, inv w (o :: L) -> below fuel o ->
  exists w', drop_owned fuel w o = Some w' /\ inv w' L /\ grows (w_blocks w) (w_blocks w') /\ wakes (w_log w') = wakes (w_log w) /\ length (w_blocks w') = length (w_blocks w).
Proof.
  assert (forall fl w L i, inv w (OOrig i :: L) -> exists w', drop_owned fl w (OOrig i) = Some w' /\ inv w' L /\ grows (w_blocks w) (w_blocks w') /\ wakes (w_log w') = wakes (w_log w) /\ length (w_blocks w') = length (w_blocks w)) as Ho.
  { intros fl w L i [A B C D]. exists (World (w_blocks w) (EDrop i :: w_log w)). split; [destruct fl; reflexivity|]. cbn.
    split; [|split; [intros n b H; eauto|auto]]. split; cbn [w_blocks w_log].
    - intros n Hn. apply A. unfold refs in *. cbn [cntl]. lia.
    - intros n b Hn Hf. destruct (B n b Hn Hf) as [H1 [H2 H3]]. unfold refs in *. cbn [cntl] in H3. rewrite one_neq in H3 by discriminate. auto.
    - exact C.
    - intros j. specialize (D j). unfold refs in *. cbn [cntl clones drops] in *. rewrite one_oo in D. lia. }
  induction fuel as [|fuel IH]; intros w L o I Hb; (destruct o as [i|n]; [apply Ho, I|]); cbn in Hb; [lia|].
  pose proof I as [A B C D].
  assert (0 < refs (w_blocks w) (OShared n :: L) (OShared n)) as Hr by (unfold refs; cbn [cntl]; rewrite one_refl; lia).
  destruct (A n Hr) as [b [E Hf]]. destruct (B n b E Hf) as [Ha [Hs Hc]]. pose proof (nth_lt _ _ _ E) as Hl.
  cbn [drop_owned]. rewrite E, Hf. destruct (b_strong b) as [|[|c]] eqn:Es; [lia| |].
  - rewrite Ha. cbn [Nat.eqb]. set (d := Block 0 (b_inner b) 0 true).
    assert (forall x, cnth x (upd (w_blocks w) n d) + one x (b_inner b) = cnth x (w_blocks w)) as Hu.
    { intros x. pose proof (upd_cnth x (w_blocks w) n b d E) as H. rewrite Hf in H. cbn in H. lia. }
    set (w1 := World (upd (w_blocks w) n d) (w_log w)).
    assert (forall x, refs (w_blocks w1) (b_inner b :: L) x + one x (OShared n) = refs (w_blocks w) (OShared n :: L) x) as Hx.
    { intros x. unfold refs, w1. cbn [cntl w_blocks]. specialize (Hu x). lia. }
    assert (inv w1 (b_inner b :: L)) as I1.
    { split.
      - intros m Hm. pose proof (Hx (OShared m)) as Hxm. rewrite one_os in Hxm. destruct (A m ltac:(lia)) as [b' [E' Hf']]. exists b'. unfold w1. cbn [w_blocks].
        rewrite upd_nth by assumption. destruct (Nat.eqb_spec m n) as [->|]; [|auto]. rewrite <- Hc in Hxm. lia.
      - intros m b' Hm Hd. unfold w1 in Hm. cbn [w_blocks] in Hm. rewrite upd_nth in Hm by assumption. destruct (Nat.eqb_spec m n) as [->|Hn].
        + injection Hm as <-. discriminate Hd.
        + destruct (B m b' Hm Hd) as [H1 [H2 H3]]. split; [exact H1|]. split; [exact H2|]. pose proof (Hx (OShared m)) as Hxm. rewrite one_os in Hxm.
          destruct (Nat.eqb_spec m n); [lia|]. lia.
      - intros m b' k Hm. unfold w1 in Hm. cbn [w_blocks] in Hm. rewrite upd_nth in Hm by assumption. destruct (Nat.eqb_spec m n) as [->|Hn]; [|eapply C; eauto].
        injection Hm as <-. cbn. intros H. eapply C; eauto.
      - intros i. pose proof (Hx (OOrig i)) as Hxm. rewrite one_neq in Hxm by discriminate. rewrite Nat.add_0_r in Hxm. unfold w1 at 1 2. cbn [w_log].
        rewrite Hxm. apply D. }
    assert (below fuel (b_inner b)) as Hb1. { destruct (b_inner b) as [j|m] eqn:Eb; [exact Logic.I|]. pose proof (C n b m E Eb). cbn. lia. }
    destruct (IH w1 L (b_inner b) I1 Hb1) as [w' [E' [I' [G' [W' L']]]]]. exists w'. split; [exact E'|]. split; [exact I'|]. split.
    + eapply grows_trans; [|exact G']. unfold w1. cbn [w_blocks]. exact (upd_mono _ _ _ d E eq_refl).
    + split; [exact W'|]. rewrite L'. unfold w1. cbn [w_blocks]. apply upd_len.
  - set (d := Block (S c) (b_inner b) (b_alloc b) false).
    assert (forall x, cnth x (upd (w_blocks w) n d) = cnth x (w_blocks w)) as Hu.
    { intros x. pose proof (upd_cnth x (w_blocks w) n b d E) as H. rewrite Hf in H. cbn in H. lia. }
    eexists. split; [reflexivity|]. cbn [w_blocks w_log]. split; [|split; [exact (upd_mono _ _ _ d E eq_refl)|split; [reflexivity|apply upd_len]]].
    split; cbn [w_blocks w_log].
    + intros m Hm. unfold refs in Hm. rewrite Hu in Hm. rewrite upd_nth by assumption. destruct (Nat.eqb_spec m n); [exists d; auto|].
      apply A. unfold refs. cbn [cntl]. lia.
    + intros m b' Hm Hd. rewrite upd_nth in Hm by assumption. unfold refs. rewrite Hu. unfold refs in Hc. cbn [cntl] in Hc. rewrite one_refl in Hc.
      destruct (Nat.eqb_spec m n) as [->|Hn].
      * injection Hm as <-. cbn. split; [exact Ha|]. split; lia.
      * destruct (B m b' Hm Hd) as [H1 [H2 H3]]. unfold refs in H3. cbn [cntl] in H3. rewrite one_os in H3. destruct (Nat.eqb_spec m n); [lia|]. split; [exact H1|]. split; lia.
    + intros m b' k Hm. rewrite upd_nth in Hm by assumption. destruct (Nat.eqb_spec m n) as [->|Hn]; [|eapply C; eauto].
      injection Hm as <-. cbn. intros H. eapply C; eauto.
    + intros i. specialize (D i). unfold refs in *. rewrite Hu. cbn [cntl] in D. rewrite one_neq in D by discriminate. exact D.
Qed.

(** States. *)
Fixpoint owns (fs : list frame) : list owned := match fs with [] => [] | f :: fs => match f_own f with Some o => o :: owns fs | None => owns fs end end.
Fixpoint fok (fs : list frame) : Prop :=
  match fs with
  | [] => True
  | f :: r => f_alloc f = 0 /\ allocs (f_under f) /\ In (root (f_under f)) (owns fs) /\ (forall o, f_own f = Some o -> o = root (f_under f)) /\ fok r
  end.
Record rel (s : state) (t : spec) : Prop := {
  rl_inv : inv (s_world s) (s_pool s ++ owns (s_frames s));
  rl_fok : fok (s_frames s);
  rl_pool : Forall2 (stands (w_blocks (s_world s))) (s_pool s) (pool t);
  rl_frames : Forall2 (fun f x => stands (w_blocks (s_world s)) (root (f_under f)) (fst x) /\ (snd x = match f_own f with Some _ => true | None => false end)) (s_frames s) (frames t);
  rl_woken : wakes (w_log (s_world s)) = woken t;
}.
Lemma fok_nth fs : fok fs -> forall j f, nth_error fs j = Some f -> f_alloc f = 0 /\ allocs (f_under f) /\ In (root (f_under f)) (owns fs).
Proof.
  induction fs as [|g fs IH]; intros H [|j] f E; try discriminate.
  - injection E as <-. destruct H as [H1 [H2 [H3 _]]]. auto.
  - destruct H as [_ [_ [_ [_ H]]]]. destruct (IH H j f E) as [H1 [H2 H3]]. split; [exact H1|]. split; [exact H2|]. cbn. destruct (f_own g); cbn; auto.
Qed.
Lemma forall2_nth {A B} (R : A -> B -> Prop) l l' k : Forall2 R l l' ->
  match nth_error l k, nth_error l' k with Some x, Some y => R x y | None, None => True | _, _ => False end.
Proof. intros H. revert k. induction H; intros [|k]; cbn; auto. apply IHForall2. Qed.
Lemma forall2_take {A B} (R : A -> B -> Prop) l l' k : Forall2 R l l' -> Forall2 R (take k l) (take k l').
Proof. intros H. revert k. induction H; intros [|k]; cbn; auto. Qed.
Lemma take_cnt l : forall k o x, nth_error l k = Some o -> cntl x l = one x o + cntl x (take k l).
Proof. induction l as [|y l IH]; intros [|k] o x E; cbn in *; try discriminate; [congruence|]. rewrite (IH _ _ x E). lia. Qed.
Lemma rel_source s t x : rel s t -> match source_waker s x, find t x with
  | Some k, Some i => stands (w_blocks (s_world s)) (root k) i /\ allocs k /\ In (root k) (s_pool s ++ owns (s_frames s))
  | None, None => True
  | _, _ => False
  end.
Proof.
  intros [_ F P Fr _]. destruct x as [k|j|j]; cbn.
  - pose proof (forall2_nth _ _ _ k P) as H. destruct (nth_error (s_pool s) k) as [o|] eqn:E, (nth_error (pool t) k); cbn; try contradiction; auto.
    split; [exact H|]. split; [exact I|]. apply in_app_iff. left. eapply nth_error_In; eauto.
  - pose proof (forall2_nth _ _ _ j Fr) as H. destruct (nth_error (s_frames s) j) as [f|] eqn:E, (nth_error (frames t) j); cbn; try contradiction; auto.
    destruct (fok_nth _ F j f E) as [H1 [H2 H3]]. destruct H as [H _]. split; [exact H|]. split; [auto|]. apply in_app_iff. auto.
  - pose proof (forall2_nth _ _ _ j Fr) as H. destruct (nth_error (s_frames s) j) as [f|] eqn:E, (nth_error (frames t) j); cbn; try contradiction; auto.
    destruct (fok_nth _ F j f E) as [H1 [H2 H3]]. destruct H as [H _]. split; [exact H|]. split; [auto|]. apply in_app_iff. auto.
Qed.
Lemma in_refs h L o : In o L -> 0 < refs h L o.
Proof. intros H. apply cntl_in in H. unfold refs. lia. Qed.
Lemma grow_pool h h' l l' : grows h h' -> Forall2 (stands h) l l' -> Forall2 (stands h') l l'.
Proof. intros G. induction 1; constructor; auto. eapply stands_mono; eauto. Qed.
Lemma grow_frames h h' (l : list frame) (l' : list (nat * bool)) : grows h h' ->
  Forall2 (fun f x => stands h (root (f_under f)) (fst x) /\ (snd x = match f_own f with Some _ => true | None => false end)) l l' ->
  Forall2 (fun f x => stands h' (root (f_under f)) (fst x) /\ (snd x = match f_own f with Some _ => true | None => false end)) l l'.
Proof. intros G. induction 1 as [|f x l l' [H1 H2]]; constructor; auto. split; auto. eapply stands_mono; eauto. Qed.
Lemma drop_step s t k o : rel s t -> nth_error (s_pool s) k = Some o ->
  forall w, grows (w_blocks (s_world s)) (w_blocks w) -> inv w (s_pool s ++ owns (s_frames s)) -> length (w_blocks w) = length (w_blocks (s_world s)) ->
  exists w', drop_owned (length (w_blocks w)) w o = Some w' /\ grows (w_blocks (s_world s)) (w_blocks w') /\ wakes (w_log w') = wakes (w_log w) /\
    inv w' (take k (s_pool s) ++ owns (s_frames s)).
Proof.
  intros R E w G I Hl. assert (inv w (o :: take k (s_pool s) ++ owns (s_frames s))) as I'.
  { eapply inv_equiv; [|exact I]. intros x. cbn [cntl]. rewrite !cntl_app, (take_cnt _ _ _ x E). lia. }
  assert (below (length (w_blocks w)) o) as Hb.
  { apply (alive_below _ _ _ I'). apply in_refs. left. reflexivity. }
  destruct (drop_owned_inv _ w _ o I' Hb) as [w' [Ed [I2 [G2 [W2 _]]]]]. exists w'. split; [exact Ed|]. split; [eapply grows_trans; eauto|]. auto.
Qed.

Lemma step_rel s t o : rel s t -> default_alloc o -> exists s', step s o = Some s' /\ rel s' (spec_step t o).
Proof.
  intros R Ha. pose proof R as [I F P Fr W]. destruct o as [x|x|k|k|a x|]; cbn [step spec_step].
  - pose proof (rel_source s t x R) as H. destruct (source_waker s x) as [k|], (find t x) as [i|]; try contradiction; [|eauto].
    destruct H as [Hs [Hal Hi]]. destruct (clone_inv k _ _ i I (in_refs _ _ _ Hi) Hal Hs) as [w' [o [E [I' [G [W' S']]]]]]. rewrite E.
    eexists. split; [reflexivity|]. split; cbn; auto.
    + constructor; auto. eapply grow_pool; eauto.
    + eapply grow_frames; eauto.
    + congruence.
  - pose proof (rel_source s t x R) as H. destruct (source_waker s x) as [k|], (find t x) as [i|]; try contradiction; [|eauto].
    destruct H as [Hs [Hal Hi]]. rewrite (wake_by_ref_inv k _ _ i I (in_refs _ _ _ Hi) Hs).
    eexists. split; [reflexivity|]. split; cbn; auto.
    + apply wake_keeps, I.
    + congruence.
  - pose proof (forall2_nth _ _ _ k P) as H. destruct (nth_error (s_pool s) k) as [o|] eqn:E, (nth_error (pool t) k) as [i|] eqn:Et; try contradiction; [|eauto].
    unfold wake. assert (In o (s_pool s ++ owns (s_frames s))) as Hi by (apply in_app_iff; left; eapply nth_error_In; eauto).
    rewrite (wake_by_ref_inv (Own o) _ _ i I (in_refs _ _ _ Hi) H).
    destruct (drop_step s t k o R E (World (w_blocks (s_world s)) (EWake i :: w_log (s_world s)))) as [w' [Ed [G' [W' I']]]].
    { intros n b Hn. eauto. } { apply wake_keeps, I. } { reflexivity. }
    rewrite Ed. eexists. split; [reflexivity|]. split; cbn; auto.
    + apply forall2_take. eapply grow_pool; eauto.
    + eapply grow_frames; eauto.
    + rewrite W'. cbn. congruence.
  - pose proof (forall2_nth _ _ _ k P) as H. destruct (nth_error (s_pool s) k) as [o|] eqn:E, (nth_error (pool t) k) as [i|] eqn:Et; try contradiction.
    + destruct (drop_step s t k o R E (s_world s)) as [w' [Ed [G' [W' I']]]]; auto. { intros n b Hn. eauto. }
      rewrite Ed. eexists. split; [reflexivity|]. split; cbn; auto.
      * apply forall2_take. eapply grow_pool; eauto.
      * eapply grow_frames; eauto.
      * congruence.
    + assert (forall {A} (l : list A) k, nth_error l k = None -> take k l = l) as Ht.
      { intros A l. induction l as [|y l IH]; intros [|j] Hj; cbn in *; try discriminate; auto. rewrite IH; auto. }
      rewrite (Ht _ _ _ Et). exists s. split; [reflexivity|]. destruct t. exact R.
  - cbn in Ha. subst a. pose proof (rel_source s t x R) as H. destruct (source_waker s x) as [k|] eqn:Ek, (find t x) as [i|] eqn:Ei; try contradiction.
    + destruct H as [Hs [Hal Hi]]. destruct x as [j|j|j].
      * cbn in Ek, Ei. destruct (nth_error (s_pool s) j) as [o|] eqn:Eo; [|discriminate]. cbn in Ek. injection Ek as <-. rewrite Ei.
        eexists. split; [reflexivity|]. split; cbn; auto.
        -- eapply inv_equiv; [|exact I]. intros y. rewrite !cntl_app. cbn [cntl]. rewrite (take_cnt _ _ _ y Eo). lia.
        -- split; [reflexivity|]. split; [exact Logic.I|]. split; [left; reflexivity|]. split; [congruence|exact F].
        -- apply forall2_take. exact P.
      * eexists. split; [reflexivity|]. cbn in Ek. destruct (nth_error (s_frames s) j) as [f|] eqn:Ef; [|discriminate]. cbn in Ek. injection Ek as <-.
        destruct (fok_nth _ F _ _ Ef) as [H1 [H2 H3]]. split; cbn; auto.
        split; [reflexivity|]. split; [auto|]. split; [exact H3|]. split; [discriminate|exact F].
      * eexists. split; [reflexivity|]. cbn in Ek. destruct (nth_error (s_frames s) j) as [f|] eqn:Ef; [|discriminate]. cbn in Ek. injection Ek as <-.
        destruct (fok_nth _ F _ _ Ef) as [H1 [H2 H3]]. split; cbn; auto.
        split; [reflexivity|]. split; [auto|]. split; [exact H3|]. split; [discriminate|exact F].
    + exists s. split; [reflexivity|]. destruct x; cbn in Ei; rewrite ?Ei; try exact R; cbn; rewrite Ei; exact R.
  - destruct (s_frames s) as [|f fs] eqn:Ef; inversion Fr as [|? [i b] ? fr' [H1 H2] H3 Hx Hy]; subst.
    + exists s. split; [reflexivity|]. exact R.
    + eexists. split; [reflexivity|]. cbn in H1, H2. cbn in F. destruct F as [F1 [F2 [F3 [F4 F5]]]]. cbn in I. subst b. destruct (f_own f) as [o|] eqn:Eo; split; cbn; auto.
      * eapply inv_equiv; [|exact I]. intros y. cbn [cntl]. rewrite !cntl_app. cbn [cntl]. lia.
      * constructor; [|exact P]. rewrite (F4 o eq_refl). exact H1.
Qed.
Lemma run_rel l : forall s t, rel s t -> Forall default_alloc l -> exists s', run s l = Some s' /\ rel s' (spec_run t l).
Proof.
  induction l as [|o l IH]; intros s t R H; cbn; [eauto|]. inversion H; subst. destruct (step_rel s t o R) as [s' [E R']]; [assumption|]. rewrite E. apply IH; auto.
Qed.
Lemma start_rel ids : rel (start ids) (spec_start ids).
Proof.
  split; cbn.
  - rewrite app_nil_r. split; cbn.
    + intros n H. exfalso. unfold refs in H. cbn in H. rewrite Nat.add_0_r in H. apply cntl_in in H. apply in_map_iff in H. destruct H as [? [? _]]. discriminate.
    + intros [|n] b H; discriminate.
    + intros [|n] b m H; discriminate.
    + intros i. unfold refs. cbn. rewrite Nat.add_0_r. induction ids as [|j ids IH]; cbn; [reflexivity|]. rewrite one_oo. lia.
  - exact I.
  - induction ids; cbn; constructor; auto. constructor.
  - constructor.
  - induction ids; cbn; auto.
Qed.

(** Consequences. *)
Lemma Forall2_len {A B} (R : A -> B -> Prop) l l' : Forall2 R l l' -> length l = length l'.
Proof. induction 1; cbn; auto. Qed.
Lemma chain_down w L o i : inv w L -> stands (w_blocks w) o i -> 0 < refs (w_blocks w) L o -> 0 < refs (w_blocks w) L (OOrig i).
Proof.
  intros I. induction 1 as [|n b i E _ IH]; intros Hr; [exact Hr|]. apply IH. destruct (iv_alive _ _ I n Hr) as [b' [E' Hf]].
  assert (b' = b) by congruence. subst b'. assert (0 < cnth (b_inner b) (w_blocks w)) by (apply cnth_in; eauto). unfold refs. lia.
Qed.
Lemma chain_up w L i : inv w L -> forall k o, stands (w_blocks w) o i -> 0 < refs (w_blocks w) L o -> match o with OShared n => length (w_blocks w) - n <= k | _ => length (w_blocks w) < k end ->
  exists o', In o' L /\ stands (w_blocks w) o' i.
Proof.
  intros I. induction k as [|k IH]; intros o Hs Hr Hk.
  - destruct o as [j|n]; [lia|]. pose proof (alive_below _ _ _ I Hr) as Hb. cbn in Hb. lia.
  - destruct (cntl o L) eqn:Ec; [|exists o; split; [apply cntl_in; lia|exact Hs]].
    assert (0 < cnth o (w_blocks w)) as Hc by (unfold refs in Hr; lia). apply cnth_in in Hc. destruct Hc as [m [b [E [Hf Hi]]]].
    destruct (iv_count _ _ I m b E Hf) as [_ [H1 H2]]. pose proof (nth_lt _ _ _ E) as Hm. apply (IH (OShared m)).
    + econstructor; [exact E|]. rewrite Hi. exact Hs.
    + lia.
    + destruct o as [j|n]; [lia|]. pose proof (iv_order _ _ I m b n E Hi). lia.
Qed.
Lemma use_iff s t i : rel s t -> (in_use t i <-> 0 < refs (w_blocks (s_world s)) (s_pool s ++ owns (s_frames s)) (OOrig i)).
Proof.
  intros [I F P Fr W].
  assert (in_use t i <-> exists o, In o (s_pool s ++ owns (s_frames s)) /\ stands (w_blocks (s_world s)) o i) as ->.
  { unfold in_use. split.
    - intros [H|H].
      + apply In_nth_error in H. destruct H as [k Hk]. pose proof (forall2_nth _ _ _ k P) as H. rewrite Hk in H. destruct (nth_error (s_pool s) k) as [o|] eqn:E; [|contradiction].
        exists o. split; [apply in_app_iff; left; eapply nth_error_In; eauto|exact H].
      + clear P I W. induction Fr as [|f [j b] fs fr [H1 H2] Hr IH]; [contradiction|]. cbn in F. destruct F as [_ [_ [_ [F4 F5]]]]. cbn in H2.
        destruct H as [H|H].
        * injection H as -> ->. destruct (f_own f) as [o|] eqn:Eo; [|discriminate]. exists o. split; [apply in_app_iff; right; cbn; rewrite Eo; left; reflexivity|].
          rewrite (F4 o eq_refl). exact H1.
        * destruct (IH F5 H) as [o [Ho Hs]]. exists o. split; [|exact Hs]. apply in_app_iff in Ho. apply in_app_iff. destruct Ho; auto. right. cbn. destruct (f_own f); cbn; auto.
    - intros [o [Ho Hs]]. apply in_app_iff in Ho. destruct Ho as [Ho|Ho].
      + left. apply In_nth_error in Ho. destruct Ho as [k Hk]. pose proof (forall2_nth _ _ _ k P) as H. rewrite Hk in H. destruct (nth_error (pool t) k) as [j|] eqn:E; [|contradiction].
        assert (j = i); [|subst; eapply nth_error_In; eauto]. clear - H Hs. revert i Hs. induction H; intros k Hk; inversion Hk; subst; auto. apply IHstands. congruence.
      + right. clear P I W. induction Fr as [|f [j b] fs fr [H1 H2] Hr IH]; [contradiction|]. cbn in F. destruct F as [_ [_ [_ [F4 F5]]]]. cbn in H1, H2, Ho.
        destruct (f_own f) as [o'|] eqn:Eo.
        * destruct Ho as [->|Ho]; [|right; auto]. left. rewrite (F4 o eq_refl) in Hs. assert (j = i); [|congruence].
          clear - H1 Hs. revert i Hs. induction H1; intros k Hk; inversion Hk; subst; auto. apply IHstands. congruence.
        * right. auto. }
  split.
  - intros [o [Ho Hs]]. eapply chain_down; eauto. apply in_refs, Ho.
  - intros H. exact (chain_up _ _ i I (S (length (w_blocks (s_world s)))) (OOrig i) (stands_orig _ i) H (Nat.lt_succ_diag_r _)).
Qed.
Lemma all_freed s t : rel s t -> s_pool s = [] -> s_frames s = [] -> Forall (fun b => b_freed b = true) (w_blocks (s_world s)).
Proof.
  intros [I F P Fr W] Ep Ef. rewrite Ep, Ef in I. cbn in I. apply Forall_forall. intros b Hb. apply In_nth_error in Hb. destruct Hb as [n E].
  destruct (b_freed b) eqn:Hf; [reflexivity|]. exfalso. destruct (iv_count _ _ I n b E Hf) as [_ [H1 H2]]. rewrite H2 in H1. clear H2.
  remember (length (w_blocks (s_world s)) - n) as k eqn:Ek. revert n b E Hf H1 Ek. induction k as [k IH] using lt_wf_ind. intros n b E Hf H1 Ek.
  unfold refs in H1. cbn in H1. apply cnth_in in H1. destruct H1 as [m [c [Em [Hm Hi]]]]. pose proof (iv_order _ _ I m c n Em Hi). pose proof (nth_lt _ _ _ Em).
  destruct (iv_count _ _ I m c Em Hm) as [_ [K1 K2]]. apply (IH (length (w_blocks (s_world s)) - m) ltac:(lia) m c); auto. lia.
Qed.
