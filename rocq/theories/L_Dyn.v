(** Lemmas on trait objects. *)
From Coq Require Import List Arith Bool Lia Permutation.
From Verif Require Import M_Dyn S_Dyn.
Import ListNotations.

Section Dyn.
Variable pg : program.
Variable reg : list nat -> nat.
Variable mem : nat -> nat.

Lemma vtable_len v t : length (vtable_const pg v t) = size pg v.
Proof. induction v; cbn; auto. rewrite app_length, map_length, seq_length. lia. Qed.
Lemma vtable_head v t : exists r, vtable_const pg v t = destructor pg t :: r.
Proof. induction v as [| | |h tl (r & E)]; cbn; eauto. rewrite E. cbn. eauto. Qed.
Lemma drop_vt_id v a : drop_vt v a = a.
Proof. induction v; cbn; auto. Qed.
Lemma tderef_heads v t : forall n h a, nth_error (heads v) n = Some h ->
  exists off, tderef pg v n a = Some (h, a + off) /\ forall j, j < arity pg h -> nth_error (vtable_const pg v t) (off + j) = Some (method pg h t j).
Proof.
  induction v as [|v IH|v IH|h0 tl IH]; intros n h a H; cbn [heads tderef vtable_const] in *; auto; [destruct n; discriminate|].
  destruct n as [|n]; cbn in H.
  - injection H as ->. exists (size pg tl). split; [reflexivity|]. intros j Hj. rewrite nth_error_app2 by (rewrite vtable_len; lia).
    rewrite vtable_len. replace (size pg tl + j - size pg tl) with j by lia. rewrite nth_error_map.
    rewrite (nth_error_nth' _ 0) by (rewrite seq_length; lia). rewrite seq_nth by lia. reflexivity.
  - destruct (IH n h a H) as (off & A & B). exists off. split; [exact A|]. intros j Hj. specialize (B j Hj). rewrite nth_error_app1; [exact B|].
    apply nth_error_Some. congruence.
Qed.
Lemma super_prefix v v' t : super v v' -> exists r, vtable_const pg v t = vtable_const pg v' t ++ r.
Proof. intros S. destruct S; cbn [vtable_const]; try (exists []; rewrite app_nil_r; reflexivity); eexists; reflexivity. Qed.
Lemma super_heads v v' : super v v' -> exists k, k <= 1 /\ heads v' = skipn k (heads v).
Proof. intros S. destruct S; cbn [heads]; try (exists 0; split; [lia|reflexivity]); exists 1; split; try lia; reflexivity. Qed.

(** The vtable of an object begins by that of its type. *)
Definition begins (o : dyn) (t : nat) : Prop :=
  exists v r, registered pg reg mem v t /\ vt o = reg (vtable_const pg v t) /\ vtable_const pg v t = vtable_const pg (vtype o) t ++ r.
Lemma built_begins b o t p : built pg reg mem b o t p -> begins o t.
Proof.
  induction 1 as [at_ k v t p R|b o t p at_ B IH|b o t p v B IH S|b o t p at_ B IH N|b o t p at_ o' B IH E].
  - exists v, []. rewrite app_nil_r. auto.
  - exact IH.
  - destruct IH as (v0 & r & A & C & D). destruct (super_prefix _ _ t S) as (r' & E). exists v0, (r' ++ r). cbn [into_super vt vtype].
    split; [exact A|]. split; [exact C|]. rewrite D, E, app_assoc. reflexivity.
  - exact IH.
  - unfold borrow_mut in E. destruct (dkind o); try discriminate; injection E as <-; exact IH.
Qed.
Lemma begins_word o t i w : begins o t -> nth_error (vtable_const pg (vtype o) t) i = Some w -> mem (vt o + i) = w.
Proof.
  intros (v & r & A & B & C) H. rewrite B. apply A. rewrite C, nth_error_app1; [exact H|]. apply nth_error_Some. congruence.
Qed.
Lemma begins_answers o t : begins o t -> answers_as pg mem o t.
Proof.
  intros B n h j Hn Hj. unfold call. destruct (tderef_heads _ t _ _ (vt o) Hn) as (off & -> & W). cbn [option_map fst]. f_equal.
  rewrite <- Nat.add_assoc. apply (begins_word _ _ _ _ B). apply W. exact Hj.
Qed.
Lemma begins_drop o t : begins o t -> destructor_of mem o = destructor pg t.
Proof.
  intros B. unfold destructor_of. rewrite drop_vt_id. rewrite <- (Nat.add_0_r (vt o)). apply (begins_word _ _ _ _ B).
  destruct (vtable_head (vtype o) t) as (r & ->). reflexivity.
Qed.
Lemma built_ptr b o t p : built pg reg mem b o t p -> b = true -> ptr o = p /\ dkind o <> KMut.
Proof.
  induction 1 as [at_ k v t p R|b o t p at_ B IH|b o t p v B IH S|b o t p at_ B IH N|b o t p at_ o' B IH E]; intros Eb; try discriminate; auto.
  - split; [reflexivity|]. cbn. destruct k; discriminate.
  - destruct (IH Eb) as (P & K). split; [|discriminate]. cbn [borrow ptr]. unfold as_ref. destruct (dkind o); congruence.
Qed.

Lemma vt_eq_same v a b : vt_eq pg mem v a b = true <-> a = b.
Proof.
  split.
  - induction v as [|v IH|v IH|h tl IH]; cbn [vt_eq]; auto; [apply Nat.eqb_eq|]. intros H. apply andb_prop in H. apply IH. tauto.
  - intros ->. induction v as [|v IH|v IH|h tl IH]; cbn [vt_eq]; auto; [apply Nat.eqb_refl|]. rewrite IH. apply forallb_forall. intros j _. apply Nat.eqb_refl.
Qed.
Lemma downcast_addr o t : downcast pg reg mem o t <> None <-> vt o = reg (vtable_const pg (vtype o) t).
Proof.
  unfold downcast. rewrite <- (vt_eq_same (vtype o)). destruct (vt_eq _ _ _ _ _); split; congruence.
Qed.

(** Histories. *)
Notation owned := (owned mem).
Lemma owned_app xs ys : owned (xs ++ ys) = owned xs ++ owned ys.
Proof. apply flat_map_app. Qed.
Lemma split_nth {A} : forall (xs : list A) i x, nth_error xs i = Some x -> xs = firstn i xs ++ x :: skipn (S i) xs.
Proof.
  induction xs as [|y xs IH]; intros [|i] x H; cbn in H; try discriminate; [injection H as ->; reflexivity|].
  cbn [firstn app]. f_equal. exact (IH _ _ H).
Qed.
Definition good (xs : vars) : Prop := forall i o, nth_error xs i = Some (Some o) -> exists t, begins o t /\ dkind o = KBox.
Lemma good_in xs : good xs <-> forall o, In (Some o) xs -> exists t, begins o t /\ dkind o = KBox.
Proof.
  split; intros G.
  - intros o H. apply In_nth_error in H. destruct H as (i & H). exact (G _ _ H).
  - intros i o H. apply G. eapply nth_error_In; eauto.
Qed.

Lemma created_app l l' : created pg (l ++ l') = created pg l ++ created pg l'.
Proof. induction l as [|[| |] l IH]; cbn; rewrite ?IH; reflexivity. Qed.
Lemma owner_inv ops : (forall at_ v t p, In (ONew at_ v t p) ops -> registered pg reg mem v t) -> supported pg reg mem ops ->
  let st := owner_run pg reg mem ops in
  good (fst st) /\ Permutation (created pg ops) (owned (fst st) ++ snd st).
Proof.
  induction ops as [|op ops IH] using rev_ind; intros R Sp.
  - cbn. split; [intros [|i] o H; discriminate|constructor].
  - assert (R' : forall at_ v t p, In (ONew at_ v t p) ops -> registered pg reg mem v t) by (intros; eapply R; apply in_or_app; eauto).
    assert (S' : supported pg reg mem ops).
    { intros k i v o Hk Hi. assert (L : k < length ops) by (apply nth_error_Some; congruence). apply (Sp k i v o).
      - rewrite nth_error_app1; auto.
      - rewrite firstn_app. replace (k - length ops) with 0 by lia. cbn [firstn]. rewrite app_nil_r. exact Hi. }
    assert (S0 : forall i v o, op = OSuper i v -> nth_error (fst (owner_run pg reg mem ops)) i = Some (Some o) -> super (vtype o) v).
    { intros i v o -> Hi. apply (Sp (length ops) i v o); [rewrite nth_error_app2, Nat.sub_diag by lia; reflexivity|].
      rewrite firstn_app, Nat.sub_diag, firstn_all. cbn [firstn]. rewrite app_nil_r. exact Hi. }
    specialize (IH R' S'). cbn zeta in *. unfold owner_run in *. rewrite fold_left_app. cbn [fold_left].
    destruct (fold_left (owner_step pg reg mem) ops ([], [])) as (xs & log). cbn [fst snd] in *. destruct IH as (G & P). rewrite created_app.
    destruct op as [at_ v t p|i v|i]; cbn [owner_step fst snd created].
    + assert (Rv : registered pg reg mem v t) by (eapply R; apply in_or_app; right; left; reflexivity).
      assert (B : begins (from pg reg at_ KBox v t p) t) by (eapply built_begins, built_from; exact Rv). split.
      * apply good_in. intros o H. apply in_app_or in H. destruct H as [H|[[= <-]|[]]]; [exact (proj1 (good_in xs) G o H)|]. exists t. auto.
      * rewrite owned_app. cbn [owned flat_map app]. rewrite (begins_drop _ _ B). cbn [from ptr]. rewrite <- app_assoc.
        rewrite P. cbn [app]. rewrite Permutation_app_comm. cbn [app]. apply Permutation_middle.
    + rewrite app_nil_r. unfold super_var. destruct (nth_error xs i) as [[o|]|] eqn:Hi; auto. pose proof (S0 i v o eq_refl Hi) as Sv.
      destruct (G _ _ Hi) as (t & B & K). assert (B' : begins (into_super o v) t).
      { destruct B as (v0 & r & X & Y & Z). destruct (super_prefix _ _ t Sv) as (r' & E). exists v0, (r' ++ r). cbn [into_super vt vtype].
        split; [exact X|]. split; [exact Y|]. rewrite Z, E, app_assoc. reflexivity. }
      pose proof (split_nth _ _ _ Hi) as E. split.
      * apply good_in. intros o' H. apply in_app_or in H. destruct H as [H|[H|H]]; [|discriminate H|apply in_app_or in H; destruct H as [H|[[= <-]|[]]]].
        -- apply (proj1 (good_in xs) G). rewrite E. apply in_or_app. auto.
        -- apply (proj1 (good_in xs) G). rewrite E. apply in_or_app. right. right. exact H.
        -- exists t. auto.
      * rewrite P. apply Permutation_app_tail. rewrite E at 1. rewrite !owned_app. cbn [owned flat_map app]. fold (owned (skipn (S i) xs)).
        change (flat_map _ (skipn (S i) xs ++ [Some (into_super o v)])) with (owned (skipn (S i) xs ++ [Some (into_super o v)])).
        rewrite owned_app. apply Permutation_app_head. cbn [owned flat_map app]. rewrite (begins_drop _ _ B), (begins_drop _ _ B'). cbn [into_super ptr].
        apply Permutation_cons_append.
    + rewrite app_nil_r. unfold drop_var. destruct (nth_error xs i) as [[o|]|] eqn:Hi; auto. destruct (G _ _ Hi) as (t & B & K).
      pose proof (split_nth _ _ _ Hi) as E. cbn [fst snd]. split.
      * apply good_in. intros o' H. apply (proj1 (good_in xs) G). rewrite E. apply in_app_or in H. apply in_or_app. destruct H as [H|[H|H]]; [auto|discriminate|right; right; exact H].
      * rewrite P. unfold drop_call. rewrite K. rewrite E at 1. rewrite !owned_app. cbn [owned flat_map app]. rewrite <- !app_assoc. apply Permutation_app_head.
        cbn [app]. unfold destructor_of. apply Permutation_middle.
Qed.
End Dyn.
