(** The bytes of a Result follow core's Result, use after use. *)
From Coq Require Import List Arith NArith Bool Lia Permutation.
From Verif Require Import M_Layout M_Result S_Layout L_Layout L_Result L_LayoutThms M_ResApi S_ResApi.
Import ListNotations.

Section Uses.
Variables (a b : ty) (da db : desc) (p : fprovider).
Hypothesis W : wf (TResult a b).
Hypothesis Ea : layout a = Some da.
Hypothesis Eb : layout b = Some db.
Hypothesis Ep : provider_of da db = Some p.

Definition value_of (x : val + val) : val := match x with inl v => VOk v | inr v => VErr v end.
Lemma match_value s x : decode (TResult a b) s = Some (value_of x) ->
  exists w, match_result da db p s = Some (match x with inl _ => inl w | inr _ => inr w end) /\ is_payload a b (fst (payload x)) w (snd (payload x)).
Proof.
  intros H. cbn [decode] in H. destruct (layout (TResult a b)) as [d|]; [|discriminate]. destruct (negb _); [discriminate|].
  rewrite Ea, Eb, Ep in H. destruct (match_result da db p s) as [[w|w]|]; [| |discriminate]; destruct x as [x|x]; cbn [value_of] in H.
  - exists w. split; [reflexivity|]. unfold is_payload. cbn. destruct (decode a w); cbn in H; congruence.
  - destruct (decode a w); discriminate.
  - destruct (decode b w); discriminate.
  - exists w. split; [reflexivity|]. unfold is_payload. cbn. destruct (decode b w); cbn in H; congruence.
Qed.
Lemma make_value v x : is_payload a b (fst (payload x)) v (snd (payload x)) ->
  exists s, make da db p (match x with inl _ => inl v | inr _ => inr v end) = Some s /\ decode (TResult a b) s = Some (value_of x).
Proof.
  destruct x as [x|x]; cbn [payload fst snd]; unfold is_payload; intros H.
  - destruct (ok_round_trip a b v x W H) as (da' & db' & p' & s & w & Ea' & Eb' & Ep' & M & _ & _ & _ & D).
    assert (da' = da) by congruence. subst da'. assert (db' = db) by congruence. subst db'. assert (p' = p) by congruence. subst p'. exists s. auto.
  - destruct (err_round_trip a b v x W H) as (da' & db' & p' & s & w & Ea' & Eb' & Ep' & M & _ & _ & _ & D).
    assert (da' = da) by congruence. subst da'. assert (db' = db) by congruence. subst db'. assert (p' = p) by congruence. subst p'. exists s. auto.
Qed.
Lemma guard_ok_w s x0 v x : decode (TResult a b) s = Some (VOk x0) -> decode a v = Some x ->
  exists s', ok_guard_write da db p s v = Some s' /\ decode (TResult a b) s' = Some (VOk x).
Proof.
  intros H H'. destruct (guard_ok_value a b s x0 v x W H H') as (da' & db' & p' & s' & Ea' & Eb' & Ep' & G & D).
  assert (da' = da) by congruence. subst da'. assert (db' = db) by congruence. subst db'. assert (p' = p) by congruence. subst p'. exists s'. auto.
Qed.
Lemma guard_err_w s x0 v x : decode (TResult a b) s = Some (VErr x0) -> decode b v = Some x ->
  exists s', err_guard_write da db p s v = Some s' /\ decode (TResult a b) s' = Some (VErr x).
Proof.
  intros H H'. destruct (guard_err_value a b s x0 v x W H H') as (da' & db' & p' & s' & Ea' & Eb' & Ep' & G & D).
  assert (da' = da) by congruence. subst da'. assert (db' = db) by congruence. subst db'. assert (p' = p) by congruence. subst p'. exists s'. auto.
Qed.
Lemma drop_value s x : decode (TResult a b) s = Some (value_of x) ->
  exists w, drop_result da db p s = Some (Destroys (fst (payload x)) w) /\ is_payload a b (fst (payload x)) w (snd (payload x)).
Proof.
  intros H. destruct (match_value _ _ H) as (w & M & P). exists w. split; [|exact P]. unfold drop_result. rewrite M. destruct x as [x|x].
  - destruct (guard_ok_w s x w x H P) as (s' & G & _). rewrite G. reflexivity.
  - destruct (guard_err_w s x w x H P) as (s' & G & _). rewrite G. reflexivity.
Qed.
Definition fine (r : option (option (list N) * list (event (list N)))) (r' : option (val + val) * list (event val)) : Prop :=
  exists s ev, r = Some (s, ev) /\ same_var a b s (fst r') /\ Forall2 (same_event a b) ev (snd r').
Lemma assign_value cur x v y : same_var a b cur x -> is_payload a b (fst (payload y)) v (snd (payload y)) ->
  fine (assign da db p cur (match y with inl _ => inl v | inr _ => inr v end))
    (Some y, match x with Some x => [Destroys (fst (payload x)) (snd (payload x))] | None => [] end).
Proof.
  intros S P. destruct (make_value v y P) as (s' & M & D). unfold assign. rewrite M. destruct cur as [s|], x as [x|]; try contradiction.
  - destruct (drop_value s x S) as (w & E & Q). rewrite E. cbn [option_map]. eexists _, _. split; [reflexivity|]. split; [exact D|].
    constructor; [constructor; exact Q|constructor].
  - eexists _, _. split; [reflexivity|]. split; [exact D|constructor].
Qed.
Lemma fine_none e ev : Forall2 (same_event a b) e ev -> fine (Some (None, e)) (None, ev).
Proof. intros H. eexists _, _. split; [reflexivity|]. split; [exact I|exact H]. Qed.
Lemma step_value cur x u u' : same_var a b cur x -> same_use a b u u' -> fine (use_step da db p cur u) (core_step x u').
Proof.
  intros S U. assert (EV : forall ok w v, is_payload a b ok w v -> same_event a b (Moves ok w) (Moves ok v) /\ same_event a b (Destroys ok w) (Destroys ok v))
    by (intros; split; constructor; assumption).
  assert (K : forall v y, is_payload a b (fst (payload y)) v (snd (payload y)) -> forall z, z = match y with inl _ => inl v | inr _ => inr v end ->
    fine (option_map (fun s' => (Some s', @nil (event (list N)))) (make da db p z)) (Some y, [])).
  { intros v y P z ->. destruct (make_value v y P) as (s' & M & D). rewrite M. eexists _, _. split; [reflexivity|]. split; [exact D|constructor]. }
  destruct U as [v x1 P|v x1 P|v x1 P|v x1 P|v x1 P|v x1 P|f g P| | | | | | | |v x1 P|v x1 P|v x1 P| ]; cbn [use_step core_step].
  1: exact (assign_value cur x v (inl x1) S P).
  1: exact (assign_value cur x v (inr x1) S P).
  1: exact (assign_value cur x v (inl x1) S P).
  1: exact (assign_value cur x v (inr x1) S P).
  all: destruct cur as [s|], x as [x|]; try contradiction; try (apply fine_none; constructor; fail).
  all: destruct (match_value s x S) as (w & M & Q); unfold match_owned; try rewrite M; destruct x as [x|x]; cbn [payload fst snd] in Q.
  - destruct (guard_ok_w s x v x1 S P) as (s' & G & D). rewrite G. eexists _, _. split; [reflexivity|]. split; [exact D|repeat constructor; exact Q].
  - destruct (guard_err_w s x w x S Q) as (s' & G & D). rewrite G. eexists _, _. split; [reflexivity|]. split; [exact D|constructor].
  - destruct (guard_ok_w s x w x S Q) as (s' & G & D). rewrite G. eexists _, _. split; [reflexivity|]. split; [exact D|constructor].
  - destruct (guard_err_w s x v x1 S P) as (s' & G & D). rewrite G. eexists _, _. split; [reflexivity|]. split; [exact D|repeat constructor; exact Q].
  - exact (assign_value (Some s) (Some (inl x)) (f true) (inl (g true)) S (P true)).
  - exact (assign_value (Some s) (Some (inr x)) (f false) (inr (g false)) S (P false)).
  - apply fine_none. repeat constructor. exact Q.
  - apply fine_none. repeat constructor. exact Q.
  - apply fine_none. repeat constructor. exact Q.
  - apply fine_none. repeat constructor. exact Q.
  - apply fine_none. repeat constructor. exact Q.
  - apply fine_none. repeat constructor. exact Q.
  - apply fine_none. repeat constructor. exact Q.
  - apply fine_none. repeat constructor. exact Q.
  - apply fine_none. repeat constructor. exact Q.
  - apply fine_none. repeat constructor. exact Q.
  - apply fine_none. repeat constructor. exact Q.
  - apply fine_none. repeat constructor. exact Q.
  - apply fine_none. repeat constructor. exact Q.
  - apply fine_none. repeat constructor. exact Q.
  - destruct (make_value v (inl x1) P) as (s' & M' & D). cbn [fst snd]. rewrite M'. eexists _, _. split; [reflexivity|]. split; [exact D|repeat constructor; exact Q].
  - exact (K w (inr x) Q _ eq_refl).
  - destruct (make_value v (inl x1) P) as (s' & M' & D). cbn [fst snd]. rewrite M'. eexists _, _. split; [reflexivity|]. split; [exact D|repeat constructor; exact Q].
  - exact (K w (inr x) Q _ eq_refl).
  - destruct (make_value v (inr x1) P) as (s' & M' & D). cbn [fst snd]. rewrite M'. eexists _, _. split; [reflexivity|]. split; [exact D|repeat constructor; exact Q].
  - exact (K w (inr x) Q _ eq_refl).
  - destruct (drop_value s (inl x) S) as (w' & E & Q'). rewrite E. apply fine_none. repeat constructor. exact Q'.
  - destruct (drop_value s (inr x) S) as (w' & E & Q'). rewrite E. apply fine_none. repeat constructor. exact Q'.
Qed.
Lemma run_value us us' : Forall2 (same_use a b) us us' -> forall cur x, same_var a b cur x -> fine (use_run da db p cur us) (core_run x us').
Proof.
  induction 1 as [|u u' us us' U R IH]; intros cur x S; cbn [use_run core_run].
  - eexists _, _. split; [reflexivity|]. split; [exact S|constructor].
  - destruct (step_value cur x u u' S U) as (s & ev & E & S' & F). rewrite E. destruct (core_step x u') as [x' ev']. cbn [fst snd] in *.
    destruct (IH s x' S') as (s2 & ev2 & E2 & S2 & F2). rewrite E2. destruct (core_run x' us') as [x2 ev2']. cbn [fst snd] in *.
    eexists _, _. split; [reflexivity|]. split; [exact S2|]. apply Forall2_app; assumption.
Qed.
Lemma split_value s x : decode (TResult a b) s = Some (value_of x) ->
  exists w, is_payload a b (fst (payload x)) w (snd (payload x)) /\ is_ok p s = Some (fst (payload x)) /\
    match x with inl _ => slice s (ok_offset da db p) (dsize da) | inr _ => slice s (err_offset da db p) (dsize db) end = Some w.
Proof.
  intros H. destruct (match_value s x H) as (w & M & P). exists w. split; [exact P|]. unfold match_result in M. destruct (is_ok p s) as [[|]|]; [| |discriminate].
  - destruct (slice s (ok_offset da db p) (dsize da)); [|discriminate]. destruct x; [|discriminate]. split; [reflexivity|]. cbn in M. congruence.
  - destruct (slice s (err_offset da db p) (dsize db)); [|discriminate]. destruct x; [discriminate|]. split; [reflexivity|]. cbn in M. congruence.
Qed.
End Uses.

Definition held (x : option (val + val)) : list (bool * val) := match x with Some x => [payload x] | None => [] end.
Lemma step_balance x u : Permutation (held x ++ brings x u) (held (fst (core_step x u)) ++ flat_map leaves (snd (core_step x u))).
Proof. destruct u as [v|v|[v|v]|v|v|f| | | | | | | |v|[v|v]| ], x as [[x|x]|]; cbn; try apply Permutation_refl; apply perm_swap. Qed.
Lemma run_balance us : forall x, Permutation (held x ++ brought x us) (held (fst (core_run x us)) ++ flat_map leaves (snd (core_run x us))).
Proof.
  induction us as [|u us IH]; intros x; cbn [brought core_run]; [reflexivity|].
  pose proof (step_balance x u) as B. destruct (core_step x u) as [x' ev]. cbn [fst snd] in *. specialize (IH x'). destruct (core_run x' us) as [x2 ev2]. cbn [fst snd] in *.
  rewrite flat_map_app. rewrite app_assoc. rewrite B. rewrite <- app_assoc. rewrite (Permutation_app_comm (flat_map leaves ev)). rewrite app_assoc, IH, <- app_assoc. reflexivity.
Qed.
