(** Lemmas on calls of loaded functions. *)
From Coq Require Import String List Arith NArith Bool Lia.
From Verif Require Import M_Layout M_Result M_Report S_Report L_Report M_Trait M_FnReport S_FnReport L_FnReport
  M_Decl S_Decl L_Decl M_Call S_Call.
Import ListNotations.

Lemma read_passes : forall w a ds ss vs u x r, passes w a (Sig u x ds r) ss vs <-> read_args w a ds ss = Some vs.
Proof.
  intros w a ds ss vs u x r. unfold passes. cbn [s_args]. revert ss vs.
  induction ds as [|d ds IH]; intros [|s ss] vs; cbn [read_args length].
  - split; [intros (_ & H & _); destruct vs; [reflexivity|discriminate]|intros [= <-]; repeat split; auto].
    intros [|i] d b v H; discriminate H.
  - split; [intros (H & _); discriminate|discriminate].
  - split; [intros (H & _); discriminate|discriminate].
  - split.
    + intros (H1 & H2 & H). destruct vs as [|v vs]; [discriminate|].
      rewrite (H 0 d s v eq_refl eq_refl eq_refl).
      assert (E : read_args w a ds ss = Some vs).
      { apply IH. cbn in H1, H2. repeat split; [lia|lia|]. intros i. apply (H (S i)). }
      now rewrite E.
    + destruct (decode (dty_ty w a d) s) as [v|] eqn:E; [|discriminate].
      destruct (read_args w a ds ss) as [vs'|] eqn:R; [|discriminate]. intros [= <-].
      apply IH in R. destruct R as (R1 & R2 & R3). cbn [length]. repeat split; [lia|lia|].
      intros [|i] d' b v' A B C; [|exact (R3 i d' b v' A B C)].
      injection A as <-. injection B as <-. injection C as <-. exact E.
Qed.
Lemma sig_loaded : forall e a asked, declared (e_a128 e) (e_sig e) -> declared a asked ->
  (get_stabbied (sig_fn (e_a128 e) (e_sig e)) e (sig_fn a asked) = Some (Some e) /\
   same_fn (sig_fn (e_a128 e) (e_sig e)) (sig_fn a asked)) \/
  get_stabbied (sig_fn (e_a128 e) (e_sig e)) e (sig_fn a asked) = Some None /\
   ~ same_fn (sig_fn (e_a128 e) (e_sig e)) (sig_fn a asked).
Proof.
  intros e a asked (_ & L & D) (_ & L' & D'). apply get_stabbied_iff; cbn [fn_inputs fn_output sig_fn].
  - intros r Hr. inversion D as [|? ? [_ D1] D2]; subst. inversion D' as [|? ? [_ D1'] D2']; subst.
    destruct Hr as [<-|[<-|Hr]]; [exact D1|exact D1'|]. rewrite Forall_forall in D2, D2'.
    apply in_app_or in Hr. destruct Hr as [Hr|Hr]; apply in_map_iff in Hr; destruct Hr as (d & <- & Hd); [now apply D2|now apply D2'].
  - now rewrite map_length.
  - now rewrite map_length.
Qed.
Lemma agree_ty : forall w a a' d d', u128_align a -> u128_align a' -> self_described d -> self_described d' ->
  (is_compatible (dty_report a d) (dty_report a' d') = true -> same_arity (dty_report a d) (dty_report a' d')) ->
  agree (dty_report a d) (dty_report a' d') -> dty_ty w a d = dty_ty w a' d'.
Proof.
  intros w a a' d d' Ha Ha' Hd Hd' S A. apply compat_agree in A. apply report_ty; auto. apply compat_equal; auto.
Qed.
Lemma read_same : forall w a a' ds ds', u128_align a -> u128_align a' ->
  Forall2 (fun d d' => dty_ty w a d = dty_ty w a' d') ds ds' -> forall ss, read_args w a ds ss = read_args w a' ds' ss.
Proof.
  intros w a a' ds ds' Ha Ha' F. induction F as [|d d' ds ds' E F IH]; intros [|s ss]; try reflexivity.
  cbn [read_args]. now rewrite E, IH.
Qed.
Lemma Forall2_unmap : forall {A B} (R : B -> B -> Prop) (f g : A -> B) l l',
  Forall2 R (map f l) (map g l') -> Forall2 (fun x y => R (f x) (g y)) l l'.
Proof.
  intros A B R f g. induction l as [|x l IH]; intros [|y l'] H; inversion H; subst; constructor; auto.
Qed.
Lemma Forall2_in : forall {A B} (R R' : A -> B -> Prop) l l', Forall2 R l l' ->
  (forall x y, In x l -> In y l' -> R x y -> R' x y) -> Forall2 R' l l'.
Proof. intros A B R R' l l' F. induction F as [|x y l l' HR F IH]; intros G; constructor; [apply G; cbn; auto|apply IH; intros; apply G; cbn; auto]. Qed.

Lemma call_answers : forall w e a asked ss vs v,
  declared (e_a128 e) (e_sig e) -> declared a asked -> same_fields (e_a128 e) a (e_sig e) asked ->
  passes w a asked ss vs -> answers w e vs v ->
  (call w a asked e ss = Returned v /\ same_fn (sig_fn (e_a128 e) (e_sig e)) (sig_fn a asked)) \/
  (call w a asked e ss = Refused /\ ~ same_fn (sig_fn (e_a128 e) (e_sig e)) (sig_fn a asked)).
Proof.
  intros w e a asked ss vs v D D' S P A. unfold call.
  destruct (sig_loaded e a asked D D') as [[E F]|[E F]]; rewrite E; [left|right]; split; auto.
  destruct D as (U & _ & D). destruct D' as (U' & _ & D'). rewrite Forall_forall in D, D'.
  assert (T : forall d d', In d (s_ret (e_sig e) :: s_args (e_sig e)) -> In d' (s_ret asked :: s_args asked) ->
    agree (dty_report (e_a128 e) d) (dty_report a d') -> dty_ty w (e_a128 e) d = dty_ty w a d').
  { intros d d' Hd Hd' G. apply agree_ty; auto; [now apply D|now apply D']. }
  destruct F as (_ & _ & F & G). cbn [sig_fn fn_inputs fn_output] in F, G.
  apply Forall2_unmap in F.
  assert (R : read_args w (e_a128 e) (s_args (e_sig e)) ss = Some vs).
  { rewrite (read_same w (e_a128 e) a _ (s_args asked) U U').
    - destruct asked as [u x ds r]. now apply (proj1 (read_passes w a ds ss vs u x r)).
    - apply (Forall2_in _ _ _ _ F). intros x y Hx Hy. apply T; now right. }
  rewrite R. unfold answers in A. rewrite (T (s_ret (e_sig e)) (s_ret asked)) in A; [now rewrite A|now left|now left|exact G].
Qed.

Lemma agree_self : forall r, agree r r.
Proof. intros r. apply compat_agree. apply compat_refl. Qed.
Lemma call_own : forall w e ss vs v, declared (e_a128 e) (e_sig e) ->
  passes w (e_a128 e) (e_sig e) ss vs -> answers w e vs v -> call w (e_a128 e) (e_sig e) e ss = Returned v.
Proof.
  intros w e ss vs v D P A. unfold call.
  destruct (sig_loaded e (e_a128 e) (e_sig e) D D) as [[E F]|[E F]]; rewrite E.
  - destruct (e_sig e) as [u x ds r] eqn:Es. apply read_passes in P. cbn [s_args s_ret] in *. rewrite P.
    unfold answers in A. rewrite Es in A. cbn [s_ret] in A. now rewrite A.
  - exfalso. apply F. repeat split; auto; [|apply agree_self].
    generalize (fn_inputs (sig_fn (e_a128 e) (e_sig e))). intros l. induction l; constructor; auto using agree_self.
Qed.
Lemma same_sig_fn : forall a a' s s', same_fn (sig_fn a s) (sig_fn a' s') <-> same_sig a a' s s'.
Proof.
  intros a a' s s'. unfold same_fn, same_sig, sig_fn. cbn [fn_unwind fn_unsafe fn_inputs fn_output].
  assert (forall l l', Forall2 agree (map (dty_report a) l) (map (dty_report a') l') <-> Forall2 (fun d d' => agree (dty_report a d) (dty_report a' d')) l l') as G.
  { induction l as [|x l IH]; intros [|y l']; cbn [map]; split; intros H; try (inversion H; fail); try constructor; inversion H; subst; auto; apply IH; auto. }
  rewrite G. reflexivity.
Qed.
