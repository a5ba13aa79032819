(** Lemmas on the registry of vtables made with an atomic cell of trees. *)
From Coq Require Import List Arith Bool Lia.
From Verif Require Import M_Import L_Import M_ATree S_ATree L_ATree.
Import ListNotations.

Section Reg.
Variable K : Type.
Variable keq : forall x y : K, {x = y} + {x <> y}.
Notation addr := (nat * nat)%type.
Notation regs := (list (K * addr)).
Notation prog := (reg_prog K keq).
Notation now o := (last (hist o) ([] : regs)).
Notation copies v := (map snd (v : regs)).

(** Variables of thread [t]. *)
Record local (t : nat) (x : vars K) (v : regs) : Prop := {
  l_me : me K x = t;
  l_ok : panicked K x = false;
  l_ans : forall k r, In (k, r) (answers K x) -> find K keq k v = Some r;
  l_freed : forall r, In r (freed K x) -> fst r = t /\ snd r < length (made K x) /\ ~ In r (copies v);
  l_cop : forall c, copied K x = Some c -> exists k ks, todo K x = k :: ks /\ nth_error (made K x) c = Some k /\ ~ In (t, c) (freed K x)
}.
Definition status (t : nat) (th : thread regs (vars K)) (h : list regs) : Prop :=
  match th with
  | Out x => if edited K x then exists c k ks, copied K x = Some c /\ todo K x = k :: ks /\ find K keq k (last h []) = Some (t, c) else copied K x = None
  | Inside x (Edit held f) n => held = true /\ f = reg_edit K keq /\ todo K x <> [] /\ (forall c, copied K x = Some c -> ~ In (t, c) (copies (last h [])))
  | Inside x (Get g) n => g = reg_get K keq /\ exists c k ks v, copied K x = Some c /\ todo K x = k :: ks /\ nth_error h n = Some v /\ find K keq k v = Some (t, c)
  | Inside x Stop n => False
  end.
Definition vars_of (th : thread regs (vars K)) : vars K := match th with Out x => x | Inside x _ _ => x end.
Record rinv (o : object regs (vars K)) : Prop := {
  i_ne : 0 < length (hist o);
  i_mono : forall i j vi vj k r, i <= j -> nth_error (hist o) i = Some vi -> nth_error (hist o) j = Some vj ->
    find K keq k vi = Some r -> find K keq k vj = Some r;
  i_made : forall k r, In (k, r) (now o) -> exists th, nth_error (threads o) (fst r) = Some th /\ nth_error (made K (vars_of th)) (snd r) = Some k;
  i_local : forall t th, nth_error (threads o) t = Some th -> local t (vars_of th) (now o);
  i_status : forall t th, nth_error (threads o) t = Some th -> status t th (hist o)
}.

Lemma now_nth (h : list regs) : 0 < length h -> nth_error h (length h - 1) = Some (last h []).
Proof. apply last_nth. Qed.
Lemma mono_now o i vi k r : rinv o -> nth_error (hist o) i = Some vi -> find K keq k vi = Some r -> find K keq k (now o) = Some r.
Proof.
  intros I H F. assert (i < length (hist o)) by (apply nth_error_Some; congruence).
  eapply (i_mono _ I i (length (hist o) - 1)); eauto; [lia|apply now_nth; lia].
Qed.
Lemma find_in k v r : find K keq k v = Some r -> In (k, r) v.
Proof.
  induction v as [|[k' a] v IH]; cbn; [discriminate|]. destruct (keq k' k) as [->|]; [intros [= ->]; auto|auto].
Qed.

Lemma client_nth kss : forall t0 t x, nth_error (clients K t0 kss) t = Some x -> exists ks, x = Vars K (t0 + t) ks false None [] [] [] false.
Proof.
  induction kss as [|ks kss IH]; intros t0 [|t] x H; cbn in H; try discriminate.
  - injection H as <-. rewrite Nat.add_0_r. eauto.
  - destruct (IH _ _ _ H) as (ks' & ->). exists ks'. f_equal. lia.
Qed.
Lemma rinv_new kss : rinv (object_new [] (clients K 0 kss)).
Proof.
  constructor; cbn [object_new hist threads length last]; auto.
  - intros [|i] [|j] vi vj k r L H1 H2; cbn in H1, H2; try lia; try congruence; [destruct j; discriminate|destruct i; discriminate].
  - intros k r [].
  - intros t th H. rewrite nth_error_map in H. destruct (nth_error (clients K 0 kss) t) eqn:E; [|discriminate]. injection H as <-.
    destruct (client_nth _ _ _ _ E) as (ks & ->). constructor; cbn; auto; try contradiction; discriminate.
  - intros t th H. rewrite nth_error_map in H. destruct (nth_error (clients K 0 kss) t) eqn:E; [|discriminate]. injection H as <-.
    destruct (client_nth _ _ _ _ E) as (ks & ->). reflexivity.
Qed.

(** A thread's step without change of the content. *)
Lemma rinv_put o t th th' : rinv o -> nth_error (threads o) t = Some th ->
  (forall m k, nth_error (made K (vars_of th)) m = Some k -> nth_error (made K (vars_of th')) m = Some k) ->
  local t (vars_of th') (now o) -> status t th' (hist o) -> rinv (Object (hist o) (put (threads o) t th')).
Proof.
  intros I H M Lc St. constructor; cbn [hist threads].
  - exact (i_ne _ I).
  - exact (i_mono _ I).
  - intros k r Hr. destruct (i_made _ I _ _ Hr) as (th1 & A & B). destruct (Nat.eq_dec (fst r) t) as [E|N].
    + exists th'. rewrite E. rewrite (put_eq _ _ _ _ H). split; [reflexivity|]. apply M. congruence.
    + exists th1. rewrite put_ne by exact N. auto.
  - intros u th1 Hu. destruct (Nat.eq_dec u t) as [->|N].
    + rewrite (put_eq _ _ _ _ H) in Hu. injection Hu as <-. exact Lc.
    + rewrite put_ne in Hu by exact N. exact (i_local _ I _ _ Hu).
  - intros u th1 Hu. destruct (Nat.eq_dec u t) as [->|N].
    + rewrite (put_eq _ _ _ _ H) in Hu. injection Hu as <-. exact St.
    + rewrite put_ne in Hu by exact N. exact (i_status _ I _ _ Hu).
Qed.

(** The copy that a call of the closure adds to the tree, if it finds nothing. *)
Definition pick (x : vars K) : nat := match copied K x with Some n => n | None => length (made K x) end.
Lemma reg_edit_some x v x' v' : reg_edit K keq x v = (x', Some v') ->
  exists k ks, todo K x = k :: ks /\ find K keq k v = None /\ v' = (k, (me K x, pick x)) :: v /\
    me K x' = me K x /\ todo K x' = k :: ks /\ edited K x' = true /\ copied K x' = Some (pick x) /\
    made K x' = (match copied K x with Some _ => made K x | None => made K x ++ [k] end) /\ freed K x' = freed K x /\
    answers K x' = answers K x /\ panicked K x' = panicked K x.
Proof.
  unfold reg_edit, pick. destruct (todo K x) as [|k ks]; [discriminate|]. destruct (find K keq k v) eqn:Ef; [discriminate|].
  destruct (copied K x) as [n|] eqn:Ec; intros [= <- <-]; exists k, ks; repeat (split; [first [exact Ef|reflexivity]|]); reflexivity.
Qed.
Lemma reg_edit_none x v x' : reg_edit K keq x v = (x', None) ->
  (todo K x = [] /\ x' = x) \/ exists k ks r, todo K x = k :: ks /\ find K keq k v = Some r /\ x' = finish K x k r false.
Proof.
  unfold reg_edit. destruct (todo K x) as [|k ks]; [intros [= <-]; auto|]. destruct (find K keq k v) eqn:E.
  - intros [= <-]. right. eauto 10.
  - destruct (copied K x); discriminate.
Qed.
(** After a call of the closure that found nothing. *)
Lemma local_edit t x v x' v' w : local t x w -> reg_edit K keq x v = (x', Some v') ->
  (forall k, In (k, (t, pick x)) w -> copied K x <> None) ->
  local t x' w /\ (forall m k, nth_error (made K x) m = Some k -> nth_error (made K x') m = Some k) /\
  (exists k ks, todo K x' = k :: ks /\ nth_error (made K x') (pick x) = Some k).
Proof.
  intros Lc E Hw. destruct (reg_edit_some _ _ _ _ E) as (k & ks & A & B & C & D & F & G & H & I & J & M & N).
  assert (Em : forall m k0, nth_error (made K x) m = Some k0 -> nth_error (made K x') m = Some k0).
  { intros m k0 Hm. rewrite I. destruct (copied K x); [exact Hm|]. rewrite nth_error_app1; [exact Hm|]. apply nth_error_Some. congruence. }
  assert (Ek : nth_error (made K x') (pick x) = Some k).
  { rewrite I. unfold pick. destruct (copied K x) as [c|] eqn:Ec.
    - destruct (l_cop _ _ _ Lc c Ec) as (k' & ks' & X & Y & _). congruence.
    - rewrite nth_error_app2, Nat.sub_diag by lia. reflexivity. }
  split; [|split; [exact Em|eauto]]. constructor.
  - rewrite D. exact (l_me _ _ _ Lc).
  - rewrite N. exact (l_ok _ _ _ Lc).
  - rewrite M. exact (l_ans _ _ _ Lc).
  - rewrite J. intros r Hr. destruct (l_freed _ _ _ Lc r Hr) as (X & Y & Z). repeat split; auto.
    apply nth_error_Some. destruct (nth_error (made K x) (snd r)) eqn:Q; [rewrite (Em _ _ Q); discriminate|]. apply nth_error_None in Q. lia.
  - intros c Hc. rewrite H in Hc. injection Hc as <-. exists k, ks. repeat (split; auto). rewrite J.
    unfold pick. destruct (copied K x) as [c|] eqn:Ec.
    + destruct (l_cop _ _ _ Lc c Ec) as (k' & ks' & _ & _ & X). exact X.
    + intros Hf. destruct (l_freed _ _ _ Lc _ Hf) as (_ & X & _). cbn in X. lia.
Qed.
Lemma local_finish t x k r keep w ks : local t x w -> todo K x = k :: ks -> find K keq k w = Some r ->
  (forall c, copied K x = Some c -> keep = false -> ~ In (t, c) (copies w)) -> local t (finish K x k r keep) w.
Proof.
  intros Lc Et F Hc. constructor; cbn [finish me panicked answers freed made copied todo].
  - exact (l_me _ _ _ Lc).
  - exact (l_ok _ _ _ Lc).
  - intros k0 r0 H. apply in_app_or in H. destruct H as [H|[H|[]]]; [exact (l_ans _ _ _ Lc _ _ H)|]. injection H as <- <-. exact F.
  - intros r0 H. destruct (copied K x) as [c|] eqn:Ec; [|exact (l_freed _ _ _ Lc _ H)].
    destruct keep; [exact (l_freed _ _ _ Lc _ H)|]. destruct H as [<-|H]; [|exact (l_freed _ _ _ Lc _ H)].
    rewrite (l_me _ _ _ Lc). cbn [fst snd]. destruct (l_cop _ _ _ Lc c Ec) as (k' & ks' & X & Y & Z).
    repeat split; auto. apply nth_error_Some. congruence.
  - discriminate.
Qed.

Lemma pick_fresh o t x c n : rinv o -> nth_error (threads o) t = Some (Inside x c n) ->
  (forall c, copied K x = Some c -> ~ In (t, c) (copies (now o))) -> ~ In (t, pick x) (copies (now o)).
Proof.
  intros I H Sc. unfold pick. destruct (copied K x) as [m|] eqn:Ec; [exact (Sc m eq_refl)|]. intros Hin. apply in_map_iff in Hin.
  destruct Hin as ((k & r) & Er & Hin). cbn in Er. subst r. destruct (i_made _ I _ _ Hin) as (th1 & A & B). cbn [fst snd] in A, B.
  rewrite H in A. injection A as <-. cbn [vars_of] in B.
  assert (X : nth_error (made K x) (length (made K x)) = None) by (apply nth_error_None; lia). congruence.
Qed.
Lemma rinv_takes o t o' : rinv o -> takes [] prog o t o' -> rinv o'.
Proof.
  intros I T. destruct T as [x n H Np Hn|x held f n i v x' v' H Hi Hv Ef|x held f n i v x' H Hi Hv Ef|x held f n x' v' H Ef|x g n i v H Hi Hv].
  - (* begins *) apply (rinv_put o t _ _ I H); [auto|exact (i_local _ I _ _ H)|].
    pose proof (i_status _ I _ _ H) as St. cbn [status] in St. unfold reg_prog in *. destruct (todo K x) as [|k ks] eqn:Et; [congruence|].
    destruct (edited K x); cbn [status].
    + split; [reflexivity|]. destruct St as (c & k' & ks' & A & B & C). rewrite Et in *. exists c, k', ks', (now o).
      repeat (split; auto). replace n with (length (hist o) - 1) by lia. apply now_nth. lia.
    + split; [reflexivity|]. split; [reflexivity|]. rewrite St. split; [congruence|discriminate].
  - (* discards *) pose proof (i_status _ I _ _ H) as (-> & -> & Sn & Sc). pose proof (i_local _ I _ _ H) as Lc. cbn [vars_of] in Lc.
    assert (Fr : ~ In (t, pick x) (copies (now o))) by (eapply pick_fresh; eauto).
    destruct (local_edit t x v x' v' (now o) Lc Ef) as (L' & M & _).
    { intros k Hin. exfalso. apply Fr. apply in_map_iff. exists (k, (t, pick x)). auto. }
    apply (rinv_put o t _ _ I H); auto. cbn [status].
    destruct (reg_edit_some _ _ _ _ Ef) as (k & ks & _ & _ & _ & _ & Y & _ & X & _). repeat (split; auto); [congruence|]. intros c Hc. rewrite X in Hc. injection Hc as <-. exact Fr.
  - (* keeps *) pose proof (i_status _ I _ _ H) as (-> & -> & Sn & Sc). pose proof (i_local _ I _ _ H) as Lc. cbn [vars_of] in Lc.
    destruct (reg_edit_none _ _ _ Ef) as [(Et & ->)|(k & ks & r & Et & Fd & ->)].
    + contradiction.
    + apply (rinv_put o t _ _ I H); cbn [vars_of]; auto; [|reflexivity].
      eapply local_finish; eauto. eapply mono_now; eauto.
  - (* swaps *) pose proof (i_status _ I _ _ H) as (-> & -> & Sn & Sc). pose proof (i_local _ I _ _ H) as Lc. cbn [vars_of] in Lc.
    assert (Fr : ~ In (t, pick x) (copies (now o))) by (eapply pick_fresh; eauto).
    destruct (local_edit t x (now o) x' v' (now o) Lc Ef) as (L' & M & (k & ks & Et & Ek)).
    { intros k Hin. exfalso. apply Fr. apply in_map_iff. exists (k, (t, pick x)). auto. }
    destruct (reg_edit_some _ _ _ _ Ef) as (k0 & ks0 & Et0 & Fn & -> & Eme & Et' & Ed & Ec & Em & Efr & Ean & Epk).
    rewrite Et in Et'. injection Et' as <- <-. rewrite (l_me _ _ _ Lc) in *.
    set (v' := (k, (t, pick x)) :: now o) in *.
    assert (Fm : forall k' r, find K keq k' (now o) = Some r -> find K keq k' v' = Some r).
    { intros k' r F. unfold v'. cbn [find]. destruct (keq k k') as [->|]; [congruence|exact F]. }
    assert (Nt : forall u r, u <> t -> fst r = u -> ~ In r (copies (now o)) -> ~ In r (copies v')).
    { intros u r N E Hn [Hr|Hr]; [|contradiction]. cbn in Hr. subst r. cbn in E. congruence. }
    constructor; cbn [hist threads].
    + rewrite app_length. cbn. lia.
    + intros i j vi vj k' r Lij Hi Hj F. destruct (Nat.lt_ge_cases j (length (hist o))) as [Lj|Lj].
      * rewrite nth_error_app1 in Hi by lia. rewrite nth_error_app1 in Hj by lia. eapply (i_mono _ I i j); eauto.
      * assert (vj = v').
        { rewrite nth_error_app2 in Hj by lia. destruct (j - length (hist o)) as [|m]; cbn in Hj; [congruence|destruct m; discriminate]. }
        subst vj. destruct (Nat.lt_ge_cases i (length (hist o))) as [Li|Li].
        -- rewrite nth_error_app1 in Hi by lia. apply Fm. eapply mono_now; eauto.
        -- rewrite nth_error_app2 in Hi by lia. destruct (i - length (hist o)) as [|m]; cbn in Hi; [congruence|destruct m; discriminate].
    + rewrite last_last. intros k' r [E|Hin].
      * injection E as <- <-. exists (Out x'). cbn [fst snd vars_of]. rewrite (put_eq _ _ _ _ H). auto.
      * destruct (i_made _ I _ _ Hin) as (th1 & A & B). destruct (Nat.eq_dec (fst r) t) as [E|N].
        -- exists (Out x'). rewrite E, (put_eq _ _ _ _ H). split; [reflexivity|]. cbn [vars_of]. apply M.
           rewrite E, H in A. injection A as <-. exact B.
        -- exists th1. rewrite put_ne by exact N. auto.
    + rewrite last_last. intros u th1 Hu. destruct (Nat.eq_dec u t) as [->|N].
      * rewrite (put_eq _ _ _ _ H) in Hu. injection Hu as <-. cbn [vars_of]. destruct L' as [a1 a2 a3 a4 a5]. constructor; auto.
        intros r Hr. destruct (a4 r Hr) as (X & Y & Z). repeat split; auto. intros [E|E]; [|contradiction]. cbn in E. subst r.
        destruct (a5 _ Ec) as (_ & _ & _ & _ & W). contradiction.
      * rewrite put_ne in Hu by exact N. destruct (i_local _ I _ _ Hu) as [a1 a2 a3 a4 a5]. constructor; auto.
        intros r Hr. destruct (a4 r Hr) as (X & Y & Z). repeat split; auto. eapply Nt; eauto.
    + intros u th1 Hu. destruct (Nat.eq_dec u t) as [->|N].
      * rewrite (put_eq _ _ _ _ H) in Hu. injection Hu as <-. cbn [status]. rewrite Ed, last_last. exists (pick x), k, ks. repeat (split; auto).
        unfold v'. cbn [find]. destruct (keq k k); [reflexivity|congruence].
      * rewrite put_ne in Hu by exact N. pose proof (i_status _ I _ _ Hu) as S1. destruct th1 as [y|y [held f|g|] m]; cbn [status] in *; rewrite ?last_last; auto.
        -- destruct (edited K y); [|exact S1]. destruct S1 as (c & k1 & ks1 & X & Y & Z). exists c, k1, ks1. auto.
        -- destruct S1 as (X & Y & Z & W). repeat (split; auto). intros c Hc. eapply Nt; eauto.
        -- destruct S1 as (X & c & k1 & ks1 & w & A & B & D & E). split; [exact X|]. exists c, k1, ks1, w. repeat (split; auto).
           rewrite nth_error_app1; [exact D|]. apply nth_error_Some. congruence.
  - (* reads *) pose proof (i_status _ I _ _ H) as (-> & c & k & ks & w & Ec & Et & Ew & Fw). pose proof (i_local _ I _ _ H) as Lc. cbn [vars_of] in Lc.
    assert (Fv : find K keq k v = Some (t, c)) by (eapply (i_mono _ I n i); eauto).
    assert (Er : reg_get K keq x v = finish K x k (t, c) true).
    { unfold reg_get. rewrite Et, Fv, Ec, (l_me _ _ _ Lc). cbn [fst snd]. rewrite !Nat.eqb_refl. reflexivity. }
    rewrite Er. apply (rinv_put o t _ _ I H); cbn [vars_of]; auto; [|reflexivity].
    eapply local_finish; eauto; [eapply mono_now; eauto|discriminate].
Qed.
Lemma rinv_becomes o o' : becomes [] prog o o' -> rinv o -> rinv o'.
Proof. intros B I. induction B as [|t o1 o2 B IH T]; [exact I|]. eapply rinv_takes; eauto. Qed.

Lemma agree_vars (p : pc regs (vars K)) th : agree p th -> variables p = vars_of th.
Proof. destruct th; cbn; intros (_ & H); exact H. Qed.
Lemma forall2_nth {A B} (R : A -> B -> Prop) l l' : Forall2 R l l' -> forall t,
  match nth_error l t, nth_error l' t with Some a, Some b => R a b | None, None => True | _, _ => False end.
Proof. induction 1; intros [|t]; cbn; auto. apply IHForall2. Qed.
Lemma reg_interned kss s : atomic [] prog (clients K 0 kss) s -> interned (map variables (pcs s)).
Proof.
  intros (o & B & _ & F). pose proof (rinv_becomes _ _ B (rinv_new kss)) as I.
  assert (G : forall t x, nth_error (map variables (pcs s)) t = Some x -> exists th, nth_error (threads o) t = Some th /\ x = vars_of th).
  { intros t x H. rewrite nth_error_map in H. pose proof (forall2_nth _ _ _ F t) as X. destruct (nth_error (pcs s) t) as [p|]; [|discriminate].
    injection H as <-. destruct (nth_error (threads o) t) as [th|]; [|contradiction].
    exists th. split; [reflexivity|]. apply agree_vars. exact X. }
  assert (Fd : forall k r, answered (map variables (pcs s)) k r -> find K keq k (now o) = Some r).
  { intros k r (x & Hp & Ha). apply In_nth_error in Hp. destruct Hp as (t & Hp). destruct (G _ _ Hp) as (th & Ht & E). rewrite E in Ha.
    exact (l_ans _ _ _ (i_local _ I _ _ Ht) _ _ Ha). }
  split; [|split].
  - intros x Hp. apply In_nth_error in Hp. destruct Hp as (t & Hp). destruct (G _ _ Hp) as (th & Ht & E). rewrite E.
    exact (l_ok _ _ _ (i_local _ I _ _ Ht)).
  - intros k r Ha. apply Fd in Ha. apply find_in in Ha. destruct (i_made _ I _ _ Ha) as (th & Ht & Hm).
    pose proof (forall2_nth _ _ _ F (fst r)) as X. rewrite Ht in X. destruct (nth_error (pcs s) (fst r)) as [p|] eqn:Ep; [|contradiction].
    apply agree_vars in X. exists (variables p). rewrite X, nth_error_map, Ep, <- X. rewrite X. repeat (split; auto). cbn. congruence. intros Hf.
    destruct (l_freed _ _ _ (i_local _ I _ _ Ht) _ Hf) as (_ & _ & N). apply N. apply in_map_iff. exists (k, r). auto.
  - intros k r r' H1 H2. apply Fd in H1. apply Fd in H2. congruence.
Qed.
End Reg.
