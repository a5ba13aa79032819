(** Lemmas on [StableLike]. *)
From Coq Require Import List Arith NArith Bool Lia.
From Verif Require Import M_Layout M_Result M_Like S_Layout S_Core S_Like L_LayoutApi L_LayoutThms L_Enum L_Core.
Import ListNotations.
Ltac Zify.zify_post_hook ::= idtac.

Lemma decode_guard : forall t w x d, decode t w = Some x -> layout t = Some d ->
  Nat.eqb (length w) (dsize d) && forallb (fun b => N.ltb b 256) w = true.
Proof.
  intros t w x d E L. destruct t; cbn [decode] in E; rewrite L in E;
    (destruct (Nat.eqb (length w) (dsize d) && forallb (fun b => N.ltb b 256) w); [reflexivity|discriminate]).
Qed.
Lemma decode_layout : forall t w x, decode t w = Some x -> exists d, layout t = Some d.
Proof. intros t w x E. destruct t; cbn [decode] in E; match type of E with context [match ?L with _ => _ end] => destruct L end; eauto; discriminate. Qed.
Lemma lguard_of : forall l w x, decode (claimed l) w = Some x -> lguard l w = true.
Proof.
  intros l w x E. destruct (decode_layout _ _ _ E) as [d L]. unfold lguard, csize. rewrite L. cbn [option_map]. exact (decode_guard _ _ _ _ E L).
Qed.
Lemma elems_faithful : forall (rd rd' : list N -> option val) k,
  (forall w x, rd w = Some x -> exists y, rd' w = Some y /\ forall w', rd' w' = Some y -> rd w' = Some x) ->
  forall n s l, read_elems rd k n s = Some l -> exists l', read_elems rd' k n s = Some l' /\
    forall s', read_elems rd' k n s' = Some l' -> read_elems rd k n s' = Some l.
Proof.
  intros rd rd' k H. induction n as [|n IH]; intros s l E; cbn [read_elems] in E |- *.
  - injection E as <-. exists []. auto.
  - destruct (rd (firstn k s)) as [x|] eqn:E1; [|discriminate]. destruct (read_elems rd k n (skipn k s)) as [r|] eqn:E2; [|discriminate]. injection E as <-.
    destruct (H _ _ E1) as (y & F1 & G1). destruct (IH _ _ E2) as (l' & F2 & G2). rewrite F1, F2. exists (y :: l'). split; [reflexivity|].
    intros s' Q. destruct (rd' (firstn k s')) as [y'|] eqn:Q1; [|discriminate]. destruct (read_elems rd' k n (skipn k s')) as [r'|] eqn:Q2; [|discriminate].
    injection Q as -> ->. rewrite (G1 _ Q1), (G2 _ Q2). reflexivity.
Qed.
(** The value seen by the user is a function of the one the claims tell. *)
Lemma faithful : forall l, honest l -> forall w x, ldecode l w = Some x ->
  exists y, decode (claimed l) w = Some y /\ forall w', decode (claimed l) w' = Some y -> ldecode l w' = Some x.
Proof.
  induction l as [t | t a | a IHa b IHb | t IH | t IH n | a IHa b IHb]; intros H w x E; cbn [ldecode] in E;
    match type of E with context [lguard ?l ?w] => destruct (lguard l w) eqn:G; cbn [negb] in E; [|discriminate] end.
  - exists x. split; [exact E|]. intros w' E'. cbn [ldecode]. rewrite (lguard_of (LOf t) w' x E'). exact E'.
  - unfold like_new in E. destruct (like_check t a) eqn:C; [|discriminate]. destruct (H C w x E) as (y & E1 & E2). exists y. split; [exact E1|].
    intros w' E'. cbn [ldecode]. unfold like_new. rewrite (lguard_of (LLike t a) w' y E'), C. cbn [negb]. exact (E2 w' E').
  - destruct H as [Ha Hb]. destruct (layout (claimed a)) as [da|] eqn:La; [|discriminate]. destruct (layout (claimed b)) as [db|] eqn:Lb; [|discriminate].
    destruct (ldecode a (firstn (dsize da) w)) as [va|] eqn:E1; [|discriminate].
    destruct (ldecode b (skipn (nmo (dsize da) (dalign db)) w)) as [vb|] eqn:E2; [|discriminate]. injection E as <-.
    destruct (IHa Ha _ _ E1) as (ya & F1 & G1). destruct (IHb Hb _ _ E2) as (yb & F2 & G2).
    exists (VPair ya yb). split.
    + cbn [claimed decode]. unfold lguard, csize in G. cbn [claimed] in G. 
      destruct (layout (TFP (claimed a) (claimed b))) as [d|] eqn:L; cbn [option_map] in G; [|discriminate].
      rewrite G. cbn [negb]. rewrite La, Lb, F1, F2. reflexivity.
    + intros w' E'. cbn [ldecode]. rewrite (lguard_of (LPair a b) w' _ E'). cbn [negb]. rewrite La, Lb.
      cbn [claimed decode] in E'. destruct (layout (TFP (claimed a) (claimed b))) as [d|]; [|discriminate].
      destruct (negb _) in E'; [discriminate|]. rewrite La, Lb in E'.
      destruct (decode (claimed a) (firstn (dsize da) w')) as [za|] eqn:Q1; [|discriminate].
      destruct (decode (claimed b) (skipn (nmo (dsize da) (dalign db)) w')) as [zb|] eqn:Q2; [|discriminate].
      injection E' as -> ->. rewrite (G1 _ Q1), (G2 _ Q2). reflexivity.
  - destruct (layout (claimed t)) as [d0|] eqn:Lt; [|discriminate]. destruct (IH H _ _ E) as (y & F & Q).
    exists y. split.
    + cbn [claimed decode]. unfold lguard, csize in G. cbn [claimed] in G.
      destruct (layout (TStruct (claimed t))) as [d|] eqn:L; cbn [option_map] in G; [|discriminate].
      rewrite G. cbn [negb]. rewrite Lt. exact F.
    + intros w' E'. cbn [ldecode]. rewrite (lguard_of (LStruct t) w' _ E'). cbn [negb]. rewrite Lt.
      cbn [claimed decode] in E'. destruct (layout (TStruct (claimed t))) as [d|]; [|discriminate].
      destruct (negb _) in E'; [discriminate|]. rewrite Lt in E'. exact (Q _ E').
  - destruct (layout (claimed t)) as [d0|] eqn:Lt; [|discriminate]. destruct (read_elems (ldecode t) (dsize d0) n w) as [l|] eqn:R; [|discriminate].
    injection E as <-. destruct (elems_faithful _ _ (dsize d0) (IH H) _ _ _ R) as (l' & F & Q).
    exists (VArr l'). split.
    + cbn [claimed decode]. unfold lguard, csize in G. cbn [claimed] in G.
      destruct (layout (TArr (claimed t) n)) as [d|] eqn:L; cbn [option_map] in G; [|discriminate].
      rewrite G. cbn [negb]. rewrite Lt, F. reflexivity.
    + intros w' E'. cbn [ldecode]. rewrite (lguard_of (LArr t n) w' _ E'). cbn [negb]. rewrite Lt.
      cbn [claimed decode] in E'. destruct (layout (TArr (claimed t) n)) as [d|]; [|discriminate].
      destruct (negb _) in E'; [discriminate|]. rewrite Lt in E'.
      destruct (read_elems (decode (claimed t)) (dsize d0) n w') as [l2|] eqn:R'; [|discriminate]. injection E' as ->.
      rewrite (Q _ R'). reflexivity.
  - destruct H as [Ha Hb]. unfold like_match in E. destruct (parts a b) as [[[da db] p]|] eqn:P; [|discriminate].
    pose proof P as P0. unfold parts in P0. destruct (layout (claimed a)) as [da'|] eqn:La; [|discriminate]. destruct (layout (claimed b)) as [db'|] eqn:Lb; [|discriminate].
    destruct (provider_of da' db') as [p'|] eqn:Pr; [|discriminate]. injection P0 as -> -> ->.
    assert (K : forall w' (x' : val), decode (TResult (claimed a) (claimed b)) w' = Some x' -> exists m, match_result da db p w' = Some m /\
      match m with inl v => option_map VOk (decode (claimed a) v) | inr v => option_map VErr (decode (claimed b) v) end = Some x').
    { intros w' x' E'. cbn [decode] in E'. destruct (layout (TResult (claimed a) (claimed b))) as [d|]; [|discriminate].
      destruct (negb _) in E'; [discriminate|]. rewrite La, Lb, Pr in E'. destruct (match_result da db p w') as [[v|v]|]; [eauto|eauto|discriminate]. }
    assert (K' : forall m x', match_result da db p w = Some m ->
      match m with inl v => option_map VOk (decode (claimed a) v) | inr v => option_map VErr (decode (claimed b) v) end = Some x' ->
      decode (TResult (claimed a) (claimed b)) w = Some x').
    { intros m x' M D. cbn [decode]. unfold lguard, csize in G. cbn [claimed] in G.
      destruct (layout (TResult (claimed a) (claimed b))) as [d|] eqn:L; cbn [option_map] in G; [|discriminate].
      rewrite G. cbn [negb]. rewrite La, Lb, Pr, M. destruct m; exact D. }
    destruct (match_result da db p w) as [[v|v]|] eqn:M; [| |discriminate].
    + destruct (ldecode a v) as [x0|] eqn:D; [|discriminate]. injection E as <-. destruct (IHa Ha _ _ D) as (y & F & Q).
      exists (VOk y). split; [apply (K' _ _ eq_refl); cbn; rewrite F; reflexivity|].
      intros w' E'. cbn [ldecode]. rewrite (lguard_of (LResult a b) w' _ E'). cbn [negb]. unfold like_match. rewrite P.
      destruct (K _ _ E') as ([v'|v'] & M' & D'); rewrite M'.
      * destruct (decode (claimed a) v') as [y'|] eqn:D2; [|discriminate]. cbn in D'. injection D' as ->. rewrite (Q _ D2). reflexivity.
      * destruct (decode (claimed b) v'); discriminate.
    + destruct (ldecode b v) as [x0|] eqn:D; [|discriminate]. injection E as <-. destruct (IHb Hb _ _ D) as (y & F & Q).
      exists (VErr y). split; [apply (K' _ _ eq_refl); cbn; rewrite F; reflexivity|].
      intros w' E'. cbn [ldecode]. rewrite (lguard_of (LResult a b) w' _ E'). cbn [negb]. unfold like_match. rewrite P.
      destruct (K _ _ E') as ([v'|v'] & M' & D'); rewrite M'.
      * destruct (decode (claimed a) v'); discriminate.
      * destruct (decode (claimed b) v') as [y'|] eqn:D2; [|discriminate]. cbn in D'. injection D' as ->. rewrite (Q _ D2). reflexivity.
Qed.

Lemma advised_honest : forall l, advised l -> honest l.
Proof.
  induction l as [t | t a | a IHa b IHb | t IH | t IH n | a IHa b IHb]; cbn [advised honest]; auto; try (intros [H1 H2]; split; auto; fail).
  intros (s & al & ->) C w x E. unfold like_check, size_align in C. destruct (decode_layout _ _ _ E) as [d L]. rewrite L in C. cbn in C.
  apply andb_prop in C. destruct C as [C _]. apply Nat.eqb_eq in C. pose proof (decode_guard _ _ _ _ E L) as G.
  exists (VRaw w). unfold no_niches. split.
  - cbn [decode layout plain_d dsize]. rewrite C in G. rewrite G. reflexivity.
  - intros w' E'. cbn [decode layout plain_d dsize] in E'. destruct (negb _) in E'; [discriminate|]. injection E' as ->. exact E.
Qed.
Lemma ldecode_back : forall l, honest l -> forall w x y, ldecode l w = Some x -> decode (claimed l) w = Some y ->
  forall w', decode (claimed l) w' = Some y -> ldecode l w' = Some x.
Proof. intros l H w x y E F w' F'. destruct (faithful l H w x E) as (y' & Q1 & Q2). assert (y' = y) by congruence. subst. auto. Qed.
Lemma parts_some : forall a b, wf (claimed (LResult a b)) -> exists da db p, parts a b = Some (da, db, p) /\
  layout (claimed a) = Some da /\ layout (claimed b) = Some db /\ provider_of da db = Some p.
Proof.
  intros a b W. cbn [claimed] in W. destruct (L_LayoutApi.result_provider _ _ W) as (da & db & p & La & Lb & P & _). exists da, db, p. unfold parts. rewrite La, Lb, P. auto.
Qed.
Lemma like_round_trip : forall a b, wf (claimed (LResult a b)) -> honest a -> honest b ->
  (forall v x, ldecode a v = Some x -> exists s w, like_ok a b v = Some s /\ like_match a b s = Some (inl w) /\
     ldecode a w = Some x /\ ldecode (LResult a b) s = Some (VOk x)) /\
  (forall v x, ldecode b v = Some x -> exists s w, like_err a b v = Some s /\ like_match a b s = Some (inr w) /\
     ldecode b w = Some x /\ ldecode (LResult a b) s = Some (VErr x)).
Proof.
  intros a b W Ha Hb. destruct (parts_some a b W) as (da & db & p & P & La & Lb & Pr). unfold like_ok, like_err, like_match. rewrite P. cbn [claimed] in W.
  split; intros v x E.
  - destruct (faithful a Ha v x E) as (y & F & Q). destruct (ok_round_trip _ _ _ _ W F) as (da' & db' & p' & s & w & La' & Lb' & Pr' & M & O & MM & D & DR).
    assert (da' = da) by congruence. assert (db' = db) by congruence. subst. assert (p' = p) by congruence. subst.
    exists s, w. repeat (split; [auto; fail|]). cbn [ldecode]. rewrite (lguard_of (LResult a b) s _ DR). cbn [negb]. unfold like_match. rewrite P, MM.
    rewrite (Q _ D). reflexivity.
  - destruct (faithful b Hb v x E) as (y & F & Q). destruct (err_round_trip _ _ _ _ W F) as (da' & db' & p' & s & w & La' & Lb' & Pr' & M & O & MM & D & DR).
    assert (da' = da) by congruence. assert (db' = db) by congruence. subst. assert (p' = p) by congruence. subst.
    exists s, w. repeat (split; [auto; fail|]). cbn [ldecode]. rewrite (lguard_of (LResult a b) s _ DR). cbn [negb]. unfold like_match. rewrite P, MM.
    rewrite (Q _ D). reflexivity.
Qed.
(** A claimed value of a [Result], read as the user does. *)
Lemma ldecode_result : forall a b, honest a -> honest b -> forall s y, decode (claimed (LResult a b)) s = Some y ->
  match y with
  | VOk ya => forall v x, ldecode a v = Some x -> decode (claimed a) v = Some ya -> ldecode (LResult a b) s = Some (VOk x)
  | VErr yb => forall v x, ldecode b v = Some x -> decode (claimed b) v = Some yb -> ldecode (LResult a b) s = Some (VErr x)
  | _ => True
  end.
Proof.
  intros a b Ha Hb s y E. destruct y; auto; intros w x D F; cbn [ldecode]; rewrite (lguard_of (LResult a b) s _ E); cbn [negb]; unfold like_match, parts;
    cbn [claimed decode] in E; destruct (layout (TResult (claimed a) (claimed b))); try discriminate;
    destruct (negb _) in E; try discriminate; destruct (layout (claimed a)); try discriminate; destruct (layout (claimed b)); try discriminate;
    destruct (provider_of _ _); try discriminate; destruct (match_result _ _ _ s) as [[u|u]|]; try discriminate;
    match type of E with option_map _ ?d = _ => destruct d eqn:Q; cbn in E; [|discriminate] end; try discriminate; injection E as ->.
  - rewrite (ldecode_back a Ha _ _ _ D F _ Q). reflexivity.
  - rewrite (ldecode_back b Hb _ _ _ D F _ Q). reflexivity.
Qed.
Lemma claimed_variant : forall a b s x, honest a -> honest b -> ldecode (LResult a b) s = Some x ->
  match x with VOk _ => exists y, decode (claimed (LResult a b)) s = Some (VOk y) | VErr _ => exists y, decode (claimed (LResult a b)) s = Some (VErr y) | _ => True end.
Proof.
  intros a b s x Ha Hb E. destruct (faithful (LResult a b) (conj Ha Hb) s x E) as (y & F & Q). pose proof F as F0. 
  cbn [ldecode] in E. destruct (lguard (LResult a b) s); cbn [negb] in E; [|discriminate]. unfold like_match, parts in E.
  cbn [claimed decode] in F. destruct (layout (TResult (claimed a) (claimed b))); try discriminate. destruct (negb _) in F; try discriminate.
  destruct (layout (claimed a)); try discriminate; destruct (layout (claimed b)); try discriminate.
  destruct (provider_of _ _); try discriminate; destruct (match_result _ _ _ s) as [[u|u]|]; try discriminate.
  - destruct (ldecode a u); cbn in E; [|discriminate]. injection E as <-. destruct (decode (claimed a) u); cbn in F; [|discriminate]. injection F as <-. eauto.
  - destruct (ldecode b u); cbn in E; [|discriminate]. injection E as <-. destruct (decode (claimed b) u); cbn in F; [|discriminate]. injection F as <-. eauto.
Qed.
Lemma like_guards : forall a b, wf (claimed (LResult a b)) -> honest a -> honest b ->
  (forall s x0 v x, ldecode (LResult a b) s = Some (VOk x0) -> ldecode a v = Some x ->
     exists s', like_set_ok a b s v = Some s' /\ ldecode (LResult a b) s' = Some (VOk x)) /\
  (forall s x0 v x, ldecode (LResult a b) s = Some (VErr x0) -> ldecode b v = Some x ->
     exists s', like_set_err a b s v = Some s' /\ ldecode (LResult a b) s' = Some (VErr x)).
Proof.
  intros a b W Ha Hb. destruct (parts_some a b W) as (da & db & p & P & La & Lb & Pr). unfold like_set_ok, like_set_err. rewrite P. cbn [claimed] in W.
  split; intros s x0 v x E D; destruct (claimed_variant a b s _ Ha Hb E) as [y0 E0].
  - destruct (faithful a Ha v x D) as (y & F & _). destruct (guard_ok_value _ _ _ _ _ _ W E0 F) as (da' & db' & p' & s' & La' & Lb' & Pr' & M & DR).
    assert (da' = da) by congruence. assert (db' = db) by congruence. subst. assert (p' = p) by congruence. subst.
    exists s'. split; [exact M|]. exact (ldecode_result a b Ha Hb s' _ DR v x D F).
  - destruct (faithful b Hb v x D) as (y & F & _). destruct (guard_err_value _ _ _ _ _ _ W E0 F) as (da' & db' & p' & s' & La' & Lb' & Pr' & M & DR).
    assert (da' = da) by congruence. assert (db' = db) by congruence. subst. assert (p' = p) by congruence. subst.
    exists s'. split; [exact M|]. exact (ldecode_result a b Ha Hb s' _ DR v x D F).
Qed.
Lemma like_layout : forall l, checked l = true -> rust_size_align l = size_align (claimed l).
Proof.
  induction l as [t | t a | a IHa b IHb | t IH | t IH n | a IHa b IHb]; cbn [checked]; intros C; auto.
  - unfold like_check in C. cbn [rust_size_align claimed]. destruct (size_align t) as [[s al]|]; [|discriminate]. destruct (size_align a) as [[s' al']|]; [|discriminate].
    apply andb_prop in C. destruct C as [C1 C2]. apply Nat.eqb_eq in C1, C2. congruence.
  - apply andb_prop in C. destruct C as [C1 C2]. cbn [rust_size_align claimed]. rewrite (IHa C1), (IHb C2). unfold size_align. cbn [layout].
    destruct (layout (claimed a)) as [da|]; [|reflexivity]. destruct (layout (claimed b)) as [db|]; [|reflexivity]. cbn [option_map].
    unfold field_pair, aligned_after. cbn [dsize dalign]. do 2 f_equal. apply Nat.add_comm.
  - cbn [rust_size_align claimed]. rewrite (IH C). unfold size_align. cbn [layout]. destruct (layout (claimed t)); reflexivity.
  - cbn [rust_size_align claimed]. rewrite (IH C). unfold size_align. cbn [layout]. destruct (layout (claimed t)); reflexivity.
Qed.

Lemma pointers_claimed : forall l, open_about_pointers l -> lpointer l = true -> has_pointer (claimed l) = true.
Proof.
  induction l as [t | t a | a IHa b IHb | t IH | t IH n | a IHa b IHb]; cbn [open_about_pointers lpointer claimed has_pointer]; auto;
    intros [H1 H2]; rewrite !orb_true_iff; intros [H | H]; auto.
Qed.
