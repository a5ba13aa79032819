(** Lemmas behind P_Layout. *)
From Coq Require Import List Arith ZArith NArith Bool Lia ZifyBool ZifyN ZifyNat.
From Verif Require Import M_Layout M_Result S_Layout L_Layout L_Result L_Good L_Types.
Import ListNotations.
Ltac Zify.zify_post_hook ::= Z.div_mod_to_equations.
Arguments N.add : simpl never.
Arguments N.mul : simpl never.
Arguments N.sub : simpl never.
Arguments N.eqb : simpl never.
Arguments N.ltb : simpl never.
Arguments N.leb : simpl never.
Arguments N.land : simpl never.
Arguments N.lor : simpl never.
Arguments N.lxor : simpl never.
Arguments N.testbit : simpl never.
Arguments Nat.modulo : simpl never.
Arguments Nat.div : simpl never.
Arguments nmo : simpl never.
Arguments Nat.max : simpl never.
Arguments Nat.sub : simpl never.

Lemma wf_good t d : wf t -> layout t = Some d -> good true d (decode t).
Proof. intros H L. destruct (decode_good t true H) as [d' [L' G]]. congruence. Qed.
Lemma wf_layout t : wf t -> exists d, layout t = Some d.
Proof. intros H. destruct (decode_good t true H) as [d' [L' G]]. eauto. Qed.

Lemma wf_result a b : wf (TResult a b) <->
  wf a /\ wf b /\ exists da db, layout a = Some da /\ layout b = Some db /\ sizes_match da db = true.
Proof.
  unfold wf. cbn [types_ok]. rewrite !andb_true_iff. split.
  - intros [[Ha Hb] H]. split; [exact Ha|]. split; [exact Hb|].
    destruct (layout a) as [da|]; [|discriminate]. destruct (layout b) as [db|]; [|discriminate]. eauto.
  - intros [Ha [Hb [da [db [-> [-> H]]]]]]. auto.
Qed.
Lemma result_parts a b da db p : wf (TResult a b) -> layout a = Some da -> layout b = Some db ->
  provider_of da db = Some p ->
  good true da (decode a) /\ good true db (decode b) /\ prov_good da db (decode a) (decode b) p.
Proof.
  intros H La Lb Hp. apply wf_result in H. destruct H as [Ha [Hb [da' [db' [La' [Lb' Hs]]]]]].
  assert (da' = da) by congruence. assert (db' = db) by congruence. subst.
  pose proof (wf_good _ _ Ha La) as Ga. pose proof (wf_good _ _ Hb Lb) as Gb.
  destruct (provider_good _ _ _ _ Ga Gb Hs) as [p' [E Hg]]. assert (p' = p) by congruence. subst. auto.
Qed.
Lemma result_provider a b : wf (TResult a b) -> exists da db p,
  layout a = Some da /\ layout b = Some db /\ provider_of da db = Some p /\
  layout (TResult a b) = Some (result_d da db p).
Proof.
  intros H. apply wf_result in H. destruct H as [Ha [Hb [da [db [La [Lb Hs]]]]]].
  destruct (provider_good _ _ _ _ (wf_good _ _ Ha La) (wf_good _ _ Hb Lb) Hs) as [p [E Hg]].
  exists da, db, p. cbn [layout]. rewrite La, Lb, E. auto.
Qed.
Lemma decode_result a b da db p s : layout a = Some da -> layout b = Some db ->
  provider_of da db = Some p ->
  decode (TResult a b) s = guarded (result_d da db p) (result_body da db (decode a) (decode b) p) s.
Proof. intros La Lb E. cbn [decode layout]. rewrite La, Lb, E. reflexivity. Qed.

Lemma storage_fits a b DA DB p : al_ok (Nat.max (dalign a) (dalign b)) -> prov_good a b DA DB p ->
  storage_size a b p = dsize (result_d a b p).
Proof.
  intros Hal H. pose proof (al_ok_pos _ Hal) as Hp. destruct H as [_ [_ [_ [_ [_ [_ [H _]]]]]]].
  unfold storage_size. change (dalign (result_d a b p)) with (Nat.max (dalign a) (dalign b)).
  destruct (mod_0_mult _ _ Hp H) as [k ->]. rewrite Nat.div_mul by lia. reflexivity.
Qed.
Lemma storage_iff a b p : al_ok (dalign a) -> al_ok (dalign b) ->
  storage_size a b p = dsize (result_d a b p) <-> sizes_match a b = true.
Proof.
  intros Ha Hb. pose proof (al_ok_pos _ (al_ok_max _ _ Ha Hb)) as Hp.
  unfold storage_size, sizes_match, result_d; cbn [dsize dalign]. rewrite Nat.eqb_eq.
  set (M := Nat.max (dalign a) (dalign b)) in *. set (S := Nat.max (dsize a) (dsize b)).
  destruct (mod_0_mult _ _ Hp (nmo_mod (dsize (det_d (fp_det p))) M Hp)) as [k ->].
  rewrite (Nat.add_comm (k * M)), Nat.div_add by lia.
  pose proof (Nat.div_mod S M ltac:(lia)) as E. split; intros H.
  - assert (S / M * M = S) by lia. lia.
  - rewrite H, Nat.add_0_r in E. lia.
Qed.

Lemma write_sub s o v s' : blit s o v = Some s' -> o + length v <= length s ->
  length s' = length s /\ sub o (length v) s' = v /\
  forall x, (x < o \/ o + length v <= x) -> nth_error s' x = nth_error s x.
Proof.
  intros E Hl. destruct (blit_spec v s o Hl) as [s1 [E1 [Hl1 Hn]]].
  assert (s1 = s') by congruence. subst. split; [exact Hl1|]. split.
  - apply list_ext.
    + apply sub_length. lia.
    + intros x Hx. rewrite sub_length in Hx by lia. rewrite nth_error_sub, Hn.
      destruct (Nat.ltb_spec x (length v)); [|lia].
      destruct (Nat.leb_spec o (o + x)); [|lia]. destruct (Nat.ltb_spec (o + x) (o + length v)); [|lia].
      cbn. f_equal. lia.
  - intros x Hx. rewrite Hn. destruct (Nat.leb_spec o x); cbn [andb]; auto.
    destruct (Nat.ltb_spec x (o + length v)); [lia|reflexivity].
Qed.
Lemma is_bytes_write s o v s' : is_bytes s -> is_bytes v -> o + length v <= length s ->
  blit s o v = Some s' -> is_bytes s'.
Proof.
  intros Hs Hv Hl E. destruct (blit_spec v s o Hl) as [s1 [E1 [Hl1 Hn]]].
  assert (s1 = s') by congruence. subst. apply is_bytes_nth. intros x b. rewrite Hn.
  destruct (Nat.leb o x && Nat.ltb x (o + length v)).
  - apply (proj1 (is_bytes_nth v) Hv).
  - apply (proj1 (is_bytes_nth s) Hs).
Qed.
Lemma write_ok s o v : o + length v <= length s -> exists s', blit s o v = Some s'.
Proof. intros H. destruct (blit_spec v s o H) as [s' [E _]]. eauto. Qed.

(** Construction. *)
Section Res.
Variables (a b : desc) (DA DB : list N -> option val) (p : fprovider).
Hypothesis Ga : good true a DA.
Hypothesis Gb : good true b DB.
Hypothesis Gp : prov_good a b DA DB p.
Variable n : nat.
Hypothesis n_def : n = dsize (result_d a b p).

Lemma fits : storage_size a b p = n.
Proof. rewrite n_def. eapply storage_fits; [|exact Gp]. apply al_ok_max; [apply (g_al _ _ _ Ga)|apply (g_al _ _ _ Gb)]. Qed.

Lemma make_ok v x : DA v = Some x ->
  exists s, mk_ok a b p v = Some s /\ length s = n /\ is_bytes s /\ is_ok p s = Some true /\
    DA (sub (ok_offset a b p) (dsize a) s) = Some x.
Proof.
  intros Hv. pose proof Gp as [H1 [H2 [H3 [H4 [H5 [H6 [H7 [H8 H9]]]]]]]]. rewrite <- n_def in H3, H4, H7, H8, H9.
  destruct (g_len _ _ _ Ga _ _ Hv) as [Hlv Hbv].
  assert (length (repeat 0%N n) = n) as Hz by apply repeat_length.
  destruct (write_ok (repeat 0%N n) (ok_offset a b p) v) as [s Es]; [lia|].
  destruct (write_sub _ _ _ _ Es ltac:(lia)) as [Hl [Hsub _]].
  assert (is_bytes s) as Hs by (eapply is_bytes_write; [apply is_bytes_zeros|exact Hbv| |exact Es]; lia).
  destruct (dg_ok _ _ _ _ _ H8 s x) as [s1 [obj [s2 [E1 [E2 [Hl1 [Hl2 [Hb2 [Hr [Hd _]]]]]]]]]]; [lia|exact Hs| |].
  { unfold read. rewrite <- Hlv, Hsub. exact Hv. }
  exists s2. unfold mk_ok. rewrite fits, Es, E1. auto.
Qed.
Lemma make_err v x : DB v = Some x ->
  exists s, mk_err a b p v = Some s /\ length s = n /\ is_bytes s /\ is_ok p s = Some false /\
    DB (sub (err_offset a b p) (dsize b) s) = Some x.
Proof.
  intros Hv. pose proof Gp as [H1 [H2 [H3 [H4 [H5 [H6 [H7 [H8 H9]]]]]]]]. rewrite <- n_def in H3, H4, H7, H8, H9.
  destruct (g_len _ _ _ Gb _ _ Hv) as [Hlv Hbv].
  assert (length (repeat 0%N n) = n) as Hz by apply repeat_length.
  destruct (write_ok (repeat 0%N n) (err_offset a b p) v) as [s Es]; [lia|].
  destruct (write_sub _ _ _ _ Es ltac:(lia)) as [Hl [Hsub _]].
  assert (is_bytes s) as Hs by (eapply is_bytes_write; [apply is_bytes_zeros|exact Hbv| |exact Es]; lia).
  destruct (dg_err _ _ _ _ _ H8 s x) as [s1 [obj [s2 [E1 [E2 [Hl1 [Hl2 [Hb2 [Hr [Hd _]]]]]]]]]]; [lia|exact Hs| |].
  { unfold read. rewrite <- Hlv, Hsub. exact Hv. }
  exists s2. unfold mk_err. rewrite fits, Es, E1. auto.
Qed.

(** The guards. *)
Lemma guard_ok s v x : length s = n -> is_bytes s -> is_ok p s = Some true -> DA v = Some x ->
  exists s', ok_guard_write a b p s v = Some s' /\ length s' = n /\ is_bytes s' /\
    is_ok p s' = Some true /\ DA (sub (ok_offset a b p) (dsize a) s') = Some x.
Proof.
  intros Hls Hs Hok Hv. pose proof Gp as [H1 [H2 [H3 [H4 [H5 [H6 [H7 [H8 H9]]]]]]]]. rewrite <- n_def in H3, H4, H7, H8, H9.
  destruct (g_len _ _ _ Ga _ _ Hv) as [Hlv Hbv].
  destruct (write_ok s (ok_offset a b p) v) as [s0 Es]; [lia|].
  destruct (write_sub _ _ _ _ Es ltac:(lia)) as [Hl [Hsub Hout]].
  assert (is_bytes s0) as Hs0 by (eapply is_bytes_write; [exact Hs|exact Hbv| |exact Es]; lia).
  unfold ok_guard_write. rewrite Es. destruct (is_niche_trick (fp_det p)) eqn:Ht.
  - destruct (dg_ok _ _ _ _ _ H8 s0 x) as [s1 [obj [s2 [E1 [E2 [Hl1 [Hl2 [Hb2 [Hr [Hd Hn]]]]]]]]]]; [lia|exact Hs0| |].
    { unfold read. rewrite <- Hlv, Hsub. exact Hv. }
    rewrite (Hn Ht) in E2. cbn in E2. injection E2 as ->. rewrite E1. cbn. exists s2. auto.
  - exists s0. split; [reflexivity|]. split; [lia|]. split; [exact Hs0|]. split.
    + unfold is_ok in *. rewrite <- Hok. apply (dg_bit _ _ _ _ _ H8 Ht). apply Hout.
      specialize (H5 eq_refl). unfold ok_offset. lia.
    + rewrite <- Hlv, Hsub. exact Hv.
Qed.
Lemma guard_err s v x : length s = n -> is_bytes s -> is_ok p s = Some false -> DB v = Some x ->
  exists s', err_guard_write a b p s v = Some s' /\ length s' = n /\ is_bytes s' /\
    is_ok p s' = Some false /\ DB (sub (err_offset a b p) (dsize b) s') = Some x.
Proof.
  intros Hls Hs Hok Hv. pose proof Gp as [H1 [H2 [H3 [H4 [H5 [H6 [H7 [H8 H9]]]]]]]]. rewrite <- n_def in H3, H4, H7, H8, H9.
  destruct (g_len _ _ _ Gb _ _ Hv) as [Hlv Hbv].
  destruct (write_ok s (err_offset a b p) v) as [s0 Es]; [lia|].
  destruct (write_sub _ _ _ _ Es ltac:(lia)) as [Hl [Hsub Hout]].
  assert (is_bytes s0) as Hs0 by (eapply is_bytes_write; [exact Hs|exact Hbv| |exact Es]; lia).
  unfold err_guard_write. rewrite Es. destruct (is_niche_trick (fp_det p)) eqn:Ht.
  - destruct (dg_err _ _ _ _ _ H8 s0 x) as [s1 [obj [s2 [E1 [E2 [Hl1 [Hl2 [Hb2 [Hr [Hd Hn]]]]]]]]]]; [lia|exact Hs0| |].
    { unfold read. rewrite <- Hlv, Hsub. exact Hv. }
    rewrite (Hn Ht) in E2. cbn in E2. injection E2 as ->. rewrite E1. cbn. exists s2. auto.
  - exists s0. split; [reflexivity|]. split; [lia|]. split; [exact Hs0|]. split.
    + unfold is_ok in *. rewrite <- Hok. apply (dg_bit _ _ _ _ _ H8 Ht). apply Hout.
      specialize (H5 eq_refl). unfold err_offset. lia.
    + rewrite <- Hlv, Hsub. exact Hv.
Qed.
Lemma match_ok s : length s = n -> is_ok p s = Some true ->
  match_result a b p s = Some (inl (sub (ok_offset a b p) (dsize a) s)).
Proof.
  intros Hl Hok. unfold match_result. rewrite Hok. pose proof Gp as [_ [_ [H3 _]]].
  rewrite slice_sub by lia. reflexivity.
Qed.
Lemma match_err s : length s = n -> is_ok p s = Some false ->
  match_result a b p s = Some (inr (sub (err_offset a b p) (dsize b) s)).
Proof.
  intros Hl Hok. unfold match_result. rewrite Hok. pose proof Gp as [_ [_ [_ [H3 _]]]].
  rewrite slice_sub by lia. reflexivity.
Qed.
Lemma body_ok s x : length s = n -> is_ok p s = Some true ->
  DA (sub (ok_offset a b p) (dsize a) s) = Some x -> result_body a b DA DB p s = Some (VOk x).
Proof. intros Hl Hok Hx. unfold result_body. rewrite match_ok, Hx by assumption. reflexivity. Qed.
Lemma body_err s x : length s = n -> is_ok p s = Some false ->
  DB (sub (err_offset a b p) (dsize b) s) = Some x -> result_body a b DA DB p s = Some (VErr x).
Proof. intros Hl Hok Hx. unfold result_body. rewrite match_err, Hx by assumption. reflexivity. Qed.
Lemma body_inv s y : length s = n -> result_body a b DA DB p s = Some y ->
  (exists x, y = VOk x /\ is_ok p s = Some true /\ DA (sub (ok_offset a b p) (dsize a) s) = Some x) \/
  (exists x, y = VErr x /\ is_ok p s = Some false /\ DB (sub (err_offset a b p) (dsize b) s) = Some x).
Proof.
  intros Hl H. rewrite n_def in Hl. destruct (result_body_read _ _ _ _ _ s Gp Hl) as [[|] [Hx E]]; rewrite E in H; unfold read in H.
  - left. destruct (DA _) as [x|]; [|discriminate]. cbn in H. injection H as <-. eauto.
  - right. destruct (DB _) as [x|]; [|discriminate]. cbn in H. injection H as <-. eauto.
Qed.
End Res.
