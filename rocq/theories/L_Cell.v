(** Writes through shared references to the payload of a [Result]. *)
From Coq Require Import List Arith ZArith NArith Bool Lia ZifyBool ZifyN ZifyNat.
From Verif Require Import M_Layout M_Result M_Cell S_Layout S_Cell L_Layout L_Result L_Good L_Types L_LayoutApi L_Enum.
Import ListNotations.
Ltac Zify.zify_post_hook ::= Z.div_mod_to_equations.
Arguments N.land : simpl never.
Arguments N.testbit : simpl never.
Arguments N.eqb : simpl never.
Arguments Nat.modulo : simpl never.
Arguments Nat.div : simpl never.
Arguments nmo : simpl never.
Arguments Nat.max : simpl never.
Arguments Nat.sub : simpl never.

Definition bits := nat -> N -> Prop.
Definition same_on (u : bits) (s s' : list N) : Prop :=
  forall o b b' i, nth_error s o = Some b -> nth_error s' o = Some b' -> (i < 8)%N -> u o i ->
    N.testbit b i = N.testbit b' i.
(** A change of the payload that keeps the bits [u] keeps the determinant. *)
Definition keep1 (n : nat) (P : reader) (u : bits) (d : det) (w : bool) : Prop :=
  forall s s' v, length s = n -> length s' = n -> is_bytes s -> is_bytes s' -> P s' = Some v ->
    same_on u s s' -> is_det_ok d s = Some w -> is_det_ok d s' = Some w.
Definition keeps (n : nat) (P Q : reader) (uP uQ : bits) (d : det) : Prop :=
  keep1 n P uP d true /\ keep1 n Q uQ d false.

Lemma keeps_not n P Q uP uQ d : keeps n P Q uP uQ d -> keeps n Q P uQ uP (DNot d).
Proof.
  intros [H1 H2]. split.
  - intros s s' v Hl Hl' Hb Hb' Hv Hs. cbn. destruct (is_det_ok d s) as [[|]|] eqn:E; cbn; try discriminate. intros _.
    rewrite (H2 s s' v Hl Hl' Hb Hb' Hv Hs E). reflexivity.
  - intros s s' v Hl Hl' Hb Hb' Hv Hs. cbn. destruct (is_det_ok d s) as [[|]|] eqn:E; cbn; try discriminate. intros _.
    rewrite (H1 s s' v Hl Hl' Hb Hb' Hv Hs E). reflexivity.
Qed.
Lemma same_byte u s s' o b b' : is_bytes s -> is_bytes s' -> same_on u s s' ->
  nth_error s o = Some b -> nth_error s' o = Some b' -> (forall i, (i < 8)%N -> u o i) -> b = b'.
Proof.
  intros Hb Hb' Hs E E' Hu. apply N.bits_inj. intros i. destruct (N.ltb_spec i 8) as [Hi|Hi].
  - apply (Hs o b b' i E E' Hi). auto.
  - rewrite is_bytes_nth in Hb, Hb'. rewrite !byte_testbit_high; eauto.
Qed.
Lemma value_keeps n P Q (uP uQ : bits) (c : chain) :
  (forall o v, In (o, v) c -> o < n /\ forall i, (i < 8)%N -> uQ o i) ->
  (forall s v, length s = n -> is_bytes s -> P s = Some v -> ~ matches c s) ->
  keeps n P Q uP uQ (dval c).
Proof.
  intros Hin HP. split.
  - intros s s' v Hl Hl' Hb Hb' Hv _ _. destruct (dval_is_ok c s') as [[w Hw] Hm].
    { intros o x Ho. rewrite Hl'. apply (Hin o x Ho). }
    destruct w; auto. apply Hm in Hw. destruct (HP s' v Hl' Hb' Hv Hw).
  - intros s s' v Hl Hl' Hb Hb' Hv Hs E. apply dval_is_ok in E; [|intros o x Ho; rewrite Hl; apply (Hin o x Ho)].
    apply dval_is_ok; [intros o x Ho; rewrite Hl'; apply (Hin o x Ho)|].
    intros [o x] Ho. pose proof (E _ Ho) as Ex. cbn in Ex |- *.
    destruct (nth_error_lt s' o) as [b' Hb1]. { rewrite Hl'. apply (Hin o x Ho). }
    rewrite Hb1. f_equal. symmetry. apply (same_byte uQ s s' o x b'); auto. apply (Hin o x Ho).
Qed.
Lemma pow2_keeps n P Q (uP uQ : bits) o k : o < n -> (k < 8)%N -> uP o k -> uQ o k ->
  keeps n P Q uP uQ (DBitErr o (2 ^ k)).
Proof.
  assert (forall (u : bits) w R, o < n -> (k < 8)%N -> u o k -> keep1 n R u (DBitErr o (2 ^ k)) w) as H.
  { intros u w R Ho Hk Hu s s' v Hl Hl' Hb Hb' Hv Hs. cbn [is_det_ok].
    destruct (nth_error_lt s o ltac:(lia)) as [b E]. destruct (nth_error_lt s' o ltac:(lia)) as [b' E'].
    rewrite E, E'. cbn [option_map]. rewrite !land_pow2_zero, (Hs o b b' k E E' Hk Hu). auto. }
  intros. split; apply H; assumption.
Qed.
Lemma bit_keeps n P Q (uP uQ : bits) o v : o < n -> upper v -> (forall i, N.testbit v i = true -> uP o i /\ uQ o i) ->
  keeps n P Q uP uQ (DBitErr o (rightmost_one v)).
Proof.
  intros Ho Hv Hu. destruct (upper_facts v Hv) as [-> [Hk [Ht _]]]. apply Hu in Ht. apply pow2_keeps; tauto.
Qed.
Lemma ext_keeps n P Q (uP uQ : bits) : 0 < n -> uP 0 0%N -> uQ 0 0%N -> keeps n P Q uP uQ DBit.
Proof.
  assert (forall (u : bits) w R, 0 < n -> u 0 0%N -> keep1 n R u DBit w) as H.
  { intros u w R Hn Hu s s' v Hl Hl' Hb Hb' Hv Hs. cbn [is_det_ok].
    destruct (nth_error_lt s 0 ltac:(lia)) as [b E]. destruct (nth_error_lt s' 0 ltac:(lia)) as [b' E'].
    rewrite E, E'. cbn [option_map]. change 1%N with (2 ^ 0)%N. rewrite !land_pow2_zero, (Hs 0 b b' 0%N E E' ltac:(lia) Hu). auto. }
  intros. split; apply H; assumption.
Qed.

(** The bits that do not belong to a payload at [off], or that it does not use. *)
Definition own (off : nat) (d : desc) : bits := fun o i => o < off \/ off + dsize d <= o \/ bit_unused (dub d) (o - off) i.

Definition inner_keeps (a b : desc) (DA DB : list N -> option val) (p : provider) : Prop :=
  let ds := nmo (dsize (det_d (p_det p))) (Nat.max (dalign a) (dalign b)) in
  keeps (ds + dsize a) (read ds (dsize a) DA) (read (p_err_shift p + ds) (dsize b) DB) (own ds a) (own (p_err_shift p + ds) b) (p_det p).

Section Inner.
Variables (a b : desc) (DA DB : list N -> option val).
Hypothesis Ga : good true a DA.
Hypothesis Gb : good true b DB.
Hypothesis Hle : dsize b <= dsize a.

Lemma k_ext : inner_keeps a b DA DB (Prov 0 DBit []).
Proof.
  pose proof (inner_al a b DA DB Ga Gb) as Hal. unfold inner_keeps. cbn [p_det p_err_shift p_ub det_d dsize Nat.add].
  rewrite nmo_one by assumption. pose proof (al_ok_pos _ Hal). apply ext_keeps; [lia| |]; left; lia.
Qed.
Lemma k_pack eoff d ub : det_d d = unit_d ->
  keeps (dsize a) (read 0 (dsize a) DA) (read eoff (dsize b) DB) (own 0 a) (own eoff b) d ->
  inner_keeps a b DA DB (Prov eoff d ub).
Proof.
  intros Hd Hk. unfold inner_keeps. cbn [p_det p_err_shift]. rewrite Hd. cbn [dsize unit_d]. rewrite nmo_0, Nat.add_0_r. exact Hk.
Qed.
Lemma own_a o i : bit_unused (dub a) o i -> own 0 a o i.
Proof. intros H. right. right. rewrite Nat.sub_0_r. exact H. Qed.
Lemma own_b eoff o i : bit_unused (eub a b eoff) o i -> own eoff b o i.
Proof.
  intros H. unfold own. destruct (Nat.lt_ge_cases o eoff) as [|H1]; [tauto|]. destruct (Nat.lt_ge_cases o (eoff + dsize b)) as [H2|]; [|tauto].
  right. right. apply (eub_inside a b Hle eoff (o - eoff) i); [lia|]. replace (eoff + (o - eoff)) with o by lia. exact H.
Qed.
Lemma own_0 o i : dsize b = 0 -> own 0 b o i.
Proof. intros H. right. left. lia. Qed.

Lemma k_unit p : dsize b = 0 -> provider_inner a b = Some p -> inner_keeps a b DA DB p.
Proof.
  intros Hb0. unfold provider_inner. rewrite Hb0. cbn [Nat.eqb].
  destruct (select_one_spec _ _ (g_fv _ _ _ Ga)) as [-> |[c [-> [Hc Hgc]]]].
  - destruct (dub a) as [|[o v] r] eqn:Eub; cbn [provider_with_unit]; intros [= <-].
    + apply k_ext.
    + pose proof (g_ub _ _ _ Ga) as Hub. rewrite Eub in Hub. destruct Hub as [H1 [H2 H3]].
      apply k_pack; [reflexivity|]. apply bit_keeps; [lia|exact H2|]. intros i Hi. split.
      * apply own_a. rewrite Eub. exists v. split; [left; reflexivity|exact Hi].
      * apply own_0, Hb0.
  - destruct c as [|[o v] c]; [congruence|].
    change (provider_with_unit (sfv_of ((o, v) :: c)) (dub a)) with
      (match into_value_is_err (sfv_of ((o, v) :: c)) with Some d => Some (Prov 0 d (dub a)) | None => None end).
    rewrite into_value_chain. intros [= <-]. apply k_pack; [exact (det_d_dval ((o, v) :: c))|].
    change (DVal o v (dval c)) with (dval ((o, v) :: c)). apply value_keeps.
    + intros o' v' Hin. split; [|intros; apply own_0, Hb0]. destruct Hgc as [_ [Hg2 _]]. destruct (Hg2 _ _ Hin) as [H1 _].
      exact (fv_at_lt _ _ _ (g_fv _ _ _ Ga) H1).
    + apply (read_a_chain a DA Ga). exact Hgc.
Qed.
Lemma k_loop budget : forall eoff p, eoff + dsize b <= dsize a ->
  provider_loop budget (dsize a) (dfv a) (dub a) (dfv b) (dub b) (dsize b) (dalign b) eoff = Some p -> inner_keeps a b DA DB p.
Proof.
  induction budget as [|budget IH]; intros eoff p Hoff; cbn [provider_loop].
  { intros [= <-]. apply k_ext. }
  fold (eub a b eoff).
  assert (fv_ok (dsize a) (fshift eoff (dfv b))) as Hfvb.
  { eapply fv_ok_weaken; [|apply fv_ok_shift, (g_fv _ _ _ Gb)]. lia. }
  assert (match bit_and (dub a) (eub a b eoff) with
    | (o, v) :: _ => Some (Prov eoff (DBitErr o (rightmost_one v)) (extract_bit (bit_and (dub a) (eub a b eoff))))
    | [] => if Nat.leb ((dsize b + dalign b) + eoff) (dsize a)
            then provider_loop budget (dsize a) (dfv a) (dub a) (dfv b) (dub b) (dsize b) (dalign b) (dalign b + eoff)
            else provider_with_unit SEnd []
    end = Some p -> inner_keeps a b DA DB p) as Hcase3.
  { assert (ub_ok 0 (dsize a) (bit_and (dub a) (eub a b eoff))) as Hinter.
    { eapply ub_ok_bit_and; [apply (ub_ok_eub a b DB Gb Hle eoff Hoff)|apply (g_ub _ _ _ Ga)]. }
    destruct (bit_and (dub a) (eub a b eoff)) as [|[o v] r] eqn:Ei.
    - destruct (Nat.leb_spec ((dsize b + dalign b) + eoff) (dsize a)) as [Hs|Hs].
      + apply IH. lia.
      + intros [= <-]. apply k_ext.
    - intros [= <-]. pose proof Hinter as [H1 [H2 H3]]. apply k_pack; [reflexivity|]. apply bit_keeps; [lia|exact H2|].
      intros i Hi. assert (bit_unused (bit_and (dub a) (eub a b eoff)) o i) as Hu.
      { rewrite Ei. exists v; split; auto. left; reflexivity. }
      apply bit_unused_and in Hu. destruct Hu as [Hu1 Hu2]. split; [apply own_a, Hu1|apply own_b, Hu2]. }
  assert (match sresolve (select_from (dfv a) (eub a b eoff)) with
     | SArr o v t =>
         match into_value_is_err (SArr o v t) with
         | Some d => Some (Prov eoff d (bit_and (dub a) (eub a b eoff)))
         | None => None
         end
     | _ => match bit_and (dub a) (eub a b eoff) with
        | (o, v) :: _ => Some (Prov eoff (DBitErr o (rightmost_one v)) (extract_bit (bit_and (dub a) (eub a b eoff))))
        | [] => if Nat.leb ((dsize b + dalign b) + eoff) (dsize a)
                then provider_loop budget (dsize a) (dfv a) (dub a) (dfv b) (dub b) (dsize b) (dalign b) (dalign b + eoff)
                else provider_with_unit SEnd []
        end
     end = Some p -> inner_keeps a b DA DB p) as Hcase23.
  { destruct (select_from_spec _ _ (eub a b eoff) (g_fv _ _ _ Ga)) as [-> |[-> |[c [-> [Hc [Hgc Hfree]]]]]];
      cbn [sresolve]; auto.
    destruct c as [|[o v] c]; [congruence|].
    change (sresolve (sfv_of ((o, v) :: c))) with (SArr o v (sfv_of c)). cbn iota.
    change (SArr o v (sfv_of c)) with (sfv_of ((o, v) :: c)). rewrite into_value_chain. intros [= <-].
    apply k_pack; [exact (det_d_dval ((o, v) :: c))|]. change (DVal o v (dval c)) with (dval ((o, v) :: c)). apply value_keeps.
    - intros o' v' Hin. destruct Hgc as [_ [Hg2 _]]. destruct (Hg2 _ _ Hin) as [H1 _]. split; [exact (fv_at_lt _ _ _ (g_fv _ _ _ Ga) H1)|].
      intros i Hi. apply own_b, free_byte_unused; eauto.
    - apply (read_a_chain a DA Ga). exact Hgc. }
  destruct (select_from_spec _ _ (dub a) Hfvb) as [-> |[-> |[c [-> [Hc [Hgc Hfree]]]]]];
    cbn [sresolve]; auto.
  destruct c as [|[o v] c]; [congruence|].
  change (sresolve (sfv_of ((o, v) :: c))) with (SArr o v (sfv_of c)). cbn iota.
  change (SArr o v (sfv_of c)) with (sfv_of ((o, v) :: c)). rewrite into_value_chain. intros [= <-].
  apply k_pack; [exact (det_d_dval ((o, v) :: c))|]. change (DVal o v (dval c)) with (dval ((o, v) :: c)). apply keeps_not, value_keeps.
  - intros o' v' Hin. pose proof Hgc as [_ [Hg2 _]]. destruct (Hg2 _ _ Hin) as [H1 _]. split; [eapply fv_at_lt; eauto|].
    intros i Hi. apply own_a, free_byte_unused; eauto.
  - apply (read_b_chain a b DB Gb Hle); auto.
Qed.
Hypothesis Hsz : dsize a mod (Nat.max (dalign a) (dalign b)) = 0.
Lemma k_inner p : provider_inner a b = Some p -> inner_keeps a b DA DB p.
Proof.
  destruct (Nat.eq_dec (dsize b) 0) as [E|E]; [apply k_unit; exact E|].
  unfold provider_inner. destruct (Nat.eqb_spec (dsize b) 0); [congruence|].
  assert (union_size a b = dsize a) as Hu.
  { unfold union_size, union_align. rewrite Nat.max_l by assumption. apply nmo_id. exact Hsz. }
  assert (union_member_ub a b = dub a) as Hum.
  { unfold union_member_ub. rewrite Hu, Nat.sub_diag. cbn. rewrite mshift_0. apply bit_or_nil_r. }
  rewrite Hu, Hum. apply k_loop. lia.
Qed.
End Inner.

Lemma provider_keeps a b DA DB p :
  good true a DA -> good true b DB -> sizes_match a b = true -> provider_of a b = Some p ->
  keeps (dsize (result_d a b p)) (read (ok_offset a b p) (dsize a) DA) (read (err_offset a b p) (dsize b) DB)
    (own (ok_offset a b p) a) (own (err_offset a b p) b) (fp_det p).
Proof.
  intros Ga Gb Hsm. unfold sizes_match in Hsm. apply Nat.eqb_eq in Hsm.
  unfold provider_of. destruct (Nat.leb_spec (dsize b) (dsize a)) as [Hle|Hlt].
  - destruct (provider_inner a b) as [q|] eqn:E; [|discriminate]. intros [= <-].
    rewrite Nat.max_l in Hsm by assumption. pose proof (k_inner a b DA DB Ga Gb Hle Hsm q E) as K. unfold inner_keeps in K.
    unfold ok_offset, err_offset, det_size, result_d; cbn [dsize dalign dub fp_det fp_ub fp_ok_shift fp_err_shift].
    rewrite (Nat.max_l (dsize a)) by assumption. exact K.
  - destruct (provider_inner b a) as [q|] eqn:E; [|discriminate]. intros [= <-].
    rewrite Nat.max_r in Hsm by lia. pose proof (k_inner b a DB DA Gb Ga ltac:(lia)) as K. rewrite (Nat.max_comm (dalign b)) in K.
    specialize (K Hsm q E). unfold inner_keeps in K. rewrite (Nat.max_comm (dalign b)) in K.
    unfold ok_offset, err_offset, det_size, result_d; cbn [dsize dalign dub fp_det fp_ub fp_ok_shift fp_err_shift det_d].
    rewrite (Nat.max_r (dsize a)) by lia. apply keeps_not. exact K.
Qed.

Lemma same_payload off d s v s' : blit s off v = Some s' -> off + dsize d <= length s -> length v = dsize d ->
  keeps_unused (dub d) (sub off (dsize d) s) v -> same_on (own off d) s s'.
Proof.
  intros E Hl Hv Hk o b b' i E1 E2 Hi Hu. destruct (write_sub _ _ _ _ E ltac:(lia)) as [Hl' [Hsub Hout]].
  destruct (Nat.lt_ge_cases o off) as [H1|H1]; [rewrite Hout in E2 by lia; congruence|].
  destruct (Nat.lt_ge_cases o (off + dsize d)) as [H2|H2]; [|rewrite Hout in E2 by lia; congruence].
  destruct Hu as [Hu|[Hu|Hu]]; [lia|lia|].
  apply (Hk (o - off) b b' i); [| |exact Hu].
  - rewrite nth_error_sub. destruct (Nat.ltb_spec (o - off) (dsize d)); [|lia]. rewrite <- E1. f_equal. lia.
  - rewrite <- Hsub, nth_error_sub. destruct (Nat.ltb_spec (o - off) (length v)); [|lia]. rewrite <- E2. f_equal. lia.
Qed.

Lemma shared_ok a b da db p s x0 v x : wf (TResult a b) -> layout a = Some da -> layout b = Some db ->
  provider_of da db = Some p -> decode (TResult a b) s = Some (VOk x0) -> decode a v = Some x ->
  (forall old, slice s (ok_offset da db p) (dsize da) = Some old -> keeps_unused (dub da) old v) ->
  exists s', ok_shared_write da db p s v = Some s' /\ decode (TResult a b) s' = Some (VOk x).
Proof.
  intros Hw La Lb Hp Hd Hv Hk.
  destruct (decode_result_inv _ _ _ _ Hw Hd) as [da' [db' [p' [La' [Lb' [Hp' [Ga [Gb [Gp [Hl [Hb Hc]]]]]]]]]]].
  assert (da' = da) by congruence. subst da'. assert (db' = db) by congruence. subst db'. assert (p' = p) by congruence. subst p'.
  destruct Hc as [[y [Ey [Ho [_ Hy]]]]|[y [Ey _]]]; [|discriminate].
  destruct (g_len _ _ _ Ga _ _ Hv) as [Hlv Hbv]. pose proof Gp as [_ [_ [H3 [H4 _]]]].
  destruct (write_ok s (ok_offset da db p) v) as [s' Es]; [lia|]. exists s'. split; [exact Es|].
  destruct (write_sub _ _ _ _ Es ltac:(lia)) as [Hl' [Hsub Hout]].
  assert (is_bytes s') as Hb' by (eapply is_bytes_write; [exact Hb|exact Hbv| |exact Es]; lia).
  pose proof Hw as Hw'. apply wf_result in Hw'. destruct Hw' as [_ [_ [da' [db' [La'' [Lb'' Hs]]]]]].
  assert (da' = da) by congruence. subst da'. assert (db' = db) by congruence. subst db'.
  destruct (provider_keeps da db _ _ p Ga Gb Hs Hp) as [K _].
  rewrite Hlv in Hsub.
  eapply decode_result_intro_ok; eauto; [lia| |congruence].
  apply (K s s' x); auto; [lia| |].
  - unfold read. congruence.
  - eapply same_payload; eauto; [lia|]. apply Hk. apply slice_sub. lia.
Qed.
Lemma shared_err a b da db p s x0 v x : wf (TResult a b) -> layout a = Some da -> layout b = Some db ->
  provider_of da db = Some p -> decode (TResult a b) s = Some (VErr x0) -> decode b v = Some x ->
  (forall old, slice s (err_offset da db p) (dsize db) = Some old -> keeps_unused (dub db) old v) ->
  exists s', err_shared_write da db p s v = Some s' /\ decode (TResult a b) s' = Some (VErr x).
Proof.
  intros Hw La Lb Hp Hd Hv Hk.
  destruct (decode_result_inv _ _ _ _ Hw Hd) as [da' [db' [p' [La' [Lb' [Hp' [Ga [Gb [Gp [Hl [Hb Hc]]]]]]]]]]].
  assert (da' = da) by congruence. subst da'. assert (db' = db) by congruence. subst db'. assert (p' = p) by congruence. subst p'.
  destruct Hc as [[y [Ey _]]|[y [Ey [Ho [_ Hy]]]]]; [discriminate|].
  destruct (g_len _ _ _ Gb _ _ Hv) as [Hlv Hbv]. pose proof Gp as [_ [_ [H3 [H4 _]]]].
  destruct (write_ok s (err_offset da db p) v) as [s' Es]; [lia|]. exists s'. split; [exact Es|].
  destruct (write_sub _ _ _ _ Es ltac:(lia)) as [Hl' [Hsub Hout]].
  assert (is_bytes s') as Hb' by (eapply is_bytes_write; [exact Hb|exact Hbv| |exact Es]; lia).
  pose proof Hw as Hw'. apply wf_result in Hw'. destruct Hw' as [_ [_ [da' [db' [La'' [Lb'' Hs]]]]]].
  assert (da' = da) by congruence. subst da'. assert (db' = db) by congruence. subst db'.
  destruct (provider_keeps da db _ _ p Ga Gb Hs Hp) as [_ K].
  rewrite Hlv in Hsub.
  eapply decode_result_intro_err; eauto; [lia| |congruence].
  apply (K s s' x); auto; [lia| |].
  - unfold read. congruence.
  - eapply same_payload; eauto; [lia|]. apply Hk. apply slice_sub. lia.
Qed.
