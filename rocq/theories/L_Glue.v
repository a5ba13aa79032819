(** Lemmas on the adapters. *)
From Coq Require Import List Arith NArith Bool Lia.
From Verif Require Import M_Layout M_Result M_Enum M_Vec M_Alloc M_Glue S_Layout S_Vec S_Glue L_Vec L_LayoutThms L_Enum.
Import ListNotations.
Ltac Zify.zify_post_hook ::= idtac.

(** ** Writers *)
Lemma write_all_spec : forall ok buf v l, holds 1 v l -> fits 1 (N.of_nat (length l + length buf)) ->
  (exists v', io_write_all (length buf) ok buf v = Wrote v' /\ holds 1 v' (l ++ buf)) \/
  ((exists k, ok k = false) /\ io_write_all (length buf) ok buf v = Failed OutOfMemory v).
Proof.
  intros ok buf v l H F. destruct buf as [|b r].
  - left. exists v. rewrite app_nil_r. split; auto.
  - cbn [length io_write_all]. unfold io_write.
    destruct (v_try_copy_extend_spec 1 ok v l (b :: r)) as [(v' & E1 & E2) | [[k K] E1]]; auto; [discriminate| |]; rewrite E1.
    + left. exists v'. cbn [length]. cbn [length skipn]. rewrite skipn_all. split; auto. destruct (length r); reflexivity.
    + right. split; eauto.
Qed.
Lemma session_spec : forall calls v l, holds 1 v l -> fits 1 (N.of_nat (length l + total (map snd calls))) ->
  exists bs v', io_session calls v = Some (bs, v') /\ length bs = length calls /\ holds 1 v' (l ++ written bs (map snd calls)) /\
    (forall i ok buf, nth_error calls i = Some (ok, buf) -> nth_error bs i = Some false -> exists k, ok k = false).
Proof.
  induction calls as [|[ok buf] r IH]; intros v l H F.
  - exists [], v. split; [reflexivity|]. split; [reflexivity|]. split; [cbn; rewrite app_nil_r; auto|]. intros [|i]; discriminate.
  - cbn [map snd total] in F. cbn [io_session].
    destruct (write_all_spec ok buf v l H) as [(v1 & E & H1) | (K & E)]; [eapply fits_le; [|exact F]; lia| |]; rewrite E.
    + destruct (IH (io_flush v1) (l ++ buf)) as (bs & v' & E2 & L & H2 & Q).
      { exact H1. }
      { rewrite app_length. eapply fits_le; [|exact F]; lia. }
      rewrite E2. exists (true :: bs), v'. split; [reflexivity|]. split; [cbn; congruence|]. split; [cbn [map snd written]; rewrite app_assoc; auto|].
      intros [|i] o b A B; [discriminate | eapply Q; eauto].
    + destruct (IH (io_flush v) l) as (bs & v' & E2 & L & H2 & Q); auto.
      { eapply fits_le; [|exact F]; lia. }
      rewrite E2. exists (false :: bs), v'. split; [reflexivity|]. split; [cbn; congruence|]. split; auto.
      intros [|i] o b A B; [injection A as <- <-; auto | eapply Q; eauto].
Qed.

(** ** [Cow] *)
Lemma cow_ty o : enum_ty (cow_variants o) = Some (TResult (TRef 8) o).
Proof. reflexivity. Qed.
Lemma ref_bytes z u : decode (TRef 8) z = Some u -> u = VRaw z.
Proof.
  cbn [decode]. destruct (layout (TRef 8)) as [d|]; [|discriminate].
  destruct (negb _); [discriminate|]. destruct (forallb (N.eqb 0) z); congruence.
Qed.
Lemma cow_borrowed_spec o w x : wf (TResult (TRef 8) o) -> decode (TRef 8) w = Some x ->
  exists s, cow_borrowed o w = Some s /\ enum_match (cow_variants o) s = Some (0, w).
Proof.
  intros W D. destruct (enum_round_trip (cow_variants o) _ 0 (TRef 8) w x (cow_ty o) W eq_refl D) as (s & w' & y & E1 & E2 & E3 & E4).
  exists s. split; auto. rewrite E3. do 2 f_equal.
  apply ref_bytes in D, E4. congruence.
Qed.
Lemma cow_owned_spec o w x : wf (TResult (TRef 8) o) -> decode o w = Some x ->
  exists s w', cow_owned o w = Some s /\ enum_match (cow_variants o) s = Some (1, w') /\ decode o w' = Some x.
Proof.
  intros W D. destruct (enum_round_trip (cow_variants o) _ 1 o w x (cow_ty o) W eq_refl D) as (s & w' & y & E1 & E2 & E3 & E4). eauto.
Qed.

(** ** [IMap] *)
Lemma stable_some t v x : wf t -> decode t v = Some x ->
  exists s w, to_stable t (Some v) = Some s /\ of_stable t s = Some (Some w) /\ decode t w = Some x.
Proof.
  intros W D. destruct (option_round_trip t W) as (d & p & E1 & E2 & A & B).
  destruct (A v x D) as (s & w & E3 & _ & E4 & E5). exists s, w. unfold to_stable, of_stable. rewrite E1, E2. auto.
Qed.
Lemma stable_none t : wf t -> exists s, to_stable t None = Some s /\ of_stable t s = Some None.
Proof.
  intros W. destruct (option_round_trip t W) as (d & p & E1 & E2 & A & (s & E3 & _ & E4)).
  exists s. unfold to_stable, of_stable. rewrite E1, E2. auto.
Qed.

Lemma find_filter k k' (m : smap) : find (fun e => N.eqb (fst e) k) (filter (fun e => negb (N.eqb (fst e) k')) m) =
  if N.eqb k k' then None else find (fun e => N.eqb (fst e) k) m.
Proof.
  induction m as [|[a b] m IH]; cbn; [destruct (N.eqb k k'); auto|].
  destruct (N.eqb_spec a k') as [->|]; cbn.
  - rewrite IH. destruct (N.eqb_spec k k') as [->|]; auto. destruct (N.eqb_spec k' k); congruence.
  - destruct (N.eqb_spec a k) as [->|].
    + destruct (N.eqb_spec k k'); congruence.
    + apply IH.
Qed.
Lemma get_put k k' v m : std_get k (std_put k' v m) = if N.eqb k k' then Some v else std_get k m.
Proof.
  unfold std_get, std_put. cbn [find fst]. rewrite (N.eqb_sym k' k), find_filter. destruct (N.eqb k k'); reflexivity.
Qed.
(** The map [m] stands for [f]. *)
Definition stands (t : ty) (m : smap) (f : amap) : Prop := forall k, same t (std_get k m) (f k).
Lemma stands_put t m f k v x : stands t m f -> decode t v = Some x -> stands t (std_put k v m) (put k x f).
Proof. intros H D k'. rewrite get_put. unfold put. destruct (N.eqb k' k); [exact D | apply H]. Qed.

Lemma ref_seen t m f k a (W : wf t) : stands t m f -> decode (TRef 8) a <> None ->
  exists s, to_stable (TRef 8) (option_map (fun _ => a) (std_get k m)) = Some s /\
    match of_stable (TRef 8) s with
      | Some None => Some None
      | Some (Some r) => if list_eq_dec N.eq_dec r a then match std_get k m with Some v => Some (Some v) | None => None end else None
      | None => None
    end = Some (std_get k m).
Proof.
  intros H A. destruct (decode (TRef 8) a) as [x|] eqn:D; [|tauto].
  destruct (std_get k m) as [v|] eqn:E; cbn [option_map].
  - destruct (stable_some (TRef 8) a x eq_refl D) as (s & w & E1 & E2 & E3). exists s. split; auto. rewrite E2.
    destruct (list_eq_dec N.eq_dec w a) as [|n]; auto. destruct n. apply ref_bytes in D, E3. congruence.
  - destruct (stable_none (TRef 8) eq_refl) as (s & E1 & E2). exists s. split; auto. rewrite E2. auto.
Qed.
Lemma imap_step t c m f : wf t -> call_ok t c -> stands t m f ->
  exists s x, imap_call t c m = (Some s, snd (imap_call t c m)) /\ imap_seen t c m s = Some x /\
    same t x (fst (acall_spec (decode t) c f)) /\ stands t (snd (imap_call t c m)) (snd (acall_spec (decode t) c f)).
Proof.
  intros W C H. destruct c as [k a | k a v | k v]; cbn [imap_call imap_seen acall_spec fst snd]; cbn [call_ok] in C.
  - destruct (ref_seen t m f k a W H C) as (s & E1 & E2). exists s, (std_get k m). rewrite E1. split; auto.
  - destruct C as [A B]. destruct (ref_seen t m f k a W H A) as (s & E1 & E2). exists s, (std_get k m). rewrite E1. split; auto. split; auto. split; [apply H|].
    pose proof (H k) as Hk. unfold same in Hk. destruct (std_get k m), (f k); try tauto.
    destruct (decode t v) as [x|] eqn:D; [|tauto]. apply stands_put; auto.
  - pose proof (H k) as Hk. destruct (decode t v) as [x|] eqn:D; [|tauto].
    assert (Q : stands t (std_put k v m) (put k x f)) by (apply stands_put; auto).
    unfold same in Hk. destruct (std_get k m) as [w|], (f k) as [y|]; try tauto.
    + destruct (stable_some t w y W Hk) as (s & w' & E1 & E2 & E3). exists s, (Some w'). rewrite E1, E2. repeat split; auto.
    + destruct (stable_none t W) as (s & E1 & E2). exists s, None. rewrite E1, E2. repeat split; auto.
Qed.
Lemma imap_run_spec t : wf t -> forall cs m f, Forall (call_ok t) cs -> stands t m f ->
  exists xs m', imap_run t cs m = Some (xs, m') /\ Forall2 (same t) xs (run_spec (decode t) cs f).
Proof.
  intros W. induction cs as [|c r IH]; intros m f F H.
  - exists [], m. split; [reflexivity | constructor].
  - inversion F as [|? ? C F']; subst. destruct (imap_step t c m f W C H) as (s & x & E1 & E2 & E3 & E4).
    destruct (IH _ _ F' E4) as (xs & m' & E5 & E6). cbn [imap_run run_spec]. rewrite E1, E2, E5.
    exists (x :: xs), m'. split; auto. destruct (acall_spec (decode t) c f) as [y f'] eqn:E. cbn [fst snd] in *. constructor; auto.
Qed.

(** ** Allocators *)
Lemma tower_same {St} n (A : ialloc St) c s : acall_run (tower n A) c s = acall_run A c s.
Proof. induction n as [|n IH]; [reflexivity|]. rewrite <- IH. destruct c; reflexivity. Qed.
Lemma tower_runs {St} n (A : ialloc St) : forall cs s, acalls_run (tower n A) cs s = acalls_run A cs s.
Proof. induction cs as [|c r IH]; intros s; [reflexivity|]. cbn [acalls_run]. rewrite tower_same. destruct (acall_run A c s) as [[| |] s']; auto; rewrite IH; auto. Qed.
Lemma safe_runs {St} (A : ialloc St) (good : nat -> St -> Prop) (keeps : St -> St -> Prop) :
  (forall s, keeps s s) -> (forall a b c, keeps a b -> keeps b c -> keeps a c) ->
  (forall n l s, good (S n) s -> fst (al_alloc A l s) <> Fault /\ good n (snd (al_alloc A l s)) /\ keeps s (snd (al_alloc A l s))) ->
  forall cs s, forallb (safe_method ViaIAlloc) cs = true -> good (length cs) s ->
  ~ In Fault (fst (acalls_run A cs s)) /\ keeps s (snd (acalls_run A cs s)).
Proof.
  intros R T H. induction cs as [|c r IH]; intros s F G; [cbn; auto|].
  cbn in F. apply andb_prop in F. destruct F as [F1 F2]. destruct c; try discriminate. cbn [acalls_run acall_run].
  destruct (H (length r) l s G) as (H1 & H2 & H3). destruct (al_alloc A l s) as [o s']. cbn [fst snd] in *.
  destruct (IH s' F2 H2) as [I1 I2]. destruct (acalls_run A r s') as [os sf]. cbn [fst snd] in *.
  destruct o; try tauto; (split; [intros [X|X]; [discriminate | tauto] | eauto]).
Qed.
