(** Lemmas on the registry of vtables in a vector. *)
From Coq Require Import List Arith Bool Lia.
From Verif Require Import M_Import L_Import M_ATree S_ATree L_ATree L_ATreeReg M_VtVec S_VtVec.
Import ListNotations.

Fixpoint tot {A} (f : A -> nat) (l : list A) : nat := match l with [] => 0 | x :: l => f x + tot f l end.
Lemma tot_put {A} : forall (f : A -> nat) l t p q, nth_error l t = Some p -> tot f (put l t q) + f p = tot f l + f q.
Proof.
  induction l as [|x l IH]; intros [|t] p q H; cbn in H; try discriminate; cbn [tot put].
  - injection H as ->. lia.
  - specialize (IH t p q H). lia.
Qed.
Lemma tot_in {A} : forall (f : A -> nat) l t p, nth_error l t = Some p -> f p <= tot f l.
Proof.
  induction l as [|x l IH]; intros [|t] p H; cbn in H; try discriminate; cbn [tot put].
  - injection H as ->. lia.
  - specialize (IH t p H). lia.
Qed.
Lemma tot_zero {A} : forall (f : A -> nat) l, (forall p, In p l -> f p = 0) -> tot f l = 0.
Proof. induction l as [|x l IH]; intros H; cbn [tot]; [reflexivity|]. rewrite (H x) by (now left). apply IH. intros; apply H; now right. Qed.

Section VtVec.
Variable K : Type.
Variable keq : forall x y : K, {x = y} + {x <> y}.
Notation addr := (nat * nat)%type.
Notation regs := (list (K * addr)).
Notation copies v := (map snd (v : regs)).
Notation find := (find K keq).
Notation local := (local K keq).
Notation now s := (vecs K s (vptr s)).

Definition prefix (v w : regs) : Prop := exists u, w = v ++ u.
Definition vh (a : nat) (p : vpc K) : nat :=
  match p with
  | VIdle _ => 0
  | VFetch _ _ vts _ | VHave _ _ vts | VCheck _ _ vts | VCheck2 _ _ vts | VCas _ _ vts => Nat.b2n (points vts a)
  | VDone _ old vts => Nat.b2n (points old a) + Nat.b2n (points vts a)
  end.
Definition busy (t : nat) (x : vars K) (n : nat) (g : regs) : Prop :=
  n <= length g /\ (exists k ks, todo K x = k :: ks /\ find k (firstn n g) = None) /\ (forall c, copied K x = Some c -> ~ In (t, c) (copies g)).
Definition ready (x : vars K) (v g : regs) : Prop :=
  prefix v g /\ copied K x <> None /\ exists k ks, todo K x = k :: ks /\ find k v = None.
Definition status (t : nat) (p : vpc K) (s : vcell K) : Prop :=
  match p with
  | VIdle x | VDone x _ _ => copied K x = None
  | VFetch x n vts p => busy t x n (now s) /\ vptr s = Some p
  | VHave x n vts => busy t x n (now s) /\ prefix (vecs K s vts) (now s) /\ n <= length (vecs K s vts)
  | VCheck x n vts | VCheck2 x n vts | VCas x n vts => busy t x n (now s) /\ ready x (vecs K s vts) (now s)
  end.
Record vinv (s : vcell K) : Prop := {
  v_rc : forall a, Nat.b2n (points (vptr s) a) + tot (vh a) (vpcs s) <= vrc s a;
  v_fault : vfault s = false;
  v_made : forall k r, In (k, r) (now s) -> exists p, nth_error (vpcs s) (fst r) = Some p /\ nth_error (made K (vvars p)) (snd r) = Some k;
  v_local : forall t p, nth_error (vpcs s) t = Some p -> local t (vvars p) (now s);
  v_status : forall t p, nth_error (vpcs s) t = Some p -> status t p s
}.

Lemma find_app k (v w : regs) : find k (v ++ w) = match find k v with Some r => Some r | None => find k w end.
Proof. induction v as [|[k' a] v IH]; cbn; [reflexivity|]. destruct (keq k' k); auto. Qed.
Lemma prefix_find k v w r : prefix v w -> find k v = Some r -> find k w = Some r.
Proof. intros (u & ->) H. rewrite find_app, H. reflexivity. Qed.
Lemma prefix_refl v : prefix v v.
Proof. exists []. rewrite app_nil_r. reflexivity. Qed.
Lemma prefix_trans u v w : prefix u v -> prefix v w -> prefix u w.
Proof. intros (a & ->) (b & ->). exists (a ++ b). rewrite app_assoc. reflexivity. Qed.
Lemma prefix_len v w : prefix v w -> length v <= length w.
Proof. intros (u & ->). rewrite app_length. lia. Qed.
Lemma prefix_firstn n v w : prefix v w -> n <= length v -> firstn n w = firstn n v.
Proof. intros (u & ->) H. rewrite firstn_app. replace (n - length v) with 0 by lia. cbn. apply app_nil_r. Qed.
Lemma prefix_all v w : prefix v w -> firstn (length v) w = v.
Proof. intros P. rewrite (prefix_firstn _ _ _ P) by lia. apply firstn_all. Qed.

(** The content is extended by thread [t], or not. *)
Definition ext (t : nat) (g g' : regs) : Prop := g' = g \/ exists k c, g' = g ++ [(k, (t, c))] /\ find k g = None.
Lemma ext_prefix t g g' : ext t g g' -> prefix g g'.
Proof. intros [->|(k & c & -> & _)]; [apply prefix_refl|]. eexists; reflexivity. Qed.
Lemma ext_other t g g' r : ext t g g' -> fst r <> t -> ~ In r (copies g) -> ~ In r (copies g').
Proof.
  intros [->|(k & c & -> & _)] N H; [exact H|]. rewrite map_app, in_app_iff. intros [X|[X|[]]]; [contradiction|]. cbn in X. subst r. auto.
Qed.
Lemma local_ext t u x g g' : u <> t -> ext t g g' -> local u x g -> local u x g'.
Proof.
  intros N E [a1 a2 a3 a4 a5]. constructor; auto.
  - intros k r H. eapply prefix_find; [eapply ext_prefix; eauto|]. auto.
  - intros r Hr. destruct (a4 r Hr) as (X & Y & Z). repeat split; auto. eapply ext_other; eauto. congruence.
Qed.
Lemma busy_ext t u x n g g' : u <> t -> ext t g g' -> busy u x n g -> busy u x n g'.
Proof.
  intros N E (A & (k & ks & B & C) & D). pose proof (ext_prefix _ _ _ E) as P. split; [|split].
  - pose proof (prefix_len _ _ P). lia.
  - exists k, ks. rewrite (prefix_firstn _ _ _ P A). auto.
  - intros c Hc. eapply ext_other; eauto.
Qed.
Lemma vecs_frame s s' vts : (forall a, vts = Some a -> vval s' a = vval s a) -> vecs K s' vts = vecs K s vts.
Proof. intros H. destruct vts as [a|]; cbn; auto. Qed.
Lemma points_one vts a : vts = Some a -> Nat.b2n (points vts a) = 1.
Proof. intros ->. cbn. rewrite Nat.eqb_refl. reflexivity. Qed.
Lemma status_frame t u q s s' : u <> t -> ext t (now s) (now s') -> (forall a, 0 < vh a q -> vval s' a = vval s a) ->
  (vptr s' = vptr s \/ vexposed q = false) -> status u q s -> status u q s'.
Proof.
  intros N E F X St.
  assert (G : forall vts, (forall a, vh a q = Nat.b2n (points vts a)) -> vecs K s' vts = vecs K s vts).
  { intros vts H. apply vecs_frame. intros a ->. apply F. rewrite H. cbn. rewrite Nat.eqb_refl. cbn. lia. }
  destruct q; cbn [status vexposed] in *; auto.
  - destruct St as (B & P). split; [eapply busy_ext; eauto|]. destruct X as [X|X]; [congruence|discriminate X].
  - destruct St as (B & P & L). rewrite (G vts) by reflexivity. split; [eapply busy_ext; eauto|]. split; [|exact L].
    eapply prefix_trans; [exact P|eapply ext_prefix; eauto].
  - destruct St as (B & P & L). rewrite (G vts) by reflexivity. split; [eapply busy_ext; eauto|]. split; [|exact L].
    eapply prefix_trans; [exact P|eapply ext_prefix; eauto].
  - destruct St as (B & P & L). rewrite (G vts) by reflexivity. split; [eapply busy_ext; eauto|]. split; [|exact L].
    eapply prefix_trans; [exact P|eapply ext_prefix; eauto].
  - destruct St as (B & P & L). rewrite (G vts) by reflexivity. split; [eapply busy_ext; eauto|]. split; [|exact L].
    eapply prefix_trans; [exact P|eapply ext_prefix; eauto].
Qed.

Lemma vinv_put s t p s' q : vinv s -> nth_error (vpcs s) t = Some p -> vpcs s' = put (vpcs s) t q ->
  ext t (now s) (now s') -> (forall k r, In (k, r) (now s') -> In (k, r) (now s) \/ fst r = t /\ nth_error (made K (vvars q)) (snd r) = Some k) ->
  (forall a, 0 < vrc s a -> vval s' a = vval s a) ->
  (forall u q', u <> t -> nth_error (vpcs s) u = Some q' -> vptr s' = vptr s \/ vexposed q' = false) ->
  (forall a, vrc s a + vh a q + Nat.b2n (points (vptr s') a) <= vrc s' a + vh a p + Nat.b2n (points (vptr s) a)) ->
  vfault s' = false ->
  (forall m k, nth_error (made K (vvars p)) m = Some k -> nth_error (made K (vvars q)) m = Some k) ->
  local t (vvars q) (now s') -> status t q s' -> vinv s'.
Proof.
  intros I Hp Ep Ex Mk Fv Fx Rc Fl M Lc St. constructor.
  - intros a. specialize (Rc a). pose proof (v_rc _ I a). rewrite Ep. pose proof (tot_put (vh a) (vpcs s) t p q Hp). lia.
  - exact Fl.
  - intros k r Hr. destruct (Mk k r Hr) as [H|(E & H)].
    + destruct (v_made _ I _ _ H) as (p1 & A & B). rewrite Ep. destruct (Nat.eq_dec (fst r) t) as [E|N].
      * exists q. rewrite E, (put_eq _ _ _ _ Hp). split; [reflexivity|]. apply M. rewrite E, Hp in A. injection A as <-. exact B.
      * exists p1. rewrite put_ne by exact N. auto.
    + exists q. rewrite Ep, E, (put_eq _ _ _ _ Hp). auto.
  - intros u p1 Hu. rewrite Ep in Hu. destruct (Nat.eq_dec u t) as [->|N].
    + rewrite (put_eq _ _ _ _ Hp) in Hu. injection Hu as <-. exact Lc.
    + rewrite put_ne in Hu by exact N. eapply local_ext; eauto. exact (v_local _ I _ _ Hu).
  - intros u p1 Hu. rewrite Ep in Hu. destruct (Nat.eq_dec u t) as [->|N].
    + rewrite (put_eq _ _ _ _ Hp) in Hu. injection Hu as <-. exact St.
    + rewrite put_ne in Hu by exact N. eapply (status_frame t); eauto; [|exact (v_status _ I _ _ Hu)].
      intros a Ha. apply Fv. pose proof (v_rc _ I a). pose proof (tot_in (vh a) _ _ _ Hu). lia.
Qed.

Lemma vinv_new kss : vinv (vcell_new K kss).
Proof.
  constructor; cbn [vcell_new vptr vrc vval vpcs vfault vecs points Nat.b2n Nat.add]; auto.
  - intros a. rewrite tot_zero; [lia|]. intros p Hp. apply in_map_iff in Hp. destruct Hp as (x & <- & _). reflexivity.
  - intros k r [].
  - intros t p H. rewrite nth_error_map in H. destruct (nth_error (clients K 0 kss) t) eqn:E; [|discriminate]. injection H as <-.
    destruct (client_nth _ _ _ _ _ E) as (ks & ->). constructor; cbn; auto; try contradiction; discriminate.
  - intros t p H. rewrite nth_error_map in H. destruct (nth_error (clients K 0 kss) t) eqn:E; [|discriminate]. injection H as <-.
    destruct (client_nth _ _ _ _ _ E) as (ks & ->). reflexivity.
Qed.

(** The variables after the copy of a vtable was made. *)
Lemma copy_local t x k ks g : local t x g -> todo K x = k :: ks -> local t (copy K x k) g /\ copied K (copy K x k) <> None /\ todo K (copy K x k) = k :: ks /\
  (forall m k', nth_error (made K x) m = Some k' -> nth_error (made K (copy K x k)) m = Some k').
Proof.
  intros Lc Et. unfold copy. destruct (copied K x) as [c|] eqn:Ec. { repeat split; auto; [exact (l_me _ _ _ _ _ Lc)|exact (l_ok _ _ _ _ _ Lc)|exact (l_ans _ _ _ _ _ Lc)|exact (proj1 (l_freed _ _ _ _ _ Lc _ H))|exact (proj1 (proj2 (l_freed _ _ _ _ _ Lc _ H)))|exact (proj2 (proj2 (l_freed _ _ _ _ _ Lc _ H)))|exact (l_cop _ _ _ _ _ Lc)|congruence]. }
  assert (M : forall m k', nth_error (made K x) m = Some k' -> nth_error (made K x ++ [k]) m = Some k').
  { intros m k' H. rewrite nth_error_app1; [exact H|]. apply nth_error_Some. congruence. }
  split; [|cbn; repeat split; auto; discriminate]. destruct Lc as [a1 a2 a3 a4 a5]. constructor; cbn; auto.
  - intros r Hr. destruct (a4 r Hr) as (X & Y & Z). repeat split; auto. rewrite app_length. lia.
  - intros c [= <-]. exists k, ks. repeat split; auto.
    + rewrite nth_error_app2, Nat.sub_diag by lia. reflexivity.
    + intros H. destruct (a4 _ H) as (_ & Y & _). cbn in Y. lia.
Qed.
Lemma busy_copy s t p x n k g : vinv s -> nth_error (vpcs s) t = Some p -> vvars p = x -> g = now s -> busy t x n g ->
  (exists ks, todo K x = k :: ks) -> busy t (copy K x k) n g.
Proof.
  intros I Hp Ex -> (A & (k0 & ks0 & B & C) & D) (ks & Et). rewrite Et in B. injection B as <- <-. split; [exact A|]. unfold copy.
  destruct (copied K x) as [c|] eqn:Ec; [split; [exists k, ks; auto|rewrite Ec; exact D]|]. split; [exists k, ks; auto|]. cbn. intros c [= <-] Hin.
  apply in_map_iff in Hin. destruct Hin as ((k' & r) & Er & Hin). cbn in Er. subst r. destruct (v_made _ I _ _ Hin) as (p1 & X & Y). cbn [fst snd] in X, Y.
  rewrite Hp in X. injection X as <-. rewrite Ex in Y. assert (Z : nth_error (made K x) (length (made K x)) = None) by (apply nth_error_None; lia). congruence.
Qed.

Lemma now_same s s' : vptr s' = vptr s -> vval s' = vval s -> now s' = now s.
Proof. intros A B. rewrite A. destruct (vptr s); cbn; rewrite ?B; reflexivity. Qed.
(** A step that changes neither the content nor the vectors. *)
Lemma vinv_local s t p s' q : vinv s -> nth_error (vpcs s) t = Some p -> vpcs s' = put (vpcs s) t q ->
  vptr s' = vptr s -> vval s' = vval s ->
  (forall a, vrc s a + vh a q <= vrc s' a + vh a p) -> vfault s' = false ->
  (forall m k, nth_error (made K (vvars p)) m = Some k -> nth_error (made K (vvars q)) m = Some k) ->
  local t (vvars q) (now s) -> status t q s -> vinv s'.
Proof.
  intros I Hp Ep E1 E2 Rc Fl M Lc St. pose proof (now_same s s' E1 E2) as En.
  apply (vinv_put s t p s' q I Hp Ep); auto.
  - left. exact En.
  - rewrite En. auto.
  - intros a _. rewrite E2. reflexivity.
  - intros a. specialize (Rc a). rewrite E1. lia.
  - rewrite En. exact Lc.
  - assert (G : forall vts, vecs K s' vts = vecs K s vts) by (intros [a|]; cbn; rewrite ?E2; reflexivity).
    destruct q; cbn [status] in *; rewrite ?En, ?E1, ?G; auto.
Qed.
Lemma vrc_held s t p a : vinv s -> nth_error (vpcs s) t = Some p -> vh a p <= vrc s a.
Proof. intros I Hp. pose proof (v_rc _ I a). pose proof (tot_in (vh a) _ _ _ Hp). lia. Qed.
Lemma vrc_ptr s a : vinv s -> vptr s = Some a -> 0 < vrc s a.
Proof. intros I E. pose proof (v_rc _ I a). rewrite E in H. cbn [points] in H. rewrite Nat.eqb_refl in H. cbn in H. lia. Qed.

(** Reading the pointer again. *)
Lemma vinv_fetch s t p x n vts : vinv s -> nth_error (vpcs s) t = Some p -> (forall a, vh a p = Nat.b2n (points vts a)) -> vvars p = x ->
  busy t x n (now s) -> vinv (vfetch K t x n vts s).
Proof.
  intros I Hp Hh Ex B. unfold vfetch. pose proof (v_local _ I _ _ Hp) as Lc. rewrite Ex in Lc. destruct (vptr s) as [b|] eqn:Eb.
  - apply (vinv_local s t p _ (VFetch x n vts b) I Hp); cbn [vgoto vpcs vptr vval vrc vfault vvars]; auto.
    + intros a. rewrite Hh. cbn [vh]. lia.
    + exact (v_fault _ I).
    + rewrite Ex. auto.
    + rewrite Eb in *. exact Lc.
    + cbn [status]. rewrite Eb in *. auto.
  - assert (E1 : vptr (vgoto K t (VHave x n None) (vdecr K vts s)) = vptr s) by (destruct vts; reflexivity).
    assert (E2 : vval (vgoto K t (VHave x n None) (vdecr K vts s)) = vval s) by (destruct vts; reflexivity).
    apply (vinv_local s t p _ (VHave x n None) I Hp); auto.
    + destruct vts; reflexivity.
    + intros a. pose proof (vrc_held s t p a I Hp) as Hr. rewrite Hh in Hr. rewrite Hh. cbn [vh points Nat.b2n].
      destruct vts as [c|]; cbn [vdecr vgoto vrc points] in *; [|lia]. unfold upd. destruct (Nat.eqb_spec a c) as [Ha|Ha]; cbn [Nat.b2n] in *; [rewrite <- Ha|]; lia.
    + destruct vts as [c|]; cbn [vdecr vgoto vfault]; rewrite (v_fault _ I); [|reflexivity].
      pose proof (vrc_held s t p c I Hp) as Hr. rewrite Hh in Hr. cbn [points] in Hr. rewrite Nat.eqb_refl in Hr. cbn in Hr.
      destruct (Nat.eqb_spec (vrc s c) 0); [lia|reflexivity].
    + cbn [vvars]. rewrite Ex. auto.
    + rewrite Eb in *. exact Lc.
    + cbn [status]. rewrite Eb in *. cbn [vecs] in *. split; [exact B|]. split; [apply prefix_refl|]. destruct B as (B & _). exact B.
Qed.

Lemma vinv_step s t a : vinv s ->
  (forall u q, u <> t -> nth_error (vpcs s) u = Some q -> vptr (vstep K keq s (t, a)) <> vptr s -> vexposed q = false) -> vinv (vstep K keq s (t, a)).
Proof.
  intros I C. cbn [vstep] in *. destruct (nth_error (vpcs s) t) as [p|] eqn:Hp; [|exact I].
  pose proof (v_local _ I _ _ Hp) as Lc. pose proof (v_status _ I _ _ Hp) as St.
  destruct p as [x|x n vts b|x n vts|x n vts|x n vts|x n vts|x old vts]; cbn [vvars status] in Lc, St.
  - (* VIdle *) destruct (todo K x) as [|k ks] eqn:Et; [exact I|].
    apply (vinv_fetch s t _ x 0 None I Hp); auto. split; [lia|]. split; [exists k, ks; auto|]. rewrite St. discriminate.
  - (* VFetch *) destruct St as (B & Eb).
    assert (E1 : vptr (vgoto K t (VHave x n (Some b)) (vdecr K vts (vincr K b s))) = vptr s) by (destruct vts; reflexivity).
    assert (E2 : vval (vgoto K t (VHave x n (Some b)) (vdecr K vts (vincr K b s))) = vval s) by (destruct vts; reflexivity).
    pose proof (vrc_ptr s b I Eb) as Hb.
    apply (vinv_local s t _ _ (VHave x n (Some b)) I Hp); auto.
    + destruct vts; reflexivity.
    + intros c. pose proof (vrc_held s t _ c I Hp) as Hr. cbn [vh points] in *.
      destruct vts as [d|]; cbn [vdecr vincr vgoto vrc points Nat.b2n] in *; unfold upd.
      * destruct (Nat.eqb_spec c d) as [Ecd|Ecd], (Nat.eqb_spec c b) as [Ecb|Ecb], (Nat.eqb_spec d b) as [Edb|Edb]; try congruence; cbn [Nat.b2n] in *;
        rewrite <- ?Ecd, <- ?Ecb; lia.
      * destruct (Nat.eqb_spec c b) as [Ecb|Ecb]; cbn [Nat.b2n] in *; rewrite <- ?Ecb; lia.
    + destruct vts as [d|]; cbn [vdecr vincr vgoto vfault vrc]; rewrite (v_fault _ I); cbn [orb].
      * pose proof (vrc_held s t _ d I Hp) as Hr. cbn [vh points] in Hr. rewrite Nat.eqb_refl in Hr. cbn in Hr. unfold upd.
        destruct (Nat.eqb_spec (vrc s b) 0); [lia|]. cbn [orb]. destruct (Nat.eqb_spec d b); [reflexivity|]. destruct (Nat.eqb_spec (vrc s d) 0); [lia|reflexivity].
      * destruct (Nat.eqb_spec (vrc s b) 0); [lia|reflexivity].
    + cbn [status]. rewrite Eb in *. split; [exact B|]. split; [apply prefix_refl|]. destruct B as (B & _). exact B.
  - (* VHave *) destruct St as (B & P & Ln). destruct (todo K x) as [|k ks] eqn:Et; [exact I|].
    assert (Hb : (match vts with None => false | Some _ => length (vecs K s vts) <? n end) = false).
    { destruct vts; [|reflexivity]. apply Nat.ltb_ge. exact Ln. }
    rewrite Hb in *. destruct (find k (skipn n (vecs K s vts))) as [r|] eqn:Ef.
    + assert (Fg : find k (now s) = Some r).
      { destruct B as (B1 & (k' & ks' & B2 & B3) & B4). rewrite Et in B2. injection B2 as <- <-. rewrite (prefix_firstn _ _ _ P Ln) in B3.
        apply (prefix_find _ _ _ _ P). rewrite <- (firstn_skipn n (vecs K s vts)), find_app, B3. exact Ef. }
      apply (vinv_local s t _ _ (VDone (finish K x k r false) None vts) I Hp); cbn [vgoto vpcs vptr vval vrc vfault vvars vh points Nat.b2n]; auto.
      * exact (v_fault _ I).
      * eapply local_finish; eauto. destruct B as (_ & _ & B4). intros c Hc _. exact (B4 c Hc).
      * reflexivity.
    + assert (Fv : find k (vecs K s vts) = None).
      { destruct B as (B1 & (k' & ks' & B2 & B3) & B4). rewrite Et in B2. injection B2 as <- <-. rewrite (prefix_firstn _ _ _ P Ln) in B3.
        rewrite <- (firstn_skipn n (vecs K s vts)), find_app, B3. exact Ef. }
      destruct (copy_local t x k ks (now s) Lc Et) as (L' & Cn & Et' & M).
      apply (vinv_local s t _ _ (VCheck (copy K x k) n vts) I Hp); cbn [vgoto vpcs vptr vval vrc vfault vvars vh points Nat.b2n]; auto.
      * exact (v_fault _ I).
      * cbn [status]. split; [eapply busy_copy; eauto|]. split; [exact P|]. split; [exact Cn|]. exists k, ks. auto.
  - (* VCheck *) destruct St as (B & R). destruct (same (vptr s) vts).
    + apply (vinv_local s t _ _ (VCheck2 x n vts) I Hp); cbn [vgoto vpcs vptr vval vrc vfault vvars vh status]; auto. exact (v_fault _ I).
    + apply (vinv_fetch s t _ x n vts I Hp); auto.
  - (* VCheck2 *) destruct St as (B & R). destruct (same (vptr s) vts).
    + apply (vinv_local s t _ _ (VCas x n vts) I Hp); cbn [vgoto vpcs vptr vval vrc vfault vvars vh status]; auto. exact (v_fault _ I).
    + apply (vinv_fetch s t _ x n vts I Hp); auto.
  - (* VCas *) destruct St as (B & P & Cn & k & ks & Et & Fv). rewrite Et in *. destruct (copied K x) as [c|] eqn:Ec; [|congruence].
    destruct (Nat.eqb_spec (vrc s a) 0) as [Ea|]; [|exact I].
    set (s1 := valloc K a (vecs K s vts ++ [(k, (me K x, c))]) s) in *.
    assert (Nh : forall b, 0 < vrc s b -> b <> a) by (intros b Hb ->; lia).
    assert (Ev : forall b, 0 < vrc s b -> vval s1 b = vval s b) by (intros b Hb; unfold s1; cbn [valloc vval]; apply upd_ne; auto).
    assert (Ep : vptr s <> Some a) by (intros E; pose proof (vrc_ptr _ _ I E); lia).
    assert (En : now s1 = now s).
    { change (vptr s1) with (vptr s). destruct (vptr s) as [b|] eqn:Eb; [|reflexivity]. cbn [vecs]. apply Ev. exact (vrc_ptr _ _ I Eb). }
    destruct (same (vptr s) vts) eqn:Es.
    + apply same_true in Es. rewrite (l_me _ _ _ _ _ Lc) in *.
      set (s2 := vgoto K t (VDone (finish K x k (t, c) true) vts vts) (vswap K (Some a) s1)) in *.
      assert (Eg : now s2 = now s ++ [(k, (t, c))]). { unfold s2, s1. cbn. rewrite upd_eq, Es, (l_me _ _ _ _ _ Lc). reflexivity. }
      assert (Fg : find k (now s) = None) by (rewrite Es; exact Fv).
      assert (Ex : ext t (now s) (now s2)) by (right; exists k, c; auto).
      destruct (l_cop _ _ _ _ _ Lc c Ec) as (k' & ks' & X & Y & Z). rewrite Et in X. injection X as <- <-.
      apply (vinv_put s t _ s2 (VDone (finish K x k (t, c) true) vts vts) I Hp); auto.
      * rewrite Eg. intros k' r H. apply in_app_or in H. destruct H as [H|[H|[]]]; [auto|]. injection H as <- <-. right. cbn [fst snd vvars finish made]. auto.
      * intros u q N Hu. right. apply (C u q N Hu). unfold s2. cbn. congruence.
      * intros b. unfold s2, s1. cbn [vgoto vswap valloc vrc vh vptr points]. rewrite Es. unfold upd.
        destruct (Nat.eqb_spec b a); [try subst b|]; cbn [Nat.b2n]; [|lia]. rewrite Ea.
        destruct vts as [d|]; cbn [points]; [|cbn; lia]. destruct (Nat.eqb_spec a d); [try subst a|]; cbn; [congruence|lia].
      * exact (v_fault _ I).
      * cbn [vvars]. rewrite Eg. destruct Lc as [a1 a2 a3 a4 a5]. constructor; cbn [finish me panicked answers freed made copied todo]; auto.
        -- intros k' r H. apply in_app_or in H. rewrite find_app. destruct H as [H|[H|[]]]; [rewrite (a3 _ _ H); reflexivity|].
           injection H as <- <-. rewrite Fg. cbn. destruct (keq k k); [reflexivity|congruence].
        -- rewrite Ec. intros r Hr. destruct (a4 r Hr) as (X1 & Y1 & Z1). repeat split; auto. rewrite map_app, in_app_iff.
           intros [H|[H|[]]]; [contradiction|]. cbn in H. subst r. contradiction.
        -- discriminate.
      * reflexivity.
    + (* the exchange fails *)
      assert (I1 : vinv s1).
      { constructor.
        - intros b. pose proof (v_rc _ I b). unfold s1. cbn [valloc vptr vpcs vrc]. unfold upd. destruct (Nat.eqb_spec b a); [try subst b|]; lia.
        - exact (v_fault _ I).
        - rewrite En. exact (v_made _ I).
        - rewrite En. exact (v_local _ I).
        - intros u q Hu. eapply (status_frame (S u)); [lia|left; exact En| |left; reflexivity|exact (v_status _ I _ _ Hu)].
          intros b Hb. apply Ev. pose proof (vrc_held _ _ _ b I Hu). lia. }
      apply (vinv_fetch s1 t (VCas x n vts) x _ vts I1 Hp); auto. rewrite En. destruct B as (B1 & B2 & B3). split; [|split].
      * apply prefix_len. exact P.
      * exists k, ks. rewrite (prefix_all _ _ P). auto.
      * rewrite Ec in *. exact B3.
  - (* VDone *) destruct old as [o|].
    + apply (vinv_local s t _ _ (VDone x None vts) I Hp); cbn [vdecr vgoto vpcs vptr vval vrc vfault vvars]; auto.
      * intros b. pose proof (vrc_held s t _ b I Hp) as Hr. cbn [vh points] in *. unfold upd.
        destruct (Nat.eqb_spec b o); [try subst b|]; cbn [Nat.b2n] in *; lia.
      * rewrite (v_fault _ I). pose proof (vrc_held s t _ o I Hp) as Hr. cbn [vh points] in Hr. rewrite Nat.eqb_refl in Hr. cbn in Hr.
        destruct (Nat.eqb_spec (vrc s o) 0); [lia|reflexivity].
    + apply (vinv_local s t _ _ (VIdle x) I Hp); cbn [vvars]; auto; try (destruct vts; reflexivity).
      * intros b. pose proof (vrc_held s t _ b I Hp) as Hr. cbn [vh points] in *. destruct vts as [d|]; cbn [vdecr vgoto vrc points] in *; [|lia]. unfold upd.
        destruct (Nat.eqb_spec b d); [try subst b|]; cbn [Nat.b2n] in *; lia.
      * destruct vts as [d|]; cbn [vdecr vgoto vfault]; rewrite (v_fault _ I); [|reflexivity].
        pose proof (vrc_held s t _ d I Hp) as Hr. cbn [vh points] in Hr. rewrite Nat.eqb_refl in Hr. cbn in Hr.
        destruct (Nat.eqb_spec (vrc s d) 0); [lia|reflexivity].
Qed.

Lemma vinv_run sched : forall s, vinv s -> vcalm keq sched s -> vinv (vrun K keq sched s).
Proof.
  induction sched as [|[t a] sched IH]; intros s I C; [exact I|]. apply IH.
  - apply vinv_step; [exact I|]. intros u q. exact (C 0 t a u q eq_refl).
  - intros k t' a' u q Hk. exact (C (S k) t' a' u q Hk).
Qed.
Lemma vinv_interned s : vinv s -> interned (map vvars (vpcs s)).
Proof.
  intros I.
  assert (G : forall t x, nth_error (map vvars (vpcs s)) t = Some x -> exists p, nth_error (vpcs s) t = Some p /\ x = vvars p).
  { intros t x H. rewrite nth_error_map in H. destruct (nth_error (vpcs s) t) as [p|]; [|discriminate]. injection H as <-. eauto. }
  assert (Fd : forall k r, answered (map vvars (vpcs s)) k r -> find k (now s) = Some r).
  { intros k r (x & Hx & Ha). apply In_nth_error in Hx. destruct Hx as (t & Hx). destruct (G _ _ Hx) as (p & Hp & ->).
    exact (l_ans _ _ _ _ _ (v_local _ I _ _ Hp) _ _ Ha). }
  split; [|split].
  - intros x Hx. apply In_nth_error in Hx. destruct Hx as (t & Hx). destruct (G _ _ Hx) as (p & Hp & ->). exact (l_ok _ _ _ _ _ (v_local _ I _ _ Hp)).
  - intros k r Ha. apply Fd in Ha. apply find_in in Ha. destruct (v_made _ I _ _ Ha) as (p & Hp & Hm).
    exists (vvars p). rewrite nth_error_map, Hp. repeat (split; auto). intros Hf.
    destruct (l_freed _ _ _ _ _ (v_local _ I _ _ Hp) _ Hf) as (_ & _ & N). apply N. apply in_map_iff. exists (k, r). auto.
  - intros k r r' H1 H2. apply Fd in H1. apply Fd in H2. congruence.
Qed.

Definition vcalmb (s : vcell K) (act : nat * nat) : bool :=
  forallb (fun uq => let '(u, q) := uq in (u =? fst act) || same (vptr (vstep K keq s act)) (vptr s) || negb (vexposed q))
    (combine (seq 0 (length (vpcs s))) (vpcs s)).
Fixpoint vcalm_runb (sched : list (nat * nat)) (s : vcell K) : bool :=
  match sched with [] => true | act :: sched => vcalmb s act && vcalm_runb sched (vstep K keq s act) end.
Lemma vcalmb_sound sched : forall s, vcalm_runb sched s = true -> vcalm keq sched s.
Proof.
  induction sched as [|act sched IH]; intros s H k t a u q Hk; [destruct k; discriminate|].
  cbn [vcalm_runb] in H. apply andb_prop in H. destruct H as (A & B). destruct k as [|k]; cbn in Hk; [|exact (IH _ B k t a u q Hk)].
  injection Hk as ->. cbn [firstn vrun fold_left]. intros N Hu X. unfold vcalmb in A. rewrite forallb_forall in A.
  specialize (A _ (combine_seq _ 0 _ _ Hu)). cbn [fst Nat.add] in A. apply orb_prop in A. destruct A as [A|A].
  - apply orb_prop in A. destruct A as [A|A]; [apply Nat.eqb_eq in A; contradiction|]. apply same_true in A. contradiction.
  - destruct (vexposed q); [discriminate A|reflexivity].
Qed.
End VtVec.
