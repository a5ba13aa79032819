(** Lemmas for [P_EnumNames]. *)
From Coq Require Import String.
From Coq Require Import List Arith NArith Bool Lia.
From Verif Require Import M_Enum M_EnumNames S_EnumNames.
Import ListNotations.
Local Open Scope string_scope.
Local Open Scope list_scope.
Local Open Scope nat_scope.
Ltac Zify.zify_post_hook ::= idtac.

(** * Lists of names *)
Lemma mem_In x l : mem x l = true <-> In x l.
Proof.
  unfold mem. rewrite existsb_exists. split.
  - intros (y & H & E). apply String.eqb_eq in E. subst. exact H.
  - intros H. exists x. split; [exact H|apply String.eqb_refl].
Qed.
Lemma mem_false x l : negb (mem x l) = true <-> ~ In x l.
Proof. rewrite negb_true_iff. rewrite <- mem_In. destruct (mem x l); split; intros H; congruence. Qed.
Lemma nodup_NoDup l : nodup l = true <-> NoDup l.
Proof.
  induction l as [|x l IH]; cbn [nodup]; [split; [constructor|reflexivity]|].
  rewrite andb_true_iff, mem_false, IH. split; [intros [A B]; constructor; assumption|intros H; inversion H; auto].
Qed.
Lemma NoDup_app_iff {A} (l m : list A) : NoDup (l ++ m) <-> NoDup l /\ NoDup m /\ forall x, In x l -> ~ In x m.
Proof.
  induction l as [|a l IH]; cbn [app].
  - split; [intros H; split; [constructor|split; [exact H|intros ? []]]|intros (_ & H & _); exact H].
  - split.
    + intros H. inversion H as [|? ? N H']; subst. apply IH in H'. destruct H' as (A1 & B & C).
      split; [constructor; [intros I; apply N, in_or_app; auto|exact A1]|]. split; [exact B|].
      intros x [<-|I] J; [apply N, in_or_app; auto|exact (C x I J)].
    + intros (H & B & C). inversion H as [|? ? N H']; subst. constructor.
      * intros I. apply in_app_or in I. destruct I as [I|I]; [exact (N I)|exact (C a (or_introl eq_refl) I)].
      * apply IH. split; [exact H'|]. split; [exact B|]. intros x I. apply C. right; exact I.
Qed.
Lemma append_inj a b : String.append a "Fn" = String.append b "Fn" -> a = b.
Proof.
  revert b; induction a as [|c a IH]; intros b H.
  - destruct b as [|d b]; [reflexivity|]. cbn in H. injection H as <- H.
    destruct b as [|d2 b]; [discriminate H|]. cbn in H. injection H as <- H. destruct b; discriminate H.
  - destruct b as [|d b].
    + cbn in H. injection H as -> H. destruct a as [|c2 a]; [discriminate H|]. cbn in H. injection H as -> H. destruct a; discriminate H.
    + cbn in H. injection H as <- H. f_equal. apply IH. exact H.
Qed.
Fixpoint lastc (s : string) : option Ascii.ascii :=
  match s with EmptyString => None | String c r => match lastc r with Some d => Some d | None => Some c end end.
Lemma lastc_append a : lastc (String.append a "Fn") = lastc "n".
Proof. induction a as [|c a IH]; [reflexivity|]. cbn [String.append lastc]. rewrite IH. reflexivity. Qed.

(** * Trees of variants *)
Inductive tree := Lf (v : vfield) | Nd (l r : tree).
Fixpoint tfold {U} (lf : vfield -> U) (jn : U -> U -> U) (t : tree) : U :=
  match t with Lf v => lf v | Nd l r => jn (tfold lf jn l) (tfold lf jn r) end.
Fixpoint leaves (t : tree) : list vfield := match t with Lf v => [v] | Nd l r => leaves l ++ leaves r end.
Lemma half_lt2 (n : nat) : 2 <= n -> 0 < n / 2 < n.
Proof. intros H. split; [apply Nat.div_str_pos; lia|apply Nat.div_lt; lia]. Qed.
Lemma rec_unfold {A U} (lf : A -> U) jn fuel vs : 2 <= length vs ->
  recursion lf jn (S fuel) vs =
  match recursion lf jn fuel (firstn (length vs / 2) vs), recursion lf jn fuel (skipn (length vs / 2) vs) with
  | Some l, Some r => Some (jn l r)
  | _, _ => None
  end.
Proof. destruct vs as [|a [|b vs]]; cbn [length]; try lia. reflexivity. Qed.
Lemma rec_tree n : forall vs, length vs <= n -> vs <> [] -> exists t, leaves t = vs /\
  forall (U : Type) (lf : vfield -> U) (jn : U -> U -> U) fuel, length vs <= fuel -> recursion lf jn fuel vs = Some (tfold lf jn t).
Proof.
  induction n as [|n IH]; intros vs L N; [destruct vs; [congruence|cbn in L; lia]|].
  destruct (Nat.lt_ge_cases (length vs) 2) as [H2|H2].
  - destruct vs as [|v [|? ?]]; cbn in H2; try congruence; try lia.
    exists (Lf v). split; [reflexivity|]. intros U lf jn [|fuel] F; [cbn in F; lia|reflexivity].
  - pose proof (half_lt2 _ H2) as Hh. set (h := length vs / 2) in *.
    assert (L1 : length (firstn h vs) = h) by (rewrite firstn_length; lia).
    assert (L2 : length (skipn h vs) = length vs - h) by apply skipn_length.
    destruct (IH (firstn h vs)) as (t1 & E1 & R1); [lia|intros E; rewrite E in L1; cbn [length] in L1; lia|].
    destruct (IH (skipn h vs)) as (t2 & E2 & R2); [lia|intros E; rewrite E in L2; cbn [length] in L2; lia|].
    exists (Nd t1 t2). split; [cbn [leaves]; rewrite E1, E2; apply firstn_skipn|].
    intros U lf jn [|fuel] F; [lia|]. rewrite rec_unfold by exact H2. fold h.
    rewrite R1, R2 by lia. reflexivity.
Qed.
Lemma halves vs : 2 <= length vs -> exists t1 t2,
  leaves t1 = firstn (length vs / 2) vs /\ leaves t2 = skipn (length vs / 2) vs /\
  (forall (U : Type) (lf : vfield -> U) (jn : U -> U -> U), vmap lf jn vs = Some (jn (tfold lf jn t1) (tfold lf jn t2))) /\
  (forall (U V : Type) (lf : vfield -> U) (jn : U -> U -> U) (fi : U -> U -> V), vmap_final lf jn fi vs = Some (fi (tfold lf jn t1) (tfold lf jn t2))).
Proof.
  intros H2. pose proof (half_lt2 _ H2) as Hh. set (h := length vs / 2) in *.
  assert (L1 : length (firstn h vs) = h) by (rewrite firstn_length; lia).
  assert (L2 : length (skipn h vs) = length vs - h) by apply skipn_length.
  destruct (rec_tree _ (firstn h vs) (Nat.le_refl _)) as (t1 & E1 & R1); [intros E; rewrite E in L1; cbn [length] in L1; lia|].
  destruct (rec_tree _ (skipn h vs) (Nat.le_refl _)) as (t2 & E2 & R2); [intros E; rewrite E in L2; cbn [length] in L2; lia|].
  exists t1, t2. split; [exact E1|]. split; [exact E2|]. split.
  - intros U lf jn. unfold vmap. destruct (length vs) as [|m] eqn:El; [lia|].
    rewrite rec_unfold by lia. rewrite El. fold h. rewrite R1, R2 by lia. reflexivity.
  - intros U V lf jn fi. unfold vmap_final. fold h. rewrite R1, R2 by lia. reflexivity.
Qed.

(** * Values *)
Fixpoint place (t : tree) (j : nat) (d : data) : data :=
  match t with
  | Lf _ => d
  | Nd l r => if Nat.ltb j (length (leaves l)) then DOk (place l j d) else DErr (place r (j - length (leaves l)) d)
  end.
Definition pay (v : vfield) (n : N) : data := if has_field v then DPay n else DUnit.
Lemma nth_app {A} (l m : list A) j : nth_error (l ++ m) j = if Nat.ltb j (length l) then nth_error l j else nth_error m (j - length l).
Proof.
  destruct (Nat.ltb_spec j (length l)); [apply nth_error_app1; assumption|apply nth_error_app2; assumption].
Qed.
Lemma cfold_length t : length (tfold cleaf cjoin t) = length (leaves t).
Proof.
  induction t as [v|l IHl r IHr]; [reflexivity|]. cbn [tfold leaves]. unfold cjoin at 1. rewrite !app_length, !map_length. lia.
Qed.
Lemma ctor_eval t : forall j v n, nth_error (leaves t) j = Some v ->
  exists c, nth_error (tfold cleaf cjoin t) j = Some c /\
    forall x, (has_field v = true -> x = "value") -> ceval x (DPay n) c = Some (place t j (pay v n)).
Proof.
  induction t as [w|l IHl r IHr]; intros j v n H; cbn [leaves tfold place] in *.
  - destruct j as [|j]; [|destruct j; discriminate H]. injection H as <-.
    eexists; split; [reflexivity|]. intros x X. unfold pay, has_field in *. destruct (snd w); [|reflexivity].
    rewrite (X eq_refl). reflexivity.
  - rewrite nth_app in H. unfold cjoin at 1. rewrite nth_app, map_length, cfold_length.
    destruct (Nat.ltb j (length (leaves l))).
    + destruct (IHl _ _ n H) as (c & E & C). rewrite nth_error_map, E. eexists; split; [reflexivity|].
      intros x X. cbn [ceval]. rewrite (C x X). reflexivity.
    + destruct (IHr _ _ n H) as (c & E & C). rewrite nth_error_map, E. eexists; split; [reflexivity|].
      intros x X. cbn [ceval]. rewrite (C x X). reflexivity.
Qed.
Lemma find_ctor vs : forall bs i v b, NoDup (map fst vs) -> nth_error vs i = Some v -> nth_error bs i = Some b ->
  find (fun c => String.eqb (c_name c) (fst v)) (ctors vs bs) = Some (Ctor (fst v) (cparams v) b).
Proof.
  induction vs as [|w vs IH]; intros bs i v b D H B; [destruct i; discriminate H|].
  destruct bs as [|b0 bs]; [destruct i; discriminate B|].
  cbn [map] in D. inversion D as [|? ? N D']; subst. cbn [ctors find c_name].
  destruct i as [|i]; cbn [nth_error] in *.
  - injection H as <-. injection B as <-. rewrite String.eqb_refl. reflexivity.
  - destruct (String.eqb_spec (fst w) (fst v)) as [E|_].
    + exfalso. apply N. rewrite E. apply in_map. exact (nth_error_In _ _ H).
    + exact (IH _ _ _ _ D' H B).
Qed.

(** * Dispatch *)
Definition appl (o : option val) (bs : list base) : option out := match o with Some (VFun f) => f bs | _ => None end.
Definition args (v : vfield) (n : N) : list base := if has_field v then [BData (DPay n)] else [].
Definition isfun (o : option val) : Prop := exists f, o = Some (VFun f).
Lemma lookup_cons x y v r : x <> y -> lookup x ((y, v) :: r) = lookup x r.
Proof. intros H. cbn [lookup]. apply String.eqb_neq in H. rewrite H. reflexivity. Qed.
(** The context as it is bound. *)
Definition cenv (ctx : bool) (cs : list N) : env := if ctx then match cs with c :: _ => [("stabby_ctx", VBase (BCtx c))] | [] => [] end else [].
Lemma bind_this (ctx : bool) (cs : list N) d r x : length cs = (if ctx then 1 else 0) ->
  bind (map PVar (cx ctx) ++ [PVar x]) (map BCtx cs ++ [d]) r = Some ((x, VBase d) :: cenv ctx cs ++ r).
Proof. destruct ctx; [destruct cs as [|c [|? ?]]; intros H; try discriminate H; reflexivity|destruct cs; intros H; [reflexivity|discriminate H]]. Qed.
Lemma bind_wild (ctx : bool) (cs : list N) d r : length cs = (if ctx then 1 else 0) ->
  bind (map PVar (cx ctx) ++ [PWild]) (map BCtx cs ++ [d]) r = Some (cenv ctx cs ++ r).
Proof. destruct ctx; [destruct cs as [|c [|? ?]]; intros H; try discriminate H; reflexivity|destruct cs; intros H; [reflexivity|discriminate H]]. Qed.
Lemma bases_cx (ctx : bool) (cs : list N) r : length cs = (if ctx then 1 else 0) -> bases (cenv ctx cs ++ r) (cx ctx) = Some (map BCtx cs).
Proof. destruct ctx; [destruct cs as [|c [|? ?]]; intros H; try discriminate H; reflexivity|destruct cs; intros H; [reflexivity|discriminate H]]. Qed.
Lemma bases_this (ctx : bool) (cs : list N) r x d : length cs = (if ctx then 1 else 0) -> x <> "stabby_ctx" ->
  bases ((x, VBase d) :: cenv ctx cs ++ r) (cx ctx) = Some (map BCtx cs).
Proof.
  intros H N. assert (E : bases ((x, VBase d) :: cenv ctx cs ++ r) (cx ctx) = bases (cenv ctx cs ++ r) (cx ctx)).
  { destruct ctx; [|reflexivity]. cbn [cx bases]. rewrite lookup_cons by congruence. reflexivity. }
  rewrite E. apply bases_cx. exact H.
Qed.
Lemma bases_app r xs ys a b : bases r xs = Some a -> bases r ys = Some b -> bases r (xs ++ ys) = Some (a ++ b).
Proof.
  revert a; induction xs as [|x xs IH]; intros a H1 H2; cbn [bases app] in *.
  - injection H1 as <-. exact H2.
  - destruct (lookup x r) as [[]|]; try discriminate H1. destruct (bases r xs) as [l|]; [|discriminate H1].
    injection H1 as <-. rewrite (IH l eq_refl H2). reflexivity.
Qed.
Lemma lookup_cenv x (ctx : bool) (cs : list N) r : x <> "stabby_ctx" -> lookup x (cenv ctx cs ++ r) = lookup x r.
Proof. intros H. destruct ctx; [|reflexivity]. destruct cs; [reflexivity|]. cbn [cenv app]. apply lookup_cons. exact H. Qed.

Section dispatch.
  Variables (self : data) (k : access) (ctx : bool) (cs : list N) (n : N).
  Hypothesis Hcs : length cs = (if ctx then 1 else 0).
  Let code := tfold (leaf k ctx) (join ctx).

  Lemma disp_leaf r v f : fst v <> "stabby_ctx" -> (fst v = "a" -> has_field v = false) -> lookup (fst v) r = Some (VFun f) ->
    isfun (eval self r (leaf k ctx v)) /\
    appl (eval self r (leaf k ctx v)) (map BCtx cs ++ [BData (pay v n)]) = f (map BCtx cs ++ args v n).
  Proof.
    intros NC NA Lk. unfold leaf, pay, args, has_field in *. destruct (snd v) as [t|].
    - assert (X : k = Mut \/ k <> Mut) by (destruct k; [right|right|left]; congruence).
      destruct X as [->|X].
      + split; [eexists; reflexivity|]. cbn [eval appl]. rewrite bind_this by exact Hcs. cbn match.
        assert (A : fst v <> "a") by (intros E; discriminate (NA E)).
        rewrite lookup_cons by exact A. rewrite lookup_cenv by exact NC. rewrite Lk.
        rewrite (bases_app _ _ ["a"] _ [BData (DPay n)] (bases_this ctx cs r "a" _ Hcs ltac:(discriminate)) eq_refl).
        destruct (f (map BCtx cs ++ [BData (DPay n)])); reflexivity.
      + assert (E : match k with Mut => ELam (map PVar (cx ctx) ++ [PVar "a"]) (ECall (fst v) (cx ctx ++ ["a"])) | _ => EVar (fst v) end = EVar (fst v))
          by (destruct k; congruence).
        rewrite E. cbn [eval]. rewrite Lk. split; [eexists; reflexivity|reflexivity].
    - split; [eexists; reflexivity|]. cbn [eval appl]. rewrite bind_wild by exact Hcs. cbn match.
      rewrite lookup_cenv by exact NC. rewrite Lk, bases_cx by exact Hcs. rewrite app_nil_r.
      destruct (f (map BCtx cs)); reflexivity.
  Qed.

  Lemma disp_node r t1 t2 d : 
    let r' := ("this", VBase (BData d)) :: cenv ctx cs ++ r in
    isfun (eval self r' (code t1)) -> isfun (eval self r' (code t2)) ->
    appl (eval self r (join ctx (code t1) (code t2))) (map BCtx cs ++ [BData d]) =
    match d with
    | DOk d' => appl (eval self r' (code t1)) (map BCtx cs ++ [BData d'])
    | DErr d' => appl (eval self r' (code t2)) (map BCtx cs ++ [BData d'])
    | _ => None
    end.
  Proof.
    intros r' (f1 & F1) (f2 & F2). cbn [join eval appl]. unfold join. cbn [eval appl].
    rewrite bind_this by exact Hcs. cbn match. fold r'. change (lookup "this" r') with (Some (VBase (BData d))).
    unfold r' at 1. rewrite bases_this by (exact Hcs || discriminate). rewrite F1, F2. unfold match_data.
    destruct d; try reflexivity; cbn [appl]; [destruct (f1 _)|destruct (f2 _)]; reflexivity.
  Qed.

  Lemma disp (F : string -> list base -> option out) t : forall r,
    (forall v, In v (leaves t) -> fst v <> "stabby_ctx" /\ (fst v = "a" -> has_field v = false) /\ lookup (fst v) r = Some (VFun (F (fst v)))) ->
    ((exists v, t = Lf v) \/ forall v, In v (leaves t) -> fst v <> "this") ->
    isfun (eval self r (code t)) /\
    forall j v, nth_error (leaves t) j = Some v ->
      appl (eval self r (code t)) (map BCtx cs ++ [BData (place t j (pay v n))]) = F (fst v) (map BCtx cs ++ args v n).
  Proof.
    induction t as [w|t1 IH1 t2 IH2]; intros r Hv Ht.
    - destruct (Hv w) as (A & B & C); [left; reflexivity|]. destruct (disp_leaf r w _ A B C) as [D E].
      split; [exact D|]. intros j v Hj. cbn [leaves] in Hj. destruct j as [|j]; [|destruct j; discriminate Hj]. injection Hj as <-. exact E.
    - destruct Ht as [(v & Ht)|Ht]; [discriminate Ht|]. cbn [leaves] in *.
      assert (G : forall d, 
        (isfun (eval self (("this", VBase (BData d)) :: cenv ctx cs ++ r) (code t1)) /\
         forall j v, nth_error (leaves t1) j = Some v ->
           appl (eval self (("this", VBase (BData d)) :: cenv ctx cs ++ r) (code t1)) (map BCtx cs ++ [BData (place t1 j (pay v n))]) = F (fst v) (map BCtx cs ++ args v n)) /\
        (isfun (eval self (("this", VBase (BData d)) :: cenv ctx cs ++ r) (code t2)) /\
         forall j v, nth_error (leaves t2) j = Some v ->
           appl (eval self (("this", VBase (BData d)) :: cenv ctx cs ++ r) (code t2)) (map BCtx cs ++ [BData (place t2 j (pay v n))]) = F (fst v) (map BCtx cs ++ args v n))).
      { intros d. split; [apply IH1|apply IH2]; try (right; intros v Hin; apply Ht, in_or_app; auto);
          intros v Hin; (assert (Hin' : In v (leaves t1 ++ leaves t2)) by (apply in_or_app; auto));
          destruct (Hv v Hin') as (A & B & C); (split; [exact A|split; [exact B|]]);
          rewrite lookup_cons by (apply Ht; exact Hin'); rewrite lookup_cenv by exact A; exact C. }
      split; [eexists; reflexivity|]. intros j v Hj. cbn [place]. rewrite nth_app in Hj.
      change (code (Nd t1 t2)) with (join ctx (code t1) (code t2)).
      destruct (Nat.ltb j (length (leaves t1))).
      + destruct (G (DOk (place t1 j (pay v n)))) as ((G1 & G2) & (G3 & _)).
        rewrite disp_node by assumption. apply G2. exact Hj.
      + destruct (G (DErr (place t2 (j - length (leaves t1)) (pay v n)))) as ((G1 & _) & (G3 & G4)).
        rewrite disp_node by assumption. apply G4. exact Hj.
  Qed.

  (** A node fails if what its child does fails. *)
  Lemma node_none r t1 t2 d : 
    let r' := ("this", VBase (BData d)) :: cenv ctx cs ++ r in
    match d with
    | DOk d' => appl (eval self r' (code t1)) (map BCtx cs ++ [BData d']) = None
    | DErr d' => appl (eval self r' (code t2)) (map BCtx cs ++ [BData d']) = None
    | _ => True
    end ->
    appl (eval self r (join ctx (code t1) (code t2))) (map BCtx cs ++ [BData d]) = None.
  Proof.
    intros r' H. unfold join. cbn [eval appl]. rewrite bind_this by exact Hcs. cbn match. fold r'.
    change (lookup "this" r') with (Some (VBase (BData d))). unfold r' at 1. rewrite bases_this by (exact Hcs || discriminate).
    destruct (eval self r' (code t1)) as [[]|]; try reflexivity.
    destruct (eval self r' (code t2)) as [[]|]; try reflexivity.
    unfold match_data. destruct d; try reflexivity; cbn [appl] in H; rewrite H; reflexivity.
  Qed.
  Lemma bad_this t : forall r b j v, lookup "this" r = Some (VBase b) -> nth_error (leaves t) j = Some v -> fst v = "this" ->
    appl (eval self r (code t)) (map BCtx cs ++ [BData (place t j (pay v n))]) = None.
  Proof.
    induction t as [w|t1 IH1 t2 IH2]; intros r b j v Lk Hj E; cbn [leaves] in Hj.
    - destruct j as [|j]; [|destruct j; discriminate Hj]. injection Hj as <-. cbn [code tfold].
      unfold code. cbn [tfold]. unfold leaf. destruct (snd w) as [t|].
      + destruct k; try (cbn [eval]; rewrite E, Lk; reflexivity).
        cbn [eval appl]. destruct (bind _ _ _) as [r'|] eqn:B; [|reflexivity].
        cbn [place] in B. rewrite bind_this in B by exact Hcs. injection B as <-.
        rewrite E, lookup_cons by discriminate. rewrite lookup_cenv by discriminate. rewrite Lk. reflexivity.
      + cbn [eval appl]. rewrite bind_wild by exact Hcs. rewrite E, lookup_cenv by discriminate. rewrite Lk. reflexivity.
    - change (code (Nd t1 t2)) with (join ctx (code t1) (code t2)). apply node_none. cbn [place].
      rewrite nth_app in Hj. destruct (Nat.ltb j (length (leaves t1))).
      + eapply IH1; [reflexivity|exact Hj|exact E].
      + eapply IH2; [reflexivity|exact Hj|exact E].
  Qed.
  Lemma bad_a t : forall r j v, k = Mut -> nth_error (leaves t) j = Some v -> fst v = "a" -> has_field v = true ->
    appl (eval self r (code t)) (map BCtx cs ++ [BData (place t j (pay v n))]) = None.
  Proof.
    induction t as [w|t1 IH1 t2 IH2]; intros r j v K Hj E HF; cbn [leaves] in Hj.
    - destruct j as [|j]; [|destruct j; discriminate Hj]. injection Hj as <-.
      unfold code. cbn [tfold place]. unfold leaf, has_field in *. destruct (snd w) as [t|]; [|discriminate HF]. rewrite K.
      cbn [eval appl]. rewrite bind_this by exact Hcs. rewrite E. reflexivity.
    - change (code (Nd t1 t2)) with (join ctx (code t1) (code t2)). apply node_none. cbn [place].
      rewrite nth_app in Hj. destruct (Nat.ltb j (length (leaves t1))).
      + exact (IH1 _ _ _ K Hj E HF).
      + exact (IH2 _ _ _ K Hj E HF).
  Qed.
End dispatch.

(** * The macro *)
Definition conv (v : variant) : vfield := (v_name v, match v_shape v with Tuple [t] => Some t | _ => None end).
Lemma from_simple v : from_variant v = if simple v then Some (conv v) else None.
Proof.
  unfold from_variant, simple, conv. destruct (v_discr v); [reflexivity|]. cbn [negb andb].
  destruct (v_shape v) as [|[|t [|? ?]]|]; reflexivity.
Qed.
Lemma from_variants_simple vs : from_variants vs = if forallb simple vs then Some (map conv vs) else None.
Proof.
  induction vs as [|v vs IH]; [reflexivity|]. cbn [from_variants forallb map]. rewrite from_simple, IH.
  destruct (simple v); [|reflexivity]. cbn [andb]. destruct (forallb simple vs); reflexivity.
Qed.
Lemma conv_field v : simple v = true -> has_field (conv v) = carries v.
Proof.
  unfold simple, conv, has_field, carries. destruct (v_discr v); [discriminate|]. cbn [negb andb snd].
  destruct (v_shape v) as [|[|t [|? ?]]|]; cbn; congruence.
Qed.
Lemma conv_names vs : map fst (map conv vs) = map v_name vs.
Proof. rewrite map_map. reflexivity. Qed.
Lemma conv_fields vs : forallb simple vs = true -> existsb has_field (map conv vs) = existsb carries vs.
Proof.
  induction vs as [|v vs IH]; [reflexivity|]. cbn [forallb map existsb]. intros H. apply andb_true_iff in H. destruct H as [A B].
  rewrite conv_field by exact A. rewrite IH by exact B. reflexivity.
Qed.

(** The functions, given the halves. *)
Definition fn_of (vs : list vfield) (t1 t2 : tree) (kc : access * bool) : fn :=
  Fn (fname (fst kc) (snd kc)) (tparams (fst kc) (snd kc) vs) (cx (snd kc) ++ map fst vs)
     (final (snd kc) (tfold (leaf (fst kc) (snd kc)) (join (snd kc)) t1) (tfold (leaf (fst kc) (snd kc)) (join (snd kc)) t2)).
Lemma sequence_some {A B} (f : A -> option B) g l : (forall a, f a = Some (g a)) -> sequence (map f l) = Some (map g l).
Proof. intros H. induction l as [|a l IH]; [reflexivity|]. cbn [map sequence]. rewrite H, IH. reflexivity. Qed.
Lemma expand_some e g : expand e = Some g -> forallb simple (e_variants e) = true /\ 2 <= length (e_variants e) /\ existsb carries (e_variants e) = true.
Proof.
  unfold expand. rewrite from_variants_simple. destruct (forallb simple (e_variants e)) eqn:S; [|discriminate].
  rewrite conv_fields by exact S. destruct (existsb carries (e_variants e)); [|discriminate]. cbn [negb].
  rewrite map_length. destruct (Nat.ltb_spec (length (e_variants e)) 2); [discriminate|]. auto.
Qed.
Lemma expand_eq e : forallb simple (e_variants e) = true -> 2 <= length (e_variants e) -> existsb carries (e_variants e) = true ->
  let vs := map conv (e_variants e) in
  exists t1 t2, leaves t1 = firstn (length vs / 2) vs /\ leaves t2 = skipn (length vs / 2) vs /\
    expand e = Some (Gen (ctors vs (tfold cleaf cjoin (Nd t1 t2))) (map (fn_of vs t1 t2) kinds)).
Proof.
  intros S L C vs. assert (Lv : 2 <= length vs) by (unfold vs; rewrite map_length; exact L).
  destruct (halves vs Lv) as (t1 & t2 & E1 & E2 & V & VF). exists t1, t2. split; [exact E1|]. split; [exact E2|].
  unfold expand. rewrite from_variants_simple, S. fold vs. unfold vs at 1. rewrite conv_fields by exact S. rewrite C. cbn [negb].
  destruct (Nat.ltb_spec (length vs) 2); [lia|]. rewrite V.
  rewrite (sequence_some _ (fn_of vs t1 t2)); [reflexivity|].
  intros kc. unfold match_fn. rewrite VF. reflexivity.
Qed.
Lemma ctors_names vs : forall bs, length bs = length vs -> map c_name (ctors vs bs) = map fst vs.
Proof. induction vs as [|v vs IH]; intros [|b bs] H; try discriminate H; [reflexivity|]. cbn. f_equal. apply IH. injection H as H. exact H. Qed.
Lemma ctors_params sc vs : forall bs, length bs = length vs -> existsb has_field vs = true ->
  (forallb (ctor_ok sc) (ctors vs bs) = true <-> ~ In "value" sc).
Proof.
  intros bs L. assert (X : forall b, ctor_ok sc (Ctor b ["value"] CUnit) = true <-> ~ In "value" sc).
  { intros b. unfold ctor_ok. cbn [c_params forallb]. rewrite andb_true_r. apply mem_false. }
  intros H. split.
  - revert bs L; induction vs as [|v vs IH]; intros [|b bs] L G; try discriminate H; try discriminate L.
    cbn [ctors forallb] in G. apply andb_true_iff in G. destruct G as [G1 G2]. cbn [existsb] in H.
    destruct (has_field v) eqn:F.
    + unfold ctor_ok, cparams, has_field in *. cbn [c_params] in G1. destruct (snd v); [|discriminate F].
      cbn [forallb] in G1. rewrite andb_true_r in G1. apply mem_false. exact G1.
    + injection L as L. exact (IH H bs L G2).
  - intros N. clear H. revert bs L; induction vs as [|v vs IH]; intros [|b bs] L; try discriminate L; [reflexivity|].
    cbn [ctors forallb]. injection L as L. rewrite (IH bs L), andb_true_r.
    unfold ctor_ok, cparams. cbn [c_params]. destruct (snd v); [|reflexivity]. cbn [forallb]. rewrite andb_true_r. apply mem_false. exact N.
Qed.

(** * Binders *)
Lemma pat_vars_cx ctx ps : pat_vars (map PVar (cx ctx) ++ ps) = cx ctx ++ pat_vars ps.
Proof. destruct ctx; reflexivity. Qed.
Definition is_nd (t : tree) : Prop := match t with Nd _ _ => True | Lf _ => False end.
Lemma binders_sub k ctx t x : In x (binders (tfold (leaf k ctx) (join ctx) t)) ->
  In x (cx ctx) \/ x = "a" \/ x = "this" /\ is_nd t.
Proof.
  induction t as [v|l IHl r IHr]; cbn [tfold].
  - unfold leaf. destruct (snd v) as [t|].
    + destruct k; try (intros []). cbn [binders]. rewrite pat_vars_cx, app_nil_r. intros H. apply in_app_or in H.
      destruct H as [H|[<-|[]]]; auto.
    + cbn [binders]. rewrite pat_vars_cx. cbn. rewrite !app_nil_r. auto.
  - unfold join. cbn [binders]. fold (join ctx). rewrite pat_vars_cx. cbn [pat_vars flat_map app is_nd].
    rewrite in_app_iff, in_app_iff. intros [[H|[<-|[]]]|H]; [auto|auto|]. apply in_app_or in H.
    destruct H as [H|H]; [apply IHl in H|apply IHr in H]; destruct H as [H|[H|[H _]]]; auto.
Qed.
Lemma binders_a ctx t : existsb has_field (leaves t) = true -> In "a" (binders (tfold (leaf Mut ctx) (join ctx) t)).
Proof.
  induction t as [v|l IHl r IHr]; cbn [tfold leaves].
  - cbn [existsb]. rewrite orb_false_r. unfold leaf, has_field. destruct (snd v); [|discriminate]. intros _.
    cbn [binders]. rewrite pat_vars_cx, app_nil_r. apply in_or_app. right. left. reflexivity.
  - rewrite existsb_app. unfold join. cbn [binders]. fold (join ctx). rewrite orb_true_iff.
    intros [H|H]; apply in_or_app; right; apply in_or_app; auto.
Qed.
Lemma binders_this k ctx t : is_nd t -> In "this" (binders (tfold (leaf k ctx) (join ctx) t)).
Proof.
  destruct t as [v|l r]; [intros []|intros _]. cbn [tfold]. unfold join. cbn [binders]. fold (join ctx). rewrite pat_vars_cx.
  apply in_or_app. left. apply in_or_app. right. left. reflexivity.
Qed.
Lemma leaves_pos t : 1 <= length (leaves t).
Proof. induction t as [v|l IHl r IHr]; cbn [leaves length]; [lia|]. rewrite app_length. lia. Qed.
Lemma is_nd_iff t : is_nd t <-> 2 <= length (leaves t).
Proof.
  destruct t as [v|l r]; cbn [leaves is_nd length]; [split; [intros []|lia]|].
  rewrite app_length. pose proof (leaves_pos l). pose proof (leaves_pos r). split; [lia|auto].
Qed.

(** * Acceptance *)
Section accept.
  Variables (sc : list string) (e : enum) (t1 t2 : tree).
  Hypothesis Legal : legal e.
  Hypothesis Sim : forallb simple (e_variants e) = true.
  Hypothesis Two : 2 <= length (e_variants e).
  Hypothesis Car : existsb carries (e_variants e) = true.
  Notation vs := (map conv (e_variants e)).
  Hypothesis E1 : leaves t1 = firstn (length vs / 2) vs.
  Hypothesis E2 : leaves t2 = skipn (length vs / 2) vs.

  Lemma len_eq : length (leaves t1) = length (e_variants e) / 2 /\ length (leaves t2) = length (e_variants e) - length (e_variants e) / 2.
  Proof.
    rewrite E1, E2, firstn_length, skipn_length, map_length. pose proof (half_lt2 _ Two).
    set (h := length (e_variants e) / 2) in *. split; lia.
  Qed.
  Lemma some_nd : (is_nd t1 \/ is_nd t2) <-> length (e_variants e) <> 2.
  Proof.
    rewrite !is_nd_iff. destruct len_eq as [-> ->]. pose proof (half_lt2 _ Two). pose proof (Nat.div_mod (length (e_variants e)) 2 ltac:(discriminate)) as D.
    pose proof (Nat.mod_upper_bound (length (e_variants e)) 2 ltac:(discriminate)).
    set (h := length (e_variants e) / 2) in *. set (m := length (e_variants e) mod 2) in *. lia.
  Qed.
  Lemma fn_ok_iff kc : fn_ok sc e (fn_of vs t1 t2 kc) = true <->
    (forall x, In x (cx (snd kc) ++ map v_name (e_variants e)) -> ~ In x sc) /\
    (forall x, In x (binders (f_body (fn_of vs t1 t2 kc))) -> ~ In x sc) /\
    (snd kc = true -> ~ In "stabby_ctx" (map v_name (e_variants e))) /\
    (forall x, In x (tparams (fst kc) (snd kc) vs) -> ~ In x (e_params e) /\ ~ In x (mentions e)).
  Proof.
    unfold fn_ok. cbn [fn_of f_params f_tparams]. rewrite conv_names, !andb_true_iff, !nodup_NoDup, forallb_app, andb_true_iff, !forallb_forall.
    assert (D : NoDup (tparams (fst kc) (snd kc) vs)).
    { assert (DF : NoDup (map fnvid vs)).
      { destruct Legal as [D _]. revert D. clear. induction (e_variants e) as [|v l IH]; cbn [map]; [constructor|].
        intros H. inversion H as [|? ? N D]; subst. constructor; [|apply IH; exact D].
        intros I. apply N. rewrite map_map in I. apply in_map_iff in I. destruct I as (w & Ew & I).
        unfold fnvid, conv in Ew. cbn [fst] in Ew. apply append_inj in Ew. rewrite <- Ew. apply in_map. exact I. }
      assert (NF : forall x, lastc x <> lastc "n" -> ~ In x (map fnvid vs)).
      { intros x Hx I. apply in_map_iff in I. destruct I as (w & <- & _). apply Hx. apply lastc_append. }
      unfold tparams. destruct (fst kc), (snd kc); cbn [app]; repeat constructor; try exact DF;
        cbn [In]; intros Hin; repeat (destruct Hin as [Hin|Hin]; [discriminate Hin|]); revert Hin; apply NF; discriminate. }
    assert (P : NoDup (cx (snd kc) ++ map v_name (e_variants e)) <-> (snd kc = true -> ~ In "stabby_ctx" (map v_name (e_variants e)))).
    { destruct (snd kc); cbn [cx app].
      - split; [intros H _; inversion H; assumption|intros H; constructor; [apply H; reflexivity|apply Legal]].
      - split; [discriminate|intros _; apply Legal]. }
    rewrite P. split.
    - intros ((((A & B) & C) & _) & T). split; [intros x Hx; apply mem_false; exact (A x Hx)|].
      split; [intros x Hx; apply mem_false; exact (B x Hx)|]. split; [exact C|].
      intros x Hx. specialize (T x Hx). apply andb_true_iff in T. rewrite !mem_false in T. exact T.
    - intros (A & B & C & T). repeat split; try assumption.
      + intros x Hx. apply mem_false. exact (A x Hx).
      + intros x Hx. apply mem_false. exact (B x Hx).
      + intros x Hx. destruct (T x Hx) as [T1 T2]. apply andb_true_iff. rewrite !mem_false. auto.
  Qed.
  Lemma tparams_sub kc x : In x (tparams (fst kc) (snd kc) vs) -> In x (reserved_types e).
  Proof.
    unfold tparams, reserved_types. rewrite map_map. rewrite in_app_iff. cbn [In]. rewrite in_app_iff.
    intros [H|[H|[H|H]]]; auto.
    - destruct (fst kc); [destruct H| |]; (destruct H as [H|[]]; auto).
    - destruct (snd kc); [|destruct H]. destruct H as [H|[]]; auto.
  Qed.
  Lemma tparams_all x : In x (reserved_types e) -> In x (tparams Ref true vs).
  Proof.
    unfold tparams, reserved_types. rewrite map_map. cbn [app In]. intros [H|[H|[H|H]]]; auto.
  Qed.
  Lemma has_a ctx : In "a" (binders (f_body (fn_of vs t1 t2 (Mut, ctx)))).
  Proof.
    cbn [fn_of f_body fst snd final binders]. unfold final. cbn [binders].
    assert (H : existsb has_field (leaves t1 ++ leaves t2) = true).
    { rewrite E1, E2, firstn_skipn, conv_fields by exact Sim. exact Car. }
    rewrite existsb_app, orb_true_iff in H. apply in_or_app.
    destruct H as [H|H]; [left|right]; apply binders_a; exact H.
  Qed.

  Lemma accepted_iff :
    accepted sc e (Gen (ctors vs (tfold cleaf cjoin (Nd t1 t2))) (map (fn_of vs t1 t2) kinds)) = true <->
    (forall v, In v (e_variants e) -> ~ In (v_name v) sc) /\
    (~ In "value" sc /\ ~ In "a" sc /\ ~ In "stabby_ctx" sc /\ (In "this" sc -> length (e_variants e) = 2)) /\
    (forall v, In v (e_variants e) -> ~ In (v_name v) reserved_variants) /\
    (forall x, In x (reserved_types e) -> ~ In x (e_params e) /\ ~ In x (mentions e)).
  Proof.
    assert (Lc : length (tfold cleaf cjoin (Nd t1 t2)) = length vs).
    { rewrite cfold_length. cbn [leaves]. rewrite E1, E2, firstn_skipn. reflexivity. }
    unfold accepted. cbn [g_ctors g_fns]. rewrite !andb_true_iff, ctors_params, ctors_names by (exact Lc || (rewrite conv_fields by exact Sim; exact Car)).
    rewrite conv_names, forallb_forall, nodup_NoDup, NoDup_app_iff.
    assert (FN : map f_name (map (fn_of vs t1 t2) kinds) = ["match_owned"; "match_ref"; "match_mut"; "match_owned_ctx"; "match_ref_ctx"; "match_mut_ctx"]) by reflexivity.
    rewrite FN.
    assert (InN : forall x, In x (map v_name (e_variants e)) <-> exists v, In v (e_variants e) /\ v_name v = x).
    { intros x. rewrite in_map_iff. split; intros (v & A & B); exists v; auto. }
    split.
    - intros ((A & B) & (_ & _ & D)).
      assert (B' : forall kc, In kc kinds -> fn_ok sc e (fn_of vs t1 t2 kc) = true).
      { intros kc Hk. apply B. apply in_map. exact Hk. }
      assert (Bm : fn_ok sc e (fn_of vs t1 t2 (Mut, true)) = true) by (apply B'; cbn; tauto).
      assert (Br : fn_ok sc e (fn_of vs t1 t2 (Ref, true)) = true) by (apply B'; cbn; tauto).
      apply fn_ok_iff in Bm, Br. destruct Bm as (M1 & M2 & M3 & _). destruct Br as (_ & _ & _ & R4). cbn [fst snd] in *.
      split; [|split; [|split]].
      + intros v Hv. apply M1. apply in_or_app. right. apply in_map. exact Hv.
      + split; [exact A|]. split; [apply M2, has_a|]. split; [apply M1; left; reflexivity|].
        intros T. destruct (Nat.eq_dec (length (e_variants e)) 2) as [Q|Q]; [exact Q|exfalso].
        apply some_nd in Q. apply (M2 "this"); [|exact T]. cbn [fn_of f_body fst snd]. unfold final. cbn [binders].
        apply in_or_app. destruct Q as [Q|Q]; [left|right]; apply binders_this; exact Q.
      + intros v Hv Hr. unfold reserved_variants in Hr.
        change (In (v_name v) (["match_owned"; "match_ref"; "match_mut"; "match_owned_ctx"; "match_ref_ctx"; "match_mut_ctx"] ++ ["stabby_ctx"])) in Hr.
        apply in_app_or in Hr. destruct Hr as [Hr|[Hr|[]]].
        * apply (D (v_name v)); [apply in_map; exact Hv|exact Hr].
        * apply M3; [reflexivity|]. rewrite Hr. apply in_map. exact Hv.
      + intros x Hx. apply R4. apply tparams_all. exact Hx.
    - intros (Sc & (V & Aa & Cx & Th) & Fs & Ts). split; [split; [exact V|]|].
      + intros f Hf. apply in_map_iff in Hf. destruct Hf as (kc & <- & _). apply fn_ok_iff. split; [|split; [|split]].
        * intros x Hx. apply in_app_or in Hx. destruct Hx as [Hx|Hx].
          -- destruct (snd kc); cbn in Hx; [destruct Hx as [<-|[]]; exact Cx|destruct Hx].
          -- apply InN in Hx. destruct Hx as (v & Hv & <-). exact (Sc v Hv).
        * intros x Hx. cbn [fn_of f_body] in Hx. unfold final in Hx. cbn [binders] in Hx.
          assert (Q : In x (cx (snd kc)) \/ x = "a" \/ x = "this" /\ (is_nd t1 \/ is_nd t2)).
          { apply in_app_or in Hx. destruct Hx as [Hx|Hx]; apply binders_sub in Hx; destruct Hx as [Hx|[Hx|[Hx Hy]]]; auto. }
          destruct Q as [Q|[->|(-> & Q)]]; [|exact Aa|].
          -- destruct (snd kc); cbn in Q; [destruct Q as [<-|[]]; exact Cx|destruct Q].
          -- intros T. apply some_nd in Q. apply Q. exact (Th T).
        * intros _ I. apply InN in I. destruct I as (v & Hv & Ev). apply (Fs v Hv). rewrite Ev. cbn. tauto.
        * intros x Hx. apply Ts. exact (tparams_sub kc x Hx).
      + split; [apply Legal|]. split; [apply nodup_NoDup; reflexivity|].
        intros x Hx I. apply InN in Hx. destruct Hx as (v & Hv & <-). apply (Fs v Hv).
        unfold reserved_variants. cbn [In] in *. tauto.
  Qed.
End accept.

(** * Calls *)
Lemma lookup_combine names : forall vals i x v, NoDup names -> nth_error names i = Some x -> nth_error vals i = Some v ->
  lookup x (combine names vals) = Some v.
Proof.
  induction names as [|y names IH]; intros vals i x v D H V; [destruct i; discriminate H|].
  destruct vals as [|w vals]; [destruct i; discriminate V|]. inversion D as [|? ? N D']; subst. cbn [combine lookup].
  destruct i as [|i]; cbn [nth_error] in *.
  - injection H as <-. injection V as <-. rewrite String.eqb_refl. reflexivity.
  - destruct (String.eqb_spec x y) as [->|_]; [exfalso; apply N; exact (nth_error_In _ _ H)|]. exact (IH _ _ _ _ D' H V).
Qed.
Definition closure (i : nat) : val := VFun (fun bs => Some (i, bs)).
Definition vals_of (c : list N) (n : nat) : list val := map (fun n => VBase (BCtx n)) c ++ map closure (seq 0 n).
Lemma nth_closure n i : i < n -> nth_error (map closure (seq 0 n)) i = Some (closure i).
Proof.
  intros H. rewrite nth_error_map. rewrite (nth_error_nth' _ 0) by (rewrite seq_length; exact H). rewrite seq_nth by exact H. reflexivity.
Qed.
Lemma lookup_env (ctx : bool) (c : list N) names i x : length c = (if ctx then 1 else 0) -> NoDup (cx ctx ++ names) -> nth_error names i = Some x ->
  lookup x (combine (cx ctx ++ names) (vals_of c (length names))) = Some (closure i).
Proof.
  intros Hc D H. assert (L : i < length names) by (apply nth_error_Some; congruence).
  unfold vals_of. destruct ctx.
  - destruct c as [|c [|? ?]]; try discriminate Hc. apply (lookup_combine _ _ (S i)); [exact D|exact H|]. cbn [map app nth_error]. apply nth_closure. exact L.
  - destruct c; [|discriminate Hc]. apply (lookup_combine _ _ i); [exact D|exact H|]. cbn [map app]. apply nth_closure. exact L.
Qed.
Lemma bases_env (ctx : bool) (c : list N) names m : length c = (if ctx then 1 else 0) -> bases (combine (cx ctx ++ names) (vals_of c m)) (cx ctx) = Some (map BCtx c).
Proof.
  intros Hc. unfold vals_of. destruct ctx; [destruct c as [|c [|? ?]]; try discriminate Hc; reflexivity|destruct c; [reflexivity|discriminate Hc]].
Qed.
Lemma find_fn vs t1 t2 k ctx cs : find (fun f => String.eqb (f_name f) (fname k ctx)) (g_fns (Gen cs (map (fn_of vs t1 t2) kinds))) = Some (fn_of vs t1 t2 (k, ctx)).
Proof. destruct k, ctx; reflexivity. Qed.
Definition run (self : data) (r : env) (ctx : bool) (a b : expr) : option out :=
  match eval self r (final ctx a b) with Some (VOut o) => Some o | _ => None end.
Lemma call_eq vs t1 t2 cs k (ctx : bool) (c : list N) n d : length c = (if ctx then 1 else 0) -> n = length vs ->
  call_match (Gen cs (map (fn_of vs t1 t2) kinds)) (fname k ctx) c n d =
  run d (combine (cx ctx ++ map fst vs) (vals_of c n)) ctx (tfold (leaf k ctx) (join ctx) t1) (tfold (leaf k ctx) (join ctx) t2).
Proof.
  intros Hc ->. unfold call_match. rewrite find_fn. cbn [fn_of f_params f_body fst snd].
  rewrite !app_length, !map_length, seq_length, Hc.
  assert (E : length (cx ctx) = (if ctx then 1 else 0)) by (destruct ctx; reflexivity). rewrite E, Nat.eqb_refl. reflexivity.
Qed.
Lemma run_ok self r (ctx : bool) (c : list N) a b : bases r (cx ctx) = Some (map BCtx c) -> isfun (eval self r a) -> isfun (eval self r b) ->
  run self r ctx a b = match self with
                       | DOk d => appl (eval self r a) (map BCtx c ++ [BData d])
                       | DErr d => appl (eval self r b) (map BCtx c ++ [BData d])
                       | _ => None
                       end.
Proof.
  intros B (fa & A1) (fb & B1). unfold run, final. cbn [eval]. rewrite B, A1, B1. unfold match_data, appl.
  destruct self; try reflexivity; [destruct (fa _)|destruct (fb _)]; reflexivity.
Qed.
Lemma run_none self r (ctx : bool) (c : list N) a b : bases r (cx ctx) = Some (map BCtx c) ->
  match self with
  | DOk d => appl (eval self r a) (map BCtx c ++ [BData d]) = None
  | DErr d => appl (eval self r b) (map BCtx c ++ [BData d]) = None
  | _ => True
  end -> run self r ctx a b = None.
Proof.
  intros B H. unfold run, final. cbn [eval]. rewrite B. destruct (eval self r a) as [[]|]; try reflexivity.
  destruct (eval self r b) as [[]|]; try reflexivity. unfold match_data, appl in *.
  destruct self; try reflexivity; rewrite H; reflexivity.
Qed.

(** * Both ways *)
Section both.
  Variables (sc : list string) (e : enum) (t1 t2 : tree).
  Hypothesis Legal : legal e.
  Hypothesis Sim : forallb simple (e_variants e) = true.
  Hypothesis Two : 2 <= length (e_variants e).
  Notation vs := (map conv (e_variants e)).
  Hypothesis E1 : leaves t1 = firstn (length vs / 2) vs.
  Hypothesis E2 : leaves t2 = skipn (length vs / 2) vs.
  Notation g := (Gen (ctors vs (tfold cleaf cjoin (Nd t1 t2))) (map (fn_of vs t1 t2) kinds)).

  Lemma leaves_all : leaves (Nd t1 t2) = vs.
  Proof. cbn [leaves]. rewrite E1, E2. apply firstn_skipn. Qed.
  Lemma nth_conv i v : nth_error (e_variants e) i = Some v -> nth_error vs i = Some (conv v).
  Proof. intros H. rewrite nth_error_map, H. reflexivity. Qed.
  Lemma constructed i v n : nth_error (e_variants e) i = Some v -> construct g (v_name v) n = Some (place (Nd t1 t2) i (pay (conv v) n)).
  Proof.
    intros H. pose proof (nth_conv _ _ H) as Hc. rewrite <- leaves_all in Hc.
    destruct (ctor_eval _ _ _ n Hc) as (b & Hb & Ev). unfold construct. cbn [g_ctors].
    change (v_name v) with (fst (conv v)). rewrite (find_ctor vs _ i _ b); [|rewrite conv_names; apply Legal|apply nth_conv; exact H|exact Hb].
    cbn [c_params c_body]. apply Ev. unfold has_field, cparams. destruct (snd (conv v)); [reflexivity|discriminate].
  Qed.
  Lemma conv_args v c n : In v (e_variants e) -> map BCtx c ++ args (conv v) n = expected v c n.
  Proof.
    intros H. rewrite forallb_forall in Sim. specialize (Sim v H). unfold args, expected. rewrite conv_field by exact Sim.
    unfold carries. destruct (v_shape v); reflexivity.
  Qed.
  Lemma half_len : length (leaves t1) = length (e_variants e) / 2.
  Proof. exact (proj1 (len_eq e t1 t2 Two E1 E2)). Qed.
  Lemma half_len2 : length (leaves t2) = length (e_variants e) - length (e_variants e) / 2.
  Proof. exact (proj2 (len_eq e t1 t2 Two E1 E2)). Qed.
  Lemma nth_halves i : nth_error vs i = if Nat.ltb i (length (leaves t1)) then nth_error (leaves t1) i else nth_error (leaves t2) (i - length (leaves t1)).
  Proof. rewrite <- leaves_all. cbn [leaves]. apply nth_app. Qed.

  Lemma dispatched : (forall v, In v (e_variants e) -> v_name v <> "stabby_ctx") ->
    (forall v, In v (e_variants e) -> v_name v = "a" -> carries v = false) ->
    (forall i v, nth_error (e_variants e) i = Some v -> v_name v = "this" -> ~ crowded (length (e_variants e)) i) ->
    forall i v n k (ctx : bool) c, nth_error (e_variants e) i = Some v -> length c = (if ctx then 1 else 0) ->
      call_match g (fname k ctx) c (length (e_variants e)) (place (Nd t1 t2) i (pay (conv v) n)) = Some (i, expected v c n).
  Proof.
    intros Cx Aa Th i v n k ctx c Hi Hc. rewrite call_eq by (exact Hc || (rewrite map_length; reflexivity)).
    rewrite conv_names. set (r := combine _ _). 
    assert (D : NoDup (cx ctx ++ map v_name (e_variants e))).
    { destruct ctx; cbn [cx app]; [|apply Legal]. constructor; [|apply Legal]. intros I. apply in_map_iff in I. destruct I as (w & Ew & I). exact (Cx w I Ew). }
    assert (Lk : forall j w, nth_error (e_variants e) j = Some w -> lookup (v_name w) r = Some (closure j)).
    { intros j w Hj. unfold r. pose proof (lookup_env ctx c (map v_name (e_variants e)) j (v_name w) Hc D) as Q. rewrite map_length in Q. apply Q.
      rewrite nth_error_map, Hj. reflexivity. }
    assert (Bs : bases r (cx ctx) = Some (map BCtx c)) by (unfold r; apply bases_env; exact Hc).
    set (F := fun x => match lookup x r with Some (VFun f) => f | _ => fun _ => None end).
    assert (InV : forall w, In w vs -> fst w <> "stabby_ctx" /\ (fst w = "a" -> has_field w = false) /\ lookup (fst w) r = Some (VFun (F (fst w)))).
    { intros w Hw. apply in_map_iff in Hw. destruct Hw as (u & <- & Hu). cbn [conv fst]. split; [exact (Cx u Hu)|]. split.
      - intros Ea. rewrite conv_field; [exact (Aa u Hu Ea)|]. rewrite forallb_forall in Sim. exact (Sim u Hu).
      - destruct (In_nth_error _ _ Hu) as (j & Hj). unfold F. rewrite (Lk _ _ Hj). reflexivity. }
    assert (InL : forall w, In w (leaves t1) \/ In w (leaves t2) -> In w vs).
    { intros w Hw. rewrite <- leaves_all. cbn [leaves]. apply in_or_app. exact Hw. }
    assert (One : forall t, length (leaves t) < 2 -> exists v, t = Lf v).
    { intros [w|l q]; [eauto|]. cbn [leaves]. rewrite app_length. pose proof (leaves_pos l). pose proof (leaves_pos q). lia. }
    assert (T1 : (exists v, t1 = Lf v) \/ forall v, In v (leaves t1) -> fst v <> "this").
    { destruct (Nat.lt_ge_cases (length (leaves t1)) 2) as [X|X]; [left; apply One; exact X|right]. intros w Hw Ew.
      destruct (In_nth_error _ _ Hw) as (j & Hj). assert (Lj : j < length (leaves t1)) by (apply nth_error_Some; congruence).
      assert (Hj' : nth_error vs j = Some w) by (rewrite nth_halves; apply Nat.ltb_lt in Lj; rewrite Lj; exact Hj).
      rewrite nth_error_map in Hj'. destruct (nth_error (e_variants e) j) as [u|] eqn:Eu; [|discriminate Hj']. injection Hj' as <-.
      apply (Th _ _ Eu Ew). unfold crowded. rewrite half_len in *. apply Nat.ltb_lt in Lj. rewrite Lj. exact X. }
    assert (T2 : (exists v, t2 = Lf v) \/ forall v, In v (leaves t2) -> fst v <> "this").
    { destruct (Nat.lt_ge_cases (length (leaves t2)) 2) as [X|X]; [left; apply One; exact X|right]. intros w Hw Ew.
      destruct (In_nth_error _ _ Hw) as (j & Hj).
      assert (Lj : Nat.ltb (length (leaves t1) + j) (length (leaves t1)) = false) by (apply Nat.ltb_ge; lia).
      assert (Hj' : nth_error vs (length (leaves t1) + j) = Some w).
      { rewrite nth_halves, Lj. replace (length (leaves t1) + j - length (leaves t1)) with j by lia. exact Hj. }
      rewrite nth_error_map in Hj'. destruct (nth_error (e_variants e) (length (leaves t1) + j)) as [u|] eqn:Eu; [|discriminate Hj']. injection Hj' as <-.
      apply (Th _ _ Eu Ew). unfold crowded. rewrite <- half_len in *. rewrite Lj. rewrite half_len2, <- half_len in X. exact X. }
    set (self := place (Nd t1 t2) i (pay (conv v) n)).
    destruct (disp self k ctx c n Hc F t1 r) as [F1 G1]; [intros w Hw; apply InV, InL; left; exact Hw|exact T1|].
    destruct (disp self k ctx c n Hc F t2 r) as [F2 G2]; [intros w Hw; apply InV, InL; right; exact Hw|exact T2|].
    rewrite (run_ok self r ctx c) by assumption.
    assert (FV : F (fst (conv v)) (map BCtx c ++ args (conv v) n) = Some (i, expected v c n)).
    { unfold F. cbn [conv fst]. rewrite (Lk _ _ Hi). cbn [closure]. rewrite conv_args by exact (nth_error_In _ _ Hi). reflexivity. }
    pose proof (nth_conv _ _ Hi) as Hn. rewrite nth_halves in Hn. unfold self at 1. cbn [place].
    destruct (Nat.ltb i (length (leaves t1))).
    - rewrite (G1 _ _ Hn). exact FV.
    - rewrite (G2 _ _ Hn). exact FV.
  Qed.

  Lemma refused_this i v n : nth_error (e_variants e) i = Some v -> v_name v = "this" -> crowded (length (e_variants e)) i ->
    call_match g (fname Owned false) [] (length (e_variants e)) (place (Nd t1 t2) i (pay (conv v) n)) = None.
  Proof.
    intros Hi Ev Cr. rewrite call_eq by (reflexivity || (rewrite map_length; reflexivity)).
    apply (run_none _ _ false []); [apply bases_env; reflexivity|].
    unfold crowded in Cr. rewrite <- half_len2, <- half_len in Cr. 
    pose proof (nth_conv _ _ Hi) as Hn. rewrite nth_halves in Hn. cbn [place].
    destruct (Nat.ltb i (length (leaves t1))); rewrite <- is_nd_iff in Cr.
    - destruct t1 as [w|l q]; [destruct Cr|]. cbn [tfold place leaves] in *. apply (node_none _ Owned false []); [reflexivity|].
      rewrite nth_app in Hn. destruct (Nat.ltb i (length (leaves l)));
        (eapply (bad_this _ Owned false [] n eq_refl); [reflexivity|exact Hn|exact Ev]).
    - destruct t2 as [w|l q]; [destruct Cr|]. set (m := i - length (leaves t1)) in *. cbn [tfold place leaves] in *. apply (node_none _ Owned false []); [reflexivity|].
      rewrite nth_app in Hn. destruct (Nat.ltb m (length (leaves l)));
        (eapply (bad_this _ Owned false [] n eq_refl); [reflexivity|exact Hn|exact Ev]).
  Qed.
  Lemma refused_a i v n : nth_error (e_variants e) i = Some v -> v_name v = "a" -> carries v = true ->
    call_match g (fname Mut false) [] (length (e_variants e)) (place (Nd t1 t2) i (pay (conv v) n)) = None.
  Proof.
    intros Hi Ev Cr. rewrite call_eq by (reflexivity || (rewrite map_length; reflexivity)).
    apply (run_none _ _ false []); [apply bases_env; reflexivity|].
    assert (HF : has_field (conv v) = true).
    { rewrite conv_field; [exact Cr|]. rewrite forallb_forall in Sim. apply Sim. exact (nth_error_In _ _ Hi). }
    pose proof (nth_conv _ _ Hi) as Hn. rewrite nth_halves in Hn. cbn [place].
    destruct (Nat.ltb i (length (leaves t1))); (apply (bad_a _ Mut false [] n eq_refl); [reflexivity|exact Hn|exact Ev|exact HF]).
  Qed.
End both.

Lemma some_inj {A} (a b : A) : Some a = Some b -> a = b.
Proof. congruence. Qed.
Lemma names_exact sc e : legal e -> (works sc e <-> supported sc e).
Proof.
  intros Le. split.
  - intros (g & Ex & Ac & Run). destruct (expand_some _ _ Ex) as (Sim & Two & Car).
    destruct (expand_eq e Sim Two Car) as (t1 & t2 & E1 & E2 & Eg). rewrite Ex in Eg. apply some_inj in Eg. subst g.
    apply (accepted_iff sc e t1 t2 Le Sim Two Car E1 E2) in Ac. destruct Ac as (A & B & C & D).
    constructor; try assumption.
    + intros i v Hi Ev Cr. destruct (Run i v 0%N Hi) as (d & Hd & Hr).
      rewrite (constructed e t1 t2 Le E1 E2 i v 0%N Hi) in Hd. apply some_inj in Hd. subst d.
      specialize (Hr Owned false [] eq_refl). rewrite (refused_this e t1 t2 Two E1 E2 i v 0%N Hi Ev Cr) in Hr. discriminate Hr.
    + intros v Hv Ev. destruct (carries v) eqn:Cv; [exfalso|reflexivity]. destruct (In_nth_error _ _ Hv) as (i & Hi).
      destruct (Run i v 0%N Hi) as (d & Hd & Hr).
      rewrite (constructed e t1 t2 Le E1 E2 i v 0%N Hi) in Hd. apply some_inj in Hd. subst d.
      specialize (Hr Mut false [] eq_refl). rewrite (refused_a e t1 t2 Sim E1 E2 i v 0%N Hi Ev Cv) in Hr. discriminate Hr.
  - intros [Sim Two Car A B C Th Aa D].
    destruct (expand_eq e Sim Two Car) as (t1 & t2 & E1 & E2 & Eg).
    eexists. split; [exact Eg|]. split; [apply (accepted_iff sc e t1 t2 Le Sim Two Car E1 E2); auto|].
    intros i v n Hi. exists (place (Nd t1 t2) i (pay (conv v) n)). split; [apply constructed; assumption|].
    intros k ctx c Hc. apply (dispatched e t1 t2 Le Sim Two E1 E2); try assumption.
    intros w Hw Ew. apply (C w Hw). rewrite Ew. cbn. tauto.
Qed.
Lemma not_supported sc e : legal e -> ~ supported sc e -> ~ works sc e.
Proof. intros L N W. apply N. apply names_exact; assumption. Qed.
