(** Lemmas for C76. *)
From Coq Require Import String Ascii List Permutation Bool Arith NArith Lia.
From Verif Require Import M_Typenum S_Typenum L_Typenum M_TyEval S_TyEval.
Import ListNotations.
Local Open Scope char_scope.
Local Open Scope nat_scope.

Lemma lsize_app : forall a b, lsize (a ++ b) = lsize a + lsize b.
Proof. induction a as [|t a IH]; intro b; cbn [app lsize]; [reflexivity|]. rewrite IH. lia. Qed.
Lemma tsize_group : forall l, tsize (TGroup l) = S (S (lsize l)).
Proof. intro l. induction l as [|t l IH]; [reflexivity|]. cbn [lsize]. cbn [tsize] in *. lia. Qed.
Lemma tsize_pos : forall t, 0 < tsize t.
Proof. intros [l| | |]; cbn; lia. Qed.

Lemma take_angle_size : forall l n a b, take_angle n l = (a, b) -> lsize b <= lsize l.
Proof.
  induction l as [|t l IH]; intros n a b H; cbn [take_angle] in H; [injection H as <- <-; auto|]. cbv zeta in H.
  pose proof (tsize_pos t). cbn [lsize].
  destruct (match t with TPunct "<" _ => S n | TPunct ">" _ => n - 1 | _ => n end) as [|m]; [injection H as <- <-; lia|].
  destruct (take_angle (S m) l) as [x y] eqn:T. injection H as <- <-. apply IH in T. lia.
Qed.

Ltac chars c := destruct c as [[|] [|] [|] [|] [|] [|] [|] [|]].

Lemma set_op_fuel : forall o s, set_op o s <> OutOfFuel.
Proof. intros o s. unfold set_op. destruct (operation s); discriminate. Qed.
Ltac split_all H := repeat match type of H with
  | Ok _ = Ok _ => injection H as <- <- <-
  | Panic = _ => discriminate H
  | OutOfFuel = Ok _ => discriminate H
  | Ok _ = OutOfFuel => discriminate H
  | context [match set_op ?o ?s with _ => _ end] => let T := fresh "T" in destruct (set_op o s) eqn:T; try (exfalso; exact (set_op_fuel _ _ T))
  | context [match take_angle 1 ?r with _ => _ end] => let T := fresh "T" in destruct (take_angle 1 r) eqn:T; apply take_angle_size in T
  | context [match ?x with _ => _ end] => destruct x; try discriminate H
  end.

Lemma punct_size : forall c j s r s' r' k, punct c j s r = Ok (s', r', k) -> lsize r' <= lsize r.
Proof. intros c j s r s' r' k H. chars c; try discriminate H; cbv beta iota zeta delta [punct] in H; split_all H; cbn [lsize tsize]; lia. Qed.
Lemma punct_fuel : forall c j s r, punct c j s r <> OutOfFuel.
Proof. intros c j s r H. chars c; try discriminate H; cbv beta iota zeta delta [punct] in H; split_all H. Qed.
Lemma build_fuel : forall o l, build o l <> OutOfFuel.
Proof. intros [] [|a [|b [|c [|]]]]; discriminate. Qed.

Lemma loop_fuel : forall f s l, lsize l < f -> loop f s l <> OutOfFuel.
Proof.
  induction f as [|f IH]; intros s l L; [lia|]. cbn [loop]. destruct l as [|[g|i|c j|] r].
  - apply build_fuel.
  - cbn [lsize] in L. rewrite tsize_group in L. pose proof (IH initial g ltac:(lia)).
    destruct (loop f initial g); [apply IH; lia|discriminate|congruence].
  - destruct (accept_ident s); [|discriminate]. apply IH. cbn in L. lia.
  - pose proof (punct_fuel c j s r). destruct (punct c j s r) as [[[s' r'] k]| |] eqn:P; [|discriminate|congruence].
    apply punct_size in P. cbn in L. destruct k; apply IH; lia.
  - discriminate.
Qed.
Lemma loop_more : forall f s l e n, loop f s l = Ok e -> loop (f + n) s l = Ok e.
Proof.
  induction f as [|f IH]; intros s l e n H; [discriminate|]. cbn [loop Nat.add] in *. destruct l as [|[g|i|c j|] r].
  - exact H.
  - destruct (loop f initial g) as [e'| |] eqn:G; try discriminate. rewrite (IH _ _ _ n G). auto.
  - destruct (accept_ident s); [auto|discriminate].
  - destruct (punct c j s r) as [[[s' r'] []]| |]; try discriminate; auto.
  - discriminate.
Qed.
Lemma parse_of_loop : forall l f e, loop f initial l = Ok e -> parse l = Ok e.
Proof.
  intros l f e H. unfold parse. pose proof (loop_fuel (S (lsize l)) initial l ltac:(lia)) as N.
  destruct (loop (S (lsize l)) initial l) as [e'| |] eqn:P; [| |congruence].
  - pose proof (loop_more _ _ _ _ (S (lsize l)) H) as A. pose proof (loop_more _ _ _ _ f P) as B. rewrite Nat.add_comm in B. congruence.
  - exfalso. pose proof (loop_more _ _ _ _ (S (lsize l)) H) as A.
    assert (M : forall f s l n, loop f s l = Panic -> loop (f + n) s l = Panic).
    { clear. induction f as [|f IH]; intros s l n H; [discriminate|]. cbn [loop Nat.add] in *. destruct l as [|[g|i|c j|] r]; auto.
      - destruct (loop f initial g) as [e'| |] eqn:G; try discriminate; [rewrite (loop_more _ _ _ _ n G); auto|rewrite (IH _ _ n G); auto].
      - destruct (accept_ident s); auto.
      - destruct (punct c j s r) as [[[s' r'] []]| |]; auto. }
    pose proof (M _ _ _ f P) as B. rewrite Nat.add_comm in B. congruence.
Qed.

(** The loop goes from [s], over [ts], to [s']. *)
Definition eats (s : state) (ts : list tok) (s' : state) : Prop :=
  forall r e f, loop f s' r = Ok e -> exists f', loop f' s (ts ++ r) = Ok e.
Lemma eats_nil : forall s, eats s [] s.
Proof. intros s r e f H. exists f. exact H. Qed.
Lemma eats_app : forall s a s' b s'', eats s a s' -> eats s' b s'' -> eats s (a ++ b) s''.
Proof. intros s a s' b s'' A B r e f H. destruct (B r e f H) as [f1 H1]. rewrite <- app_assoc. exact (A _ _ _ H1). Qed.

Lemma take_angle_balanced : forall a, balanced a -> forall n j r, take_angle (S n) (a ++ TPunct ">" j :: r) =
  match n with O => (a, r) | S _ => let '(x, y) := take_angle n r in (a ++ TPunct ">" j :: x, y) end.
Proof.
  intros a B. induction B as [|t r' N1 N2 B IH|j1 a j2 b Ba IHa Bb IHb]; intros n j r.
  - cbn [app take_angle]. cbn [Nat.sub]. rewrite Nat.sub_0_r. destruct n as [|n]; [reflexivity|]. destruct (take_angle (S n) r). reflexivity.
  - cbn [app take_angle].
    assert (Q : match t with TPunct "<" _ => S (S n) | TPunct ">" _ => S n - 1 | _ => S n end = S n).
    { destruct t as [| |c jj|]; auto. chars c; auto; exfalso; (eapply N1; reflexivity) || (eapply N2; reflexivity). }
    rewrite Q, (IH n j r). destruct n as [|n]; [reflexivity|]. destruct (take_angle (S n) r). reflexivity.
  - cbn [app take_angle]. rewrite <- app_assoc. cbn [app]. rewrite (IHa (S n)), (IHb n j r).
    destruct n as [|n]; [rewrite <- ?app_assoc; reflexivity|]. destruct (take_angle (S n) r). rewrite <- app_assoc. reflexivity.
Qed.

Lemma eats_path : forall b ts ns, path_tokens b ts ns -> forall s, accept_ident s = b ->
  exists b', eats s ts (St (path s ++ ns) b' (in_ternary s) (operation s) (types s)).
Proof.
  intros b ts ns P. induction P as [b|i ts ns P IH|b j ts ns P IH|b j a j' ts ns B P IH]; intros s A.
  - exists b. rewrite app_nil_r. destruct s; cbn in *; subst. apply eats_nil.
  - destruct (IH (St (path s ++ [TIdent i]) false (in_ternary s) (operation s) (types s)) eq_refl) as [b' H]. exists b'. cbn [path in_ternary operation types] in H.
    rewrite <- app_assoc in H. intros r e f L. destruct (H r e f L) as [f' H']. exists (S f'). cbn [app loop]. rewrite A. exact H'.
  - destruct (IH (St (path s ++ [TPunct ":" true; TPunct ":" false]) true (in_ternary s) (operation s) (types s)) eq_refl) as [b' H]. exists b'.
    cbn [path in_ternary operation types] in H. rewrite <- app_assoc in H. intros r e f L. destruct (H r e f L) as [f' H']. exists (S f'). exact H'.
  - destruct (IH (St (path s ++ TPunct "<" false :: a ++ [TPunct ">" false]) (accept_ident s) (in_ternary s) (operation s) (types s)) A) as [b' H]. exists b'.
    cbn [path in_ternary operation types] in H. intros r e f L.
    assert (Q : path s ++ TPunct "<" false :: a ++ TPunct ">" false :: ns = (path s ++ TPunct "<" false :: a ++ [TPunct ">" false]) ++ ns).
    { rewrite <- app_assoc. cbn [app]. rewrite <- app_assoc. reflexivity. }
    rewrite Q in L. destruct (H r e f L) as [f' H']. exists (S f'). cbn [app loop punct]. rewrite <- app_assoc. cbn [app].
    rewrite (take_angle_balanced a B 0 j' (ts ++ r)). exact H'.
Qed.

(** What is in a state, were the operand complete. *)
Definition full (s : state) : list tyexpr := match path s with [] => types s | p => types s ++ [EType p] end.
Definition fresh_st (s : state) : Prop := path s = [] /\ accept_ident s = true.
Definition operand (e : tyexpr) (ts : list tok) : Prop := forall s, fresh_st s ->
  exists s', eats s ts s' /\ full s' = types s ++ [e] /\ in_ternary s' = in_ternary s /\ operation s' = operation s.
Lemma path_nonempty : forall b ts ns, path_tokens b ts ns -> ts <> [] -> ns <> [].
Proof. intros b ts ns H. destruct H; intros; try discriminate. auto. Qed.

Lemma loop_end : forall s, loop 1 s [] = build (operation s) (full s).
Proof. intros s. cbn [loop]. unfold full. destruct (path s); reflexivity. Qed.
Lemma flush_full : forall s, flush s = St [] true (in_ternary s) (operation s) (full s).
Proof. intros s. unfold flush, full. destruct (path s); reflexivity. Qed.

Definition op_of (f : tyexpr -> tyexpr -> tyexpr) (o : tyops) : Prop := forall l r, build o [l; r] = Ok (f l r).
Lemma eats_infix : forall op f, infix op f -> exists o, op_of f o /\
  forall s, operation s = OType -> eats s op (St [] true (in_ternary s) o (full s)).
Proof.
  intros op f H. destruct H; [exists OAdd|exists OSub|exists ORem|exists OBitOr|exists OBitAnd|exists OIsEqual]; (split; [intros l r; reflexivity|]); intros s O r e f H; exists (S f); cbn [app loop punct]; unfold set_op; rewrite O, flush_full; exact H.
Qed.

Lemma written_parse : forall b e ts, written b e ts -> (b = true -> operand e ts) /\ exists f, loop f initial ts = Ok e.
Proof.
  intros b e ts W. induction W as [b ts ns P N|b e ts W [_ [f IH]]|e ts W [IH _]|op g l ls r rs I Wl [IHl _] Wr [IHr _]|c cs t ts f fs j Wc [IHc _] Wt [IHt _] Wf [IHf _]].
  - assert (G : operand (EType ns) ts).
    { intros s [E A]. destruct (eats_path true ts ns P s A) as [b' H]. rewrite E in H. cbn [app] in H.
      eexists. split; [exact H|]. unfold full. cbn [path types in_ternary operation].
      destruct ns; [exfalso; exact (path_nonempty _ _ _ P N eq_refl)|auto]. }
    split; [auto|]. destruct (G initial (conj eq_refl eq_refl)) as (s' & H & F & _ & O).
    destruct (H [] (EType ns) 1) as [f' H']; [rewrite loop_end, F, O; reflexivity|]. rewrite app_nil_r in H'. eauto.
  - assert (G : operand e [TGroup ts]).
    { intros s [E A]. exists (St (path s) false (in_ternary s) (operation s) (types s ++ [e])). split.
      - intros r x n H. exists (S (f + n)). cbn [app loop]. rewrite (loop_more _ _ _ _ n IH). rewrite Nat.add_comm. apply loop_more. exact H.
      - unfold full. cbn [path types in_ternary operation]. rewrite E. auto. }
    split; [auto|]. destruct (G initial (conj eq_refl eq_refl)) as (s' & H & F & _ & O).
    destruct (H [] e 1) as [f' H']; [rewrite loop_end, F, O; reflexivity|]. rewrite app_nil_r in H'. eauto.
  - split; [discriminate|]. specialize (IH eq_refl). destruct (IH (St [] true false ONot []) (conj eq_refl eq_refl)) as (s' & H & F & _ & O).
    destruct (H [] (ENot e) 1) as [f' H']; [rewrite loop_end, F, O; reflexivity|]. rewrite app_nil_r in H'. exists (S f'). exact H'.
  - split; [discriminate|]. specialize (IHl eq_refl). specialize (IHr eq_refl).
    destruct (eats_infix op g I) as (o & Bo & Ho).
    destruct (IHl initial (conj eq_refl eq_refl)) as (s1 & H1 & F1 & T1 & O1). specialize (Ho s1 O1).
    destruct (IHr (St [] true (in_ternary s1) o (full s1)) (conj eq_refl eq_refl)) as (s2 & H2 & F2 & T2 & O2).
    destruct (eats_app _ _ _ _ _ (eats_app _ _ _ _ _ H1 Ho) H2 [] (g l r) 1) as [f' H'].
    { rewrite loop_end, F2, O2. cbn [types operation]. rewrite F1. apply Bo. }
    rewrite app_nil_r, <- app_assoc in H'. eauto.
  - split; [discriminate|]. specialize (IHc eq_refl). specialize (IHt eq_refl). specialize (IHf eq_refl).
    destruct (IHc initial (conj eq_refl eq_refl)) as (s1 & H1 & F1 & T1 & O1).
    assert (Q1 : eats s1 [TPunct "?" j] (St [] true true OTernary (full s1))).
    { intros r e n H. exists (S n). change (operation s1 = OType) in O1. cbn [app loop punct]. unfold set_op. rewrite O1.
      cbn [path accept_ident operation types in_ternary]. rewrite flush_full. exact H. }
    destruct (IHt (St [] true true OTernary (full s1)) (conj eq_refl eq_refl)) as (s2 & H2 & F2 & T2 & O2).
    assert (Q2 : eats s2 [TPunct ":" false] (St [] true false OTernary (full s2))).
    { intros r e n H. exists (S n). cbn [app loop punct]. rewrite T2. cbn [in_ternary]. rewrite flush_full. cbn [in_ternary operation].
      cbn [operation in_ternary] in O2. rewrite O2. exact H. }
    destruct (IHf (St [] true false OTernary (full s2)) (conj eq_refl eq_refl)) as (s3 & H3 & F3 & T3 & O3).
    destruct (eats_app _ _ _ _ _ (eats_app _ _ _ _ _ (eats_app _ _ _ _ _ (eats_app _ _ _ _ _ H1 Q1) H2) Q2) H3 [] (ETernary c t f) 1) as [f' H'].
    { rewrite loop_end, F3, O3. cbn [types operation] in *. rewrite F2. cbn [types]. rewrite F1. reflexivity. }
    rewrite app_nil_r, <- !app_assoc in H'. exists f'. exact H'.
Qed.

(** ** Meaning *)
Definition encv (v : value) : tval := match v with VNum n => TU (enc n) | VBool b => TB b end.

Lemma modulate_log2 : forall p t, (exists r, modulate p t = Some r) <-> (exists r, log2 p = Some r).
Proof.
  induction p as [|m IH b|]; intro t; cbn [modulate log2]; [split; intros [r H]; discriminate| |split; intros [r H]; discriminate].
  destruct b.
  - destruct (is_uterm m); split; intros [r H]; eauto; discriminate.
  - specialize (IH (msb_of t)). destruct (modulate m (msb_of t)), (log2 m); split; intros [r H]; eauto; try discriminate.
    + destruct IH as [IH _]. destruct IH as [x X]; eauto; discriminate.
    + destruct IH as [_ IH]. destruct IH as [x X]; eauto; discriminate.
Qed.
Lemma umod_enc_all : forall a b, umod (enc a) (enc b) = if is_pow2 b then Some (enc (a mod b)%N) else None.
Proof.
  intros a b. unfold is_pow2. destruct (N.eqb_spec (2 ^ N.log2 b) b) as [E|E].
  - rewrite <- E. apply umod_enc.
  - unfold umod. destruct (modulate (enc b) (enc a)) as [r|] eqn:M; [|reflexivity]. exfalso.
    assert (X : exists r, modulate (enc b) (enc a) = Some r) by eauto. apply modulate_log2 in X.
    apply (log2_enc_some_pow2 b) in X. destruct X as [k ->]. apply E. rewrite N.log2_pow2 by lia. reflexivity.
Qed.

Lemma tyeval_ok : forall ty tv, (forall t, tv t = option_map encv (ty t)) -> forall e, resolve tv (tyeval e) = option_map encv (meaning ty e).
Proof.
  intros ty tv T e. induction e; cbn [tyeval resolve meaning]; rewrite ?IHe, ?IHe1, ?IHe2, ?IHe3; [apply T|..].
  all: repeat match goal with |- context [option_map encv (meaning ?t ?x)] => destruct (meaning t x) as [[?|?]|]; cbn [option_map encv num2]; try reflexivity end.
  all: try (rewrite ?add_enc, ?bitor_enc, ?bitand_enc, ?equal_enc; reflexivity).
  - destruct b; reflexivity.
  - rewrite abs_sub_enc. do 3 f_equal. lia.
  - rewrite umod_enc_all. destruct (is_pow2 n0); reflexivity.
Qed.

(** ** Nothing is lost *)
Lemma names_app : forall a b, names (a ++ b) = (names a ++ names b)%list.
Proof. intros a b. apply flat_map_app. Qed.
Lemma names_group : forall l, tok_names (TGroup l) = names l.
Proof. induction l as [|t l IH]; [reflexivity|]. cbn [tok_names] in *. rewrite IH. reflexivity. Qed.
Lemma take_angle_names : forall l n a b, take_angle (S n) l = (a, b) -> names l = (names a ++ names b)%list.
Proof.
  induction l as [|t l IH]; intros n a b H; cbn [take_angle] in H; [injection H as <- <-; reflexivity|]. cbv zeta in H.
  destruct (match t with TPunct "<" _ => S (S n) | TPunct ">" _ => S n - 1 | _ => S n end) as [|m] eqn:E.
  - injection H as <- <-. destruct t as [| |c j|]; try discriminate. reflexivity.
  - destruct (take_angle (S m) l) as [x y] eqn:T. injection H as <- <-. unfold names. cbn [flat_map]. rewrite <- app_assoc. f_equal. exact (IH _ _ _ T).
Qed.
Definition held (s : state) : list string := (names (path s) ++ flat_map expr_names (types s))%list.
Lemma set_op_held : forall o s s', set_op o s = Ok s' -> held s' = held s.
Proof. intros o s s' H. unfold set_op in H. destruct (operation s); try discriminate. injection H as <-. reflexivity. Qed.
Lemma punct_held : forall c j s r s' r' k, punct c j s r = Ok (s', r', k) -> Permutation (held s' ++ names r') (held s ++ names r).
Proof.
  intros c j s r s' r' k H. unfold held. chars c; try discriminate H; cbv beta iota zeta delta [punct] in H.
  all: repeat match type of H with
  | Ok _ = Ok _ => injection H as <- <- <-
  | Panic = _ => discriminate H
  | OutOfFuel = Ok _ => discriminate H
  | context [match set_op ?o ?s with _ => _ end] => let T := fresh "T" in destruct (set_op o s) eqn:T; try (apply set_op_held in T; unfold held in T)
  | context [match take_angle 1 ?r with _ => _ end] => let T := fresh "T" in destruct (take_angle 1 r) eqn:T; apply take_angle_names in T
  | context [match ?x with _ => _ end] => destruct x; try discriminate H
  end.
  all: cbn [path types in_ternary operation]; try rewrite T; rewrite ?names_app; cbn [names flat_map tok_names app]; fold names;
    rewrite ?app_nil_r; try apply Permutation_refl.
  rewrite flat_map_app. cbn [flat_map tok_names app]. rewrite app_nil_r. fold (names l).
  rewrite <- !app_assoc. apply Permutation_app_head. rewrite !app_assoc. apply Permutation_app_tail. apply Permutation_app_comm.
Qed.
Lemma flush_held : forall s, Permutation (held (flush s)) (held s).
Proof.
  intros s. unfold flush, held. destruct (path s) as [|t p]; cbn [path types]; [apply Permutation_refl|].
  rewrite flat_map_app. cbn [flat_map expr_names]. rewrite app_nil_r. cbn [names flat_map app]. apply Permutation_app_comm.
Qed.
Lemma build_names : forall o l e, build o l = Ok e -> expr_names e = flat_map expr_names l.
Proof. intros [] [|a [|b [|c [|]]]] e H; try discriminate; injection H as <-; cbn [expr_names flat_map]; rewrite ?app_nil_r; reflexivity. Qed.
Lemma loop_names : forall f s l e, loop f s l = Ok e -> Permutation (expr_names e) (held s ++ names l).
Proof.
  induction f as [|f IH]; intros s l e H; [discriminate|]. cbn [loop] in H. destruct l as [|[g|i|c j|] r].
  - apply build_names in H. rewrite H. cbn [names flat_map]. rewrite app_nil_r. unfold held. destruct (path s) as [|t p]; [apply Permutation_refl|].
    rewrite flat_map_app. cbn [flat_map expr_names]. rewrite app_nil_r. apply Permutation_app_comm.
  - destruct (loop f initial g) as [x| |] eqn:G; try discriminate. apply IH in G. apply IH in H. cbn in G. rewrite H. unfold held. cbn [path types].
    rewrite flat_map_app. cbn [flat_map]. rewrite app_nil_r, <- !app_assoc. do 2 apply Permutation_app_head.
    unfold names at 2. cbn [flat_map]. rewrite names_group. apply Permutation_app_tail. exact G.
  - destruct (accept_ident s); [|discriminate]. apply IH in H. rewrite H. unfold held. cbn [path types]. rewrite names_app. cbn [names flat_map tok_names app].
    rewrite <- !app_assoc. apply Permutation_app_head. cbn [app]. apply Permutation_middle.
  - destruct (punct c j s r) as [[[s' r'] k]| |] eqn:P; try discriminate. apply punct_held in P. cbn [names flat_map tok_names app]. fold (names r). rewrite <- P.
    destruct k; apply IH in H; rewrite H; [apply Permutation_refl|]. apply Permutation_app_tail. apply flush_held.
  - discriminate.
Qed.

(** ** Text that is not well-formed *)
Lemma last_app_cons : forall (A : Type) (l r : list A) x d, last (l ++ x :: r) d = last (x :: r) d.
Proof. induction l as [|y l IH]; intros r x d; [reflexivity|]. rewrite <- (IH r x d). cbn [app]. destruct (l ++ x :: r)%list eqn:E; [destruct l; discriminate|reflexivity]. Qed.
Lemma path_last : forall b ts ns, path_tokens b ts ns -> forall j, last ts TLit <> TPunct "+" j.
Proof.
  intros b ts ns P. induction P as [b|i ts ns P IH|b j ts ns P IH|b j a j' ts ns B P IH]; intro jj; [discriminate|..].
  - destruct ts; [discriminate|exact (IH jj)].
  - destruct ts; [discriminate|exact (IH jj)].
  - change (TPunct "<" j :: a ++ TPunct ">" j' :: ts) with ((TPunct "<" j :: a) ++ TPunct ">" j' :: ts). rewrite last_app_cons.
    destruct ts; [discriminate|exact (IH jj)].
Qed.
Lemma written_last : forall b e ts, written b e ts -> ts <> [] /\ forall j, last ts TLit <> TPunct "+" j.
Proof.
  intros b e ts W. induction W as [b ts ns P N|b e ts W IH|e ts W [N IH]|op g l ls r rs I Wl IHl Wr [Nr IHr]|c cs t ts f fs j Wc IHc Wt IHt Wf [Nf IHf]].
  - split; [exact N|]. exact (path_last _ _ _ P).
  - split; discriminate.
  - split; [discriminate|]. intro j. destruct ts; [congruence|]. exact (IH j).
  - destruct rs as [|x rs]; [congruence|]. split.
    + destruct ls; [destruct op|]; discriminate.
    + intro j. rewrite app_assoc, last_app_cons. apply IHr.
  - destruct fs as [|x fs]; [congruence|]. split; [destruct cs; discriminate|]. intro jj.
    change (cs ++ TPunct "?" j :: ts ++ TPunct ":" false :: x :: fs)%list with (cs ++ (TPunct "?" j :: ts ++ [TPunct ":" false] ++ x :: fs))%list.
    rewrite !app_comm_cons, !app_assoc, last_app_cons. apply IHf.
Qed.
