(** Lemmas for [P_TyArgs]. *)
From Coq Require Import String Ascii.
From Coq Require Import List Arith NArith Bool Lia.
From Verif Require Import M_Report S_Report L_Report M_TyArgs S_TyArgs.
Import ListNotations.
Local Open Scope string_scope.
Local Open Scope N_scope.
Local Open Scope list_scope.
Ltac Zify.zify_post_hook ::= idtac.

Definition nocomma (ts : list tok) : bool := negb (existsb is_comma ts).
Lemma nocomma_app a b : nocomma (a ++ b) = nocomma a && nocomma b.
Proof. unfold nocomma. rewrite existsb_app, negb_orb. reflexivity. Qed.
Lemma nocomma_cons t b : nocomma (t :: b) = negb (is_comma t) && nocomma b.
Proof. unfold nocomma. cbn [existsb]. apply negb_orb. Qed.

Lemma go_in_app k a xs r : nocomma xs = true ->
  go k true a (xs ++ r) = go k true (Args (optimize a) (version a) (module a ++ xs)) r.
Proof.
  revert a; induction xs as [|t xs IH]; intros a H.
  - cbn [app]. rewrite app_nil_r. destruct a; reflexivity.
  - rewrite nocomma_cons in H. apply andb_true_iff in H. destruct H as [H1 H2].
    cbn [app go]. destruct t; try discriminate H1; rewrite IH by exact H2; cbn [push optimize version module];
      rewrite <- app_assoc; reflexivity.
Qed.

Lemma go_true_comma k a ys : go k true a (Comma :: ys) = go k false a ys.
Proof. reflexivity. Qed.

(** A comma ends a setting. *)
Lemma go_boundary k : forall n b xs a ys a', (length xs <= n)%nat -> (b = true \/ xs <> []) ->
  go k b a (xs ++ Comma :: ys) = Some a' -> exists a'', go k b a xs = Some a'' /\ go k false a'' ys = Some a'.
Proof.
  induction n as [|n IH]; intros b xs a ys a' L NE G.
  - destruct xs; [|cbn in L; lia]. destruct NE as [->|NE]; [|congruence].
    cbn in G. exists a. split; [reflexivity|exact G].
  - destruct xs as [|t xs].
    { destruct NE as [->|NE]; [|congruence]. cbn in G. exists a. split; [reflexivity|exact G]. }
    cbn [length] in L. assert (L' : (length xs <= n)%nat) by lia. clear L NE.
    destruct b.
    + cbn [app go] in G |- *.
      destruct t; try (apply (IH true _ _ _ _ L' (or_introl eq_refl) G)).
      destruct xs as [|x xs]; [cbn in G; discriminate G|].
      apply (IH false _ _ _ _ L'); [right; discriminate|exact G].
    + cbn [app go] in G |- *. destruct t; try discriminate G.
      destruct (String.eqb s "no_opt") eqn:E1.
      { destruct k; try discriminate G. destruct xs as [|x xs].
        - cbn [app] in G. exists (Args false (version a) (module a)). split; [reflexivity|exact G].
        - cbn [app] in G |- *. destruct x; try (apply (IH false (_ :: xs) _ _ _ L'); [right; discriminate|exact G]).
          destruct xs as [|x xs]; [cbn in G; discriminate G|].
          apply (IH false (x :: xs) _ _ _); [cbn in *; lia|right; discriminate|exact G]. }
      destruct (String.eqb s "version") eqn:E2.
      { destruct xs as [|[] xs]; try discriminate G. destruct xs as [|[] xs]; try discriminate G.
        cbn [app] in G |- *. destruct (parse_u32 text) as [v|] eqn:P; [|discriminate G].
        destruct xs as [|x xs].
        - cbn [app] in G. eexists; split; [reflexivity|exact G].
        - cbn [app] in G |- *.
          destruct x; try (apply (IH false (_ :: xs) _ _ _); [cbn in *; lia|right; discriminate|exact G]).
          destruct xs as [|x xs]; [cbn in G; discriminate G|].
          apply (IH false (x :: xs) _ _ _); [cbn in *; lia|right; discriminate|exact G]. }
      destruct (String.eqb s "module") eqn:E3; [|discriminate G].
      destruct xs as [|[] xs]; try discriminate G.
      cbn [app] in G |- *. apply (IH true xs _ _ _); [cbn in *; lia|left; reflexivity|exact G].
Qed.

(** The module only grows, by tokens other than commas. *)
Lemma go_module k : forall n b ts a a', (length ts <= n)%nat -> go k b a ts = Some a' ->
  exists m, module a' = module a ++ m /\ nocomma m = true.
Proof.
  induction n as [|n IH]; intros b ts a a' L G.
  - destruct ts; [|cbn in L; lia]. cbn in G. injection G as <-. exists []. rewrite app_nil_r. split; reflexivity.
  - destruct ts as [|t r]; [cbn in G; injection G as <-; exists []; rewrite app_nil_r; split; reflexivity|].
    cbn [length] in L. assert (L' : (length r <= n)%nat) by lia. clear L.
    cbn [go] in G. destruct b.
    + assert (C : t = Comma /\ go k false a r = Some a' \/ is_comma t = false /\ go k true (push t a) r = Some a')
        by (destruct t; auto).
      destruct C as [(-> & C)|(T & C)].
      * exact (IH _ _ _ _ L' C).
      * destruct (IH _ _ _ _ L' C) as (m & E & N). exists (t :: m). split.
        -- rewrite E. cbn [push module]. rewrite <- app_assoc. reflexivity.
        -- rewrite nocomma_cons, T, N. reflexivity.
    + destruct t; try discriminate G.
      destruct (String.eqb s "no_opt").
      { destruct k; try discriminate G.
        assert (C : exists r', (length r' <= n)%nat /\ go Struct false (Args false (version a) (module a)) r' = Some a').
        { destruct r as [|[] r]; try (eexists; split; [exact L'|exact G]).
          exists r; split; [cbn in L'; lia|exact G]. }
        destruct C as (r' & Lr & C). exact (IH _ _ _ _ Lr C). }
      destruct (String.eqb s "version").
      { destruct r as [|[] r]; try discriminate G. destruct r as [|[] r]; try discriminate G.
        destruct (parse_u32 text) as [v|]; [|discriminate G]. cbn [length] in L'.
        assert (C : exists r', (length r' <= n)%nat /\ go k false (Args (optimize a) v (module a)) r' = Some a').
        { destruct r as [|[] r]; try (eexists; split; [|exact G]; cbn [length] in *; lia). }
        destruct C as (r' & Lr & C). exact (IH _ _ _ _ Lr C). }
      destruct (String.eqb s "module"); [|discriminate G].
      destruct r as [|[] r]; try discriminate G.
      apply (IH true r a a'); [cbn in L'; lia|exact G].
Qed.

(** * Literals *)
Lemma digit_eq c : digit c = digit_in 10 c.
Proof.
  unfold digit, digit_in. set (n := N_of_ascii c).
  destruct ((48 <=? n) && (n <=? 57)) eqn:E.
  - apply andb_true_iff in E. destruct E as [A B]. apply N.leb_le in A, B.
    destruct (N.ltb_spec (n - 48) 10); [reflexivity|lia].
  - destruct ((97 <=? n) && (n <=? 102)) eqn:F.
    { apply andb_true_iff in F. destruct F as [A B]. apply N.leb_le in A, B.
      destruct (N.ltb_spec (n - 87) 10); [lia|reflexivity]. }
    destruct ((65 <=? n) && (n <=? 70)) eqn:G; [|reflexivity].
    apply andb_true_iff in G. destruct G as [A B]. apply N.leb_le in A, B.
    destruct (N.ltb_spec (n - 55) 10); [lia|reflexivity].
Qed.
Lemma int_digits_mono s : forall acc b n, decimal s = true -> int_digits 10 acc b s = Some n -> acc <= n.
Proof.
  induction s as [|c s IH]; intros acc b n D H; cbn [decimal int_digits] in *.
  - destruct b; [injection H as <-; lia|discriminate H].
  - destruct (digit_in 10 c) as [d|]; [|discriminate D]. specialize (IH _ _ _ D H). lia.
Qed.
Lemma digits_int s : forall acc n, decimal s = true -> int_digits 10 acc true s = Some n -> n < 2 ^ 32 ->
  digits_u32 acc s = Some n.
Proof.
  induction s as [|c s IH]; intros acc n D H L; cbn [decimal int_digits digits_u32] in *; [exact H|].
  rewrite digit_eq. destruct (digit_in 10 c) as [d|]; [|discriminate D].
  pose proof (int_digits_mono _ _ _ _ D H) as M.
  destruct (N.ltb_spec (acc * 10 + d) (2 ^ 32)) as [_|C]; [|exfalso; clear - M L C; lia].
  apply IH; assumption.
Qed.
Lemma digits_decimal s : forall acc n, digits_u32 acc s = Some n -> decimal s = true.
Proof.
  induction s as [|c s IH]; intros acc n H; [reflexivity|]. cbn [decimal digits_u32] in *.
  rewrite digit_eq in H. destruct (digit_in 10 c); [|discriminate H].
  destruct (_ <? _); [|discriminate H]. exact (IH _ _ H).
Qed.
Lemma digit_not_plus c d : digit_in 10 c = Some d -> Ascii.eqb c "+" = false.
Proof. intros H. destruct (Ascii.eqb_spec c "+"); [subst c; discriminate H|reflexivity]. Qed.
Lemma digit_not c d p : digit_in 10 c = Some d -> digit_in 10 p = None -> Ascii.eqb c p = false.
Proof. intros H G. destruct (Ascii.eqb_spec c p); [subst c; congruence|reflexivity]. Qed.

Lemma literal_iff l n : int_value l = Some n -> n < 2 ^ 32 -> (decimal l = true <-> parse_u32 l = Some n).
Proof.
  intros V L. destruct l as [|c r]; [discriminate V|]. cbn [int_value] in V.
  destruct (digit_in 10 c) as [d|] eqn:D; [|discriminate V].
  unfold parse_u32. rewrite (digit_not_plus _ _ D). split; intros H.
  - assert (V' : int_digits 10 0 false (String c r) = Some n).
    { destruct r as [|p r]; [exact V|]. cbn [decimal] in H. rewrite D in H.
      destruct (digit_in 10 p) as [e|] eqn:E; [|discriminate H].
      rewrite !(digit_not p e _ E) in V by reflexivity. rewrite !andb_false_r in V. exact V. }
    cbn [int_digits] in V'. rewrite D in V'. cbn [digits_u32]. rewrite digit_eq, D.
    cbn [decimal] in H. rewrite D in H.
    pose proof (int_digits_mono _ _ _ _ H V') as M.
    destruct (N.ltb_spec (0 * 10 + d) (2 ^ 32)) as [_|C]; [|exfalso; clear - M L C; lia].
    apply digits_int; assumption.
  - exact (digits_decimal _ _ _ H).
Qed.
Lemma parse_decimal l n v : int_value l = Some n -> parse_u32 l = Some v -> decimal l = true.
Proof.
  intros V P. destruct l as [|c r]; [discriminate V|]. cbn [int_value] in V.
  destruct (digit_in 10 c) as [d|] eqn:D; [|discriminate V].
  unfold parse_u32 in P. rewrite (digit_not_plus _ _ D) in P. exact (digits_decimal _ _ _ P).
Qed.

(** * Settings *)
(** The effect of one. *)
Definition apply_one (s : setting) (a : args) : args :=
  match s with
  | NoOpt => Args false (version a) (module a)
  | Version l => match int_value l with Some n => Args (optimize a) n (module a) | None => a end
  | Module e => Args (optimize a) (version a) (module a ++ e)
  end.
Lemma go_one k s a r : sensible k s -> plain s = true ->
  (r = [] \/ exists r', r = Comma :: r') ->
  go k false a (written s ++ r) = go k false (apply_one s a) (match r with _ :: r' => r' | [] => [] end).
Proof.
  intros S P R. destruct s as [|l|e]; cbn [written app sensible plain apply_one] in *.
  - subst k. cbn [go]. destruct R as [->|(r' & ->)]; reflexivity.
  - destruct S as (n & V & L). apply (literal_iff _ _ V L) in P. cbn [go].
    change (String.eqb "version" "no_opt") with false. change (String.eqb "version" "version") with true. cbn match.
    rewrite P, V. destruct R as [->|(r' & ->)]; reflexivity.
  - cbn [go]. change (String.eqb "module" "no_opt") with false. change (String.eqb "module" "version") with false.
    change (String.eqb "module" "module") with true. cbn match.
    rewrite go_in_app by exact P. destruct R as [->|(r' & ->)]; reflexivity.
Qed.
Lemma written_all_cons s ss trail : exists r, written_all (s :: ss) trail = written s ++ r /\
  (r = [] \/ exists r', r = Comma :: r') /\ (match r with _ :: r' => r' | [] => [] end) = written_all ss trail.
Proof.
  destruct ss as [|s' ss].
  - destruct trail; eexists; (split; [reflexivity|]); (split; [|reflexivity]); [right; eexists; reflexivity|left; reflexivity].
  - eexists; (split; [reflexivity|]); (split; [|reflexivity]); right; eexists; reflexivity.
Qed.
Lemma go_all k trail ss : forall a, Forall (sensible k) ss -> forallb plain ss = true ->
  go k false a (written_all ss trail) = Some (fold_left (fun a s => apply_one s a) ss a).
Proof.
  induction ss as [|s ss IH]; intros a S P; [reflexivity|].
  inversion S as [|? ? S1 S2]; subst. cbn [forallb] in P. apply andb_true_iff in P. destruct P as [P1 P2].
  destruct (written_all_cons s ss trail) as (r & E & R & T). rewrite E, (go_one _ _ _ _ S1 P1 R), T.
  apply IH; assumption.
Qed.

Lemma fold_opt ss : forall a, negb (optimize (fold_left (fun a s => apply_one s a) ss a)) = (negb (optimize a) || asked_no_opt ss)%bool.
Proof.
  induction ss as [|s ss IH]; intros a; [cbn; symmetry; apply orb_false_r|].
  cbn [fold_left]. rewrite IH. destruct s as [|l|e]; cbn [apply_one asked_no_opt existsb optimize negb orb]; try reflexivity.
  - rewrite orb_true_r. reflexivity.
  - destruct (int_value l); reflexivity.
Qed.
Lemma fold_version k ss : forall a, Forall (sensible k) ss ->
  last_version (Some (version a)) ss = Some (version (fold_left (fun a s => apply_one s a) ss a)).
Proof.
  induction ss as [|s ss IH]; intros a S; [reflexivity|]. inversion S as [|? ? S1 S2]; subst.
  cbn [fold_left]. rewrite <- IH by exact S2. destruct s as [|l|e]; cbn [last_version apply_one version]; try reflexivity.
  destruct S1 as (n & -> & _). reflexivity.
Qed.
Lemma fold_module0 ss : forall a, filter is_module ss = [] ->
  module (fold_left (fun a s => apply_one s a) ss a) = module a /\ last_module (module a) ss = module a.
Proof.
  induction ss as [|s ss IH]; intros a F; [split; reflexivity|].
  destruct s as [|l|e]; cbn [filter is_module fold_left apply_one last_module] in *; try discriminate F.
  - apply (IH (Args false (version a) (module a)) F).
  - destruct (int_value l); [apply (IH (Args (optimize a) n (module a)) F)|apply (IH _ F)].
Qed.
Lemma fold_module1 ss : forall a, module a = [] -> (length (filter is_module ss) <= 1)%nat ->
  last_module [] ss = module (fold_left (fun a s => apply_one s a) ss a).
Proof.
  induction ss as [|s ss IH]; intros a M F; [symmetry; exact M|].
  destruct s as [|l|e]; cbn [filter is_module fold_left apply_one last_module length] in *.
  - apply IH; [exact M|exact F].
  - apply IH; [destruct (int_value l); exact M|exact F].
  - assert (F0 : filter is_module ss = []) by (destruct (filter is_module ss); [reflexivity|cbn in F; lia]).
    destruct (fold_module0 ss (Args (optimize a) (version a) (module a ++ e)) F0) as [A B].
    rewrite A. cbn [module] in *. rewrite M in *. exact B.
Qed.

Lemma supported_understood k ss trail : Forall (sensible k) ss -> supported ss -> understood k ss trail.
Proof.
  intros S (P & M). unfold understood, parse. eexists. split; [apply go_all; assumption|].
  split; [|split].
  - exact (fold_version _ _ no_args S).
  - apply fold_module1; [reflexivity|exact M].
  - rewrite fold_opt. reflexivity.
Qed.

(** * What is not supported is not understood *)
Lemma go_literal k l a r a' : go k false a (written (Version l) ++ r) = Some a' -> exists n, parse_u32 l = Some n.
Proof.
  cbn [written app go]. change (String.eqb "version" "no_opt") with false. change (String.eqb "version" "version") with true. cbn match.
  destruct (parse_u32 l) as [n|]; [|discriminate]. intros _. exists n. reflexivity.
Qed.
Lemma written_nonempty s : written s <> [].
Proof. destruct s; discriminate. Qed.
Lemma written_all_nonempty s ss t : written_all (s :: ss) t <> [].
Proof.
  destruct (written_all_cons s ss t) as (r & -> & _). intros H. apply app_eq_nil in H. destruct H as [H _].
  exact (written_nonempty _ H).
Qed.
Lemma written_split pre s post trail : pre <> [] -> exists xs, xs <> [] /\ 
  written_all (pre ++ s :: post) trail = xs ++ Comma :: written_all (s :: post) trail.
Proof.
  induction pre as [|p pre IH]; intros N; [congruence|]. destruct pre as [|q pre].
  - exists (written p). split; [apply written_nonempty|]. reflexivity.
  - destruct (IH ltac:(discriminate)) as (xs & X & E). exists (written p ++ Comma :: xs). split.
    + intros H. apply app_eq_nil in H. destruct H as [_ H]. discriminate H.
    + change (written_all ((p :: q :: pre) ++ s :: post) trail) with (written p ++ Comma :: written_all ((q :: pre) ++ s :: post) trail).
      rewrite E, <- app_assoc. reflexivity.
Qed.
Lemma go_at k pre s post trail a a' : go k false a (written_all (pre ++ s :: post) trail) = Some a' ->
  exists a'', go k false a'' (written_all (s :: post) trail) = Some a' /\
    exists m, module a'' = module a ++ m /\ nocomma m = true.
Proof.
  intros G. destruct pre as [|p pre].
  - exists a. split; [exact G|]. exists []. rewrite app_nil_r. split; reflexivity.
  - destruct (written_split (p :: pre) s post trail) as (xs & X & E); [discriminate|]. rewrite E in G.
    destruct (go_boundary k _ false xs a _ a' (Nat.le_refl _) (or_intror X) G) as (a'' & G1 & G2).
    exists a''. split; [exact G2|]. exact (go_module _ _ _ _ _ _ (Nat.le_refl _) G1).
Qed.
Lemma last_module_split m pre e post : filter is_module post = [] -> last_module m (pre ++ Module e :: post) = e.
Proof.
  revert m; induction pre as [|s pre IH]; intros m F.
  - cbn [app last_module]. exact (proj2 (fold_module0 post (Args true 0 e) F)).
  - destruct s; apply IH; exact F.
Qed.
Lemma last_split ss : filter is_module ss = [] \/ exists pre e post, ss = pre ++ Module e :: post /\ filter is_module post = [].
Proof.
  induction ss as [|s ss IH]; [left; reflexivity|].
  destruct IH as [F|(pre & e & post & -> & F)].
  - destruct s as [|l|e]; try (left; exact F). right. exists [], e, ss. split; [reflexivity|exact F].
  - right. exists (s :: pre), e, post. split; [reflexivity|exact F].
Qed.

Lemma understood_supported k ss trail : Forall (sensible k) ss -> understood k ss trail -> supported ss.
Proof.
  intros S (a & G & _ & M & _). unfold parse in G. unfold asked_module in M.
  destruct (go_module _ _ _ _ _ _ (Nat.le_refl _) G) as (m & Em & Nm). cbn [no_args module app] in Em. subst m.
  assert (V : forall l, In (Version l) ss -> decimal l = true).
  { intros l Hl. rewrite Forall_forall in S. destruct (S _ Hl) as (n & Vl & Ll).
    apply in_split in Hl. destruct Hl as (pre & post & ->).
    destruct (go_at _ _ _ _ _ _ _ G) as (a2 & G2 & _).
    destruct (written_all_cons (Version l) post trail) as (r & E & _ & _). rewrite E in G2.
    destruct (go_literal _ _ _ _ _ G2) as (v & P). exact (parse_decimal _ _ _ Vl P). }
  assert (O : supported ss <-> (forall e, In (Module e) ss -> nocomma e = true) /\ (length (filter is_module ss) <= 1)%nat).
  { unfold supported. rewrite forallb_forall. split; intros (A & B); (split; [|exact B]).
    - intros e He. exact (A _ He).
    - intros [|l|e] Hx; [reflexivity|exact (V _ Hx)|exact (A _ Hx)]. }
  apply O. clear O V.
  destruct (last_split ss) as [F|(pre & e & post & -> & F)].
  { split; [|rewrite F; cbn; lia]. intros e He.
    assert (In (Module e) (filter is_module ss)) by (apply filter_In; split; [exact He|reflexivity]).
    rewrite F in H. destruct H. }
  rewrite (last_module_split _ _ _ _ F) in M. subst e.
  assert (Fp : filter is_module pre = []).
  { destruct (last_split pre) as [Fp|(p1 & e1 & p2 & -> & _)]; [exact Fp|exfalso].
    rewrite <- app_assoc in G. cbn [app] in G.
    (* the tokens up to the last module *)
    rewrite (app_comm_cons p2), app_assoc in G.
    assert (NE : p1 ++ Module e1 :: p2 <> []) by (intros H; apply app_eq_nil in H; destruct H as [_ H]; discriminate H).
    destruct (written_split _ (Module (module a)) post trail NE) as (xs & X & E).
    assert (B : exists b, (exists m1, module b = m1 /\ m1 <> []) /\ go k false b (written_all (Module (module a) :: post) trail) = Some a).
    { rewrite Forall_app in S. destruct S as (S & _). rewrite Forall_app in S. destruct S as (_ & S).
      inversion S as [|? ? S1 _]; subst. cbn [sensible] in S1.
      destruct e1 as [|t e1]; [destruct S1|]. assert (T : is_comma t = false) by (destruct t; [reflexivity|destruct S1|..]; reflexivity).
      clear S1 S NE. rewrite <- app_assoc in G. cbn [app] in G.
      destruct (go_at _ _ _ _ _ _ _ G) as (b & G1 & _).
      assert (W : exists ys, written_all (Module (t :: e1) :: p2 ++ Module (module a) :: post) trail
                    = Id "module" :: Eq :: t :: ys ++ Comma :: written_all (Module (module a) :: post) trail).
      { destruct p2 as [|q p2].
        - exists e1. reflexivity.
        - destruct (written_split (q :: p2) (Module (module a)) post trail) as (ys & _ & E2); [discriminate|].
          exists (e1 ++ Comma :: ys).
          change (written_all (Module (t :: e1) :: (q :: p2) ++ Module (module a) :: post) trail)
            with (Id "module" :: Eq :: t :: e1 ++ Comma :: written_all ((q :: p2) ++ Module (module a) :: post) trail).
          rewrite E2, <- app_assoc. reflexivity. }
      destruct W as (ys & W). rewrite W in G1.
      assert (G2 : go k true (push t b) (ys ++ Comma :: written_all (Module (module a) :: post) trail) = Some a)
        by (destruct t; try discriminate T; exact G1).
      destruct (go_boundary k _ true ys _ _ _ (Nat.le_refl _) (or_introl eq_refl) G2) as (c & G3 & G4).
      exists c. split; [|exact G4]. destruct (go_module _ _ _ _ _ _ (Nat.le_refl _) G3) as (m & Em & _).
      eexists; split; [exact Em|]. cbn [push module]. destruct (module b); discriminate. }
    destruct B as (b & (m1 & Em1 & N1) & G2).
    destruct (written_all_cons (Module (module a)) post trail) as (r & E2 & R & _). rewrite E2 in G2.
    assert (G3 : go k true (Args (optimize b) (version b) (module b ++ module a)) r = Some a).
    { rewrite <- go_in_app by exact Nm. exact G2. }
    destruct (go_module _ _ _ _ _ _ (Nat.le_refl _) G3) as (m & Em & _). cbn [module] in Em.
    apply (f_equal (@length tok)) in Em. rewrite !app_length in Em. destruct m1; [congruence|].
    rewrite Em1 in Em. cbn [length] in Em. lia. }
  split.
  - intros e He. apply in_app_or in He. destruct He as [He|[He|He]].
    + assert (H : In (Module e) (filter is_module pre)) by (apply filter_In; split; [exact He|reflexivity]).
      rewrite Fp in H. destruct H.
    + injection He as <-. exact Nm.
    + assert (H : In (Module e) (filter is_module post)) by (apply filter_In; split; [exact He|reflexivity]).
      rewrite F in H. destruct H.
  - rewrite filter_app, Fp. cbn [filter is_module app length]. rewrite F. cbn. lia.
Qed.

(** * Reports *)
Lemma layout_iff d a : layout_ok d a = true <-> layout_fine d (negb (optimize a)).
Proof.
  unfold layout_ok, layout_fine. destruct (d_kind d) as [|[r|]|].
  - destruct (optimize a), (d_generic d), (d_aligned d); cbn [andb negb orb]; try tauto.
    rewrite N.leb_le. split; [auto|intros [H|[H|[H|H]]]; congruence || exact H].
  - tauto.
  - rewrite orb_true_iff, N.ltb_lt. tauto.
  - tauto.
Qed.
Lemma report_compat n k v1 v2 m1 m2 fs :
  is_compatible (macro_report n m1 v1 k (map (field_report v1 m1) fs)) (macro_report n m2 v2 k (map (field_report v2 m2) fs)) = true
  <-> v1 = v2 /\ m1 = m2.
Proof.
  split.
  - intros H. unfold macro_report in H. rewrite is_compatible_eq in H.
    repeat (apply andb_true_iff in H; destruct H as [H ?]).
    split; [apply N.eqb_eq; assumption|apply bytes_eqb_eq; assumption].
  - intros [<- <-]. apply compat_refl.
Qed.
