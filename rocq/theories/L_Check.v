(** Lemmas for C104. *)
From Coq Require Import String.
From Coq Require Import List Arith NArith Bool Lia.
From Verif Require Import M_Layout M_Decl M_Check S_Check.
Import ListNotations.
Ltac Zify.zify_post_hook ::= idtac.
Local Open Scope string_scope.
Local Open Scope N_scope.
Local Open Scope list_scope.

Lemma write_none ts : fold_left write ts None = None.
Proof. induction ts as [|t r IH]; [reflexivity|exact IH]. Qed.
Lemma write_all ts : forall b, fold_left write ts (Some b) = None \/ fold_left write ts (Some b) = Some (b ++ concat ts).
Proof.
  induction ts as [|t r IH]; intros b; cbn [fold_left concat]; [right; now rewrite app_nil_r|].
  cbn [write]. destruct (1024 <? List.length b + List.length t)%nat; [left; apply write_none|].
  destruct (IH (b ++ t)) as [E|E]; rewrite E; [now left|right]. now rewrite app_assoc.
Qed.
Lemma write_fits ts : forall b, (List.length b + List.length (concat ts) <= 1024)%nat -> fold_left write ts (Some b) = Some (b ++ concat ts).
Proof.
  induction ts as [|t r IH]; intros b H; cbn [fold_left concat] in *; [now rewrite app_nil_r|].
  rewrite app_length in H. cbn [write]. replace (1024 <? List.length b + List.length t)%nat with false by (symmetry; apply Nat.ltb_ge; lia).
  rewrite IH; [now rewrite app_assoc|]. rewrite app_length. lia.
Qed.
Definition texts (f : facts) := align_texts f ++ size_texts f ++ niche_texts f.
Lemma check_cases f : check f = OutOfBounds \/ (concat (texts f) = [] /\ check f = Compiles) \/ (concat (texts f) <> [] /\ check f = Error (concat (texts f))).
Proof.
  unfold check. change (align_texts f ++ size_texts f ++ niche_texts f) with (texts f).
  destruct (write_all (texts f) []) as [E|E]; rewrite E; [now left|]. cbn [app].
  destruct (concat (texts f)) as [|c r]; [right; left|right; right]; (split; [easy|reflexivity]).
Qed.
Lemma issue_nonempty w : issue w <> [].
Proof. discriminate. Qed.
Lemma nonempty_mid (a b : list N) r : b <> [] -> concat (a :: b :: r) <> [].
Proof. intros H E. cbn [concat] in E. apply app_eq_nil in E as [_ E]. apply app_eq_nil in E as [E _]. now apply H. Qed.
Lemma concat_texts_nil f : concat (texts f) = [] -> concat (align_texts f) = [] /\ concat (size_texts f) = [] /\ concat (niche_texts f) = [].
Proof. unfold texts. rewrite !concat_app. intros E. apply app_eq_nil in E as [A E]. apply app_eq_nil in E as [B C]. now repeat split. Qed.

Lemma check_iff f : check f = Compiles <->
  s_align f mod 256 = r_align f mod 256 /\ s_size f = r_size f /\ niches_agree (niche f) (r_size f) (o_size f) (oo_size f).
Proof.
  split.
  - intros H. destruct (check_cases f) as [E|[[T _]|[_ E]]]; [rewrite E in H; discriminate H| |rewrite E in H; discriminate H].
    apply concat_texts_nil in T as (A & B & C). split; [|split].
    + unfold align_texts in A. cbv zeta in A. destruct (N.eqb_spec (s_align f mod 256) (r_align f mod 256)) as [E|E]; [exact E|].
      exfalso. revert A. apply nonempty_mid. discriminate.
    + unfold size_texts in B. destruct (N.eqb_spec (s_size f) (r_size f)) as [E|E]; [exact E|]. exfalso. revert B. apply nonempty_mid. discriminate.
    + unfold niche_texts in C. destruct (niche f); cbn [niches_agree]; [| |exact I].
      * destruct (N.eqb_spec (r_size f) (o_size f)) as [E|E]; [|congruence]. exfalso. revert C. apply nonempty_mid. discriminate.
      * rewrite concat_app in C. apply app_eq_nil in C as [C D].
        destruct (N.eqb_spec (r_size f) (o_size f)) as [E|E]; cbn [negb] in C; [|exfalso; revert C; apply nonempty_mid; discriminate].
        destruct (N.eqb_spec (r_size f) (oo_size f)) as [E2|E2]; [exfalso; revert D; apply nonempty_mid; discriminate|]. split; congruence.
  - intros (A & B & C). unfold check, align_texts, size_texts, niche_texts. cbv zeta. rewrite A, N.eqb_refl, B, N.eqb_refl.
    destruct (niche f); cbn [niches_agree] in C.
    + replace (r_size f =? o_size f) with false by (symmetry; apply N.eqb_neq; congruence). reflexivity.
    + destruct C as [C D]. rewrite C, N.eqb_refl. replace (r_size f =? oo_size f) with false by (symmetry; apply N.eqb_neq; congruence). reflexivity.
    + reflexivity.
Qed.

Lemma expr_range e : In (expr_to_type e) [1; 2; 4; 8; 16].
Proof. unfold expr_to_type. destruct (e =? 8); [cbn; tauto|]. destruct (e =? 4); [cbn; tauto|]. destruct (e =? 2); [cbn; tauto|]. destruct (e =? 1); cbn; tauto. Qed.
Lemma own_align_range m p : In (own_align m p) [1; 2; 4; 8; 16].
Proof. destruct p; cbn [own_align]; try apply expr_range; cbn; tauto. Qed.
Lemma align_small n : In n [1; 2; 4; 8; 16] -> n < 256.
Proof. intros [<-|[<-|[<-|[<-|[<-|[]]]]]]; reflexivity. Qed.

Lemma checked_agree m arch p : compiles m arch -> (forall q, c_align m q < 256) -> In p checked -> agree m p.
Proof.
  intros [_ H] S I. apply H in I. apply check_iff in I as (A & B & _). cbn [facts_of s_align r_align s_size r_size] in A, B.
  split; [exact B|]. rewrite !N.mod_small in A; [exact A|apply S|]. apply align_small. apply own_align_range.
Qed.
Lemma integer_agree m arch p : compiles m arch -> (forall q, c_align m q < 256) -> documented m -> integer p = true -> agree m p.
Proof.
  intros H S D I. pose proof (fun q => checked_agree m arch q H S) as K.
  destruct p; cbn [integer] in I; try discriminate I; try (apply K; cbn; tauto).
  (* the twins of checked types *)
  all: match goal with |- agree _ ?p => destruct (D p _ eq_refl) as [Ds Da] end.
  all: match type of Ds with _ = c_size _ ?q => assert (Q : agree m q) by (apply K; cbn; tauto) end.
  all: destruct Q as [Qs Qa]; unfold agree, stabby_size, stabby_align in *; cbn [same_as own_size own_align] in *; rewrite ?Ds, ?Da.
  all: try (split; assumption).
  - rewrite <- Qs. split; [reflexivity|assumption].
  - destruct (D PNzU64 _ eq_refl) as [_ ->]. split; assumption.
  - destruct (D PNzU128 _ eq_refl) as [-> ->]. rewrite <- Qs. split; [reflexivity|assumption].
  - destruct (K PNzUsize ltac:(cbn; tauto)) as [Zs Za]. destruct (D PNzUsize _ eq_refl) as [Es Ea].
    rewrite <- Es at 3. rewrite <- Ea. split; assumption.
Qed.

Lemma decimal2 n : n < 100 -> decimal (fmt2digit n) n.
Proof.
  intros H. pose proof (N.div_lt_upper_bound n 10 10 ltac:(lia) ltac:(lia)) as A. pose proof (N.mod_lt n 10 ltac:(lia)) as B.
  pose proof (N.div_mod n 10 ltac:(lia)) as C. unfold fmt2digit. revert A B C. generalize (n / 10) (n mod 10). intros a b A B C. split.
  - apply Forall_cons; [lia|]. apply Forall_cons; [lia|]. apply Forall_nil.
  - cbn [value]. lia.
Qed.
Lemma decimal6 n : n < 1000000 -> decimal (fmt6digit n) n.
Proof.
  intros H. assert (M : forall k, k mod 10 < 10) by (intros k; apply N.mod_lt; lia).
  unfold fmt6digit. split.
  - repeat (apply Forall_cons; [match goal with |- context [?k mod 10] => pose proof (M k); generalize dependent (k mod 10); intros; lia end|]). apply Forall_nil.
  - cbn [value].
    assert (T : forall k, k <> 0 -> n / (k * 10) = n / k / 10) by (intros k K; symmetry; apply N.div_div; [exact K|discriminate]).
    change (n / 100000) with (n / (10000 * 10)). rewrite T by discriminate. change (n / 10000) with (n / (1000 * 10)). rewrite T by discriminate. change (n / 1000) with (n / (100 * 10)). rewrite T by discriminate.
    change (n / 100) with (n / (10 * 10)). rewrite T by discriminate.
    assert (P : forall k, exists q r, k / 10 = q /\ k mod 10 = r /\ k = 10 * q + r /\ r < 10).
    { intros k. exists (k / 10), (k mod 10). split; [reflexivity|]. split; [reflexivity|]. split; [apply N.div_mod; discriminate|apply M]. }
    destruct (P n) as (a & r0 & -> & -> & E0 & R0). destruct (P a) as (b & r1 & -> & -> & E1 & R1). destruct (P b) as (c & r2 & -> & -> & E2 & R2).
    destruct (P c) as (d & r3 & -> & -> & E3 & R3). destruct (P d) as (e & r4 & -> & -> & E4 & R4).
    assert (F : e < 10) by lia. rewrite (N.mod_small e 10 F). clear M P T. lia.
Qed.

Lemma contains_concat (ts : list (list N)) s : In s ts -> contains (concat ts) s.
Proof.
  intros I. apply in_split in I as (a & b & ->). exists (concat a), (concat b). rewrite concat_app. cbn [concat]. reflexivity.
Qed.
Lemma message_texts f m s : check f = Error m -> In s (texts f) -> contains m s.
Proof.
  intros E I. destruct (check_cases f) as [Q|[[_ Q]|[_ Q]]]; rewrite Q in E; try discriminate E. injection E as <-. now apply contains_concat.
Qed.
Lemma message_fits f : (List.length (concat (texts f)) <= 1024)%nat -> check f <> OutOfBounds.
Proof.
  intros H E. unfold check in E. change (align_texts f ++ size_texts f ++ niche_texts f) with (texts f) in E.
  rewrite write_fits in E by exact H. cbn [app] in E. destruct (concat (texts f)); discriminate E.
Qed.
Local Ltac measure := cbn [concat]; rewrite ?app_length;
  repeat match goal with |- context [List.length (issue ?x)] => let y := eval vm_compute in (List.length (issue x)) in replace (List.length (issue x)) with y by (vm_compute; reflexivity) end;
  repeat match goal with |- context [List.length (lit ?x)] => let y := eval vm_compute in (List.length (lit x)) in replace (List.length (lit x)) with y by (vm_compute; reflexivity) end;
  unfold fmt2digit, fmt6digit, crlf; cbn [List.length]; lia.
Lemma align_length f : (List.length (concat (align_texts f)) <= 2 * List.length (name f) + List.length (arch f) + 252)%nat.
Proof. unfold align_texts. cbv zeta. destruct (_ =? _); [cbn; lia|]. measure. Qed.
Lemma size_length f : (List.length (concat (size_texts f)) <= 2 * List.length (name f) + List.length (arch f) + 253)%nat.
Proof. unfold size_texts. destruct (_ =? _); [cbn; lia|]. measure. Qed.
Lemma niche_length f : niche f <> A1 -> (List.length (concat (niche_texts f)) <= 2 * List.length (name f) + 239)%nat.
Proof. intros H. unfold niche_texts, niche_text. destruct (niche f); [|now destruct H|cbn; lia]. destruct (_ =? _); [|cbn; lia]. measure. Qed.
Lemma room f : niche f <> A1 -> (6 * List.length (name f) + 2 * List.length (arch f) <= 280)%nat -> check f <> OutOfBounds.
Proof.
  intros H L. apply message_fits. unfold texts. rewrite !concat_app, !app_length.
  pose proof (align_length f). pose proof (size_length f). pose proof (niche_length f H). lia.
Qed.
Lemma contains_mid (a ts b : list (list N)) m : m = concat (a ++ ts ++ b) -> contains m (concat ts).
Proof. intros ->. exists (concat a), (concat b). now rewrite !concat_app. Qed.

(** ** Documented compilers pass the checks *)
Lemma expr_id e : In e [1; 2; 4; 8; 16] -> expr_to_type e = e.
Proof. cbn [In]. intros H. repeat (destruct H as [<-|H]; [reflexivity|]). destruct H. Qed.
Lemma sane_compiles m arch : sane m -> compiles m arch.
Proof.
  intros [P Z A L AU NZ U AS O ON]. split; [exact P|]. intros p I. apply check_iff. cbn [facts_of s_align r_align s_size r_size niche o_size oo_size].
  assert (PE : In (c_size m PUsize) [1; 2; 4; 8; 16]) by (cbn [In] in P |- *; tauto).
  assert (UE : expr_to_type (c_align m PUsize) = c_align m PUsize).
  { apply expr_id. rewrite U. destruct (c_size m PUsize =? 8); [apply L; cbn; tauto|exact PE]. }
  assert (G : stabby_align m p = c_align m p /\ stabby_size m p = c_size m p /\ niches_agree (stabby_niche p) (c_size m p) (c_opt m p) (c_oopt m p)).
  { rewrite (Z p I). unfold stabby_align, stabby_size.
    pose proof (O p I) as Op. rewrite (Z p I) in Op.
    cbn [In checked] in I.
    repeat (destruct I as [<-|I];
      [cbn [same_as own_align own_size stabby_niche bytes_of niches_agree] in *;
       try (rewrite A by (cbn; tauto)); cbn [bytes_of];
       try (rewrite expr_id by (apply L; cbn; tauto)); try (rewrite AU);
       try (rewrite (AS PAIsize) by (cbn; tauto)); try (rewrite (AS PAUsize) by (cbn; tauto)); try (rewrite UE); try (rewrite (expr_id _ PE));
       try (split; [reflexivity|]; split; [reflexivity|]; first [exact Logic.I|apply Op; cbn [In]; intuition discriminate])
      |]); [|destruct I].
    (* NonZeroUsize *)
    rewrite (AS PNzUsize) by (cbn; tauto). rewrite U. destruct ON as [O1 O2]. rewrite (Z PNzUsize) in O1, O2 by (cbn; tauto). cbn [bytes_of] in O1, O2.
    cbn [In] in P. destruct P as [E|[E|[E|[]]]]; rewrite <- E in *; cbn [N.eqb Pos.eqb own_align own_size];
      (split; [try reflexivity; rewrite NZ; apply expr_id, L; cbn; tauto|]); (split; [reflexivity|]); split; assumption. }
  destruct G as (-> & -> & G). split; [reflexivity|]. split; [reflexivity|exact G].
Qed.
