(** Lemmas on closures as trait objects. *)
From Coq Require Import String.
From Coq Require Import List Arith NArith Bool Lia.
From Verif Require Import M_Report M_Trait M_Closure S_Closure.
Import ListNotations.
Ltac Zify.zify_post_hook ::= idtac.

Lemma lookup_in {A} (y : string) (a : A) r x : x <> y -> lookup x ((y, a) :: r) = lookup x r.
Proof. intros H. cbn [lookup]. apply String.eqb_neq in H. rewrite H. reflexivity. Qed.
Lemma lookups_skip {A} (y : string) (a : A) r xs : ~ In y xs -> lookups xs ((y, a) :: r) = lookups xs r.
Proof.
  induction xs as [|x xs IH]; intros H; [reflexivity|]. cbn [lookups]. rewrite lookup_in by (intros ->; apply H; left; reflexivity).
  rewrite IH by (intros I; apply H; right; exact I). reflexivity.
Qed.
Lemma lookups_all {A} (xs : list string) : forall l : list A, NoDup xs -> length xs = length l -> lookups xs (combine xs l) = Some l.
Proof.
  induction xs as [|x xs IH]; intros [|a l] D L; try discriminate L; [reflexivity|].
  inversion D as [|? ? N D']; subst. cbn [combine lookups lookup]. rewrite String.eqb_refl.
  rewrite lookups_skip by exact N. rewrite IH; [reflexivity|exact D'|]. injection L as L. exact L.
Qed.
Lemma same_types_eq a : forall b, same_types a b = true <-> a = b.
Proof.
  induction a as [|x a IH]; intros [|y b]; cbn [same_types]; try (split; [discriminate|discriminate]); [split; reflexivity|].
  rewrite andb_true_iff, N.eqb_eq, IH. split; [intros [-> ->]; reflexivity|intros E; injection E as -> ->; auto].
Qed.
Lemma args_length i : length (args i) = i.
Proof. unfold args. rewrite map_length, seq_length. reflexivity. Qed.
Lemma argtys_length i : length (argtys i) = i.
Proof. unfold argtys. rewrite map_length, seq_length. reflexivity. Qed.
Lemma nodup_dec l : nodup String.string_dec l = l -> NoDup l.
Proof. intros <-. apply NoDup_nodup. Qed.
Ltac nodup10 i := do 10 (destruct i as [|i]; [apply nodup_dec; vm_compute; reflexivity|]); lia.
Lemma args_nodup i : i < 10 -> NoDup (args i).
Proof. intros H. nodup10 i. Qed.
Lemma argtys_nodup i : i < 10 -> NoDup (argtys i).
Proof. intros H. nodup10 i. Qed.

Section calls.
  Context {S V : Type}.
  Implicit Types f : closure S V.
  Lemma generated_some k i : i < 10 -> generated k i = Some (generate k i).
  Proof. intros H. unfold generated. apply Nat.ltb_lt in H. rewrite H. reflexivity. Qed.
  Lemma entry_eq k ts f vs s : length ts < 10 ->
    entry k ts f vs s = if same_types (cl_types f) ts && same_types (map fst vs) ts then Some (cl_run f s (map snd vs)) else None.
  Proof.
    intros H. unfold entry. rewrite generated_some by exact H. unfold bind at 1. rewrite argtys_length, Nat.eqb_refl.
    cbn [generate g_entry g_types g_params g_pass]. rewrite lookups_all by (apply argtys_nodup, H || apply argtys_length).
    assert (R : same_types ts ts = true) by (apply same_types_eq; reflexivity). rewrite R, andb_true_r.
    destruct (same_types (cl_types f) ts); [|reflexivity]. cbn [andb].
    destruct (same_types (map fst vs) ts) eqn:E; [|reflexivity]. apply same_types_eq in E.
    assert (L : length (map snd vs) = length ts) by (rewrite <- E, !map_length; reflexivity).
    unfold bind. rewrite args_length, L, Nat.eqb_refl. rewrite lookups_all; [reflexivity|apply args_nodup, H|rewrite args_length, L; reflexivity].
  Qed.
  Lemma call_eq k ts f vs s : length ts < 10 ->
    call k ts f vs s = if same_types (cl_types f) ts && same_types (map fst vs) ts then Some (cl_run f s (map snd vs)) else None.
  Proof.
    intros H. unfold call. rewrite generated_some by exact H. cbn [generate g_dyn_params g_dyn_pass]. unfold bind. rewrite args_length.
    destruct (Nat.eqb_spec (length ts) (length vs)) as [L|L].
    - rewrite lookups_all; [|apply args_nodup, H|rewrite args_length; exact L]. apply entry_eq. exact H.
    - assert (E : same_types (map fst vs) ts = false).
      { destruct (same_types (map fst vs) ts) eqn:E; [|reflexivity]. apply same_types_eq in E. exfalso. apply L. rewrite <- E, map_length. reflexivity. }
      rewrite E, andb_false_r. reflexivity.
  Qed.
  Lemma call_iff k ts f vs s r : call k ts f vs s = Some r <->
    length ts < 10 /\ cl_types f = ts /\ map fst vs = ts /\ r = cl_run f s (map snd vs).
  Proof.
    destruct (Nat.lt_ge_cases (length ts) 10) as [H|H].
    - rewrite call_eq by exact H. destruct (same_types (cl_types f) ts) eqn:A; cbn [andb].
      + destruct (same_types (map fst vs) ts) eqn:B.
        * apply same_types_eq in A. apply same_types_eq in B. split; [intros E; injection E as <-; auto|intros (_ & _ & _ & ->); reflexivity].
        * split; [discriminate|]. intros (_ & _ & E & _). apply same_types_eq in E. congruence.
      + split; [discriminate|]. intros (_ & E & _). apply same_types_eq in E. congruence.
    - unfold call, generated. assert (X : Nat.ltb (length ts) 10 = false) by (apply Nat.ltb_ge; exact H). rewrite X.
      split; [discriminate|lia].
  Qed.
  Lemma calls_iff k ts f : forall vss s r, vss <> [] -> (calls k ts f vss s = Some r <->
    length ts < 10 /\ cl_types f = ts /\ Forall (fun vs => map fst vs = ts) vss /\ (k = Once -> length vss = 1) /\ r = direct (cl_run f) vss s).
  Proof.
    induction vss as [|vs vss IH]; intros s r N; [congruence|]. cbn [calls direct].
    destruct (call k ts f vs s) as [[s' v]|] eqn:C.
    - apply call_iff in C. destruct C as (H & T & A & Er).
      destruct vss as [|ws vss].
      + cbn [calls direct]. rewrite <- Er. assert (X : match k with Once => Some (s', [v]) | _ => Some (s', [v]) end = Some r <-> r = (s', [v])).
        { destruct k; (split; [intros E; injection E as <-; reflexivity|intros ->; reflexivity]). }
        rewrite X. split; [intros ->; repeat split; auto|intros (_ & _ & _ & _ & E); exact E].
      + specialize (IH s'). set (rest := calls k ts f (ws :: vss) s') in *.
        assert (Eq : forall r', rest = Some r' <-> length ts < 10 /\ cl_types f = ts /\ Forall (fun vs => map fst vs = ts) (ws :: vss) /\ (k = Once -> length (ws :: vss) = 1) /\ r' = direct (cl_run f) (ws :: vss) s').
        { intros r'. apply IH. discriminate. }
        rewrite <- Er. destruct (direct (cl_run f) (ws :: vss) s') as [s2 l2] eqn:D.
        destruct k.
        * split; [discriminate|]. intros (_ & _ & _ & O & _). specialize (O eq_refl). discriminate O.
        * destruct rest as [[s3 l3]|].
          -- destruct (proj1 (Eq _) eq_refl) as (_ & _ & F & _ & E). injection E as -> ->.
             split; [intros E; injection E as <-; repeat split; auto; discriminate|intros (_ & _ & _ & _ & ->); reflexivity].
          -- split; [discriminate|]. intros (_ & _ & F & _ & _). inversion F; subst.
             assert (Z : None = Some (s2, l2)) by (apply Eq; repeat split; auto; discriminate). discriminate Z.
        * destruct rest as [[s3 l3]|].
          -- destruct (proj1 (Eq _) eq_refl) as (_ & _ & F & _ & E). injection E as -> ->.
             split; [intros E; injection E as <-; repeat split; auto; discriminate|intros (_ & _ & _ & _ & ->); reflexivity].
          -- split; [discriminate|]. intros (_ & _ & F & _ & _). inversion F; subst.
             assert (Z : None = Some (s2, l2)) by (apply Eq; repeat split; auto; discriminate). discriminate Z.
    - split; [discriminate|]. intros (H & T & F & _). inversion F as [|? ? F1 F2]; subst.
      assert (Z : call k (cl_types f) f vs s = Some (cl_run f s (map snd vs))) by (apply call_iff; auto). rewrite Z in C. discriminate C.
  Qed.
End calls.

(** * Stability and reports *)
Lemma fields_some k i : i < 10 -> exists fs, fields k i = Some fs /\ forall st t, f_kind t = k -> (vt_stable (instance st t) fs <-> (k = Once -> st (f_out t))).
Proof.
  intros H. destruct k.
  - eexists. split; [reflexivity|]. intros st t _. unfold vt_stable. rewrite Forall_cons_iff. cbn. split; [intros [A _] _; exact A|intros A; split; [exact (A eq_refl)|constructor]].
  - assert (X : exists f, fields Mut i = Some [f] /\ f_if f = None).
    { do 10 (destruct i as [|i]; [eexists; split; [vm_compute; reflexivity|reflexivity]|]). lia. }
    destruct X as (f & E & N). exists [f]. split; [exact E|]. intros st t _. split; [discriminate|]. intros _. constructor; [|constructor]. unfold field_stable. rewrite N. exact I.
  - assert (X : exists f, fields Shared i = Some [f] /\ f_if f = None).
    { do 10 (destruct i as [|i]; [eexists; split; [vm_compute; reflexivity|reflexivity]|]). lia. }
    destruct X as (f & E & N). exists [f]. split; [exact E|]. intros st t _. split; [discriminate|]. intros _. constructor; [|constructor]. unfold field_stable. rewrite N. exact I.
Qed.
Lemma stable_iff st t : object_stable st t <-> length (f_in t) < 10 /\ (f_kind t = Once -> st (f_out t)).
Proof.
  unfold object_stable. destruct (Nat.lt_ge_cases (length (f_in t)) 10) as [H|H].
  - rewrite generated_some by exact H. destruct (fields_some (f_kind t) _ H) as (fs & E & X). rewrite E. rewrite X by reflexivity. tauto.
  - unfold generated. assert (X : Nat.ltb (length (f_in t)) 10 = false) by (apply Nat.ltb_ge; exact H). rewrite X. split; [intros []|lia].
Qed.
Lemma report_kind k i k' i' fs fs' : i < 10 -> i' < 10 -> fields k i = Some fs -> fields k' i' = Some fs' ->
  compound_report [(trait_decl k i, fs)] = compound_report [(trait_decl k' i', fs')] -> k = k' /\ i = i'.
Proof.
  intros H H' _ _ E.
  assert (N : bytes_of "StabbyVtable" ++ d_name (trait_decl k i) = bytes_of "StabbyVtable" ++ d_name (trait_decl k' i')).
  { exact (f_equal (fun r => match r with Rep _ _ _ _ ((_, Rep n _ _ _ _) :: _) => n | _ => [] end) E). }
  apply app_inv_head in N. clear E.
  do 10 (destruct i as [|i]; [do 10 (destruct i' as [|i']; [destruct k, k'; vm_compute in N; try discriminate N; auto|]); lia|]); lia.
Qed.
