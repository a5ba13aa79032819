(** Lemmas for C113: the declarations, checked one by one. *)
From Coq Require Import String List NArith ZArith Bool Lia.
From Verif Require Import M_Typenum L_Typenum M_Num S_Num L_Num M_NumTable S_NumTable.
Import ListNotations.
Ltac Zify.zify_post_hook ::= idtac.
Local Open Scope N_scope.

Definition entry_ok (c : string) (l : list narrow) (n : N) : bool :=
  match find_type l (int_name c n) with
  | None => false
  | Some d => (nbits d =? n) && existsb (fun w => String.eqb (nbase d) (int_name c w) && (base_bits (nbase d) =? w) && (n <? w) &&
                                forallb (fun w' => implb (n <=? w') (w <=? w')) rust_bits) rust_bits
  end.
Definition table_ok (c : string) (l : list narrow) : bool :=
  forallb (fun k => existsb (N.eqb (N.of_nat k)) rust_bits || entry_ok c l (N.of_nat k)) (seq 1 127).
Definition names_ok (c : string) (l : list narrow) : bool :=
  forallb (fun d => String.eqb (nname d) (int_name c (nbits d)) && (0 <? nbits d) && (nbits d <? 128) && negb (existsb (N.eqb (nbits d)) rust_bits)) l.
Lemma umasks_ok : table_ok "u" umasks && names_ok "u" umasks = true.
Proof. vm_compute. reflexivity. Qed.
Lemma imasks_ok : table_ok "i" imasks && names_ok "i" imasks = true.
Proof. vm_compute. reflexivity. Qed.

Lemma in_rust n : existsb (N.eqb n) rust_bits = true <-> In n rust_bits.
Proof.
  rewrite existsb_exists. split; [intros (x & I & E); apply N.eqb_eq in E; now subst|intros I; exists n; split; [exact I|apply N.eqb_refl]].
Qed.
Lemma table_entry c l : table_ok c l = true -> forall n, missing n ->
  exists d w, find_type l (int_name c n) = Some d /\ type_bits d = n /\ nbase d = int_name c w /\ base_bits (nbase d) = w /\ n < w /\ smallest n w.
Proof.
  intros T n [R M]. unfold table_ok in T. rewrite forallb_forall in T. specialize (T (N.to_nat n)). rewrite N2Nat.id in T.
  assert (E : existsb (N.eqb n) rust_bits || entry_ok c l n = true) by (apply T, in_seq; lia). clear T.
  apply orb_true_iff in E as [E|E]; [now apply in_rust in E|]. unfold entry_ok in E.
  destruct (find_type l (int_name c n)) as [d|]; [|discriminate E]. apply andb_true_iff in E as [E1 E]. apply N.eqb_eq in E1.
  apply existsb_exists in E as (w & I & E). repeat rewrite andb_true_iff in E. destruct E as [[[E2 E3] E4] E5].
  apply String.eqb_eq in E2. apply N.eqb_eq in E3. apply N.ltb_lt in E4. exists d, w.
  split; [reflexivity|]. split; [|split; [exact E2|split; [exact E3|split; [exact E4|]]]].
  - unfold type_bits. rewrite build_u_enc, u128_enc; [exact E1|]. rewrite E1. transitivity 128; [apply R|reflexivity].
  - split; [exact I|]. split; [lia|]. intros w' I' L. rewrite forallb_forall in E5. specialize (E5 w' I').
    rewrite (proj2 (N.leb_le n w') L) in E5. now apply N.leb_le.
Qed.
Lemma table_names c l : table_ok c l = true -> names_ok c l = true -> forall s, find_type l s <> None <-> exists n, missing n /\ s = int_name c n.
Proof.
  intros T K s. split.
  - destruct (find_type l s) as [d|] eqn:F; [|congruence]. intros _. apply find_some in F as [I E]. apply String.eqb_eq in E. subst s.
    unfold names_ok in K. rewrite forallb_forall in K. specialize (K d I). repeat rewrite andb_true_iff in K. destruct K as [[[K1 K2] K3] K4].
    exists (nbits d). apply String.eqb_eq in K1. apply N.ltb_lt in K2, K3. split; [|exact K1]. split; [lia|].
    intros J. apply in_rust in J. rewrite J in K4. discriminate K4.
  - intros (n & M & ->). destruct (table_entry c l T n M) as (d & w & -> & _). discriminate.
Qed.
Fixpoint nodup_names (l : list string) : bool := match l with [] => true | s :: r => negb (existsb (String.eqb s) r) && nodup_names r end.
Lemma nodup_names_spec l : nodup_names l = true -> NoDup l.
Proof.
  induction l as [|s r IH]; [constructor|]. cbn [nodup_names]. rewrite andb_true_iff. intros [A B]. constructor; [|now apply IH].
  intros I. assert (E : existsb (String.eqb s) r = true) by (apply existsb_exists; exists s; split; [exact I|apply String.eqb_refl]).
  rewrite E in A. discriminate A.
Qed.
Lemma missing_double n w : missing n -> smallest n w -> w = 2 * n <-> n = 4.
Proof.
  intros [R M] (I & L & S). unfold rust_bits in *. cbn [In] in I, M. split.
  - intros E. destruct I as [<-|[<-|[<-|[<-|[<-|[]]]]]]; [lia|exfalso; apply M; lia..].
  - intros ->. assert (w <= 8) by (apply S; [now left|lia]). lia.
Qed.
Lemma u_tab : table_ok "u" umasks = true.
Proof. exact (proj1 (proj1 (andb_true_iff _ _) umasks_ok)). Qed.
Lemma i_tab : table_ok "i" imasks = true.
Proof. exact (proj1 (proj1 (andb_true_iff _ _) imasks_ok)). Qed.
