(** Lemmas on plain old data. *)
From Coq Require Import String.
From Coq Require Import List Arith NArith Bool Lia.
From Verif Require Import M_Layout S_Layout L_Layout L_Struct M_Result M_Report S_Report L_Report M_Core S_Core L_Core M_Decl S_Decl L_Decl M_Pod S_Pod.
Import ListNotations.
Ltac Zify.zify_post_hook ::= idtac.

Fixpoint pty_ind' (P : pty -> Prop)
  (hprim : forall p, P (PPrim p)) (hptr : forall k t, P t -> P (PPtr k t)) (hpin : forall t, P t -> P (PPin t))
  (harr : forall t n, P t -> P (PArr t n)) (hman : forall t, P t -> P (PManually t)) (huni : forall t, P t -> P (PUninit t))
  (hcell : forall t, P t -> P (PCell t)) (hnot : forall t, P t -> P (PNot t))
  (hst : forall n m v al c fs, Forall (fun f => P (snd f)) fs -> P (PStruct n m v al c fs))
  (hun : forall n m v c fs, Forall (fun f => P (snd f)) fs -> P (PUnion n m v c fs)) (d : pty) : P d :=
  let rec := pty_ind' P hprim hptr hpin harr hman huni hcell hnot hst hun in
  let fix all (fs : list (list N * pty)) : Forall (fun f => P (snd f)) fs :=
    match fs with
    | [] => Forall_nil _
    | f :: r => Forall_cons f (rec (snd f)) (all r)
    end in
  match d with
  | PPrim p => hprim p
  | PPtr k t => hptr k t (rec t)
  | PPin t => hpin t (rec t)
  | PArr t n => harr t n (rec t)
  | PManually t => hman t (rec t)
  | PUninit t => huni t (rec t)
  | PCell t => hcell t (rec t)
  | PNot t => hnot t (rec t)
  | PStruct n m v al c fs => hst n m v al c fs (all fs)
  | PUnion n m v c fs => hun n m v c fs (all fs)
  end.

Lemma indirect_iff t : indirect t = true <-> tied t.
Proof.
  induction t as [p|k t IH|t IH|t n IH|t IH|t IH|t IH|t IH|n m v al c fs IH|n m v c fs IH] using pty_ind'; cbn [indirect].
  - split; [discriminate|intros H; inversion H].
  - split; [intros _; constructor|reflexivity].
  - rewrite IH. split; [intros H; constructor; exact H|intros H; inversion H; subst; assumption].
  - rewrite IH. split; [intros H; constructor; exact H|intros H; inversion H; subst; assumption].
  - rewrite IH. split; [intros H; constructor; exact H|intros H; inversion H; subst; assumption].
  - rewrite IH. split; [intros H; constructor; exact H|intros H; inversion H; subst; assumption].
  - rewrite IH. split; [intros H; constructor; exact H|intros H; inversion H; subst; assumption].
  - split; [intros _; constructor|reflexivity].
  - rewrite Forall_forall in IH. rewrite existsb_exists. split.
    + intros (f & F & H). apply (TiStruct n m v al c fs f F). apply IH; assumption.
    + intros H. inversion H as [| | | | | | |? ? ? ? ? ? f F T|]; subst. exists f. split; [exact F|]. apply IH; assumption.
  - rewrite Forall_forall in IH. rewrite existsb_exists. split.
    + intros (f & F & H). apply (TiUnion n m v c fs f F). apply IH; assumption.
    + intros H. inversion H as [| | | | | | | |? ? ? ? ? f F T]; subst. exists f. split; [exact F|]. apply IH; assumption.
Qed.

(** ** The layouts say the same of indirections *)
Lemma pointer_fields tys : forall t, has_pointer (fields_ty t tys) = has_pointer t || existsb has_pointer tys.
Proof.
  unfold fields_ty. induction tys as [|x tys IH]; intros t; cbn [fold_left existsb]; [rewrite orb_false_r; reflexivity|].
  rewrite IH. cbn [has_pointer]. rewrite orb_assoc. reflexivity.
Qed.
Lemma pointer_union tys : forall t, has_pointer (fold_left TUnion tys t) = has_pointer t || existsb has_pointer tys.
Proof.
  induction tys as [|x tys IH]; intros t; cbn [fold_left existsb]; [rewrite orb_false_r; reflexivity|].
  rewrite IH. cbn [has_pointer]. rewrite orb_assoc. reflexivity.
Qed.
Lemma indirect_pointer w a t : unmarked t = true -> has_pointer (pod_ty w a t) = indirect t.
Proof.
  induction t as [p|k t IH|t IH|t n IH|t IH|t IH|t IH|t IH|n m v al c fs IH|n m v c fs IH] using pty_ind';
    cbn [unmarked pod_ty indirect has_pointer]; intros U; auto; try discriminate U.
  - destruct p; reflexivity.
  - destruct k; reflexivity.
  - assert (E : existsb has_pointer (map (fun f => pod_ty w a (snd f)) fs) = existsb (fun f => indirect (snd f)) fs).
    { induction IH as [|f fs If _ IHl]; [reflexivity|]. cbn [forallb map existsb] in *. apply andb_true_iff in U. destruct U as [U1 U2].
      rewrite (If U1), (IHl U2). reflexivity. }
    rewrite <- E. destruct al as [al|]; destruct (map (fun f => pod_ty w a (snd f)) fs) as [|x tys]; try reflexivity;
      cbn [struct_ty aligned_struct_ty has_pointer existsb]; apply pointer_fields.
  - unfold union_ty. rewrite pointer_union. cbn [has_pointer orb].
    induction IH as [|f fs If _ IHl]; [reflexivity|]. cbn [forallb map existsb] in *. apply andb_true_iff in U. destruct U as [U1 U2].
    rewrite (If U1), (IHl U2). reflexivity.
Qed.

(** ** Identifiers and layouts *)
Definition prims : list prim :=
  [PUnit; PPhantom; PPinned; PVoid; PBool; POrdering; PU8; PU16; PU32; PU64; PU128; PUsize; PI8; PI16; PI32; PI64; PI128; PIsize;
   PNzU8; PNzU16; PNzU32; PNzU64; PNzU128; PNzUsize; PNzI8; PNzI16; PNzI32; PNzI64; PNzI128; PNzIsize; PF32; PF64;
   PABool; PAI8; PAI16; PAI32; PAI64; PAIsize; PAU8; PAU16; PAU32; PAU64; PAUsize].
Definition by_name (a : nat) (n : list N) : option prim := find (fun p => bytes_eqb (prim_name a p) n) prims.
Lemma by_name_prim a p : by_name a (prim_name a p) = Some p.
Proof.
  unfold by_name. assert (E : forall q, prim_name a q = match q with PU128 => if Nat.eqb a 8 then lit "u128(8)" else lit "u128(16)" | _ => prim_name 0 q end) by (intros []; reflexivity).
  unfold prims. cbn [find]. rewrite !E. destruct (Nat.eqb a 8); destruct p; vm_compute; reflexivity.
Qed.
Lemma prim_inj a p q : prim_name a p = prim_name a q -> p = q.
Proof. intros E. assert (S : Some p = Some q) by (rewrite <- (by_name_prim a p), E; apply by_name_prim). injection S as ->. reflexivity. Qed.

Lemma sbv_inv n m v k fs n' m' v' k' fs' : same_but_version (Rep n m v k fs) (Rep n' m' v' k' fs') ->
  n = n' /\ m = m' /\ k = k' /\ Forall2 (fun x y => fst x = fst y /\ same_but_version (snd x) (snd y)) fs fs'.
Proof. intros H. inversion H; subst. auto. Qed.
Lemma Forall2_rev' {A B} (R : A -> B -> Prop) l : forall l', Forall2 R l l' -> Forall2 R (rev l) (rev l').
Proof.
  intros l' F. induction F as [|x y l l' Q F IH]; [constructor|]. cbn [rev]. apply Forall2_app; [exact IH|]. constructor; [exact Q|constructor].
Qed.
Lemma fields_eq w a fs : forall fs',
  Forall (fun f => described (snd f) -> stable (snd f) = true -> forall d', described d' -> stable d' = true ->
     same_but_version (pod_report a (snd f)) (pod_report a d') -> pod_ty w a (snd f) = pod_ty w a d') fs ->
  Forall (fun f => described (snd f)) fs -> Forall (fun f => described (snd f)) fs' ->
  forallb (fun f => stable (snd f)) fs = true -> forallb (fun f => stable (snd f)) fs' = true ->
  Forall2 (fun x y : list N * report => fst x = fst y /\ same_but_version (snd x) (snd y))
    (rev (map (fun f => (fst f, pod_report a (snd f))) fs)) (rev (map (fun f => (fst f, pod_report a (snd f))) fs')) ->
  map (fun f => pod_ty w a (snd f)) fs = map (fun f => pod_ty w a (snd f)) fs'.
Proof.
  intros fs' IH D D' S S' F. apply Forall2_rev' in F. rewrite !rev_involutive in F.
  revert fs' D' S' F. induction fs as [|f fs IHl]; intros [|f' fs'] D' S' F; cbn [map] in F; inversion F as [|? ? ? ? [_ Q] F']; [reflexivity|subst].
  inversion IH as [|? ? I1 I2]; subst. inversion D as [|? ? D1 D2]; subst. inversion D' as [|? ? D1' D2']; subst.
  cbn [forallb] in S, S'. apply andb_true_iff in S, S'. destruct S as [S1 S2], S' as [S1' S2']. cbn [map]. f_equal.
  - apply I1; assumption.
  - apply IHl; assumption.
Qed.
Lemma report_pod_ty w a : forall t, described t -> stable t = true -> forall t', described t' -> stable t' = true ->
  same_but_version (pod_report a t) (pod_report a t') -> pod_ty w a t = pod_ty w a t'.
Proof.
  intros t. induction t as [p|k t IH|t IH|t n IH|t IH|t IH|t IH|t IH|n m v al c fs IH|n m v c fs IH] using pty_ind'; intros D S t' D' S' E;
    inversion D as [|? D1|? ? D1|? ? ? ? ? Hm Hf|? ? ? ? ? Hm Hf]; subst;
    destruct D' as [q|t' D'|t' n' D'|n' m' v' c' fs' Hm' Hf'|n' m' v' c' fs' Hm' Hf']; cbn [pod_report] in E; unfold inner_report, macro_report in E;
    apply sbv_inv in E; destruct E as (En & Em & Ek & Ef); try discriminate Ek; cbn [stable] in S, S'; cbn [pod_ty].
  - apply prim_inj in En. subst q. reflexivity.
  - inversion Ef.
  - inversion Ef.
  - exfalso. destruct Hm' as [[X _] _]. congruence.
  - inversion Ef.
  - inversion Ef as [|? ? ? ? [_ Q] _]; subst. cbn [snd] in Q. apply IH; assumption.
  - destruct (pin_not_array _ En).
  - exfalso. destruct Hm' as [[X _] _]. congruence.
  - inversion Ef.
  - symmetry in En. destruct (pin_not_array _ En).
  - apply andb_true_iff in S, S'. destruct S as [L S], S' as [L' S']. apply Nat.leb_le in L, L'. apply array_name_inj in En; [|assumption|assumption]. subst n'.
    inversion Ef as [|? ? ? ? [_ Q] _]; subst. cbn [snd] in Q. f_equal. apply IH; assumption.
  - exfalso. destruct Hm' as [[X _] _]. congruence.
  - exfalso. destruct Hm as [[X _] _]. congruence.
  - exfalso. destruct Hm as [[X _] _]. congruence.
  - exfalso. destruct Hm as [[X _] _]. congruence.
  - f_equal. apply fields_eq; assumption.
  - f_equal. apply fields_eq; assumption.
Qed.
Lemma arch_inj m m' : arch m = arch m' -> t_ptr (m_target m) = t_ptr (m_target m') /\ m_u128 m = m_u128 m' /\ m_big m = m_big m'.
Proof.
  unfold arch, arch_info. intros H.
  assert (A : forall i, nth i [0%N; N.of_nat (t_ptr (m_target m)); N.of_nat (t_ptr (m_target m)); N.of_nat (t_ptr (m_target m)); N.of_nat (t_ptr (m_target m)); N.of_nat (m_u128 m); (if m_big m then 1%N else 0%N); 0%N] 0%N =
    nth i [0%N; N.of_nat (t_ptr (m_target m')); N.of_nat (t_ptr (m_target m')); N.of_nat (t_ptr (m_target m')); N.of_nat (t_ptr (m_target m')); N.of_nat (m_u128 m'); (if m_big m' then 1%N else 0%N); 0%N] 0%N)
    by (intros i; rewrite H; reflexivity).
  pose proof (A 1) as A1. pose proof (A 5) as A2. pose proof (A 6) as A3. cbn [nth] in A1, A2, A3.
  split; [lia|]. split; [lia|]. destruct (m_big m), (m_big m'); congruence.
Qed.

(** ** Memory *)
Definition fill (c : N) (mem : memory) : list N := map (fun o => match o with Some b => b | None => c end) mem.
Lemma fill_fills c mem : (c < 256)%N -> fills mem (fill c mem).
Proof. intros C. unfold fills, fill. induction mem as [|[b|] mem IH]; cbn [map]; constructor; auto. Qed.
Lemma as_slice_fills mem s : as_slice mem = Some s -> fills mem s.
Proof.
  revert s. induction mem as [|[b|] mem IH]; intros s; cbn [as_slice]; [intros H; injection H as <-; constructor| |discriminate].
  destruct (as_slice mem) as [l|]; [|discriminate]. intros H. injection H as <-. constructor; [reflexivity|apply IH; reflexivity].
Qed.
Lemma as_slice_none mem : as_slice mem = None -> fill 0 mem <> fill 1 mem.
Proof.
  induction mem as [|[b|] mem IH]; cbn [as_slice fill map]; [discriminate| |intros _ H; discriminate H].
  destruct (as_slice mem) as [l|]; [discriminate|]. intros _ H. injection H as H. exact (IH eq_refl H).
Qed.

(** ** Bytes that all mean something *)
Lemma decode_len t s v : decode t s = Some v -> exists d, layout t = Some d /\ length s = dsize d.
Proof.
  intros H. assert (E : exists d, layout t = Some d /\ negb (Nat.eqb (length s) (dsize d) && forallb (fun b => N.ltb b 256) s) = false).
  { destruct t; cbn [decode] in H; match type of H with match ?L with _ => _ end = _ => destruct L as [d|] eqn:El; [|discriminate H] end;
      destruct (negb (Nat.eqb (length s) (dsize d) && forallb (fun b => N.ltb b 256) s)) eqn:En; try discriminate H; exists d; auto. }
  destruct E as (d & L & E). exists d. split; [exact L|]. apply negb_false_iff, andb_true_iff in E. destruct E as [E _]. apply Nat.eqb_eq in E. exact E.
Qed.
Lemma read_inj (rd : list N -> option val) w : (forall s s' v, rd s = Some v -> rd s' = Some v -> s = s') ->
  forall n s s' l, length s = w * n -> length s' = w * n -> read_elems rd w n s = Some l -> read_elems rd w n s' = Some l -> s = s'.
Proof.
  intros I n. induction n as [|n IH]; intros s s' l L L' R R'.
  - rewrite Nat.mul_0_r in L, L'. destruct s, s'; [reflexivity|discriminate..].
  - cbn [read_elems] in R, R'.
    destruct (rd (firstn w s)) as [v|] eqn:A; [|discriminate R]. destruct (read_elems rd w n (skipn w s)) as [r|] eqn:B; [|discriminate R].
    destruct (rd (firstn w s')) as [v'|] eqn:A'; [|discriminate R']. destruct (read_elems rd w n (skipn w s')) as [r'|] eqn:B'; [|discriminate R'].
    injection R as <-. injection R' as -> ->.
    rewrite <- (firstn_skipn w s), <- (firstn_skipn w s'). f_equal.
    + exact (I _ _ _ A A').
    + apply IH with r; [rewrite skipn_length; lia|rewrite skipn_length; lia|exact B|exact B'].
Qed.
Lemma dense_inj t : dense t -> forall s s' v, decode t s = Some v -> decode t s' = Some v -> s = s'.
Proof.
  induction t as [|sz al|w|w al|w| | | |a IHa b IHb|t IH|t IH al|a IHa b IHb|t IH n|a IHa b IHb|t IH]; intros D s s' v H H';
    destruct (decode_len _ _ _ H) as (d & L & Ls); destruct (decode_len _ _ _ H') as (d' & L' & Ls'); rewrite L in L'; injection L' as <-;
    cbn [decode] in H, H'; rewrite L in H, H'; cbn [dense] in D; try destruct D;
    destruct (negb (Nat.eqb (length s) (dsize d) && forallb (fun b => N.ltb b 256) s)); try discriminate H;
    destruct (negb (Nat.eqb (length s') (dsize d) && forallb (fun b => N.ltb b 256) s')); try discriminate H'.
  - cbn [layout] in L. injection L as <-. cbn in Ls, Ls'. destruct s, s'; [reflexivity|discriminate..].
  - congruence.
  - congruence.
  - destruct (forallb (N.eqb 0) s), (forallb (N.eqb 0) s'); congruence.
  - destruct (forallb (N.eqb 0) s), (forallb (N.eqb 0) s'); congruence.
  - destruct s as [|[|[| |]] [|]], s' as [|[|[| |]] [|]]; congruence.
  - assert (Q : forall z x, match z with [0%N] => Some (VOrd Eq) | [1%N] => Some (VOrd Gt) | [255%N] => Some (VOrd Lt) | _ => None end = Some x ->
      (z = [0%N] /\ x = VOrd Eq) \/ (z = [1%N] /\ x = VOrd Gt) \/ (z = [255%N] /\ x = VOrd Lt)).
    { intros z x E. destruct z as [|b z]; [discriminate E|].
      destruct b as [|p]; [destruct z; [injection E as <-; auto|discriminate E]|].
      repeat (destruct p as [p|p|]; try discriminate E); (destruct z; [injection E as <-; auto|discriminate E]). }
    apply Q in H. apply Q in H'. destruct H as [[-> ->]|[[-> ->]|[-> ->]]], H' as [[-> E]|[[-> E]|[-> E]]]; congruence.
  - destruct H1 as [D2 G]. rename H0 into D1. destruct (layout a) as [da|] eqn:La; [|discriminate H]. destruct (layout b) as [db|] eqn:Lb; [|discriminate H].
    rewrite L in G.
    set (o := nmo (dsize da) (dalign db)) in *.
    destruct (decode a (firstn (dsize da) s)) as [va|] eqn:A; [|discriminate H]. destruct (decode b (skipn o s)) as [vb|] eqn:B; [|discriminate H].
    destruct (decode a (firstn (dsize da) s')) as [va'|] eqn:A'; [|discriminate H']. destruct (decode b (skipn o s')) as [vb'|] eqn:B'; [|discriminate H'].
    injection H as <-. injection H' as -> ->.
    destruct (decode_len _ _ _ B) as (db1 & Lb1 & LB). rewrite Lb in Lb1. injection Lb1 as <-. rewrite skipn_length in LB.
    destruct (decode_len _ _ _ A) as (da1 & La1 & LA). rewrite La in La1. injection La1 as <-. rewrite firstn_length in LA.
    assert (O : dsize db = 0 \/ o = dsize da) by lia.
    rewrite <- (firstn_skipn (dsize da) s), <- (firstn_skipn (dsize da) s'). rewrite (IHa D1 _ _ _ A A'). f_equal.
    destruct O as [Z|O].
    + assert (X : length (skipn (dsize da) s) = 0) by (rewrite skipn_length; lia). assert (Y : length (skipn (dsize da) s') = 0) by (rewrite skipn_length; lia).
      destruct (skipn (dsize da) s), (skipn (dsize da) s'); [reflexivity|discriminate..].
    + rewrite O in B, B'. exact (IHb D2 _ _ _ B B').
  - rename H0 into D1, H1 into G. destruct (layout t) as [d'|] eqn:Lt; [|discriminate H]. rewrite L in G.
    rewrite firstn_all2 in H, H' by lia. exact (IH D1 _ _ _ H H').
  - rename H0 into D1, H1 into G. destruct (layout t) as [d'|] eqn:Lt; [|discriminate H]. rewrite L in G.
    rewrite firstn_all2 in H, H' by lia. exact (IH D1 _ _ _ H H').
  - destruct (layout t) as [d'|] eqn:Lt; [|discriminate H]. cbn [layout] in L. rewrite Lt in L. cbn [option_map] in L. injection L as <-. cbn [array_ dsize] in Ls, Ls'.
    destruct (read_elems (decode t) (dsize d') n s) as [l|] eqn:R; [|discriminate H]. destruct (read_elems (decode t) (dsize d') n s') as [l'|] eqn:R'; [|discriminate H'].
    cbn [option_map] in H, H'. injection H as <-. injection H' as ->.
    exact (read_inj _ _ (IH D) n s s' l Ls Ls' R R').
Qed.

(** ** Copy *)
Lemma copy_iff t : is_copy t = false <-> unique t.
Proof.
  induction t as [p|k t IH|t IH|t n IH|t IH|t IH|t IH|t IH|n m v al c fs IH|n m v c fs IH] using pty_ind'; cbn [is_copy].
  - split.
    + destruct p; cbn [prim_copy]; intros H; try discriminate H; try (apply UnVoid); apply UnAtomic; cbn; tauto.
    + intros H. inversion H as [|? I| | | | | | | | | | | |]; subst; [reflexivity|].
      cbn in I. repeat (destruct I as [<-|I]; [reflexivity|]). destruct I.
  - split; [destruct k; intros H; try discriminate H; constructor|intros H; inversion H; subst; reflexivity].
  - rewrite IH. split; [intros H; constructor; exact H|intros H; inversion H; subst; assumption].
  - rewrite IH. split; [intros H; constructor; exact H|intros H; inversion H; subst; assumption].
  - rewrite IH. split; [intros H; constructor; exact H|intros H; inversion H; subst; assumption].
  - rewrite IH. split; [intros H; constructor; exact H|intros H; inversion H; subst; assumption].
  - split; [intros _; constructor|reflexivity].
  - rewrite IH. split; [intros H; constructor; exact H|intros H; inversion H; subst; assumption].
  - assert (F : forallb (fun f => is_copy (snd f)) fs = false <-> exists f, In f fs /\ unique (snd f)).
    { clear -IH. induction IH as [|f r H _ R]; cbn [forallb].
      - split; [discriminate|intros (f & [] & _)].
      - rewrite andb_false_iff, H, R. split.
        + intros [A|(g & I & A)]; [exists f; split; [now left|exact A]|exists g; split; [now right|exact A]].
        + intros (g & [<-|I] & A); [now left|right; exists g; now split]. }
    rewrite andb_false_iff, F. split.
    + intros [->|(f & I & A)]; [constructor|]. exact (UnStructField n m v al c fs f I A).
    + intros H. inversion H; subst; [now left|]. right. eexists. split; eassumption.
  - assert (F : forallb (fun f => is_copy (snd f)) fs = false <-> exists f, In f fs /\ unique (snd f)).
    { clear -IH. induction IH as [|f r H _ R]; cbn [forallb].
      - split; [discriminate|intros (f & [] & _)].
      - rewrite andb_false_iff, H, R. split.
        + intros [A|(g & I & A)]; [exists f; split; [now left|exact A]|exists g; split; [now right|exact A]].
        + intros (g & [<-|I] & A); [now left|right; exists g; now split]. }
    rewrite andb_false_iff, F. split.
    + intros [->|(f & I & A)]; [constructor|]. exact (UnUnionField n m v c fs f I A).
    + intros H. inversion H; subst; [now left|]. right. eexists. split; eassumption.
Qed.
(** ** Machines *)
Lemma identifier_machine sha m m' t : small_machine m -> small_machine m' -> m_u128 m = m_u128 m' ->
  identifier sha m t = identifier sha m' t -> t_ptr (m_target m) = t_ptr (m_target m') /\ m_big m = m_big m'.
Proof.
  intros [A B] [A' B'] U E. unfold identifier in E. rewrite <- U in E.
  assert (W : forall x, small_machine x -> bytes (arch x)).
  { intros x [X Y]. unfold arch, arch_info, bytes. repeat apply Forall_cons; try apply Forall_nil; try lia. destruct (m_big x); lia. }
  apply id_arch in E; [|apply W; split; assumption|apply W; split; assumption|reflexivity].
  apply arch_inj in E. tauto.
Qed.

(** ** Sizes and alignments *)
Lemma fold_al_ok l : Forall al_ok l -> forall x, al_ok x -> al_ok (fold_left Nat.max l x).
Proof. induction 1 as [|y l H _ IH]; intros x X; cbn [fold_left]; [exact X|]. apply IH, al_ok_max; assumption. Qed.
Lemma target_al w a : target_ok w a -> al_ok (t_ptr w) /\ al_ok (t_u64 w) /\ al_ok a.
Proof. unfold target_ok, al_ok. cbn [In]. intros (A & B & _ & C). repeat split; intuition lia. Qed.
Lemma rust_align_ok w a p : target_ok w a -> al_ok (rust_align w a p).
Proof.
  intros T. destruct (target_al w a T) as (A & B & C). unfold rust_align, rust_size.
  destruct p; cbn [prim_kind]; try assumption; unfold al_ok; cbn; tauto.
Qed.
Section Sizes.
Context (w : target) (a : nat) (T : target_ok w a).
Definition sized (t : pty) : Prop := exists d, layout (pod_ty w a t) = Some d /\ rust_layout w a t (dsize d) (dalign d) /\ al_ok (dalign d).
Lemma sized_fields (fs : list (list N * pty)) : Forall (fun f => ordinary (snd f) -> sized (snd f)) fs -> fold_right (fun f P => ordinary (snd f) /\ P) True fs ->
  exists ds, Forall2 (fun t d => layout t = Some d) (map (fun f => pod_ty w a (snd f)) fs) ds /\
    Forall2 (fun f l => rust_layout w a (snd f) (fst l) (snd l)) fs (map sa ds) /\ Forall (fun d => al_ok (dalign d)) ds.
Proof.
  induction 1 as [|f fs H _ IH]; cbn [fold_right map].
  - intros _. exists []. repeat split; constructor.
  - intros [O R]. destruct (H O) as (d & L & RL & A). destruct (IH R) as (ds & Ls & RLs & As). exists (d :: ds).
    split; [constructor; assumption|]. split; [constructor; [exact RL|exact RLs]|constructor; assumption].
Qed.
Lemma pos_all ds : Forall (fun d => al_ok (dalign d)) ds -> Forall (fun d => 0 < dalign d) ds.
Proof. intros H. eapply Forall_impl; [|exact H]. intros d A. apply al_ok_pos, A. Qed.
Lemma al_all ds : Forall (fun d => al_ok (dalign d)) ds -> Forall al_ok (map snd (map sa ds)).
Proof. induction 1; constructor; assumption. Qed.
Lemma pod_sized t : ordinary t -> sized t.
Proof.
  induction t as [p|k t IH|t IH|t n IH|t IH|t IH|t IH|t IH|n m v al c fs IH|n m v c fs IH] using pty_ind'; cbn [ordinary]; intros O;
    try (destruct (IH O) as (d & L & R & A); exists d; split; [exact L|]; split; [constructor; exact R|exact A]).
  - destruct (prim_declared w a p T O) as (d & L & S1 & S2 & _). exists d. split; [exact L|]. rewrite S1, S2. split; [constructor|now apply rust_align_ok].
  - destruct (ptr_declared w a k T) as (d & L & (S1 & S2 & _) & _). exists d. split; [exact L|]. rewrite S1, S2. split; [constructor|apply (target_al w a T)].
  - destruct (IH O) as (d & L & R & A). destruct (array_layout _ d n L) as (e & E & S1 & S2 & _). exists e. split; [exact E|].
    rewrite S1, S2. split; [constructor; exact R|exact A].
  - destruct O as [AL O]. destruct (sized_fields fs IH O) as (ds & L & R & A). unfold sized. cbn [pod_ty].
    destruct fs as [|f fs].
    + inversion L; subst. destruct al as [x|]; [destruct AL as [_ AL]; contradiction|].
      exists unit_d. split; [reflexivity|]. split; [|left; reflexivity].
      eapply (RlStruct w a n m v None c [] [] []); [constructor|]. split; [reflexivity|]. exists 0. split; [constructor|apply first_multiple_0].
    + cbn [map] in L |- *. inversion L as [|? d0 ? ds' L0 L' ]; subst. pose proof (pos_all _ A) as PA.
      destruct al as [x|].
      * destruct (aligned_struct_c _ _ d0 ds' x L0 L' PA) as (d & os & E & C). exists d. split; [exact E|].
        split; [exact (RlStruct w a n m v (Some x) c (f :: fs) _ os _ _ R C)|].
        destruct C as [-> _]. apply fold_al_ok; [exact (al_all _ A)|]. apply align_ok_al. apply AL.
      * destruct (struct_c _ _ d0 ds' L0 L' PA) as (d & os & E & C). exists d. split; [exact E|].
        split; [exact (RlStruct w a n m v None c (f :: fs) _ os _ _ R C)|].
        destruct C as [-> _]. apply fold_al_ok; [exact (al_all _ A)|]. left; reflexivity.
  - destruct (sized_fields fs IH O) as (ds & L & R & A). unfold sized. cbn [pod_ty].
    destruct (union_c _ ds L A) as (d & E & C & _). exists d. split; [exact E|].
    split; [exact (RlUnion w a n m v c fs _ _ _ R C)|]. destruct C as [-> _]. apply fold_al_ok; [exact (al_all _ A)|]. left; reflexivity.
Qed.
End Sizes.
