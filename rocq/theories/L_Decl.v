(** Reports determine layouts. *)
From Coq Require Import String List Arith NArith Bool Lia.
From Verif Require Import M_Layout M_Report M_Decl S_Layout S_Report S_Decl L_Report L_Types.
Import ListNotations.

Lemma prim_name_inj : forall a a' p q, u128_align a -> u128_align a' -> sized_name p ->
  prim_name a p = prim_name a' q -> forall w, prim_ty w a p = prim_ty w a' q.
Proof.
  intros a a' p q [->| ->] [->| ->] Hp H w; destruct p, q; try reflexivity; try discriminate H; exfalso; destruct Hp as (A & B & C); congruence.
Qed.
Lemma ptr_name_inj : forall p q, ptr_name p = ptr_name q -> p = q.
Proof. intros [] []; try reflexivity; discriminate. Qed.
Lemma ptr_not_pin : forall p, ptr_name p <> lit "core::pin::Pin".
Proof. intros []; discriminate. Qed.
Lemma ptr_not_array : forall p n, ptr_name p <> array_name n.
Proof. intros [] n; discriminate. Qed.
Lemma pin_not_array : forall n, lit "core::pin::Pin" <> array_name n.
Proof. discriminate. Qed.
Lemma array_name_inj : forall n m, n <= 128 -> m <= 128 -> array_name n = array_name m -> n = m.
Proof.
  intros n m Hn Hm H.
  assert (K : forallb (fun n => forallb (fun m => Nat.eqb n m || negb (bytes_eqb (array_name n) (array_name m))) (seq 0 129)) (seq 0 129) = true)
    by (vm_compute; reflexivity).
  rewrite forallb_forall in K. specialize (K n). rewrite forallb_forall in K.
  assert (A : In n (seq 0 129)) by (apply in_seq; lia). specialize (K A m).
  assert (B : In m (seq 0 129)) by (apply in_seq; lia). specialize (K B).
  apply orb_true_iff in K. destruct K as [K|K]; [now apply Nat.eqb_eq|].
  rewrite H in K. exfalso. apply negb_true_iff in K.
  assert (R : forall l, bytes_eqb l l = true) by (induction l; cbn; [reflexivity|rewrite N.eqb_refl; exact IHl]).
  rewrite R in K. discriminate.
Qed.
Lemma inner_inj : forall n n' r r', inner_report n r = inner_report n' r' -> n = n' /\ r = r'.
Proof. intros n n' r r' H. injection H as -> ->. auto. Qed.

Fixpoint dty_ind' (P : dty -> Prop)
  (hprim : forall p, P (DPrim p)) (hptr : forall k t, P t -> P (DPtr k t)) (hpin : forall t, P t -> P (DPin t))
  (harr : forall t n, P t -> P (DArr t n)) (hwrap : forall t, P t -> P (DWrap t))
  (hres : forall a b, P a -> P b -> P (DResult a b))
  (hst : forall n m v al fs, Forall (fun f => P (snd f)) fs -> P (DStruct n m v al fs))
  (hun : forall n m v fs, Forall (fun f => P (snd f)) fs -> P (DUnion n m v fs)) (d : dty) : P d :=
  let rec := dty_ind' P hprim hptr hpin harr hwrap hres hst hun in
  let fix all (fs : list (list N * dty)) : Forall (fun f => P (snd f)) fs :=
    match fs with
    | [] => Forall_nil _
    | f :: r => Forall_cons f (rec (snd f)) (all r)
    end in
  match d with
  | DPrim p => hprim p
  | DPtr k t => hptr k t (rec t)
  | DPin t => hpin t (rec t)
  | DArr t n => harr t n (rec t)
  | DWrap t => hwrap t (rec t)
  | DResult a b => hres a b (rec a) (rec b)
  | DStruct n m v al fs => hst n m v al fs (all fs)
  | DUnion n m v fs => hun n m v fs (all fs)
  end.

Lemma fields_same : forall a a' w (fs fs' : list (list N * dty)),
  Forall (fun f => self_described (snd f) -> forall d', self_described d' ->
     dty_report a (snd f) = dty_report a' d' -> dty_ty w a (snd f) = dty_ty w a' d') fs ->
  Forall (fun f => self_described (snd f)) fs -> Forall (fun f => self_described (snd f)) fs' ->
  rev (map (fun f => (fst f, dty_report a (snd f))) fs) = rev (map (fun f => (fst f, dty_report a' (snd f))) fs') ->
  map (fun f => dty_ty w a (snd f)) fs = map (fun f => dty_ty w a' (snd f)) fs'.
Proof.
  intros a a' w fs fs' IH H H' E. apply (f_equal (@rev _)) in E. rewrite !rev_involutive in E.
  revert fs' H' E. induction fs as [|f fs IHl]; intros [|f' fs'] H' E; try discriminate; [reflexivity|].
  inversion IH as [|? ? I1 I2]; inversion H as [|? ? S1 S2]; inversion H' as [|? ? S1' S2']; subst.
  cbn in E. injection E as _ E1 E2. cbn. f_equal; auto.
Qed.

Lemma report_ty : forall a a' w, u128_align a -> u128_align a' -> forall d, self_described d ->
  forall d', self_described d' -> dty_report a d = dty_report a' d' -> dty_ty w a d = dty_ty w a' d'.
Proof.
  intros a a' w Ha Ha' d.
  induction d as [p|k t IH|t IH|t n IH|t IH|x y IHx IHy|n m v al fs IH|n m v fs IH] using dty_ind'; intros Hd d' Hd' E.
  - inversion Hd as [? Hp| | | | | | ]; subst.
    destruct Hd' as [q Hq|k' t' H'|t' H'|t' n' H' Hn|x' y' H1 H2|n' m' v' fs' Hm Hf|n' m' v' fs' Hm Hf]; try discriminate E.
    + injection E as E. cbn. now apply prim_name_inj.
    + exfalso. injection E as _ E _. destruct Hm. congruence.
  - inversion Hd as [|? ? Ht| | | | | ]; subst.
    destruct Hd' as [q Hq|k' t' H'|t' H'|t' n' H' Hn|x' y' H1 H2|n' m' v' fs' Hm Hf|n' m' v' fs' Hm Hf]; try discriminate E.
    + apply inner_inj in E. destruct E as [E _]. apply ptr_name_inj in E. subst. reflexivity.
    + apply inner_inj in E. destruct E as [E _]. destruct (ptr_not_pin _ E).
    + apply inner_inj in E. destruct E as [E _]. destruct (ptr_not_array _ _ E).
    + exfalso. injection E as _ E _. destruct Hm. congruence.
  - inversion Hd as [| |? Ht| | | | ]; subst.
    destruct Hd' as [q Hq|k' t' H'|t' H'|t' n' H' Hn|x' y' H1 H2|n' m' v' fs' Hm Hf|n' m' v' fs' Hm Hf]; try discriminate E.
    + apply inner_inj in E. destruct E as [E _]. symmetry in E. destruct (ptr_not_pin _ E).
    + apply inner_inj in E. destruct E as [_ E]. cbn. apply IH; auto.
    + exfalso. injection E as _ E _. destruct Hm. congruence.
  - inversion Hd as [| | |? ? Ht Hn| | | ]; subst.
    destruct Hd' as [q Hq|k' t' H'|t' H'|t' n' H' Hn'|x' y' H1 H2|n' m' v' fs' Hm Hf|n' m' v' fs' Hm Hf]; try discriminate E.
    + apply inner_inj in E. destruct E as [E _]. symmetry in E. destruct (ptr_not_array _ _ E).
    + apply inner_inj in E. destruct E as [E1 E]. cbn. apply array_name_inj in E1; auto. subst. f_equal. auto.
    + exfalso. injection E as _ E _. destruct Hm. congruence.
  - inversion Hd.
  - inversion Hd as [| | | |? ? H1 H2| | ]; subst.
    destruct Hd' as [q Hq|k' t' H'|t' H'|t' n' H' Hn'|x' y' H1' H2'|n' m' v' fs' Hm Hf|n' m' v' fs' Hm Hf]; try discriminate E.
    injection E as E1 E2. cbn. f_equal; auto.
  - inversion Hd as [| | | | |? ? ? ? Hm Hf| ]; subst.
    destruct Hd' as [q Hq|k' t' H'|t' H'|t' n' H' Hn'|x' y' H1' H2'|n' m' v' fs' Hm' Hf'|n' m' v' fs' Hm' Hf']; try discriminate E;
    try (exfalso; injection E; intros; destruct Hm; congruence).
    injection E as _ _ _ E. cbn. f_equal. eapply fields_same; eauto.
  - inversion Hd as [| | | | | |? ? ? ? Hm Hf]; subst.
    destruct Hd' as [q Hq|k' t' H'|t' H'|t' n' H' Hn'|x' y' H1' H2'|n' m' v' fs' Hm' Hf'|n' m' v' fs' Hm' Hf']; try discriminate E.
    injection E as _ _ _ E. cbn. f_equal. eapply fields_same; eauto.
Qed.
Lemma report_layout : forall w a a' d d', u128_align a -> u128_align a' -> self_described d -> self_described d' ->
  dty_report a d = dty_report a' d' -> layout (dty_ty w a d) = layout (dty_ty w a' d').
Proof. intros. f_equal. now apply report_ty. Qed.
Lemma compatible_layout : forall w a a' d d', u128_align a -> u128_align a' -> self_described d -> self_described d' ->
  same_arity (dty_report a d) (dty_report a' d') ->
  is_compatible (dty_report a d) (dty_report a' d') = true -> layout (dty_ty w a d) = layout (dty_ty w a' d').
Proof. intros. apply report_layout; auto. now apply compat_equal. Qed.

(** ** Primitive declarations *)
Lemma all_zero : forall s, forallb (N.eqb 0) s = true <-> ~ (exists b, In b s /\ b <> 0%N).
Proof.
  intros s. rewrite forallb_forall. split.
  - intros H (b & Hb & N0). apply H in Hb. apply N.eqb_eq in Hb. congruence.
  - intros H b Hb. apply N.eqb_eq. destruct (N.eq_dec b 0); [auto|]. exfalso. apply H. eauto.
Qed.
Lemma zeros_unique : forall n s, length s = n -> forallb (N.eqb 0) s = true -> s = repeat 0%N n.
Proof.
  induction n; intros [|b s] H E; try discriminate; [reflexivity|]. cbn in *. apply andb_true_iff in E. destruct E as [A B].
  apply N.eqb_eq in A. subst. f_equal. apply IHn; auto.
Qed.
Lemma zeros_all : forall n, forallb (N.eqb 0) (repeat 0%N n) = true.
Proof. induction n; cbn; auto. Qed.
Lemma declares_plain : forall d size align, dsize d = size -> dalign d = align -> dub d = [] -> dfv d = FEnd -> dniche d = A0 ->
  forall valid : list N -> Prop, (forall s, valid s) -> declares d size align valid.
Proof.
  intros d size align H1 H2 H3 H4 H5 valid V. repeat split; auto.
  - rewrite H4. cbn. tauto.
  - rewrite H4. intros N. exfalso. apply N, V.
  - rewrite H5. discriminate.
  - intros (s & _ & _ & N & _). exfalso. apply N, V.
Qed.
Lemma declares_nonzero : forall d size align, 0 < size -> dsize d = size -> dalign d = align -> dub d = [] -> dfv d = nz_holes 0 size ->
  dniche d = A1 -> forall valid : list N -> Prop, (forall s, valid s <-> exists b, In b s /\ b <> 0%N) -> declares d size align valid.
Proof.
  intros d size align H0 H1 H2 H3 H4 H5 valid V.
  assert (E : forall s, length s = size -> (forbids (dfv d) s <-> ~ valid s)).
  { intros s Hs. rewrite H4, (nz_forbidden size s H0 Hs), all_zero, V. tauto. }
  split; [auto|]. split; [auto|]. split; [auto|]. split; [auto|]. split; [|auto]. intros _.
  exists (repeat 0%N size). split; [apply repeat_length|]. split; [apply Forall_forall; intros b Hb; apply repeat_spec in Hb; subst; reflexivity|].
  split; [rewrite V, <- all_zero; apply zeros_all|].
  intros s' Hs _ N. apply zeros_unique; auto. rewrite all_zero, <- V. exact N.
Qed.
Lemma declares_range : forall d lo hi (valid : list N -> Prop), dsize d = 1 -> dalign d = 1 -> dub d = [] -> dfv d = FRange lo hi 0 -> dniche d <> A1 ->
  (lo < hi)%N -> (hi < 256)%N -> (forall b, (b < 256)%N -> (valid [b] <-> ~ (lo <= b <= hi)%N)) -> declares d 1 1 valid.
Proof.
  intros d lo hi valid H1 H2 H3 H4 H5 Hl Hh V.
  assert (E : forall b, (b < 256)%N -> (forbids (dfv d) [b] <-> ~ valid [b])).
  { intros b Hb. rewrite H4, V by assumption. cbn. split; [intros (c & [= <-] & K); tauto|].
    intros K. exists b. split; [reflexivity|]. lia. }
  split; [auto|]. split; [auto|]. split; [auto|]. split.
  { intros [|b [|? ?]] Hs Hb; try discriminate. inversion Hb; subst. auto. }
  split; [congruence|]. intros (s & Hs & Hb & N & U). exfalso.
  assert (A : [lo] = s) by (apply U; [reflexivity|constructor; [lia|constructor]|rewrite V; lia]).
  assert (B : [hi] = s) by (apply U; [reflexivity|constructor; [lia|constructor]|rewrite V; lia]).
  rewrite <- A in B. injection B. lia.
Qed.
Lemma prim_declared : forall w a128 p, target_ok w a128 -> p <> PVoid ->
  exists d, layout (prim_ty w a128 p) = Some d /\ declares d (rust_size w p) (rust_align w a128 p) (rust_valid p).
Proof.
  intros w a128 p (Hw & H64 & H8 & H128) Hp.
  assert (Hz : 0 < t_ptr w) by (cbn in Hw; lia).
  destruct p; try congruence; (eexists; split; [reflexivity|]);
  try (apply declares_plain; [reflexivity|reflexivity|reflexivity|reflexivity|reflexivity|intros s; exact I]);
  try (apply declares_nonzero; [cbn; lia|reflexivity|reflexivity|reflexivity|reflexivity|reflexivity|intros s; reflexivity]);
  try (apply (declares_range _ 2 255); [reflexivity|reflexivity|reflexivity|reflexivity|discriminate|reflexivity|reflexivity|
    intros b Hb; cbn; split; [intros [[= ->]|[= ->]]; lia|intros; assert (b = 0 \/ b = 1)%N as [-> | ->] by lia; auto]]);
  try (apply (declares_range _ 2 254); [reflexivity|reflexivity|reflexivity|reflexivity|discriminate|reflexivity|reflexivity|
    intros b Hb; cbn; split; [intros [[= ->]|[[= ->]|[= ->]]]; lia|intros; assert (b = 255 \/ b = 0 \/ b = 1)%N as [-> |[-> | ->]] by lia; auto]]).
  all: apply declares_nonzero; [exact Hz|reflexivity| |reflexivity|reflexivity|reflexivity|intros s; reflexivity]; cbn;
    destruct (Nat.eqb_spec (t_ptr w) 8) as [E|E]; auto; rewrite E; auto.
Qed.
Lemma ptr_declared : forall w a128 k, target_ok w a128 ->
  exists d, layout (ptr_ty w k) = Some d /\
    declares d (t_ptr w) (t_ptr w) (fun s => nullable k = true \/ exists b, In b s /\ b <> 0%N) /\ dind d = true.
Proof.
  intros w a128 k (Hw & _). assert (Hz : 0 < t_ptr w) by (cbn in Hw; lia).
  destruct k; (eexists; split; [reflexivity|]); (split; [|reflexivity]);
  try (apply declares_plain; [reflexivity|reflexivity|reflexivity|reflexivity|reflexivity|intros s; left; reflexivity]);
  (apply declares_nonzero; [exact Hz|reflexivity|reflexivity|reflexivity|reflexivity|reflexivity|];
   intros s; split; [intros [D|D]; [discriminate|exact D]|auto]).
Qed.
