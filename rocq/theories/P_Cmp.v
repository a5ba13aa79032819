(** C87: equality, order and hash of the types of stabby agree. *)
From Coq Require Import List Arith NArith ZArith Bool Lia.
From Verif Require Import M_Num M_String M_Report S_String L_String M_Cmp S_Cmp L_Cmp.
Import ListNotations.
Local Open Scope N_scope.
Ltac Zify.zify_post_hook ::= idtac.

(** [==] holds of identical values exactly, for types that contain no [VtDrop]. *)
Theorem equal_exactly_partial : forall st k x y, plain k -> has st k x -> has st k y -> (eqv k x y = true <-> x = y).
Proof. exact eqv_exact. Qed.
Print Assumptions equal_exactly_partial.

(** Every [==] is an equivalence, and relates only values that are the same. *)
Theorem equal_equivalence : forall st k,
  (forall x, has st k x -> eqv k x x = true) /\
  (forall x y, eqv k x y = eqv k y x) /\
  (forall x y z, eqv k x y = true -> eqv k y z = true -> eqv k x z = true) /\
  (forall x y, has st k x -> has st k y -> eqv k x y = true -> same x y).
Proof. intros st k. exact (conj (eqv_refl st k) (conj (eqv_sym k) (conj (eqv_trans k) (eqv_same st k)))). Qed.
Print Assumptions equal_equivalence.

(** A copy of a [VtDrop] is not equal to it, nor is that of a vtable to the vtable; their hashes are the same. *)
Theorem equal_copies_refuted : exists st k x y u, has st k x /\ has st k y /\ same x y /\
  eqv k x y = false /\ feed k x = Some u /\ feed k y = Some u.
Proof.
  exists (fun _ => 4096), (QPair QDrop (QUInt 8)), (VPair (VFn 8 4096) (VN 4160)), (VPair (VFn 24 4096) (VN 4160)).
  eexists. split; [|split; [|split; [|split; [|split]]]]; try reflexivity.
  - cbn. repeat split; reflexivity.
  - cbn. repeat split; reflexivity.
  - apply same_pair; constructor.
Qed.
Print Assumptions equal_copies_refuted.

(** Equal values are hashed alike, whatever the hasher; every value of a type with a hash has one. *)
Theorem equal_hash : forall st k x y, hashes k -> has st k x -> has st k y -> eqv k x y = true ->
  exists u, feed k x = Some u /\ feed k y = Some u.
Proof.
  intros st k x y H Hx Hy E. destruct (feed_total st k x H Hx) as [u U]. exists u. split; [exact U|].
  rewrite <- (feed_eq st k x y Hx Hy E). exact U.
Qed.
Print Assumptions equal_hash.

(** Different values are fed to the hasher differently, whatever follows: no value's bytes begin another's. *)
Theorem hash_prefix_free : forall st k x y u v r r', has st k x -> has st k y ->
  feed k x = Some u -> feed k y = Some v -> u ++ r = v ++ r' -> same x y /\ r = r'.
Proof. exact feed_free. Qed.
Print Assumptions hash_prefix_free.

(** The strings other than [Str] hash as [str] does, so that equal texts of different types are found by one another. *)
Theorem string_hash_exactly : forall s s' l m t u, s <> SView -> s' <> SView -> is_text l t -> is_text m u ->
  (feed (QText s) (VText l) = feed (QText s') (VText m) <-> t = u).
Proof.
  intros s s' l m t u Hs Hs' T U.
  assert (feed (QText s) (VText l) = Some (feed_str l)) as -> by (destruct s; [congruence|reflexivity..]).
  assert (feed (QText s') (VText m) = Some (feed_str m)) as -> by (destruct s'; [congruence|reflexivity..]).
  split.
  - intros E. injection E as E. assert (feed_str l ++ [] = feed_str m ++ []) as E' by (rewrite !app_nil_r; exact E).
    apply str_free in E'; [|eapply text_bytes; eassumption..]. destruct E' as [-> _]. eapply text_unique; eassumption.
  - intros ->. destruct T as [_ ->], U as [_ ->]. reflexivity.
Qed.
Print Assumptions string_hash_exactly.

(** [Str] never hashes as the [str] it stands for. *)
Theorem view_hash_refuted : forall s l, s <> SView -> feed (QText SView) (VText l) <> feed (QText s) (VText l).
Proof.
  intros s l H E.
  assert (feed (QText s) (VText l) = Some (feed_str l)) as E' by (destruct s; [congruence|reflexivity..]).
  rewrite E' in E. change (Some (feeds (fun b => le 1 b) l) = Some (feed_str l)) in E.
  assert (feeds (fun b => le 1 b) l = feed_str l) as E1 by congruence. clear E. rename E1 into E. apply (f_equal (@length N)) in E.
  unfold feeds, feed_str in E. rewrite !app_length, le_length in E. cbn [length] in E.
  assert (length (flat_map (fun b => le 1 b) l) = length l) as L by (clear; induction l; cbn [flat_map]; [reflexivity|rewrite app_length, IHl; reflexivity]).
  rewrite L in E. lia.
Qed.
Print Assumptions view_hash_refuted.

(** The order is that of numbers, of scalar values and of first differences; it says equal exactly when [==] does. *)
Theorem order_exactly : forall st k x y, orders k -> has st k x -> has st k y ->
  (cmpv k x y = Some Lt <-> below k x y) /\ (cmpv k x y = Some Eq <-> eqv k x y = true) /\ (cmpv k x y = Some Gt <-> below k y x).
Proof.
  intros st k x y P Hx Hy. pose proof (cmpv_told st k x y P Hx Hy) as T.
  rewrite (eqv_exact st k x y (orders_plain k P) Hx Hy).
  destruct (cmpv k x y) as [[]|]; cbn in T; [subst y| | |contradiction];
    (split; [|split]); split; intros B; try discriminate B; try reflexivity; try exact T; subst; exfalso;
    match goal with
    | B : below _ ?x ?x |- _ => exact (below_irr _ _ B)
    | B : below _ ?x ?y, C : below _ ?y ?x |- _ => exact (below_irr _ _ (below_trans _ _ _ _ B C))
    end.
Qed.
Print Assumptions order_exactly.

(** It is a strict total order. *)
Theorem order_total : forall st k,
  (forall x, ~ below k x x) /\ (forall x y z, below k x y -> below k y z -> below k x z) /\
  (forall x y, orders k -> has st k x -> has st k y -> below k x y \/ x = y \/ below k y x).
Proof.
  intros st k. split; [exact (below_irr k)|split; [exact (below_trans k)|]]. intros x y P Hx Hy.
  pose proof (cmpv_told st k x y P Hx Hy) as T. destruct (cmpv k x y) as [[]|]; cbn in T; tauto.
Qed.
Print Assumptions order_total.

(** Reports with versions below [2^24]: equal, and fed alike to a hasher, exactly when identical. *)
Theorem report_hash_separates_partial : forall a b, usual (2 ^ 24) a -> usual (2 ^ 24) b ->
  (rep_eq a b = true <-> a = b) /\ (rep_feed a = rep_feed b <-> a = b).
Proof.
  intros a b A B. split; [apply rep_eq_exact|]. split; [|intros ->; reflexivity]. intros E.
  apply (rep_free a b [] []); [exact A|exact B|intros ? ? ?; discriminate|intros ? ? ?; discriminate|rewrite E; reflexivity].
Qed.
Print Assumptions report_hash_separates_partial.

(** A type with one field, whose type has none; and one whose field has a field. *)
Definition flat : report := Rep [84] [] (97 * 2 ^ 24) (KEnum (repeat 0 24)) [([102], Rep [85] [] 3 KStruct [])].
Definition deep : report := Rep [84] [] 0 KStruct [([102], Rep [85] [] 0 KStruct [([97; 1; 24], Rep [] [] 0 KStruct [])])].
(** With any [u32] as version, different reports may be fed alike. *)
Theorem report_hash_separates_refuted : exists a b, usual (2 ^ 32) a /\ usual (2 ^ 32) b /\
  rep_eq a b = false /\ rep_feed a = rep_feed b.
Proof.
  exists flat, deep. split; [|split; [|split]]; try reflexivity; cbn; unfold short; repeat split; repeat constructor; discriminate.
Qed.
Print Assumptions report_hash_separates_refuted.

(** ** Cases *)
(** An option of a pair of a string and a vector-like sequence of restricted integers. *)
Definition sample (s : strk) : kty := QOption (QPair (QText s) (QSeq QArc (QNonMax 1))).
Definition abc : val := VOk (VPair (VText [97; 195; 169]) (VList [VN 255; VN 1])).
Definition abd : val := VOk (VPair (VText [97; 195; 169]) (VList [VN 255; VN 2])).
Example text_ae : is_text [97; 195; 169] [97; 233].
Proof. split; [repeat constructor; unfold scalar; lia|reflexivity]. Qed.
Example sample_has : forall st, has st (sample SString) abc /\ has st (sample SString) abd /\ plain (sample SString) /\ hashes (sample SString).
Proof.
  intros st. cbn. repeat split; try (exists [97; 233]; exact text_ae); repeat constructor.
Qed.
Example sample_eq : eqv (sample SString) abc abc = true /\ eqv (sample SString) abc abd = false.
Proof. split; reflexivity. Qed.
Example sample_feed : feed (sample SString) abc = Some [1; 97; 195; 169; 255; 2; 0; 0; 0; 0; 0; 0; 0; 0; 254] /\
  feed (sample SView) abc = Some [1; 3; 0; 0; 0; 0; 0; 0; 0; 97; 195; 169; 2; 0; 0; 0; 0; 0; 0; 0; 0; 254].
Proof. split; reflexivity. Qed.
(** [NonMaxU8] 253 comes before 254, though stored as 2 and 1. *)
Example sample_order : orders (QPair (QText SBoxed) (QSeq QVec (QNonMax 1))) /\
  cmpv (QPair (QText SBoxed) (QSeq QVec (QNonMax 1))) (VPair (VText [97; 195; 169]) (VList [VN 255; VN 1])) (VPair (VText [97; 195; 169]) (VList [VN 255; VN 2])) = Some Gt /\
  below (QPair (QText SBoxed) (QSeq QVec (QNonMax 1))) (VPair (VText [97; 195; 169]) (VList [VN 255; VN 2])) (VPair (VText [97; 195; 169]) (VList [VN 255; VN 1])).
Proof.
  split; [cbn; auto|split; [reflexivity|]]. apply be_p2. constructor. apply bl_same. apply bl_diff. constructor. reflexivity.
Qed.
Example sample_report : usual (2 ^ 24) deep /\ rep_feed deep <> rep_feed (Rep [84] [] 0 KStruct []).
Proof. split; [cbn; unfold short; repeat split; repeat constructor; discriminate|discriminate]. Qed.
