(** Property theorems for C86: how large a [#[repr(stabby)]] enum is. *)
From Coq Require Import List Arith NArith Bool Lia.
From Verif Require Import M_Layout M_Enum M_Size S_Layout S_Core L_Size.
Import ListNotations.

(** With two to four variants, a [#[repr(stabby)]] enum is never larger than the same enum
    with a [u8] tag, and has the same alignment. *)
Theorem enum_not_larger_partial : forall vs ds t d os size al,
  length vs <= 4 -> Forall2 (fun t d => layout t = Some d) vs ds ->
  enum_ty vs = Some t -> wf t -> layout t = Some d ->
  repr_u_enum 1 (map (fun d => (dsize d, dalign d)) ds) os size al ->
  dsize d <= size /\ dalign d = al.
Proof. intros vs ds t d os size al H4 F E W L. exact (facts_four vs ds t d F E W L os size al H4). Qed.
Print Assumptions enum_not_larger_partial.

(** The hypothesis on the enum with a tag: payloads of 4, 4, 1 and no bytes. *)
Example u8_enum_ex : repr_u_enum 1 [(4, 4); (4, 4); (1, 1); (0, 1)] [4; 4; 1; 1] 8 4.
Proof.
  assert (forall n a x k, x = k * a -> n <= x -> x < n + a -> first_multiple n a x) as F.
  { intros n a x k -> H1 H2. split; [exists k; reflexivity|]. split; [exact H1|]. intros j Hj.
    destruct (Nat.le_gt_cases k j) as [H|H]; [apply Nat.mul_le_mono_r; exact H|].
    assert ((j + 1) * a <= k * a) by (apply Nat.mul_le_mono_r; lia). lia. }
  exists [(8, 4); (8, 4); (2, 1); (1, 1)]. split; [|split; [reflexivity|split; [reflexivity|apply (F _ _ _ 2); cbn; lia]]].
  repeat (apply Forall2_cons; [split; [reflexivity|]|]); [| | | |constructor]; cbn [fst snd].
  1,2: exists 8; split; [|apply (F _ _ _ 2); cbn; lia];
     (apply c_cons; [apply (F _ _ _ 0); cbn; lia|]); (apply c_cons; [apply (F _ _ _ 1); cbn; lia|]); apply c_nil.
  - exists 2. split; [|apply (F _ _ _ 2); cbn; lia].
    apply c_cons; [apply (F _ _ _ 0); cbn; lia|]. apply c_cons; [apply (F _ _ _ 1); cbn; lia|]. apply c_nil.
  - exists 1. split; [|apply (F _ _ _ 1); cbn; lia].
    apply c_cons; [apply (F _ _ _ 0); cbn; lia|]. apply c_cons; [apply (F _ _ _ 1); cbn; lia|]. apply c_nil.
Qed.
(** An enum of [u32], [u32], [u8] and a unit variant: one tag is enough for the two levels. *)
Example enum_not_larger_ex : exists t d, enum_ty [TPlain 4 4; TPlain 4 4; TPlain 1 1; TUnit] = Some t /\ wf t /\
  layout t = Some d /\ (dsize d, dalign d) = (8, 4).
Proof. eexists. eexists. split; [reflexivity|]. split; [vm_compute; reflexivity|]. split; vm_compute; reflexivity. Qed.
(** With niches, smaller. *)
Example enum_smaller_ex : exists t d, enum_ty [struct_ty [TPlain 4 4; TPlain 1 1]; TBool; TUnit] = Some t /\ wf t /\
  layout t = Some d /\ (dsize d, dalign d) = (8, 4).
Proof. eexists. eexists. split; [reflexivity|]. split; [vm_compute; reflexivity|]. split; vm_compute; reflexivity. Qed.

(** With five variants it may be larger: 12 bytes instead of 8. *)
Definition five : list ty :=
  [TUnit; TUnit; struct_ty [TPlain 1 1; TBool; TPlain 1 1; TPlain 1 1]; TPlain 4 4; TPlain 4 4].
Theorem enum_not_larger_refuted : exists vs ds t d os size al,
  Forall2 (fun t d => layout t = Some d) vs ds /\
  enum_ty vs = Some t /\ wf t /\ layout t = Some d /\
  repr_u_enum 1 (map (fun d => (dsize d, dalign d)) ds) os size al /\ size < dsize d.
Proof.
  assert (forall n a x k, x = k * a -> n <= x -> x < n + a -> first_multiple n a x) as F.
  { intros n a x k -> H1 H2. split; [exists k; reflexivity|]. split; [exact H1|]. intros j Hj.
    destruct (Nat.le_gt_cases k j) as [H|H]; [apply Nat.mul_le_mono_r; exact H|].
    assert ((j + 1) * a <= k * a) by (apply Nat.mul_le_mono_r; lia). lia. }
  exists five. eexists. eexists. eexists. exists [1; 1; 1; 4; 4], 8, 4.
  split; [repeat (apply Forall2_cons; [reflexivity|]); constructor|].
  split; [reflexivity|]. split; [vm_compute; reflexivity|]. split; [vm_compute; reflexivity|].
  split; [|vm_compute; repeat constructor].
  exists [(1, 1); (1, 1); (5, 1); (8, 4); (8, 4)]. split; [|split; [reflexivity|split; [reflexivity|apply (F _ _ _ 2); cbn; lia]]].
  apply Forall2_cons; [|apply Forall2_cons; [|apply Forall2_cons; [|apply Forall2_cons; [|apply Forall2_cons; [|constructor]]]]].
  1,2: split; [reflexivity|]; exists 1; split; [|apply (F _ _ _ 1); cbn; lia];
     (apply c_cons; [apply (F _ _ _ 0); cbn; lia|]); (apply c_cons; [apply (F _ _ _ 1); cbn; lia|]); apply c_nil.
  - split; [reflexivity|]; exists 5; split; [|apply (F _ _ _ 5); cbn; lia];
     (apply c_cons; [apply (F _ _ _ 0); cbn; lia|]); (apply c_cons; [apply (F _ _ _ 1); cbn; lia|]); apply c_nil.
  - split; [reflexivity|]; exists 8; split; [|apply (F _ _ _ 2); cbn; lia];
     (apply c_cons; [apply (F _ _ _ 0); cbn; lia|]); (apply c_cons; [apply (F _ _ _ 1); cbn; lia|]); apply c_nil.
  - split; [reflexivity|]; exists 8; split; [|apply (F _ _ _ 2); cbn; lia];
     (apply c_cons; [apply (F _ _ _ 0); cbn; lia|]); (apply c_cons; [apply (F _ _ _ 1); cbn; lia|]); apply c_nil.
Qed.
Print Assumptions enum_not_larger_refuted.

(** Any number of variants: at least the size of the union of the payloads, at most one
    alignment more for each doubling of the number of variants. *)
Theorem enum_size_bound : forall vs ds t d k usize al,
  Forall2 (fun t d => layout t = Some d) vs ds -> enum_ty vs = Some t -> wf t -> layout t = Some d ->
  length vs <= 2 ^ k -> c_union (map (fun d => (dsize d, dalign d)) ds) usize al ->
  dalign d = al /\ usize <= dsize d <= usize + k * al.
Proof. intros vs ds t d k usize al F E W L. exact (facts_union vs ds t d F E W L k usize al). Qed.
Print Assumptions enum_size_bound.
(** A union of 4 bytes and two tags; of 8 bytes, in the padding of which all the tags fit; of 4 bytes and one tag. *)
Example enum_size_bound_ex : (exists t d, enum_ty five = Some t /\ wf t /\ layout t = Some d /\ dsize d = 4 + 2 * 4) /\
  (exists t d, enum_ty [struct_ty [TPlain 4 4; TPlain 1 1]; TUnit; TBool; TUnit; TUnit] = Some t /\ wf t /\ layout t = Some d /\ dsize d = 8) /\
  (exists t d, enum_ty [TPlain 4 4; TPlain 4 4] = Some t /\ wf t /\ layout t = Some d /\ dsize d = 4 + 1 * 4).
Proof.
  split; [|split]; eexists; eexists; (split; [reflexivity|]); (split; [vm_compute; reflexivity|]); split; vm_compute; reflexivity.
Qed.

(** An enum without a [repr] attribute compiles exactly when it takes no more room than the
    union of its payloads, and a tag would. *)
Theorem enum_unmarked_exactly : forall vs ds t d os size al usize,
  Forall2 (fun t d => layout t = Some d) vs ds -> enum_ty vs = Some t -> wf t -> layout t = Some d ->
  repr_u_enum 1 (map (fun d => (dsize d, dalign d)) ds) os size al ->
  c_union (map (fun d => (dsize d, dalign d)) ds) usize al ->
  (enum_compiles true d (dsize d) (dalign d) size = true <-> dsize d = usize /\ usize < size).
Proof.
  intros vs ds t d os size al usize F E W L HT HU.
  rewrite <- (facts_unmarked vs ds t d F E W L os size al usize HT HU).
  unfold enum_compiles, has_optimal_layout. rewrite !Nat.eqb_refl, !andb_true_r. apply Nat.ltb_lt.
Qed.
Print Assumptions enum_unmarked_exactly.
(** [u32], [u32], [u8] and a unit variant against the 8 bytes of [u8_enum_ex]: refused without a [repr];
    a struct of [u32] and [u8], [bool] and a unit variant: accepted against the 12 bytes of the tagged one. *)
Example enum_unmarked_ex :
  option_map (fun d => enum_compiles true d (dsize d) (dalign d) 8)
    (match enum_ty [TPlain 4 4; TPlain 4 4; TPlain 1 1; TUnit] with Some t => layout t | None => None end) = Some false /\
  option_map (fun d => enum_compiles true d (dsize d) (dalign d) 12)
    (match enum_ty [struct_ty [TPlain 4 4; TPlain 1 1]; TBool; TUnit] with Some t => layout t | None => None end) = Some true.
Proof. split; vm_compute; reflexivity. Qed.
