(** Property theorems for C02-C05, C51-C55: layouts and niches. *)
From Coq Require Import List Arith NArith Bool Lia.
From Verif Require Import M_Layout M_Result M_Core S_Layout S_Values S_Repr S_Core L_Layout L_LayoutApi L_LayoutFull L_Struct L_LayoutThms L_Core.
Import ListNotations.

(** ** C02 *)

(** The layout of a struct is that of a C struct. *)
Theorem struct_layout_is_c : forall f fs d0 ds,
  layout f = Some d0 -> Forall2 (fun t d => layout t = Some d) fs ds ->
  Forall (fun d => 0 < dalign d) (d0 :: ds) ->
  exists d os, layout (struct_ty (f :: fs)) = Some d /\
    c_struct 1 (map (fun d => (dsize d, dalign d)) (d0 :: ds)) os (dsize d) (dalign d).
Proof. exact struct_c. Qed.
Print Assumptions struct_layout_is_c.
Example struct_layout_ex : option_map (fun d => (dsize d, dalign d))
  (layout (struct_ty [TPlain 1 1; TPlain 4 4; TPlain 2 2])) = Some (12, 4).
Proof. reflexivity. Qed.
Example struct_layout_ex_c : c_struct 1 [(1, 1); (4, 4); (2, 2)] [0; 4; 8] 12 4.
Proof.
  assert (forall n a x k, x = k * a -> n <= x -> x < n + a -> first_multiple n a x) as F.
  { intros n a x k -> H1 H2. split; [exists k; reflexivity|]. split; [exact H1|]. intros j Hj.
    destruct (Nat.le_gt_cases k j) as [H|H]; [apply Nat.mul_le_mono_r; exact H|].
    assert ((j + 1) * a <= k * a) by (apply Nat.mul_le_mono_r; lia). lia. }
  split; [vm_compute; reflexivity|]. exists 10. split.
  - apply c_cons; [apply (F _ _ _ 0); lia|]. apply c_cons; [apply (F _ _ _ 1); lia|]. apply c_cons; [apply (F _ _ _ 4); lia|]. apply c_nil.
  - apply (F _ _ _ 3); lia.
Qed.

Theorem aligned_struct_layout_is_c : forall f fs d0 ds al,
  layout f = Some d0 -> Forall2 (fun t d => layout t = Some d) fs ds ->
  Forall (fun d => 0 < dalign d) (d0 :: ds) ->
  exists d os, layout (aligned_struct_ty (f :: fs) al) = Some d /\
    c_struct al (map (fun d => (dsize d, dalign d)) (d0 :: ds)) os (dsize d) (dalign d).
Proof. exact aligned_struct_c. Qed.
Print Assumptions aligned_struct_layout_is_c.
Example aligned_struct_ex : option_map (fun d => (dsize d, dalign d))
  (layout (aligned_struct_ty [TPlain 1 1; TPlain 2 2] 8)) = Some (8, 8).
Proof. reflexivity. Qed.

(** The C layout of given fields is unique. *)
Theorem c_layout_unique : forall m fs os os' sz sz' al al',
  c_struct m fs os sz al -> c_struct m fs os' sz' al' -> os = os' /\ sz = sz' /\ al = al'.
Proof. exact c_struct_fun. Qed.
Print Assumptions c_layout_unique.

(** Fields are read at their C offsets. *)
Theorem struct_fields_at_c_offsets : forall fs f d0 ds s v,
  layout f = Some d0 -> Forall2 (fun t d => layout t = Some d) fs ds -> Forall (fun d => 0 < dalign d) ds ->
  decode (fields_ty f fs) s = Some v ->
  exists v0 vs os fin, v = fold_left VPair vs v0 /\ decode f (firstn (dsize d0) s) = Some v0 /\
    c_offsets (dsize d0) (map (fun d => (dsize d, dalign d)) ds) os fin /\ reads_at fs os s vs.
Proof. exact decode_fields. Qed.
Print Assumptions struct_fields_at_c_offsets.
Example struct_fields_ex :
  decode (fields_ty TBool [TPlain 2 2; TBool]) [1; 9; 7; 8; 0]%N = Some (VPair (VPair (VBool true) (VRaw [7; 8]%N)) (VBool false)).
Proof. reflexivity. Qed.

(** ** C03 *)

Theorem forbidden_values_never_inhabited : forall t d s v,
  grammar t -> layout t = Some d -> decode t s = Some v -> ~ forbids (dfv d) s.
Proof. exact wf_fv. Qed.
Print Assumptions forbidden_values_never_inhabited.
Example forbidden_values_ex :
  let t := struct_ty [TPlain 2 2; TNonZero 4 4; TResult (struct_ty [TPlain 1 1; TBool]) (TRef 8); TBool] in
  grammar t /\ exists d s v, layout t = Some d /\ decode t s = Some v /\ fvs_of (dfv d) <> [].
Proof.
  split; [vm_compute; reflexivity|]. eexists. exists ([1; 2; 77; 77; 0; 0; 0; 1] ++ [1; 1; 0; 0; 0; 0; 0; 0; 0; 0; 0; 0; 0; 0; 0; 0] ++ [1] ++ [0; 0; 0; 0; 0; 0; 0])%N.
  eexists. split; [vm_compute; reflexivity|]. split; [vm_compute; reflexivity|]. discriminate.
Qed.

(** ** C04 *)

(** Missing: types containing a [Result] whose payload sizes and alignments do not match. *)
Theorem unused_bits_carry_nothing_partial : forall t d s s',
  wf t -> layout t = Some d -> is_bytes s -> is_bytes s' -> agree_outside (dub d) s s' -> decode t s = decode t s'.
Proof. exact wf_ub. Qed.
Print Assumptions unused_bits_carry_nothing_partial.
Example unused_bits_ex :
  let t := struct_ty [TPlain 1 1; TPlain 2 2] in
  wf t /\ exists d, layout t = Some d /\ dub d = [(1, 255%N)] /\ decode t [3; 0; 5; 6]%N = decode t [3; 77; 5; 6]%N
    /\ decode t [3; 0; 5; 6]%N <> None.
Proof. split; [vm_compute; reflexivity|]. eexists. split; [vm_compute; reflexivity|]. split; [vm_compute; reflexivity|]. split; [vm_compute; reflexivity|vm_compute; discriminate]. Qed.

(** The full statement is false, with fields at the offsets stabby computes: a [Result] with
    mismatched payloads advertises a byte outside its own declared size, which aliases the next
    field of a struct (here [Result<(u8, u8, bool), u16>] followed by a [u8]). *)
Theorem unused_bits_carry_nothing_refuted : exists t d s s',
  grammar t /\ layout t = Some d /\ is_bytes s /\ is_bytes s' /\ agree_outside (dub d) s s' /\
  decode t s <> None /\ decode t s' <> None /\ decode t s <> decode t s'.
Proof.
  exists (struct_ty [TResult (struct_ty [TPlain 1 1; TPlain 1 1; TBool]) (TPlain 2 2); TPlain 1 1]).
  eexists. exists [7; 8; 1; 3]%N, [7; 8; 1; 4]%N.
  split; [vm_compute; reflexivity|]. split; [vm_compute; reflexivity|].
  split; [repeat constructor|]. split; [repeat constructor|]. split; [|split; [|split]]; try (vm_compute; discriminate).
  split; [vm_compute; reflexivity|]. intros o b b' i Hb Hb'.
  destruct o as [|[|[|[|o]]]]; cbn in Hb, Hb'; try (left; congruence).
  - destruct (N.lt_ge_cases i 8) as [Hi|Hi].
    + right. exists 255%N. split; [vm_compute; tauto|]. change 255%N with (N.ones 8). apply N.ones_spec_low; exact Hi.
    + left. injection Hb as <-. injection Hb' as <-.
      rewrite !N.bits_above_log2; auto; apply N.lt_le_trans with 8%N; auto; reflexivity.
Qed.
Print Assumptions unused_bits_carry_nothing_refuted.

(** ** C05 *)

(** Missing: same restriction as C04 for the unused bits. *)
Theorem niches_in_bounds_disjoint_partial : forall t d, wf t -> layout t = Some d ->
  (forall o, fv_at (dfv d) o -> o < dsize d) /\
  (forall o i, bit_unused (dub d) o i -> o < dsize d /\ (i < 8)%N) /\
  (forall o i, fv_at (dfv d) o -> ~ bit_unused (dub d) o i).
Proof. exact wf_bounds. Qed.
Print Assumptions niches_in_bounds_disjoint_partial.
Example niches_ex :
  let t := struct_ty [TBool; TPlain 2 2; TNonZero 1 1] in
  wf t /\ exists d, layout t = Some d /\ fv_at (dfv d) 0 /\ fv_at (dfv d) 4 /\ bit_unused (dub d) 1 0 /\ bit_unused (dub d) 5 7.
Proof.
  split; [vm_compute; reflexivity|]. eexists. split; [vm_compute; reflexivity|]. vm_compute. split; [tauto|]. split; [tauto|].
  split; exists 255%N; split; auto; tauto.
Qed.

(** Forbidden values are within bounds for all types. *)
Theorem forbidden_values_in_bounds : forall t d, grammar t -> layout t = Some d ->
  forall o, fv_at (dfv d) o -> o < dsize d.
Proof. exact grammar_fv_bounds. Qed.
Print Assumptions forbidden_values_in_bounds.
Example forbidden_bounds_ex : let t := struct_ty [TPlain 1 1; TBool; TPlain 4 4; TNonZero 4 4] in
  exists d, grammar t /\ layout t = Some d /\ fv_at (dfv d) 1 /\ fv_at (dfv d) 11 /\ dsize d = 12.
Proof. eexists. split; [vm_compute; reflexivity|]. split; [vm_compute; reflexivity|]. vm_compute. tauto. Qed.

(** The full statement is false: [Result<(u8, u8, u8), u16>] has size 3 and
    advertises unused bits in its byte 3. *)
Theorem niches_in_bounds_refuted : exists t d o i,
  grammar t /\ layout t = Some d /\ bit_unused (dub d) o i /\ ~ o < dsize d.
Proof.
  exists (TResult (struct_ty [TPlain 1 1; TPlain 1 1; TPlain 1 1]) (TPlain 2 2)). eexists. exists 3, 1%N.
  split; [vm_compute; reflexivity|]. split; [vm_compute; reflexivity|]. split; [exists 254%N; vm_compute; tauto|]. vm_compute. lia.
Qed.
Print Assumptions niches_in_bounds_refuted.

(** ** C51 *)

Theorem union_layout_is_c : forall ts ds,
  Forall2 (fun t d => layout t = Some d) ts ds -> Forall (fun d => al_ok (dalign d)) ds ->
  exists d, layout (union_ty ts) = Some d /\
    c_union (map (fun d => (dsize d, dalign d)) ds) (dsize d) (dalign d) /\ dub d = [] /\ dfv d = FEnd.
Proof. exact union_c. Qed.
Print Assumptions union_layout_is_c.
Example union_layout_ex : option_map (fun d => (dsize d, dalign d)) (layout (union_ty [TArr (TPlain 1 1) 5; TPlain 4 4; TNonZero 2 2])) = Some (8, 4).
Proof. reflexivity. Qed.

Theorem array_layout_is_c : forall t d n, layout t = Some d -> exists e, layout (TArr t n) = Some e /\
  dsize e = n * dsize d /\ dalign e = dalign d /\
  forall s v, decode (TArr t n) s = Some v -> exists l, v = VArr l /\ length l = n /\
    forall i, i < n -> decode t (firstn (dsize d) (skipn (i * dsize d) s)) = nth_error l i.
Proof. exact array_layout. Qed.
Print Assumptions array_layout_is_c.
Example array_layout_ex : option_map dsize (layout (TArr (struct_ty [TPlain 4 4; TBool]) 3)) = Some 24 /\
  decode (TArr TBool 3) [1; 0; 1]%N = Some (VArr [VBool true; VBool false; VBool true]).
Proof. split; vm_compute; reflexivity. Qed.

(** [#[repr(C, uN)]] enums: C struct of the tag and of the union of the variants. *)
Theorem repr_c_enum_layout : forall w vs ds,
  al_ok w -> Forall2 (fun v d => layout (variant_ty v) = Some d) vs ds -> Forall (fun d => al_ok (dalign d)) ds ->
  exists d payload, layout (tagged_enum_ty w vs) = Some d /\
    repr_c_enum w (map (fun d => (dsize d, dalign d)) ds) payload (dsize d) (dalign d).
Proof. exact tagged_enum_c. Qed.
Print Assumptions repr_c_enum_layout.
Example repr_c_enum_ex : option_map (fun d => (dsize d, dalign d))
  (layout (tagged_enum_ty 1 [VNone; VOne (TPlain 8 8); VMany [TPlain 1 1; TPlain 8 8; TPlain 4 4]])) = Some (32, 8).
Proof. reflexivity. Qed.

(** [#[repr(uN)]] (without [C]) is accepted on enums with data, with the same
    computed layout; the Rust layout then puts each variant's field right after the tag.  For [A(u8)], [B(u16)]
    sizes and alignments agree, so the generated assertions pass, but the field of [A] is in
    a byte advertised as unused. *)
Theorem repr_u_enum_unused_bits_refuted : exists w vs ds os d i o v,
  Forall2 (fun v d => layout (variant_ty v) = Some d) vs ds /\
  layout (tagged_enum_ty w vs) = Some d /\
  repr_u_enum w (map (fun d => (dsize d, dalign d)) ds) os (dsize d) (dalign d) /\
  nth_error os i = Some o /\ nth_error ds i = Some v /\ 0 < dsize v /\ (forall b, (b < 8)%N -> bit_unused (dub d) o b).
Proof.
  assert (forall n a x k, x = k * a -> n <= x -> x < n + a -> first_multiple n a x) as F.
  { intros n a x k -> H1 H2. split; [exists k; reflexivity|]. split; [exact H1|]. intros j Hj.
    destruct (Nat.le_gt_cases k j) as [H|H]; [apply Nat.mul_le_mono_r; exact H|].
    assert ((j + 1) * a <= k * a) by (apply Nat.mul_le_mono_r; lia). lia. }
  exists 1, [VOne (TPlain 1 1); VOne (TPlain 2 2)], [plain_d 1 1; plain_d 2 2], [1; 2]. eexists. exists 0, 1. eexists.
  split; [repeat constructor|]. split; [vm_compute; reflexivity|]. split; [|split; [reflexivity|split; [reflexivity|split; [cbn; lia|]]]].
  - exists [(2, 1); (4, 2)]. split; [|split; [vm_compute; reflexivity|]].
    + apply Forall2_cons; [|apply Forall2_cons; [|constructor]]; cbn.
      * split; [vm_compute; reflexivity|]. exists 2. split; [|apply (F _ _ _ 2); cbn; lia].
        apply c_cons; [apply (F _ _ _ 0); cbn; lia|]. apply c_cons; [apply (F _ _ _ 1); cbn; lia|]. apply c_nil.
      * split; [vm_compute; reflexivity|]. exists 4. split; [|apply (F _ _ _ 2); cbn; lia].
        apply c_cons; [apply (F _ _ _ 0); cbn; lia|]. apply c_cons; [apply (F _ _ _ 1); cbn; lia|]. apply c_nil.
    + split; [vm_compute; reflexivity|]. apply (F _ _ _ 2); vm_compute; lia.
  - intros b Hb. exists 255%N. split; [vm_compute; tauto|]. change 255%N with (N.ones 8). apply N.ones_spec_low; exact Hb.
Qed.
Print Assumptions repr_u_enum_unused_bits_refuted.

(** ** C52 *)

(** [MaybeUninit<bool>] may hold any byte, but advertises the byte 2 as impossible:
    [Ok(MaybeUninit::new(2))] in a [Result<MaybeUninit<bool>, ()>] is read back as [Err]. *)
Theorem maybe_uninit_niches_refuted : exists t d p v s,
  layout (TMaybeUninit t) = Some d /\ provider_of d unit_d = Some p /\
  decode (TMaybeUninit t) v <> None /\ forbids (dfv d) v /\
  mk_ok d unit_d p v = Some s /\ is_ok p s = Some false.
Proof.
  exists TBool. eexists. eexists. exists [2%N]. eexists.
  split; [vm_compute; reflexivity|]. split; [vm_compute; reflexivity|]. split; [discriminate|]. split; [exists 2%N; vm_compute; split; [reflexivity|split; discriminate]|].
  split; [vm_compute; reflexivity|]. reflexivity.
Qed.
Print Assumptions maybe_uninit_niches_refuted.

(** [UnsafeCell<T>] re-exports the unused bits of [T]; a shared write of another value of [T], padding
    included, changes the variant of a [Result<UnsafeCell<(u8, u16)>, ()>]. *)
Theorem unsafe_cell_niches_refuted : exists t d p v v' s s',
  wf t /\ layout t = Some d /\ provider_of d unit_d = Some p /\ decode t v <> None /\ decode t v' = decode t v /\
  mk_ok d unit_d p v = Some s /\ is_ok p s = Some true /\
  blit s (ok_offset d unit_d p) v' = Some s' /\ is_ok p s' = Some false.
Proof.
  exists (struct_ty [TPlain 1 1; TPlain 2 2]). eexists. eexists. exists [5; 0; 6; 7]%N, [5; 255; 6; 7]%N. eexists. eexists.
  split; [vm_compute; reflexivity|]. split; [vm_compute; reflexivity|]. split; [vm_compute; reflexivity|]. split; [discriminate|]. split; [vm_compute; reflexivity|].
  split; [vm_compute; reflexivity|]. split; [vm_compute; reflexivity|]. split; [vm_compute; reflexivity|]. reflexivity.
Qed.
Print Assumptions unsafe_cell_niches_refuted.

(** ** C53 *)

(** Missing: types containing [core::cmp::Ordering]. *)
Theorem core_option_single_niche_partial : forall t d o,
  grammar t -> layout t = Some d -> everywhere not_ordering t = true -> core_option_d d = Some o ->
  dsize o = dsize d /\ dalign o = dalign d /\ dind o = has_pointer t /\
  fvs_of (dfv o) = [] /\ dub o = [] /\
  (exists f, fvs_of (dfv d) = [f]) /\ (everywhere not_result t = true -> dub d = []).
Proof. exact core_option_one_niche. Qed.
Print Assumptions core_option_single_niche_partial.
Example core_option_ex : let t := struct_ty [TPlain 4 4; TNonZero 4 4; TPlain 8 8] in
  grammar t /\ everywhere not_ordering t = true /\ everywhere not_result t = true /\
  exists d o, layout t = Some d /\ core_option_d d = Some o.
Proof. split; [vm_compute; reflexivity|]. split; [vm_compute; reflexivity|]. split; [vm_compute; reflexivity|]. eexists. eexists. split; vm_compute; reflexivity. Qed.

(** The same of [Result]: one side has no size, the other one forbidden value. Missing: types
    containing [core::cmp::Ordering]; the alignment of the side without size (refuted below). *)
Theorem core_result_single_niche_partial : forall a b da db o,
  grammar a -> grammar b -> layout a = Some da -> layout b = Some db ->
  everywhere not_ordering a = true -> everywhere not_ordering b = true -> core_result_d da db = Some o ->
  dind o = (has_pointer a || has_pointer b)%bool /\ fvs_of (dfv o) = [] /\ dub o = [] /\
  ((dsize db = 0 /\ dsize o = dsize da /\ dalign o = dalign da /\ (exists f, fvs_of (dfv da) = [f]) /\
    (everywhere not_result a = true -> dub da = [])) \/
   (dsize da = 0 /\ dsize o = dsize db /\ dalign o = dalign db /\ (exists f, fvs_of (dfv db) = [f]) /\
    (everywhere not_result b = true -> dub db = []))).
Proof. exact core_result_one_niche. Qed.
Print Assumptions core_result_single_niche_partial.
Example core_result_ex : let a := struct_ty [TPlain 8 8; TRef 8; TPlain 4 4; TPlain 4 4] in
  grammar a /\ everywhere not_ordering a = true /\
  exists da o o', layout a = Some da /\ core_result_d da unit_d = Some o /\ core_result_d unit_d da = Some o'.
Proof. split; [vm_compute; reflexivity|]. split; [vm_compute; reflexivity|]. eexists. eexists. eexists. repeat split; vm_compute; reflexivity. Qed.

(** [(NonZeroU8, Ordering)] has 254 forbidden values, and yet [Option] of it is declared stable. *)
Theorem core_option_single_niche_refuted : exists t d o,
  grammar t /\ layout t = Some d /\ core_option_d d = Some o /\ length (fvs_of (dfv d)) = 254.
Proof.
  exists (struct_ty [TNonZero 1 1; TOrdering]). eexists. eexists. split; [vm_compute; reflexivity|]. split; [vm_compute; reflexivity|]. split; vm_compute; reflexivity.
Qed.
Print Assumptions core_option_single_niche_refuted.

(** [core::Result<NonZeroU8, [u16; 0]>] is declared with alignment 1, less than that of its [Err]. *)
Theorem core_result_alignment_refuted : exists a b da db d,
  grammar a /\ grammar b /\ layout a = Some da /\ layout b = Some db /\ core_result_d da db = Some d /\
  dalign d < dalign db.
Proof.
  exists (TNonZero 1 1), (TArr (TPlain 2 2) 0). eexists. eexists. eexists. split; [vm_compute; reflexivity|]. split; [vm_compute; reflexivity|].
  split; [vm_compute; reflexivity|]. split; [vm_compute; reflexivity|]. split; [vm_compute; reflexivity|]. cbn. lia.
Qed.
Print Assumptions core_result_alignment_refuted.

(** ** C54 *)

(** [is_invalid] stays in bounds and only reports memory that holds no valid value. *)
Theorem is_invalid_is_sound : forall t d s,
  grammar t -> layout t = Some d -> length s = dsize d ->
  exists b, is_invalid d s = Some b /\ (b = true -> decode t s = None).
Proof. exact is_invalid_valid. Qed.
Print Assumptions is_invalid_is_sound.
Example is_invalid_ex : exists d, layout (struct_ty [TPlain 1 1; TBool]) = Some d /\
  is_invalid d [7; 9]%N = Some true /\ is_invalid d [7; 1]%N = Some false.
Proof. eexists. split; [vm_compute; reflexivity|]. split; vm_compute; reflexivity. Qed.

(** It misses the forbidden values made of an array of bytes: a null reference. *)
Theorem is_invalid_detects_refuted : exists t d s,
  grammar t /\ layout t = Some d /\ forbids (dfv d) s /\ decode t s = None /\ is_invalid d s = Some false.
Proof.
  exists (TRef 8). eexists. exists (repeat 0%N 8). split; [vm_compute; reflexivity|]. split; [vm_compute; reflexivity|].
  split; [vm_compute; tauto|]. split; vm_compute; reflexivity.
Qed.
Print Assumptions is_invalid_detects_refuted.

(** ** C55 *)

Theorem indirections_are_pointers : forall t d, layout t = Some d -> dind d = has_pointer t.
Proof. exact dind_pointer. Qed.
Print Assumptions indirections_are_pointers.
Example indirections_ex :
  option_map dind (layout (TResult (struct_ty [TPlain 4 4; TArr (TRef 8) 2]) TUnit)) = Some true /\
  option_map dind (layout (TResult (struct_ty [TPlain 4 4; TArr TBool 2]) TUnit)) = Some false.
Proof. split; vm_compute; reflexivity. Qed.

(** [IStable::size] is the declared size. *)
Theorem istable_size_is_size : forall t d, wf t -> layout t = Some d -> istable_size d = dsize d.
Proof. exact istable_size_full. Qed.
Print Assumptions istable_size_is_size.
Example istable_size_ex : option_map istable_size (layout (struct_ty [TPlain 8 8; TBool])) = Some 16.
Proof. reflexivity. Qed.
