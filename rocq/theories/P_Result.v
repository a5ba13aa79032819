(** Property theorems for C06-C12: [Result], [Option] and [#[repr(stabby)]] enums. *)
From Coq Require Import List Arith NArith Bool Lia.
From Verif Require Import M_Layout M_Result M_Enum S_Layout S_Repr L_Layout L_LayoutApi L_LayoutThms L_Enum.
Import ListNotations.

(** ** C06 *)

(** Missing: payloads whose sizes and alignments do not match (see [result_round_trip_refuted]). *)
Theorem result_ok_round_trip_partial : forall a b v x, wf (TResult a b) -> decode a v = Some x ->
  exists da db p s w, layout a = Some da /\ layout b = Some db /\ provider_of da db = Some p /\
    mk_ok da db p v = Some s /\ is_ok p s = Some true /\ match_result da db p s = Some (inl w) /\
    decode a w = Some x /\ decode (TResult a b) s = Some (VOk x).
Proof. exact ok_round_trip. Qed.
Print Assumptions result_ok_round_trip_partial.
Theorem result_err_round_trip_partial : forall a b v x, wf (TResult a b) -> decode b v = Some x ->
  exists da db p s w, layout a = Some da /\ layout b = Some db /\ provider_of da db = Some p /\
    mk_err da db p v = Some s /\ is_ok p s = Some false /\ match_result da db p s = Some (inr w) /\
    decode b w = Some x /\ decode (TResult a b) s = Some (VErr x).
Proof. exact err_round_trip. Qed.
Print Assumptions result_err_round_trip_partial.
Example result_round_trip_ex :
  let a := struct_ty [TPlain 1 1; TPlain 2 2] in let b := TResult TBool (TNonZero 4 4) in
  wf (TResult a b) /\ decode a [7; 9; 1; 2]%N = Some (VPair (VRaw [7]) (VRaw [1; 2]))%N /\
  exists da db p, layout a = Some da /\ layout b = Some db /\ provider_of da db = Some p /\
    mk_ok da db p [7; 9; 1; 2]%N = Some [7; 1; 1; 2; 0; 0; 0; 0]%N /\
    decode (TResult a b) [7; 1; 1; 2; 0; 0; 0; 0]%N = Some (VOk (VPair (VRaw [7]) (VRaw [1; 2])))%N.
Proof.
  split; [vm_compute; reflexivity|]. split; [vm_compute; reflexivity|]. do 3 eexists. split; [vm_compute; reflexivity|]. split; [vm_compute; reflexivity|].
  split; [vm_compute; reflexivity|]. split; vm_compute; reflexivity.
Qed.

(** The full statement is false: the [Ok] payload of [Result<(u8, u8, u8), u16>] does not fit in
    the storage, its construction writes out of bounds. *)
Theorem result_round_trip_refuted : exists a b da db p v x,
  grammar (TResult a b) /\ layout a = Some da /\ layout b = Some db /\ provider_of da db = Some p /\
  decode a v = Some x /\ mk_ok da db p v = None.
Proof.
  exists (struct_ty [TPlain 1 1; TPlain 1 1; TPlain 1 1]), (TPlain 2 2). do 3 eexists. exists [1; 2; 3]%N. eexists.
  split; [vm_compute; reflexivity|]. split; [vm_compute; reflexivity|]. split; [vm_compute; reflexivity|]. split; [vm_compute; reflexivity|]. split; vm_compute; reflexivity.
Qed.
Print Assumptions result_round_trip_refuted.

(** ** C07 *)

(** Missing: mismatched payloads. *)
Theorem result_storage_fits_partial : forall a b da db p,
  wf (TResult a b) -> layout a = Some da -> layout b = Some db -> provider_of da db = Some p ->
  storage_size da db p = dsize (result_d da db p) /\
  dsize (det_d (fp_det p)) <= storage_size da db p /\
  ok_offset da db p + dsize da <= storage_size da db p /\ err_offset da db p + dsize db <= storage_size da db p.
Proof. exact result_fits. Qed.
Print Assumptions result_storage_fits_partial.
Example result_storage_ex : exists da db p, layout (struct_ty [TPlain 1 1; TPlain 4 4]) = Some da /\ layout (TArr (TPlain 1 1) 8) = Some db /\
  wf (TResult (struct_ty [TPlain 1 1; TPlain 4 4]) (TArr (TPlain 1 1) 8)) /\
  provider_of da db = Some p /\ fp_det p = DBit /\ storage_size da db p = 12 /\ ok_offset da db p = 4.
Proof. do 3 eexists. split; [vm_compute; reflexivity|]. split; [vm_compute; reflexivity|]. split; [vm_compute; reflexivity|]. split; [vm_compute; reflexivity|]. split; [vm_compute; reflexivity|]. split; vm_compute; reflexivity. Qed.

(** Exactly which [Result]s have a storage as large as declared. *)
Theorem result_storage_exact : forall a b da db p,
  grammar a -> grammar b -> layout a = Some da -> layout b = Some db ->
  storage_size da db p = dsize (result_d da db p) <-> sizes_match da db = true.
Proof. exact storage_exact. Qed.
Print Assumptions result_storage_exact.
(** Whenever sizes do not match, no payload of the larger type can be stored. *)
Theorem result_mismatch_never_fits : forall a b da db p,
  grammar a -> grammar b -> layout a = Some da -> layout b = Some db ->
  provider_of da db = Some p -> sizes_match da db = false ->
  (dsize db <= dsize da -> forall v, length v = dsize da -> mk_ok da db p v = None) /\
  (dsize da < dsize db -> forall v, length v = dsize db -> mk_err da db p v = None).
Proof. exact larger_never_fits. Qed.
Print Assumptions result_mismatch_never_fits.
Example result_mismatch_ex : exists da db p,
  layout (TArr (TPlain 1 1) 5) = Some da /\ layout (TPlain 4 4) = Some db /\ provider_of da db = Some p /\
  sizes_match da db = false /\ storage_size da db p = 4 /\ dsize (result_d da db p) = 5.
Proof. do 3 eexists. split; [vm_compute; reflexivity|]. split; [vm_compute; reflexivity|]. split; [vm_compute; reflexivity|]. split; [vm_compute; reflexivity|]. split; vm_compute; reflexivity. Qed.
Theorem result_storage_fits_refuted : exists a b da db p,
  grammar (TResult a b) /\ layout a = Some da /\ layout b = Some db /\ provider_of da db = Some p /\
  storage_size da db p < ok_offset da db p + dsize da.
Proof.
  exists (TArr (TPlain 1 1) 5), (TPlain 4 4). do 3 eexists. split; [vm_compute; reflexivity|]. split; [vm_compute; reflexivity|]. split; [vm_compute; reflexivity|].
  split; [vm_compute; reflexivity|]. vm_compute. lia.
Qed.
Print Assumptions result_storage_fits_refuted.

(** ** C08 *)

Theorem result_payloads_aligned : forall a b da db p,
  grammar a -> grammar b -> layout a = Some da -> layout b = Some db -> provider_of da db = Some p ->
  dalign (result_d da db p) mod dalign da = 0 /\ dalign (result_d da db p) mod dalign db = 0 /\
  ok_offset da db p mod dalign da = 0 /\ err_offset da db p mod dalign db = 0 /\
  dsize (det_d (fp_det p)) <= ok_offset da db p /\ dsize (det_d (fp_det p)) <= err_offset da db p.
Proof. exact payload_alignment. Qed.
Print Assumptions result_payloads_aligned.
Example result_payloads_aligned_ex : exists da db p,
  layout (struct_ty [TPlain 4 4; TBool]) = Some da /\ layout (TPlain 2 2) = Some db /\ provider_of da db = Some p /\
  fp_det p = DVal 4 2 DEnd /\ err_offset da db p = 0 /\
  exists dc q, layout (TArr (TPlain 2 2) 2) = Some dc /\ provider_of (plain_d 8 8) dc = Some q /\ ok_offset (plain_d 8 8) dc q = 8.
Proof.
  do 3 eexists. split; [vm_compute; reflexivity|]. split; [vm_compute; reflexivity|]. split; [vm_compute; reflexivity|]. split; [vm_compute; reflexivity|]. split; [vm_compute; reflexivity|].
  do 2 eexists. split; [vm_compute; reflexivity|]. split; vm_compute; reflexivity.
Qed.

(** ** C09 *)

(** Missing: mismatched payloads. *)
Theorem result_exported_bits_free_partial : forall a b da db p d s s',
  wf (TResult a b) -> layout a = Some da -> layout b = Some db -> provider_of da db = Some p ->
  layout (TResult a b) = Some d -> length s = dsize d -> is_bytes s -> is_bytes s' -> agree_outside (dub d) s s' ->
  is_ok p s = is_ok p s' /\ decode (TResult a b) s = decode (TResult a b) s'.
Proof. exact exported_free. Qed.
Print Assumptions result_exported_bits_free_partial.
Example result_exported_ex :
  let t := TResult (struct_ty [TPlain 1 1; TPlain 2 2]) (TResult TBool (TNonZero 4 4)) in
  exists d, layout t = Some d /\ dub d = [(1, 254%N)] /\
    decode t [7; 1; 1; 2; 0; 0; 0; 0]%N = decode t [7; 171; 1; 2; 0; 0; 0; 0]%N /\ decode t [7; 1; 1; 2; 0; 0; 0; 0]%N <> None.
Proof. eexists. split; [vm_compute; reflexivity|]. split; [vm_compute; reflexivity|]. split; [vm_compute; reflexivity|vm_compute; discriminate]. Qed.

(** The full statement is false: the [Ok] payload, [(Result<(u8, u8, bool), u16>, u8)], claims the bits of its last field (C04), and so does
    the outer [Result], whose tag is one of them. *)
Definition aliased : ty := struct_ty [TResult (struct_ty [TPlain 1 1; TPlain 1 1; TBool]) (TPlain 2 2); TPlain 1 1].
Theorem result_exported_bits_free_refuted : exists a b da db p d s s',
  grammar (TResult a b) /\ layout a = Some da /\ layout b = Some db /\ provider_of da db = Some p /\ layout (TResult a b) = Some d /\
  length s = dsize d /\ is_bytes s /\ is_bytes s' /\ agree_outside (dub d) s s' /\
  decode (TResult a b) s <> None /\ decode (TResult a b) s <> decode (TResult a b) s'.
Proof.
  exists aliased, TUnit. do 4 eexists. exists [7; 8; 1; 2]%N, [7; 8; 1; 4]%N.
  do 5 (split; [vm_compute; reflexivity|]). split; [reflexivity|]. split; [repeat constructor|]. split; [repeat constructor|]. split; [|split; vm_compute; discriminate].
  split; [reflexivity|]. intros o b b' i Hb Hb'.
  destruct o as [|[|[|[|o]]]]; cbn in Hb, Hb'; try (left; congruence).
  injection Hb as <-. injection Hb' as <-. destruct (N.eq_dec i 0) as [->|Hi]; [left; reflexivity|].
  destruct (N.lt_ge_cases i 8) as [Hl|Hl].
  - right. exists 254%N. split; [vm_compute; tauto|]. assert (C : In i [1; 2; 3; 4; 5; 6; 7]%N) by (cbn; lia). cbn in C. intuition (subst i; reflexivity).
  - left. rewrite !N.bits_above_log2; auto; apply N.lt_le_trans with 8%N; auto; reflexivity.
Qed.
Print Assumptions result_exported_bits_free_refuted.

(** ** C10 *)

(** Missing: mismatched payloads. *)
Theorem ok_guard_keeps_variant_partial : forall a b s x0 v x,
  wf (TResult a b) -> decode (TResult a b) s = Some (VOk x0) -> decode a v = Some x ->
  exists da db p s', layout a = Some da /\ layout b = Some db /\ provider_of da db = Some p /\
    ok_guard_write da db p s v = Some s' /\ decode (TResult a b) s' = Some (VOk x).
Proof. exact guard_ok_value. Qed.
Print Assumptions ok_guard_keeps_variant_partial.
Theorem err_guard_keeps_variant_partial : forall a b s x0 v x,
  wf (TResult a b) -> decode (TResult a b) s = Some (VErr x0) -> decode b v = Some x ->
  exists da db p s', layout a = Some da /\ layout b = Some db /\ provider_of da db = Some p /\
    err_guard_write da db p s v = Some s' /\ decode (TResult a b) s' = Some (VErr x).
Proof. exact guard_err_value. Qed.
Print Assumptions err_guard_keeps_variant_partial.
Example guard_ex :
  let a := struct_ty [TPlain 1 1; TPlain 2 2] in let b := TResult TBool (TNonZero 4 4) in
  decode (TResult a b) [7; 1; 1; 2; 0; 0; 0; 0]%N = Some (VOk (VPair (VRaw [7]) (VRaw [1; 2])))%N /\
  exists da db p, layout a = Some da /\ layout b = Some db /\ provider_of da db = Some p /\
    ok_guard_write da db p [7; 1; 1; 2; 0; 0; 0; 0]%N [9; 254; 3; 4]%N = Some [9; 1; 3; 4; 0; 0; 0; 0]%N.
Proof. split; [vm_compute; reflexivity|]. do 3 eexists. split; [vm_compute; reflexivity|]. split; [vm_compute; reflexivity|]. split; vm_compute; reflexivity. Qed.

(** The full statement is false: with the same payload, the guard writes the tag over the last field. *)
Theorem guard_keeps_variant_refuted : exists a b da db p s x0 v x s',
  grammar (TResult a b) /\ layout a = Some da /\ layout b = Some db /\ provider_of da db = Some p /\
  decode (TResult a b) s = Some (VOk x0) /\ decode a v = Some x /\
  ok_guard_write da db p s v = Some s' /\ decode (TResult a b) s' <> Some (VOk x).
Proof.
  exists aliased, TUnit. do 3 eexists. exists [7; 8; 1; 2]%N. eexists. exists [7; 8; 1; 3]%N. do 2 eexists.
  do 7 (split; [vm_compute; reflexivity|]). vm_compute. discriminate.
Qed.
Print Assumptions guard_keeps_variant_refuted.

(** Nested guards, as generated for enums. *)
Theorem enum_mut_keeps_variant_partial : forall vs T i t s y w0 f x,
  enum_ty vs = Some T -> wf T -> decode T s = Some y -> enum_match vs s = Some (i, w0) ->
  nth_error vs i = Some t -> decode t (f i) = Some x ->
  exists s' y' w, enum_mut vs f s = Some s' /\ decode T s' = Some y' /\ enum_match vs s' = Some (i, w) /\ decode t w = Some x.
Proof. exact enum_mut_round_trip. Qed.
Print Assumptions enum_mut_keeps_variant_partial.
Example enum_mut_ex :
  let vs := [TPlain 4 4; TBool; TUnit; TNonZero 2 2; struct_ty [TPlain 1 1; TPlain 2 2]] in
  exists T s s' y, enum_ty vs = Some T /\ wf T /\ enum_new vs 3 [7; 0]%N = Some s /\ decode T s = Some y /\ enum_match vs s = Some (3, [7; 0]%N) /\
    enum_mut vs (fun _ => [5; 1]%N) s = Some s' /\ enum_match vs s' = Some (3, [5; 1]%N).
Proof. do 4 eexists. repeat (split; [vm_compute; reflexivity|]). vm_compute. reflexivity. Qed.

(** ** C11 *)

(** Missing: [T] containing a [Result] with mismatched payloads. *)
Theorem option_core_round_trip_partial : forall t, wf t ->
  exists d p, layout t = Some d /\ provider_of d unit_d = Some p /\
  (forall v x, decode t v = Some x -> exists s w, option_from_core d p (Some v) = Some s /\
     option_is_some p s = Some true /\ option_into_core d p s = Some (Some w) /\ decode t w = Some x) /\
  (exists s, option_from_core d p None = Some s /\ option_is_some p s = Some false /\ option_into_core d p s = Some None).
Proof. exact option_round_trip. Qed.
Print Assumptions option_core_round_trip_partial.
Theorem result_core_round_trip_partial : forall a b, wf (TResult a b) ->
  exists da db p, layout a = Some da /\ layout b = Some db /\ provider_of da db = Some p /\
  (forall v x, decode a v = Some x -> exists s w, result_from_core da db p (inl v) = Some s /\
     result_into_core da db p s = Some (inl w) /\ decode a w = Some x) /\
  (forall v x, decode b v = Some x -> exists s w, result_from_core da db p (inr v) = Some s /\
     result_into_core da db p s = Some (inr w) /\ decode b w = Some x).
Proof. exact result_conv_round_trip. Qed.
Print Assumptions result_core_round_trip_partial.
Theorem result_map_partial : forall a b c s y f,
  wf (TResult a b) -> wf (TResult c b) -> decode (TResult a b) s = Some y ->
  (forall v x, decode a v = Some x -> exists z, decode c (f v) = Some z) ->
  exists da db dc p q s', layout a = Some da /\ layout b = Some db /\ layout c = Some dc /\
    provider_of da db = Some p /\ provider_of dc db = Some q /\ result_map da db dc p q f s = Some s' /\
    ((exists w x z, y = VOk x /\ decode a w = Some x /\ decode c (f w) = Some z /\ decode (TResult c b) s' = Some (VOk z)) \/
     (exists x, y = VErr x /\ decode (TResult c b) s' = Some (VErr x))).
Proof. exact map_round_trip. Qed.
Print Assumptions result_map_partial.
(** [Some(7u8)] mapped to an [Option<bool>], by way of the conversions of Results and Options. *)
Example result_map_ex : let a := TPlain 1 1 in let c := TBool in
  let f := fun v : list N => match v with [b] => [b mod 2]%N | _ => [0]%N end in
  exists da db dc p q s s', wf (TResult a TUnit) /\ wf (TResult c TUnit) /\ layout a = Some da /\ layout TUnit = Some db /\ layout c = Some dc /\
    provider_of da db = Some p /\ provider_of dc db = Some q /\
    result_from_core da db p (inl [7]%N) = Some s /\ decode (TResult a TUnit) s = Some (VOk (VRaw [7]))%N /\
    result_map da db dc p q f s = Some s' /\ decode (TResult c TUnit) s' = Some (VOk (VBool true)) /\ result_into_core dc db q s' = Some (inl [1%N]).
Proof. do 7 eexists. repeat (split; [vm_compute; reflexivity|]). vm_compute. reflexivity. Qed.
(** [Option<T>] is as small as [T] exactly when stabby's [SelectOne] finds a forbidden value or [T] has an
    unused bit.  Missing: forbidden values [SelectOne] does not see (see below). *)
Theorem option_same_size_partial : forall t d, wf t -> layout t = Some d ->
  exists p o, provider_of d unit_d = Some p /\ layout (option_ty t) = Some o /\
    (dsize o = dsize d <-> select_one (dfv d) <> SEnd \/ dub d <> []).
Proof. exact option_size. Qed.
Print Assumptions option_same_size_partial.
Example option_ex : option_map dsize (layout (option_ty (struct_ty [TBool; TPlain 1 1]))) = Some 2 /\
  option_map dsize (layout (option_ty (struct_ty [TPlain 1 1; TPlain 2 2]))) = Some 4 /\
  option_map dsize (layout (option_ty (TPlain 4 4))) = Some 8.
Proof. split; [|split]; reflexivity. Qed.
(** [(u8, bool)] has forbidden values, but its [Option] is larger. *)
Theorem option_same_size_refuted : exists t d o,
  wf t /\ layout t = Some d /\ fvs_of (dfv d) <> [] /\ layout (option_ty t) = Some o /\ dsize o <> dsize d.
Proof.
  exists (struct_ty [TPlain 1 1; TBool]). do 2 eexists. split; [vm_compute; reflexivity|]. split; [vm_compute; reflexivity|].
  split; [discriminate|]. split; [vm_compute; reflexivity|]. discriminate.
Qed.
Print Assumptions option_same_size_refuted.

(** ** C12 *)

(** Missing: enums some of whose nested [Result]s have mismatched payloads. *)
Theorem enum_dispatch_partial : forall vs T i t v x,
  enum_ty vs = Some T -> wf T -> nth_error vs i = Some t -> decode t v = Some x ->
  exists s w y, enum_new vs i v = Some s /\ decode T s = Some y /\ enum_match vs s = Some (i, w) /\ decode t w = Some x.
Proof. exact enum_round_trip. Qed.
Print Assumptions enum_dispatch_partial.
Example enum_dispatch_ex :
  let vs := [TPlain 4 4; TBool; TUnit; TNonZero 2 2; struct_ty [TPlain 1 1; TPlain 2 2]] in
  exists T s, enum_ty vs = Some T /\ wf T /\ enum_new vs 3 [7; 0]%N = Some s /\ enum_match vs s = Some (3, [7; 0]%N).
Proof. do 2 eexists. split; [vm_compute; reflexivity|]. split; [vm_compute; reflexivity|]. split; [vm_compute; reflexivity|]. vm_compute. reflexivity. Qed.
(** Mismatched payloads: constructing a variant writes out of bounds. *)
Theorem enum_dispatch_refuted : exists vs T i t v x,
  enum_ty vs = Some T /\ grammar T /\ nth_error vs i = Some t /\ decode t v = Some x /\ enum_new vs i v = None.
Proof.
  exists [struct_ty [TPlain 1 1; TPlain 1 1; TPlain 1 1]; TPlain 2 2]. eexists. exists 0. eexists. exists [1; 2; 3]%N. eexists.
  split; [vm_compute; reflexivity|]. split; [vm_compute; reflexivity|]. split; [vm_compute; reflexivity|]. split; vm_compute; reflexivity.
Qed.
Print Assumptions enum_dispatch_refuted.

