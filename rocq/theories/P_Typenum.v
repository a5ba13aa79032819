(** Property theorems for C01. *)
From Coq Require Import List NArith.
From Verif Require Import M_Typenum S_Typenum L_Typenum.
Import ListNotations.
Open Scope N_scope.

(** The generated aliases [U<n>] are the canonical encodings, and encodings determine the number. *)
Theorem typenum_alias_canonical : forall n, build_u n = enc n.
Proof. exact build_u_enc. Qed.
Print Assumptions typenum_alias_canonical.
Example typenum_alias_ex : build_u 6 = UInt (UInt (UInt UTerm true) true) false.
Proof. reflexivity. Qed.

Theorem typenum_encoding_injective : forall a b, enc a = enc b -> a = b.
Proof. exact enc_inj. Qed.
Print Assumptions typenum_encoding_injective.
Example typenum_encoding_injective_ex : enc 5 = enc 5 /\ enc 5 <> enc 6.
Proof. split; [reflexivity | discriminate]. Qed.

Theorem typenum_add : forall a b, add (enc a) (enc b) = enc (a + b).
Proof. exact add_enc. Qed.
Print Assumptions typenum_add.
Example typenum_add_ex : add (enc 13) (enc 27) = enc 40.
Proof. reflexivity. Qed.

Theorem typenum_increment : forall a, increment (enc a) = enc (a + 1).
Proof. exact increment_enc. Qed.
Print Assumptions typenum_increment.
Example typenum_increment_ex : increment (enc 7) = enc 8.
Proof. reflexivity. Qed.

Theorem typenum_decrement : forall a, a <> 0 -> decrement (enc a) = enc (a - 1).
Proof. exact decrement_enc. Qed.
Print Assumptions typenum_decrement.
Example typenum_decrement_ex : 8 <> 0 /\ decrement (enc 8) = enc 7.
Proof. split; [discriminate | reflexivity]. Qed.

Theorem typenum_abs_sub : forall a b, abs_sub (enc a) (enc b) = enc ((a - b) + (b - a)).
Proof. exact abs_sub_enc. Qed.
Print Assumptions typenum_abs_sub.
Example typenum_abs_sub_ex : abs_sub (enc 3) (enc 10) = enc 7 /\ abs_sub (enc 10) (enc 3) = enc 7.
Proof. split; reflexivity. Qed.

Theorem typenum_equal : forall a b, equal (enc a) (enc b) = (a =? b).
Proof. exact equal_enc. Qed.
Print Assumptions typenum_equal.
Theorem typenum_not_equal : forall a b, not_equal (enc a) (enc b) = negb (a =? b).
Proof. exact not_equal_enc. Qed.
Print Assumptions typenum_not_equal.
Theorem typenum_greater : forall a b, greater (enc a) (enc b) = (b <? a).
Proof. exact greater_enc. Qed.
Print Assumptions typenum_greater.
Theorem typenum_greater_or_eq : forall a b, greater_or_eq (enc a) (enc b) = (b <=? a).
Proof. exact greater_or_eq_enc. Qed.
Print Assumptions typenum_greater_or_eq.
Theorem typenum_smaller : forall a b, smaller (enc a) (enc b) = (a <? b).
Proof. exact smaller_enc. Qed.
Print Assumptions typenum_smaller.
Theorem typenum_smaller_or_eq : forall a b, smaller_or_eq (enc a) (enc b) = (a <=? b).
Proof. exact smaller_or_eq_enc. Qed.
Print Assumptions typenum_smaller_or_eq.
Example typenum_order_ex :
  equal (enc 6) (enc 6) = true /\ not_equal (enc 6) (enc 5) = true /\ greater (enc 6) (enc 5) = true /\
  greater_or_eq (enc 5) (enc 6) = false /\ smaller (enc 5) (enc 6) = true /\ smaller_or_eq (enc 6) (enc 6) = true.
Proof. repeat split; reflexivity. Qed.
Theorem typenum_cmp : forall a b, ucmp (enc a) (enc b) = N.compare a b.
Proof. exact ucmp_enc. Qed.
Print Assumptions typenum_cmp.
Example typenum_cmp_ex : ucmp (enc 9) (enc 12) = Lt /\ greater (enc 12) (enc 9) = true /\ smaller (enc 9) (enc 9) = false.
Proof. repeat split; reflexivity. Qed.

Theorem typenum_min : forall a b, umin (enc a) (enc b) = enc (N.min a b).
Proof. exact umin_enc. Qed.
Print Assumptions typenum_min.
Theorem typenum_max : forall a b, umax (enc a) (enc b) = enc (N.max a b).
Proof. exact umax_enc. Qed.
Print Assumptions typenum_max.
Example typenum_min_max_ex : umin (enc 6) (enc 9) = enc 6 /\ umax (enc 6) (enc 9) = enc 9.
Proof. split; reflexivity. Qed.

Theorem typenum_bitand : forall a b, bitand (enc a) (enc b) = enc (N.land a b).
Proof. exact bitand_enc. Qed.
Print Assumptions typenum_bitand.
Theorem typenum_bitor : forall a b, bitor (enc a) (enc b) = enc (N.lor a b).
Proof. exact bitor_enc. Qed.
Print Assumptions typenum_bitor.
Example typenum_bits_ex : bitand (enc 12) (enc 3) = UTerm /\ bitor (enc 8) (enc 5) = enc 13.
Proof. split; reflexivity. Qed.

Theorem typenum_truncate : forall a n, truncate (enc a) (enc n) = enc (a mod 2 ^ n).
Proof. exact truncate_enc. Qed.
Print Assumptions typenum_truncate.
Example typenum_truncate_ex : truncate (enc 29) (enc 3) = enc 5.
Proof. reflexivity. Qed.

(** The impls of [IPowerOf2] apply exactly to the powers of two. *)
Theorem typenum_ipowerof2 : forall n,
  (exists l, log2 (enc n) = Some l) <-> (exists k, n = 2 ^ k).
Proof. exact log2_enc_some_pow2. Qed.
Print Assumptions typenum_ipowerof2.
Example typenum_ipowerof2_ex : log2 (enc 16) = Some (enc 4) /\ log2 (enc 12) = None.
Proof. repeat split; reflexivity. Qed.

Theorem typenum_log2 : forall k, log2 (enc (2 ^ k)) = Some (enc k).
Proof. exact log2_enc. Qed.
Print Assumptions typenum_log2.
Example typenum_log2_ex : log2 (enc (2 ^ 5)) = Some (enc 5).
Proof. reflexivity. Qed.

Theorem typenum_mod : forall a k, umod (enc a) (enc (2 ^ k)) = Some (enc (a mod 2 ^ k)).
Proof. exact umod_enc. Qed.
Print Assumptions typenum_mod.
Theorem typenum_divide : forall a k, divide (enc (2 ^ k)) (enc a) = Some (enc (a / 2 ^ k)).
Proof. exact divide_enc. Qed.
Print Assumptions typenum_divide.
Example typenum_mod_ex : umod (enc 27) (enc 8) = Some (enc 3) /\ divide (enc 8) (enc 27) = Some (enc 3).
Proof. split; reflexivity. Qed.

Theorem typenum_next_multiple_of : forall a k, exists r,
  next_multiple_of (enc a) (enc (2 ^ k)) = Some (enc r) /\ is_next_multiple a (2 ^ k) r.
Proof. exact next_multiple_of_enc. Qed.
Print Assumptions typenum_next_multiple_of.
Example typenum_next_multiple_of_ex : next_multiple_of (enc 13) (enc 8) = Some (enc 16).
Proof. reflexivity. Qed.

Theorem typenum_mul : forall a b, mul (enc a) (enc b) = enc (a * b).
Proof. exact mul_enc. Qed.
Print Assumptions typenum_mul.
Example typenum_mul_ex : mul (enc 13) (enc 11) = enc 143.
Proof. reflexivity. Qed.

(** [NextPow2] is the number of significant bits. *)
Theorem typenum_next_pow2 : forall a, next_pow2 (enc a) = enc (N.size a).
Proof. exact next_pow2_enc. Qed.
Print Assumptions typenum_next_pow2.
Example typenum_next_pow2_ex : next_pow2 (enc 8) = enc 4 /\ next_pow2 (enc 7) = enc 3.
Proof. split; reflexivity. Qed.

(** [TruncateAtRightmostOne] is the largest power of two dividing the number. *)
Theorem typenum_rightmost_one : forall a, a <> 0 -> exists k q,
  truncate_at_rightmost_one (enc a) = enc (2 ^ k) /\ a = 2 ^ k * (2 * q + 1).
Proof. exact tro_enc. Qed.
Print Assumptions typenum_rightmost_one.
Example typenum_rightmost_one_ex : truncate_at_rightmost_one (enc 40) = enc 8 /\ 40 = 8 * (2 * 2 + 1).
Proof. split; reflexivity. Qed.

(** Conversion from type to value is exact on 128 bits. *)
Theorem typenum_value : forall a, a < 2 ^ 128 -> u128 (enc a) = Some a.
Proof. exact u128_enc. Qed.
Print Assumptions typenum_value.
Example typenum_value_ex : u128 (enc 1000) = Some 1000.
Proof. reflexivity. Qed.

(** The mask of an [n]-byte padding marks bytes 0..n-1, entirely, and nothing else. *)
Theorem typenum_padding_bit_mask : forall n fuel, (N.to_nat n <= fuel)%nat ->
  padding_bit_mask fuel (enc n) =
  Some (map (fun i => (enc (N.of_nat i), enc 255)) (seq 0 (N.to_nat n))).
Proof. exact padding_bit_mask_enc. Qed.
Print Assumptions typenum_padding_bit_mask.
Example typenum_padding_bit_mask_ex : padding_bit_mask 3 (enc 3) =
  Some [(enc 0, enc 255); (enc 1, enc 255); (enc 2, enc 255)].
Proof. reflexivity. Qed.
