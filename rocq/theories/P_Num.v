(** C41, C42, C43: restricted integers (stabby-abi/src/num.rs). *)
From Coq Require Import NArith ZArith List Bool Lia.
From Verif Require Import M_Layout M_Result M_Num S_Num L_Num.
Import ListNotations.

(** C41: [NonMax::new] refuses exactly the maximum. *)
Theorem nonmax_accepts_all_but_max : forall w n, fits_u w n ->
  (exists x, nonmax_new w n = Some x) <-> n <> (2 ^ w - 1)%N.
Proof. exact nonmax_accepts. Qed.
Print Assumptions nonmax_accepts_all_but_max.
Example nonmax_accepts_ex : nonmax_new 8 254 = Some 1%N /\ nonmax_new 8 255 = None.
Proof. split; reflexivity. Qed.

(** C41: [get] returns what [new] accepted. *)
Theorem nonmax_round_trip : forall w n x, fits_u w n -> nonmax_new w n = Some x -> nonmax_get w x = n.
Proof. exact nonmax_round. Qed.
Print Assumptions nonmax_round_trip.
Example nonmax_round_ex : nonmax_new 16 65534 = Some 1%N /\ nonmax_get 16 1 = 65534%N.
Proof. split; reflexivity. Qed.

(** C41: every stored pattern but 0 is that of some value: 0 is the only niche. *)
Theorem nonmax_single_niche : forall w x, fits_u w x ->
  (exists n, fits_u w n /\ nonmax_new w n = Some x) <-> x <> 0%N.
Proof. exact nonmax_patterns. Qed.
Print Assumptions nonmax_single_niche.
Example nonmax_single_niche_ex : nonmax_new 8 0 = Some 255%N.
Proof. reflexivity. Qed.

(** C41: equality and order of [NonMax] are those of the values. *)
Theorem nonmax_order_is_value_order : forall w a b x y, fits_u w a -> fits_u w b ->
  nonmax_new w a = Some x -> nonmax_new w b = Some y ->
  nonmax_eq x y = N.eqb a b /\ nonmax_cmp w x y = N.compare a b.
Proof. exact nonmax_order. Qed.
Print Assumptions nonmax_order_is_value_order.
Example nonmax_order_ex : exists x y, nonmax_new 8 3 = Some x /\ nonmax_new 8 200 = Some y /\
  nonmax_cmp 8 x y = Lt.
Proof. exists 252%N, 55%N; repeat split; reflexivity. Qed.

(** C41: [new_unchecked] makes what [new] makes of any number that it accepts. *)
Theorem nonmax_unchecked : forall w n, fits_u w n -> n <> (2 ^ w - 1)%N ->
  nonmax_new w n = Some (nonmax_new_unchecked w n) /\ nonmax_get w (nonmax_new_unchecked w n) = n.
Proof.
  intros w n H D. unfold fits_u in H. unfold nonmax_new, nonmax_new_unchecked, nonmax_get, nonzero_new, u_not.
  destruct (N.eqb_spec (2 ^ w - 1 - n) 0) as [E|E]; [exfalso; lia|]. split; [reflexivity|lia].
Qed.
Print Assumptions nonmax_unchecked.
Example nonmax_unchecked_ex : nonmax_new 8 7 = Some 248%N /\ nonmax_new_unchecked 8 7 = 248%N.
Proof. split; reflexivity. Qed.

(** C41: [NonX::new] on unsigned integers refuses exactly [FORBIDDEN]. *)
Theorem nonx_unsigned_accepts : forall w f n, fits_u w f -> fits_u w n ->
  (exists x, nonxu_new w f n = Some x) <-> n <> f.
Proof. exact nonxu_accepts. Qed.
Print Assumptions nonx_unsigned_accepts.
Example nonx_unsigned_accepts_ex : nonxu_new 8 72 72 = None /\ nonxu_new 8 72 71 = Some 255%N.
Proof. split; reflexivity. Qed.
(** C41. *)
Theorem nonx_unsigned_round_trip : forall w f n x, fits_u w f -> fits_u w n ->
  nonxu_new w f n = Some x -> nonxu_get w f x = n.
Proof. exact nonxu_round. Qed.
Print Assumptions nonx_unsigned_round_trip.
Example nonx_unsigned_round_ex : nonxu_new 8 72 3 = Some 187%N /\ nonxu_get 8 72 187 = 3%N.
Proof. split; reflexivity. Qed.
(** C41. *)
Theorem nonx_unsigned_single_niche : forall w f x, fits_u w f -> fits_u w x ->
  (exists n, fits_u w n /\ nonxu_new w f n = Some x) <-> x <> 0%N.
Proof. exact nonxu_patterns. Qed.
Print Assumptions nonx_unsigned_single_niche.
Example nonx_unsigned_single_niche_ex : nonxu_new 8 72 71 = Some 255%N.
Proof. reflexivity. Qed.
(** C41. *)
Theorem nonx_unsigned_order : forall w f a b x y, fits_u w f -> fits_u w a -> fits_u w b ->
  nonxu_new w f a = Some x -> nonxu_new w f b = Some y ->
  N.eqb x y = N.eqb a b /\ nonxu_cmp w f x y = N.compare a b.
Proof. exact nonxu_order. Qed.
Print Assumptions nonx_unsigned_order.
Example nonx_unsigned_order_ex : nonxu_new 8 72 71 = Some 255%N /\ nonxu_new 8 72 73 = Some 1%N /\
  nonxu_cmp 8 72 255 1 = Lt.
Proof. repeat split; reflexivity. Qed.

(** C41: same for signed integers. *)
Theorem nonx_signed_accepts : forall w f n, (0 < w)%Z -> fits_i w f -> fits_i w n ->
  (exists x, nonxi_new w f n = Some x) <-> n <> f.
Proof. exact nonxi_accepts. Qed.
Print Assumptions nonx_signed_accepts.
Example nonx_signed_accepts_ex : nonxi_new 8 (-128) (-128) = None /\ nonxi_new 8 (-128) 127 = Some (-1)%Z.
Proof. split; reflexivity. Qed.
(** C41. *)
Theorem nonx_signed_round_trip : forall w f n x, (0 < w)%Z -> fits_i w f -> fits_i w n ->
  nonxi_new w f n = Some x -> nonxi_get w f x = n.
Proof. exact nonxi_round. Qed.
Print Assumptions nonx_signed_round_trip.
Example nonx_signed_round_ex : nonxi_new 8 100 (-100) = Some 56%Z /\ nonxi_get 8 100 56 = (-100)%Z.
Proof. split; reflexivity. Qed.
(** C41. *)
Theorem nonx_signed_single_niche : forall w f x, (0 < w)%Z -> fits_i w f -> fits_i w x ->
  (exists n, fits_i w n /\ nonxi_new w f n = Some x) <-> x <> 0%Z.
Proof. exact nonxi_patterns. Qed.
Print Assumptions nonx_signed_single_niche.
Example nonx_signed_single_niche_ex : nonxi_new 8 100 (-28) = Some (-128)%Z.
Proof. reflexivity. Qed.
(** C41. *)
Theorem nonx_signed_order : forall w f a b x y, (0 < w)%Z -> fits_i w f -> fits_i w a -> fits_i w b ->
  nonxi_new w f a = Some x -> nonxi_new w f b = Some y ->
  Z.eqb x y = Z.eqb a b /\ nonxi_cmp w f x y = Z.compare a b.
Proof. exact nonxi_order. Qed.
Print Assumptions nonx_signed_order.
Example nonx_signed_order_ex : nonxi_new 8 100 (-100) = Some 56%Z /\ nonxi_new 8 100 99 = Some (-1)%Z /\
  nonxi_cmp 8 100 56 (-1) = Lt.
Proof. repeat split; reflexivity. Qed.

(** C41: in memory, the bytes of the stored integer are a valid [NonZero] (whose layout
    [NonMax]/[NonX] declare) exactly when the integer is not 0. *)
Theorem nonzero_memory_valid : forall k a v, fits_u (8 * N.of_nat k) v ->
  decode (TNonZero k a) (le_bytes k v) <> None <-> v <> 0%N.
Proof. exact nonzero_memory. Qed.
Print Assumptions nonzero_memory_valid.
Example nonzero_memory_ex : decode (TNonZero 4 4) (le_bytes 4 65536) = Some (VRaw [0; 0; 1; 0]%N).
Proof. vm_compute; reflexivity. Qed.

(** C42: [uN::new] accepts exactly the values below [2^N], and [get] gives them back. *)
Theorem narrow_unsigned_new : forall w n v, (n <= w)%N ->
  um_new w n v = if N.ltb v (2 ^ n) then Some v else None.
Proof. exact um_new_spec. Qed.
Print Assumptions narrow_unsigned_new.
Example narrow_unsigned_new_ex : um_new 8 6 63 = Some 63%N /\ um_new 8 6 64 = None.
Proof. split; reflexivity. Qed.
(** C42. *)
Theorem narrow_unsigned_round_trip : forall w n v x, (n <= w)%N -> um_new w n v = Some x ->
  x = v /\ um_get w n x = v.
Proof. exact um_round. Qed.
Print Assumptions narrow_unsigned_round_trip.
Example narrow_unsigned_round_ex : um_new 16 9 511 = Some 511%N /\ um_get 16 9 511 = 511%N.
Proof. split; reflexivity. Qed.
(** C42: [MAX] is the largest accepted value. *)
Theorem narrow_unsigned_max : forall w n, (n <= w)%N -> um_max w n = (2 ^ n - 1)%N.
Proof. exact um_max_val. Qed.
Print Assumptions narrow_unsigned_max.
Example narrow_unsigned_max_ex : um_max 64 33 = 8589934591%N.
Proof. reflexivity. Qed.
(** C42: the high bits do not matter to [get], which is the value of the low bits. *)
Theorem narrow_unsigned_high_bits : forall w n x h, (n <= w)%N ->
  um_get w n (N.lor x (N.shiftl h n)) = um_get w n x.
Proof. exact um_unused. Qed.
Print Assumptions narrow_unsigned_high_bits.
(** C42. *)
Theorem narrow_unsigned_get : forall w n x, (n <= w)%N -> um_get w n x = (x mod 2 ^ n)%N.
Proof. exact um_get_mod. Qed.
Print Assumptions narrow_unsigned_get.
Example narrow_unsigned_high_ex : um_get 8 6 (N.lor 33 (N.shiftl 3 6)) = 33%N.
Proof. reflexivity. Qed.
(** C42: what [new] makes is ordered as the values are. *)
Theorem narrow_unsigned_order : forall w n a b x y, (n <= w)%N -> um_new w n a = Some x -> um_new w n b = Some y ->
  um_eq x y = N.eqb a b /\ um_cmp x y = N.compare a b.
Proof.
  intros w n a b x y H A B. apply um_round in A; [|exact H]. apply um_round in B; [|exact H].
  destruct A as [-> _], B as [-> _]. split; reflexivity.
Qed.
Print Assumptions narrow_unsigned_order.
Example narrow_unsigned_order_ex : um_new 8 6 3 = Some 3%N /\ um_new 8 6 60 = Some 60%N /\ um_cmp 3 60 = Lt /\ um_eq 3 60 = false.
Proof. repeat split; reflexivity. Qed.
(** C42: addition never overflows the base type (the [unwrap_unchecked] of num.rs:360 is sound). *)
Theorem narrow_unsigned_add : forall w n x y, (n < w)%N ->
  um_add w n x y = Some (um_get w n x + um_get w n y)%N.
Proof. exact um_add_ok. Qed.
Print Assumptions narrow_unsigned_add.
Example narrow_unsigned_add_ex : um_add 8 7 127 127 = Some 254%N.
Proof. reflexivity. Qed.
(** C42: subtraction is exact or panics. *)
Theorem narrow_unsigned_sub : forall w n x y, (n <= w)%N ->
  um_sub w n x y = if N.leb (um_get w n y) (um_get w n x)
                   then um_new w n (um_get w n x - um_get w n y) else None.
Proof. exact um_sub_spec. Qed.
Print Assumptions narrow_unsigned_sub.
Example narrow_unsigned_sub_ex : um_sub 8 6 40 3 = Some 37%N.
Proof. reflexivity. Qed.
(** C42: bitwise operations are those of the values. *)
Theorem narrow_unsigned_bits : forall w n x y, (n <= w)%N ->
  um_get w n (um_and x y) = N.land (um_get w n x) (um_get w n y) /\
  um_get w n (um_or x y) = N.lor (um_get w n x) (um_get w n y) /\
  um_or_base w n x y = N.lor (um_get w n x) y.
Proof. exact um_bits. Qed.
Print Assumptions narrow_unsigned_bits.
Example narrow_unsigned_bits_ex : um_get 8 6 (um_or 5 58) = 63%N /\ um_or_base 8 6 5 130 = 135%N.
Proof. split; reflexivity. Qed.
(** C42: without overflow checks, an underflowing subtraction stores high bits: the
    result equals no value of the type under [==], although [get] is one. *)
Theorem narrow_unsigned_release_sub_refuted : exists w n x y v,
  (n < w)%N /\ um_new w n x = Some x /\ um_new w n y = Some y /\
  um_new w n (um_get w n (um_sub_release w n x y)) = Some v /\
  um_get w n v = um_get w n (um_sub_release w n x y) /\
  um_eq v (um_sub_release w n x y) = false.
Proof. exists 8%N, 6%N, 1%N, 2%N, 63%N. repeat split; vm_compute; reflexivity. Qed.
Print Assumptions narrow_unsigned_release_sub_refuted.

(** C43: what [iN::new] accepts is in the range of [iN] and is given back by [get]. *)
Theorem narrow_signed_round_trip : forall w n v x, (0 < n < w)%Z -> im_new w n v = Some x ->
  fits_i n v /\ im_get w n x = v.
Proof. exact im_new_sound. Qed.
Print Assumptions narrow_signed_round_trip.
Example narrow_signed_round_ex : im_new 8 6 (-32) = Some (-32)%Z /\ im_get 8 6 (-32) = (-32)%Z.
Proof. split; reflexivity. Qed.
(** C43: [get] is the two's complement value of the low [n] bits. *)
Theorem narrow_signed_get : forall w n x, (0 < n < w)%Z ->
  fits_i n (im_get w n x) /\ ((im_get w n x - x) mod 2 ^ n = 0)%Z.
Proof.
  intros w n x H. split; [exact (im_get_fits w n x H)|].
  rewrite im_get_val by exact H. apply wrap_mod; lia.
Qed.
Print Assumptions narrow_signed_get.
Example narrow_signed_get_ex : im_get 8 6 33 = (-31)%Z.
Proof. reflexivity. Qed.
(** C43: what [new] makes is ordered as the values are. *)
Theorem narrow_signed_order_partial : forall w n a b x y, (0 < n < w)%Z -> im_new w n a = Some x -> im_new w n b = Some y ->
  im_eq x y = Z.eqb a b /\ im_cmp x y = Z.compare a b.
Proof.
  intros w n a b x y H A B. unfold im_new in A, B.
  destruct (Z.leb a _ && _); [|discriminate A]. destruct (Z.leb b _ && _); [|discriminate B].
  injection A as <-. injection B as <-. split; reflexivity.
Qed.
Print Assumptions narrow_signed_order_partial.
Example narrow_signed_order_ex : im_new 8 4 (-8) = Some (-8)%Z /\ im_new 8 4 7 = Some 7%Z /\ im_cmp (-8) 7 = Lt.
Proof. repeat split; reflexivity. Qed.
(** C43: [MIN] is right. *)
Theorem narrow_signed_min : forall w n, (0 < n < w)%Z -> im_get w n (im_min w n) = (- 2 ^ (n - 1))%Z.
Proof. exact im_get_min. Qed.
Print Assumptions narrow_signed_min.
Example narrow_signed_min_ex : im_get 32 26 (im_min 32 26) = (-33554432)%Z.
Proof. reflexivity. Qed.
(** C43: [new] accepts exactly [MIN ..= MAX]... *)
Theorem narrow_signed_new_partial : forall w n v, (0 < n < w)%Z ->
  im_new w n v <> None <-> (- 2 ^ (n - 1) <= v <= im_get w n (im_max w n))%Z.
Proof. exact im_new_iff. Qed.
Print Assumptions narrow_signed_new_partial.
Example narrow_signed_new_ex : im_new 8 4 7 = Some 7%Z /\ im_new 8 4 8 = None.
Proof. split; reflexivity. Qed.
(** C43: ... but [MAX] is [2^(n-1)-1] only when [n] is half the base width (only [i4]). *)
Theorem narrow_signed_max_exact : forall w n, (0 < n < w)%Z ->
  im_get w n (im_max w n) = (2 ^ (n - 1) - 1)%Z <-> w = (2 * n)%Z.
Proof. exact im_max_iff. Qed.
Print Assumptions narrow_signed_max_exact.
Example narrow_signed_max_ex : im_get 8 4 (im_max 8 4) = 7%Z.
Proof. reflexivity. Qed.
(** C43, refuted as stated: [i6] refuses 2 (its [MAX] is 1), [i2::MAX] is -1. *)
Theorem narrow_signed_new_refuted : exists w n v, (0 < n < w)%Z /\ fits_i n v /\ im_new w n v = None.
Proof. exists 8%Z, 6%Z, 2%Z. repeat split; vm_compute; congruence. Qed.
Print Assumptions narrow_signed_new_refuted.
(** C43: [iN::MIN] and [iN::new(MIN.get())] represent the same value but are not [==],
    and [MIN] compares above [MAX]. *)
Theorem narrow_signed_order_refuted : exists w n x, (0 < n < w)%Z /\
  im_new w n (im_get w n (im_min w n)) = Some x /\
  im_eq (im_min w n) x = false /\ im_cmp (im_min w n) (im_max w n) = Gt.
Proof. exists 8%Z, 6%Z, (-32)%Z. repeat split; vm_compute; reflexivity. Qed.
Print Assumptions narrow_signed_order_refuted.
