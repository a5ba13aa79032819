(** Model of the restricted integers of stabby-abi/src/num.rs.
    A [w]-bit unsigned integer is an [N] below [2^w]; a [w]-bit signed one is a
    [Z] in [-2^(w-1) .. 2^(w-1)-1] (two's complement: [Z.land]/[Z.lor] are the
    machine operations, [<<] wraps, [>>] is arithmetic).  [None] is a refused value
    or a panic, as said at each definition. *)
From Coq Require Import NArith ZArith List Bool.
Import ListNotations.

(** ** [NonMax*] *)

(** core [!n] on a [w]-bit unsigned integer (num.rs:29,41,46). *)
Definition u_not (w n : N) : N := (2 ^ w - 1 - n)%N.
(** core [NonZero::new], num.rs:29,113: [None] for 0. *)
Definition nonzero_new (n : N) : option N := if N.eqb n 0 then None else Some n.
(** num.rs:28-33 [NonMax::new]: the stored [inner], [None] if refused. *)
Definition nonmax_new (w n : N) : option N := nonzero_new (u_not w n).
(** num.rs:38-42 [new_unchecked]: the caller promises [n != MAX]. *)
Definition nonmax_new_unchecked (w n : N) : N := u_not w n.
(** num.rs:44-46 [NonMax::get]. *)
Definition nonmax_get (w inner : N) : N := u_not w inner.
(** num.rs:19 [#[derive(PartialEq)]]: on [inner]. *)
Definition nonmax_eq (a b : N) : bool := N.eqb a b.
(** num.rs:65-67 [Ord::cmp]. *)
Definition nonmax_cmp (w a b : N) : comparison := N.compare (nonmax_get w a) (nonmax_get w b).

(** ** [NonX*] *)

(** core [wrapping_sub]/[wrapping_add] on unsigned integers (num.rs:110, 121, 126). *)
Definition u_wsub (w a b : N) : N := ((a + 2 ^ w - b) mod 2 ^ w)%N.
(** num.rs:126. *)
Definition u_wadd (w a b : N) : N := ((a + b) mod 2 ^ w)%N.
(** num.rs:109-114 [NonX::new] at an unsigned type. *)
Definition nonxu_new (w f n : N) : option N := nonzero_new (u_wsub w n f).
(** num.rs:125-127 [NonX::get]. *)
Definition nonxu_get (w f inner : N) : N := u_wadd w inner f.
(** num.rs:146-148 [Ord::cmp]. *)
Definition nonxu_cmp (w f a b : N) : comparison := N.compare (nonxu_get w f a) (nonxu_get w f b).

(** Reduction to the range of a [w]-bit signed integer: what [wrapping_*] and [<<] do (core, called at num.rs:110, 126, 401, 412). *)
Definition wrap (w z : Z) : Z := ((z + 2 ^ (w - 1)) mod 2 ^ w - 2 ^ (w - 1))%Z.
(** num.rs:109-114 at a signed type. *)
Definition nonxi_new (w f n : Z) : option Z :=
  let d := wrap w (n - f) in if Z.eqb d 0 then None else Some d.
(** num.rs:125-127 at a signed type. *)
Definition nonxi_get (w f inner : Z) : Z := wrap w (inner + f).
(** num.rs:146-148 at a signed type. *)
Definition nonxi_cmp (w f a b : Z) : comparison := Z.compare (nonxi_get w f a) (nonxi_get w f b).

(** ** [uN] in a [w]-bit integer *)

(** num.rs:258-260 [MASK = MAX >> (w - n)]. *)
Definition um_mask (w n : N) : N := N.shiftr (2 ^ w - 1) (w - n).
(** num.rs:262, 264 [MAX], [MIN]. *)
Definition um_max (w n : N) : N := um_mask w n.
(** num.rs:264. *)
Definition um_min : N := 0%N.
(** num.rs:266-271 [new]. *)
Definition um_new (w n v : N) : option N := if N.leb v (um_mask w n) then Some v else None.
(** num.rs:273-275 [get]. *)
Definition um_get (w n x : N) : N := N.land x (um_mask w n).
(** num.rs:317-328 [BitAnd], with the base type or [Self]: both read [.0]. *)
Definition um_and (x y : N) : N := N.land x y.
(** num.rs:337-342 [BitOr] on [Self]. *)
Definition um_or (x y : N) : N := N.lor x y.
(** num.rs:343-348 [BitOr<base>]. *)
Definition um_or_base (w n x r : N) : N := N.lor (um_get w n x) r.
(** num.rs:357-363 [Add]: [None] is [unwrap_unchecked] on [None], undefined behaviour. *)
Definition um_add (w n x y : N) : option N :=
  let s := (um_get w n x + um_get w n y)%N in if N.ltb s (2 ^ w) then Some s else None.
(** num.rs:364-369 [Sub<base>]; [None]: the overflow panic of debug builds. *)
Definition um_sub_base (w n x r : N) : option N :=
  if N.leb r (um_get w n x) then Some (um_get w n x - r)%N else None.
(** num.rs:370-375 [Sub]; [None] as above. *)
Definition um_sub (w n x y : N) : option N := um_sub_base w n x (um_get w n y).
(** num.rs:370-375 in a build without overflow checks. *)
Definition um_sub_release (w n x y : N) : N := u_wsub w (um_get w n x) (um_get w n y).
(** num.rs:255 [#[derive(PartialEq)]]: on the stored integer. *)
Definition um_eq (x y : N) : bool := N.eqb x y.
(** num.rs:255 [#[derive(Ord)]]. *)
Definition um_cmp (x y : N) : comparison := N.compare x y.

(** ** [iN] in a [w]-bit signed integer *)

(** num.rs:392-395 [MASK]. *)
Definition im_mask (w n : Z) : Z :=
  Z.lor (Z.shiftr (2 ^ (w - 1) - 1) (w - n)) (wrap w (Z.shiftl 1 (n - 1))).
(** num.rs:397-398 [MAX = base::MAX >> n], as stored. *)
Definition im_max (w n : Z) : Z := Z.shiftr (2 ^ (w - 1) - 1) n.
(** num.rs:400-401 [MIN = 1 << (n - 1)], as stored. *)
Definition im_min (w n : Z) : Z := wrap w (Z.shiftl 1 (n - 1)).
(** num.rs:409-413 [sign_extend]: [value | (((value & MIN.0) << SHIFT) >> (SHIFT - 1))]. *)
Definition im_sign_extend (w n v : Z) : Z :=
  Z.lor v (Z.shiftr (wrap w (Z.shiftl (Z.land v (im_min w n)) (w - n))) (w - n - 1)).
(** num.rs:415-417 [get]. *)
Definition im_get (w n x : Z) : Z := im_sign_extend w n (Z.land x (im_mask w n)).
(** num.rs:403-408 [new]. *)
Definition im_new (w n v : Z) : option Z :=
  if Z.leb v (im_get w n (im_max w n)) && Z.leb (im_get w n (im_min w n)) v
  then Some v else None.
(** num.rs:389 [#[derive(PartialEq)]], [#[derive(Ord)]]: on the stored integer. *)
Definition im_eq (x y : Z) : bool := Z.eqb x y.
(** num.rs:389. *)
Definition im_cmp (x y : Z) : comparison := Z.compare x y.
