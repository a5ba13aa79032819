(** Model of the declarations of the narrow integers of num.rs:520-1054: which types there are, what stores them, how many bits they have. *)
From Coq Require Import String List NArith ZArith Bool.
From Verif Require Import M_Typenum M_Num.
Import ListNotations.
Local Open Scope string_scope.

(** num.rs:245-246, 378-379: the arguments of [makeumask!] and [makeimask!]: the name, the base type, the [k] of [crate::typenum2::Uk]. The text of the documentation is left out. *)
Record narrow := Narrow { nname : string; nbase : string; nbits : N }.
(** num.rs:520-786. *)
Definition umasks : list narrow := [
  Narrow "u1" "u8" 1; Narrow "u2" "u8" 2; Narrow "u3" "u8" 3; Narrow "u4" "u8" 4; Narrow "u5" "u8" 5; Narrow "u6" "u8" 6; Narrow "u7" "u8" 7;
  Narrow "u9" "u16" 9; Narrow "u10" "u16" 10; Narrow "u11" "u16" 11; Narrow "u12" "u16" 12; Narrow "u13" "u16" 13; Narrow "u14" "u16" 14;
  Narrow "u15" "u16" 15; Narrow "u17" "u32" 17; Narrow "u18" "u32" 18; Narrow "u19" "u32" 19; Narrow "u20" "u32" 20; Narrow "u21" "u32" 21;
  Narrow "u22" "u32" 22; Narrow "u23" "u32" 23; Narrow "u24" "u32" 24; Narrow "u25" "u32" 25; Narrow "u26" "u32" 26; Narrow "u27" "u32" 27;
  Narrow "u28" "u32" 28; Narrow "u29" "u32" 29; Narrow "u30" "u32" 30; Narrow "u31" "u32" 31; Narrow "u33" "u64" 33; Narrow "u34" "u64" 34;
  Narrow "u35" "u64" 35; Narrow "u36" "u64" 36; Narrow "u37" "u64" 37; Narrow "u38" "u64" 38; Narrow "u39" "u64" 39; Narrow "u40" "u64" 40;
  Narrow "u41" "u64" 41; Narrow "u42" "u64" 42; Narrow "u43" "u64" 43; Narrow "u44" "u64" 44; Narrow "u45" "u64" 45; Narrow "u46" "u64" 46;
  Narrow "u47" "u64" 47; Narrow "u48" "u64" 48; Narrow "u49" "u64" 49; Narrow "u50" "u64" 50; Narrow "u51" "u64" 51; Narrow "u52" "u64" 52;
  Narrow "u53" "u64" 53; Narrow "u54" "u64" 54; Narrow "u55" "u64" 55; Narrow "u56" "u64" 56; Narrow "u57" "u64" 57; Narrow "u58" "u64" 58;
  Narrow "u59" "u64" 59; Narrow "u60" "u64" 60; Narrow "u61" "u64" 61; Narrow "u62" "u64" 62; Narrow "u63" "u64" 63; Narrow "u65" "u128" 65;
  Narrow "u66" "u128" 66; Narrow "u67" "u128" 67; Narrow "u68" "u128" 68; Narrow "u69" "u128" 69; Narrow "u70" "u128" 70; Narrow "u71" "u128" 71;
  Narrow "u72" "u128" 72; Narrow "u73" "u128" 73; Narrow "u74" "u128" 74; Narrow "u75" "u128" 75; Narrow "u76" "u128" 76; Narrow "u77" "u128" 77;
  Narrow "u78" "u128" 78; Narrow "u79" "u128" 79; Narrow "u80" "u128" 80; Narrow "u81" "u128" 81; Narrow "u82" "u128" 82; Narrow "u83" "u128" 83;
  Narrow "u84" "u128" 84; Narrow "u85" "u128" 85; Narrow "u86" "u128" 86; Narrow "u87" "u128" 87; Narrow "u88" "u128" 88; Narrow "u89" "u128" 89;
  Narrow "u90" "u128" 90; Narrow "u91" "u128" 91; Narrow "u92" "u128" 92; Narrow "u93" "u128" 93; Narrow "u94" "u128" 94; Narrow "u95" "u128" 95;
  Narrow "u96" "u128" 96; Narrow "u97" "u128" 97; Narrow "u98" "u128" 98; Narrow "u99" "u128" 99; Narrow "u100" "u128" 100; Narrow "u101" "u128" 101;
  Narrow "u102" "u128" 102; Narrow "u103" "u128" 103; Narrow "u104" "u128" 104; Narrow "u105" "u128" 105; Narrow "u106" "u128" 106;
  Narrow "u107" "u128" 107; Narrow "u108" "u128" 108; Narrow "u109" "u128" 109; Narrow "u110" "u128" 110; Narrow "u111" "u128" 111;
  Narrow "u112" "u128" 112; Narrow "u113" "u128" 113; Narrow "u114" "u128" 114; Narrow "u115" "u128" 115; Narrow "u116" "u128" 116;
  Narrow "u117" "u128" 117; Narrow "u118" "u128" 118; Narrow "u119" "u128" 119; Narrow "u120" "u128" 120; Narrow "u121" "u128" 121;
  Narrow "u122" "u128" 122; Narrow "u123" "u128" 123; Narrow "u124" "u128" 124; Narrow "u125" "u128" 125; Narrow "u126" "u128" 126;
  Narrow "u127" "u128" 127].
(** num.rs:788-1054. *)
Definition imasks : list narrow := [
  Narrow "i1" "i8" 1; Narrow "i2" "i8" 2; Narrow "i3" "i8" 3; Narrow "i4" "i8" 4; Narrow "i5" "i8" 5; Narrow "i6" "i8" 6; Narrow "i7" "i8" 7;
  Narrow "i9" "i16" 9; Narrow "i10" "i16" 10; Narrow "i11" "i16" 11; Narrow "i12" "i16" 12; Narrow "i13" "i16" 13; Narrow "i14" "i16" 14;
  Narrow "i15" "i16" 15; Narrow "i17" "i32" 17; Narrow "i18" "i32" 18; Narrow "i19" "i32" 19; Narrow "i20" "i32" 20; Narrow "i21" "i32" 21;
  Narrow "i22" "i32" 22; Narrow "i23" "i32" 23; Narrow "i24" "i32" 24; Narrow "i25" "i32" 25; Narrow "i26" "i32" 26; Narrow "i27" "i32" 27;
  Narrow "i28" "i32" 28; Narrow "i29" "i32" 29; Narrow "i30" "i32" 30; Narrow "i31" "i32" 31; Narrow "i33" "i64" 33; Narrow "i34" "i64" 34;
  Narrow "i35" "i64" 35; Narrow "i36" "i64" 36; Narrow "i37" "i64" 37; Narrow "i38" "i64" 38; Narrow "i39" "i64" 39; Narrow "i40" "i64" 40;
  Narrow "i41" "i64" 41; Narrow "i42" "i64" 42; Narrow "i43" "i64" 43; Narrow "i44" "i64" 44; Narrow "i45" "i64" 45; Narrow "i46" "i64" 46;
  Narrow "i47" "i64" 47; Narrow "i48" "i64" 48; Narrow "i49" "i64" 49; Narrow "i50" "i64" 50; Narrow "i51" "i64" 51; Narrow "i52" "i64" 52;
  Narrow "i53" "i64" 53; Narrow "i54" "i64" 54; Narrow "i55" "i64" 55; Narrow "i56" "i64" 56; Narrow "i57" "i64" 57; Narrow "i58" "i64" 58;
  Narrow "i59" "i64" 59; Narrow "i60" "i64" 60; Narrow "i61" "i64" 61; Narrow "i62" "i64" 62; Narrow "i63" "i64" 63; Narrow "i65" "i128" 65;
  Narrow "i66" "i128" 66; Narrow "i67" "i128" 67; Narrow "i68" "i128" 68; Narrow "i69" "i128" 69; Narrow "i70" "i128" 70; Narrow "i71" "i128" 71;
  Narrow "i72" "i128" 72; Narrow "i73" "i128" 73; Narrow "i74" "i128" 74; Narrow "i75" "i128" 75; Narrow "i76" "i128" 76; Narrow "i77" "i128" 77;
  Narrow "i78" "i128" 78; Narrow "i79" "i128" 79; Narrow "i80" "i128" 80; Narrow "i81" "i128" 81; Narrow "i82" "i128" 82; Narrow "i83" "i128" 83;
  Narrow "i84" "i128" 84; Narrow "i85" "i128" 85; Narrow "i86" "i128" 86; Narrow "i87" "i128" 87; Narrow "i88" "i128" 88; Narrow "i89" "i128" 89;
  Narrow "i90" "i128" 90; Narrow "i91" "i128" 91; Narrow "i92" "i128" 92; Narrow "i93" "i128" 93; Narrow "i94" "i128" 94; Narrow "i95" "i128" 95;
  Narrow "i96" "i128" 96; Narrow "i97" "i128" 97; Narrow "i98" "i128" 98; Narrow "i99" "i128" 99; Narrow "i100" "i128" 100; Narrow "i101" "i128" 101;
  Narrow "i102" "i128" 102; Narrow "i103" "i128" 103; Narrow "i104" "i128" 104; Narrow "i105" "i128" 105; Narrow "i106" "i128" 106;
  Narrow "i107" "i128" 107; Narrow "i108" "i128" 108; Narrow "i109" "i128" 109; Narrow "i110" "i128" 110; Narrow "i111" "i128" 111;
  Narrow "i112" "i128" 112; Narrow "i113" "i128" 113; Narrow "i114" "i128" 114; Narrow "i115" "i128" 115; Narrow "i116" "i128" 116;
  Narrow "i117" "i128" 117; Narrow "i118" "i128" 118; Narrow "i119" "i128" 119; Narrow "i120" "i128" 120; Narrow "i121" "i128" 121;
  Narrow "i122" "i128" 122; Narrow "i123" "i128" 123; Narrow "i124" "i128" 124; Narrow "i125" "i128" 125; Narrow "i126" "i128" 126;
  Narrow "i127" "i128" 127].

(** [8 * size_of::<base>()], num.rs:259, 393, 410; other names are no integers. *)
Definition base_bits (b : string) : N :=
  if b =? "u8" then 8 else if b =? "u16" then 16 else if b =? "u32" then 32 else if b =? "u64" then 64 else if b =? "u128" then 128
  else if b =? "i8" then 8 else if b =? "i16" then 16 else if b =? "i32" then 32 else if b =? "i64" then 64 else if b =? "i128" then 128 else 0.
(** [<bits as Unsigned>::U128], num.rs:260, 394-395, 398, 401, 411; the alias [Uk] is made by build.rs:24-36; 0 if it does not compile. *)
Definition type_bits (d : narrow) : N := match u128 (build_u (nbits d)) with Some k => k | None => 0 end.
(** The type that a name stands for in [stabby::num] (num.rs:256, 390). *)
Definition find_type (l : list narrow) (s : string) : option narrow := find (fun d => nname d =? s) l.

(** num.rs:262: [MAX] of the [uN] of a declaration. *)
Definition u_max (d : narrow) : N := um_max (base_bits (nbase d)) (type_bits d).
(** num.rs:266-271: [new]. *)
Definition u_new (d : narrow) (v : N) : option N := um_new (base_bits (nbase d)) (type_bits d) v.
(** num.rs:273-275: [get]. *)
Definition u_get (d : narrow) (x : N) : N := um_get (base_bits (nbase d)) (type_bits d) x.
(** num.rs:397-398: [MAX] of the [iN] of a declaration. *)
Definition i_max (d : narrow) : Z := im_max (Z.of_N (base_bits (nbase d))) (Z.of_N (type_bits d)).
(** num.rs:400-401: [MIN]. *)
Definition i_min (d : narrow) : Z := im_min (Z.of_N (base_bits (nbase d))) (Z.of_N (type_bits d)).
(** num.rs:403-408: [new]. *)
Definition i_new (d : narrow) (v : Z) : option Z := im_new (Z.of_N (base_bits (nbase d))) (Z.of_N (type_bits d)) v.
(** num.rs:415-417: [get]. *)
Definition i_get (d : narrow) (x : Z) : Z := im_get (Z.of_N (base_bits (nbase d))) (Z.of_N (type_bits d)) x.
