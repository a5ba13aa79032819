(** C88: the C type of a type has its size, its alignment and its fields. *)
From Coq Require Import List Arith NArith Bool Lia.
From Verif Require Import M_Layout M_CType S_Layout S_Core S_CType L_Layout L_Struct L_CType.
Import ListNotations.
Ltac Zify.zify_post_hook ::= idtac.

(** x86-64: [u64] aligned to 8, [u128] to 16. *)
Definition x64 : tgt := {| al64 := 8; al128 := 16 |}.
(** 32-bit x86: both aligned to 4. *)
Definition x86 : tgt := {| al64 := 4; al128 := 4 |}.

(** A declared type takes one size and one alignment. *)
Theorem occupies_unique : forall g t s a s' a', occupies g t s a -> occupies g t s' a' -> s = s' /\ a = a'.
Proof. intros g t s a s' a' H H'. exact (occupies_fun g t s a H s' a' H'). Qed.
Print Assumptions occupies_unique.
Example occupies_ex : occupies x64 (XStruct [XInt 1 1; XBool]) 2 1.
Proof.
  apply (o_struct _ _ [(1, 1); (1, 1)] [0; 1]); [repeat constructor|]. split; [reflexivity|]. exists 2.
  assert (forall n, first_multiple n 1 n) as F by (intros n; split; [exists n; lia|split; [lia|intros k Hk; lia]]).
  split; [|apply F]. apply (c_cons 0 1 1 0); [apply F|]. apply (c_cons 1 1 1 1); [apply F|]. constructor.
Qed.

(** Every regular type that is stable has a C type, of the size and alignment that stabby declares for the type and that the
    type really takes; the C type is again regular and is its own C type. *)
Theorem ctype_layout_partial : forall g t d, regular g t = true -> layout (lower t) = Some d ->
  exists c e, ctype g t = Some c /\ layout (lower c) = Some e /\ dsize e = dsize d /\ dalign e = dalign d /\
    occupies g t (dsize d) (dalign d) /\ occupies g c (dsize d) (dalign d) /\ regular g c = true /\ ctype g c = Some c.
Proof.
  intros g t d R E. assert (fits (lower t) (sa d)) as F by (exists d; auto).
  destruct (ctype_good g t (sa d) R F) as (c & Ec & Rc & (e & Ee & Fe) & Oc & Cc). unfold sa in Fe. injection Fe as F1 F2.
  exists c, e. pose proof (regular_occupies g t (sa d) R F) as O. auto 10.
Qed.
Print Assumptions ctype_layout_partial.
Example ctype_ex :
  let t := XStruct [XInt 1 1; XRef 8; XEnum 1 1 [(false, []); (true, [XBool; XInt 4 4]); (false, [XInt 8 8])];
                    XUnion [XArr (XInt 1 1) 5; XInt 4 4]; XResult (XInt 4 4) (XInt 2 2); XResult (XRef 8) XUnit] in
  regular x64 t = true /\ option_map (fun d => (dsize d, dalign d)) (layout (lower t)) = Some (56, 8) /\
  ctype x64 t = Some (XStruct [XInt 1 1; XInt 8 8; XStruct [XInt 1 1; XInt 8 8]; XStruct [XInt 4 4; XInt 4 4];
                               XStruct [XStruct [XInt 4 4; XInt 4 4]]; XStruct [XInt 8 8]]).
Proof. repeat split; vm_compute; reflexivity. Qed.

(** [StableLike<T, NoNiches<..>>] gets [()] as its C type, whatever it emulates; a struct that contains one fails
    the assertion that the macro generates. *)
Theorem ctype_emulated_refuted : (forall g s a, ctype g (XLike s a) = Some XUnit) /\
  exists t, layout (lower t) <> None /\ ctype_assert x64 t = Some false.
Proof.
  split; [reflexivity|]. exists (XStruct [XInt 4 4; XLike 8 8]). split; [discriminate|vm_compute; reflexivity].
Qed.
Print Assumptions ctype_emulated_refuted.

(** On a target that aligns [u64] to 4, the C type of [u64] is [u32]; the same of [u128] aligned to 8. *)
Theorem ctype_integers_refuted :
  (exists c, ctype x86 (XInt 8 4) = Some c /\ occupies x86 (XInt 8 4) 8 4 /\ occupies x86 c 4 4) /\
  (forall g, al64 g = 8 -> exists c, ctype g (XInt 16 8) = Some c /\ occupies g (XInt 16 8) 16 8 /\ occupies g c 8 8) /\
  ctype_assert x86 (XStruct [XInt 8 4]) = Some false.
Proof.
  split; [exists (XInt 4 4); repeat split; constructor|]. split; [|vm_compute; reflexivity].
  intros g E. exists (XInt 8 8). cbn [ctype as_uint]. rewrite E. repeat split; constructor.
Qed.
Print Assumptions ctype_integers_refuted.

(** The C type of a union of zero bytes is [()], of alignment 1; an enum with such a payload fails the assertion. *)
Theorem ctype_zero_sized_refuted : exists t c, ctype x64 t = Some c /\ occupies x64 t 0 4 /\ occupies x64 c 0 1 /\
  ctype_assert x64 (XEnum 1 1 [(false, [t]); (false, [])]) = Some false.
Proof.
  exists (XUnion [XArr (XInt 4 4) 0]), XUnit. split; [vm_compute; reflexivity|]. split; [|split; [constructor|vm_compute; reflexivity]].
  apply (o_union _ _ [(0 * 4, 4)]); [constructor; [constructor; constructor|constructor]|]. split; [reflexivity|].
  split; [exists 0; reflexivity|]. split; [cbn; lia|]. intros k _. lia.
Qed.
Print Assumptions ctype_zero_sized_refuted.

(** The assertion generated for a struct or an enum never fires on a regular type. *)
Theorem ctype_assert_holds_partial : forall g t d, regular g t = true -> layout (lower t) = Some d -> ctype_assert g t = Some true.
Proof.
  intros g t d R E. destruct (ctype_layout_partial g t d R E) as (c & e & Ec & Ee & E1 & E2 & _). unfold ctype_assert.
  rewrite Ec, E, Ee, E1, E2, !Nat.eqb_refl. reflexivity.
Qed.
Print Assumptions ctype_assert_holds_partial.
Example ctype_assert_ex : ctype_assert x64 (XStruct [XInt 1 1; XUnion [XArr (XInt 2 2) 5; XInt 8 8]; XOrdering]) = Some true.
Proof. vm_compute. reflexivity. Qed.

(** The fields of a struct are at the same offsets in its C type. *)
Theorem ctype_fields_partial : forall g fs d, regular g (XStruct fs) = true -> layout (lower (XStruct fs)) = Some d ->
  exists cs l os, ctype g (XStruct fs) = Some (XStruct cs) /\ length cs = length fs /\
    occupy g fs l /\ occupy g cs l /\ c_struct 1 l os (dsize d) (dalign d).
Proof.
  intros g fs d R E. cbn [regular] in R. cbn [lower] in E. destruct (layout_struct_inv _ _ E) as (ps & Hps & Es).
  destruct (omap_good g fs) with (ps := ps) as (cs & Ec & Gc); [|exact R|exact Hps|].
  { apply Forall_forall. intros t _. apply ctype_good. }
  destruct (occupy_list g fs ps) as [O K]; [|exact R|exact Hps|].
  { apply Forall_forall. intros t _. apply regular_occupies. }
  destruct (fits_c_struct _ _ Hps (ok_p2 _ _ K)) as [os C]. rewrite <- Es in C.
  exists cs, ps, os. cbn [ctype]. rewrite Ec. split; [reflexivity|]. split; [|split; [exact O|split; [|exact C]]].
  - assert (forall (A B : Type) (Q : A -> B -> Prop) x y, Forall2 Q x y -> length x = length y) as HL by (clear; induction 1; cbn; congruence).
    rewrite (HL _ _ _ _ _ Gc), <- (HL _ _ _ _ _ Hps). apply map_length.
  - clear -Gc. induction Gc as [|c [s a] cs ps (_ & _ & O & _) _ IH]; constructor; assumption.
Qed.
Print Assumptions ctype_fields_partial.
Example ctype_fields_ex : regular x64 (XStruct [XInt 1 1; XRef 8; XBool]) = true /\ layout (lower (XStruct [XInt 1 1; XRef 8; XBool])) <> None.
Proof. split; [vm_compute; reflexivity|discriminate]. Qed.

(** The C type of an enum is its tag and then as many units as the union of its variants has. *)
Theorem ctype_enum_partial : forall g w a vs d, regular g (XEnum w a vs) = true -> layout (lower (XEnum w a vs)) = Some d ->
  exists u l us ua os, ctype g (XEnum w a vs) = Some (XStruct [XInt w a; u]) /\
    occupy_variants g vs l /\ c_union l us ua /\ occupies g u us ua /\ c_struct 1 [(w, a); (us, ua)] os (dsize d) (dalign d).
Proof.
  intros g w a vs d R E. assert (fits (lower (XEnum w a vs)) (sa d)) as F by (exists d; auto).
  pose proof (regular_occupies g _ _ R F) as O. inversion O as [| | | | | | | | | | | | | |? ? ? l us ua os ? ? Hl Hu Hs| |]; subst.
  destruct (ctype_good g _ _ R F) as (c & Ec & Rc & Fc & Oc & _).
  assert (exists u, c = XStruct [XInt w a; u]) as [u ->].
  { clear -Ec. cbn [ctype] in Ec. destruct (omap _ vs) as [ts|]; [|discriminate]. destruct (union_ctype g _) as [u|]; [|discriminate].
    injection Ec as <-. exists u. reflexivity. }
  destruct (enum_parts g w a vs (sa d) R F) as (du & ps & Eu & P1 & P2 & P3 & Hin & Ep & E1 & E8 & E2 & R3).
  assert (occupy_variants g vs ps) as Hov.
  { apply occupy_vars; [|assumption|assumption]. apply Forall_forall. intros v _. apply Forall_forall. intros t _. apply regular_occupies. }
  pose proof (usteps_c_union _ _ P2) as CU. rewrite <- P3 in CU.
  exists u, ps, (dsize du), (dalign du), os. split; [exact Ec|]. split; [exact Hov|]. split; [exact CU|].
  destruct (ctype_enum_payload g w a vs (sa d) R F) as (u' & du' & Ec' & Eu' & Ou').
  assert (u' = u) by congruence. assert (du' = du) by congruence. subst. split; [exact Ou'|].
  assert (l = ps) by (eapply occupy_variants_fun; eassumption). subst l. destruct (c_union_fun _ _ _ _ _ CU Hu) as [<- <-]. exact Hs.
Qed.
Print Assumptions ctype_enum_partial.
Example ctype_enum_ex : ctype x64 (XEnum 2 2 [(false, [XInt 8 8]); (true, [XBool; XBool; XInt 4 4])]) = Some (XStruct [XInt 2 2; XInt 8 8]).
Proof. vm_compute. reflexivity. Qed.

(** No bytes are forbidden in the C type of a type without [repr(align)] structs, so C may write anything; with such a
    struct, which is its own C type, it may not. *)
Theorem ctype_any_bytes_partial : forall g t c e s, no_align t = true -> ctype g t = Some c -> layout (lower c) = Some e -> ~ forbids (dfv e) s.
Proof. intros g t c e s N C E. apply quiet_forbids. exact (silent_quiet c (ctype_silent g t N c C) e E). Qed.
Print Assumptions ctype_any_bytes_partial.
Example ctype_any_bytes_ex : no_align (XStruct [XBool; XRef 8]) = true /\ ctype x64 (XStruct [XBool; XRef 8]) = Some (XStruct [XInt 1 1; XInt 8 8]).
Proof. split; reflexivity. Qed.
Theorem ctype_any_bytes_refuted : exists t c e s, ctype x64 t = Some c /\ layout (lower c) = Some e /\ length s = dsize e /\ forbids (dfv e) s.
Proof.
  exists (XAligned [XBool] 1). do 2 eexists. exists [7%N]. split; [reflexivity|]. split; [reflexivity|]. split; [reflexivity|].
  exists 7%N. split; [reflexivity|]. split; discriminate.
Qed.
Print Assumptions ctype_any_bytes_refuted.

(** The array of [n] units that unions and results are made of has exactly [n] units. *)
Theorem unit_array_exact : forall g al u n, unit_align g al = true -> as_uint g al = Some u -> 0 < n ->
  occupies g (tuple_array n u) (n * al) al /\ ctype g (tuple_array n u) = Some (tuple_array n u).
Proof.
  intros g al u n H E Hn. destruct (as_uint_good g al H) as (u' & E' & G). assert (u' = u) by congruence. subst.
  destruct (tuple_array_good g u al al n (p2_pos _ (unit_align_p2 _ _ H)) Hn G) as [(_ & _ & O & C) _]. split; assumption.
Qed.
Print Assumptions unit_array_exact.
Example unit_array_ex : tuple_array 5 (XInt 2 2) = XStruct [XStruct [XStruct [XInt 2 2; XInt 2 2]; XStruct [XInt 2 2; XInt 2 2]]; XInt 2 2].
Proof. vm_compute. reflexivity. Qed.
