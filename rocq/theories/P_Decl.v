(** C57: reports and layouts (stabby-abi/src/report.rs, stable_impls/mod.rs, stabby-macros). *)
From Coq Require Import String List Arith NArith Bool.
From Verif Require Import M_Layout M_Report M_Decl S_Layout S_Report S_Decl L_Decl.
Import ListNotations.

(** 64-bit machines, and i686. *)
Definition x64 : target := Tgt 8 8.
Definition i686 : target := Tgt 4 4.
(** [struct Point { x: u32, y: &[u8; 3] }] *)
Definition point : dty := DStruct (lit "Point") (lit "my_crate") 0 None
  [(lit "x", DPrim PU32); (lit "y", DPtr KRef (DArr (DPrim PU8) 3))].
(** C57: equal reports describe equal layouts (sizes, alignments, niches), even when the two sides
    were compiled by compilers with different alignments of u128. Missing: [repr(align)], [i128]
    and its non-zero relatives, [ManuallyDrop], [MaybeUninit], [UnsafeCell]. *)
Theorem equal_reports_equal_layouts_partial : forall w a a' d d', u128_align a -> u128_align a' ->
  self_described d -> self_described d' ->
  dty_report a d = dty_report a' d' -> layout (dty_ty w a d) = layout (dty_ty w a' d').
Proof. exact report_layout. Qed.
Print Assumptions equal_reports_equal_layouts_partial.
Example equal_reports_equal_layouts_ex : self_described point /\ u128_align 8 /\ u128_align 16 /\
  dty_report 8 point = dty_report 16 point /\
  option_map dsize (layout (dty_ty x64 8 point)) = Some 16.
Proof.
  split; [|split; [now left|split; [now right|split; vm_compute; reflexivity]]].
  constructor; [split; discriminate|]. repeat constructor; discriminate.
Qed.
(** C57: so do compatible reports with as many fields, which is what a loaded function is checked by. *)
Theorem compatible_reports_equal_layouts_partial : forall w a a' d d', u128_align a -> u128_align a' ->
  self_described d -> self_described d' -> same_arity (dty_report a d) (dty_report a' d') ->
  is_compatible (dty_report a d) (dty_report a' d') = true ->
  layout (dty_ty w a d) = layout (dty_ty w a' d').
Proof. exact compatible_layout. Qed.
Print Assumptions compatible_reports_equal_layouts_partial.
Example compatible_reports_equal_layouts_ex :
  is_compatible (dty_report 8 (DPrim PU128)) (dty_report 16 (DPrim PU128)) = false /\
  is_compatible (dty_report 8 point) (dty_report 16 point) = true.
Proof. split; vm_compute; reflexivity. Qed.

(** C57, refuted: [repr(align(16))] changes the layout, not the report. *)
Theorem aligned_reports_refuted : exists n m fs al,
  let d := DStruct n m 0 None fs in let d' := DStruct n m 0 (Some al) fs in
  is_compatible (dty_report 16 d) (dty_report 16 d') = true /\
  option_map dsize (layout (dty_ty x64 16 d)) = Some 4 /\ option_map dsize (layout (dty_ty x64 16 d')) = Some 16.
Proof.
  exists (lit "P"), (lit "m"), [(lit "x", DPrim PU32)], 16. repeat split; vm_compute; reflexivity.
Qed.
Print Assumptions aligned_reports_refuted.
(** C57, refuted: [MaybeUninit<a::P>] and [MaybeUninit<b::P>] have the same report. *)
Theorem wrapped_reports_refuted : exists p q,
  self_described p /\ self_described q /\ dty_report 16 p <> dty_report 16 q /\
  dty_report 16 (DWrap p) = dty_report 16 (DWrap q) /\
  option_map dsize (layout (dty_ty x64 16 (DWrap p))) = Some 4 /\
  option_map dsize (layout (dty_ty x64 16 (DWrap q))) = Some 8.
Proof.
  exists (DStruct (lit "P") (lit "a") 0 None [(lit "x", DPrim PU32)]),
         (DStruct (lit "P") (lit "b") 0 None [(lit "x", DPrim PU64)]).
  split; [constructor; [split; discriminate|]; repeat constructor; discriminate|].
  split; [constructor; [split; discriminate|]; repeat constructor; discriminate|].
  split; [discriminate|]. repeat split; vm_compute; reflexivity.
Qed.
Print Assumptions wrapped_reports_refuted.
(** C57, refuted: [i128] has the same report with either alignment, unlike [u128]. *)
Theorem i128_reports_refuted :
  exists a a' d, u128_align a /\ u128_align a' /\ is_compatible (dty_report a d) (dty_report a' d) = true /\
  option_map dsize (layout (dty_ty x64 a d)) = Some 24 /\ option_map dsize (layout (dty_ty x64 a' d)) = Some 32.
Proof.
  exists 8, 16, (DStruct (lit "P") (lit "m") 0 None [(lit "x", DPrim PU8); (lit "y", DPrim PI128)]).
  split; [now left|]. split; [now right|]. repeat split; vm_compute; reflexivity.
Qed.
Print Assumptions i128_reports_refuted.

(** C57, refuted: on i686, compilers before and after Rust 1.77 align u128 on 4 and 16 bytes, which
    the name in the report does not tell apart. *)
Theorem u128_reports_refuted : exists w a a' d, target_ok w a /\ target_ok w a' /\
  self_described d /\ is_compatible (dty_report a d) (dty_report a' d) = true /\
  option_map dsize (layout (dty_ty w a d)) = Some 20 /\ option_map dsize (layout (dty_ty w a' d)) = Some 32.
Proof.
  exists i686, 4, 16, (DStruct (lit "P") (lit "m") 0 None [(lit "x", DPrim PU8); (lit "y", DPrim PU128)]).
  split; [repeat split; cbn; auto; discriminate|]. split; [repeat split; cbn; auto; discriminate|].
  split; [constructor; [split; discriminate|]; repeat constructor; discriminate|].
  repeat split; vm_compute; reflexivity.
Qed.
Print Assumptions u128_reports_refuted.

(** C65: what is declared of each primitive type is what Rust says of it. Missing: [c_void]. *)
Theorem primitive_declarations_partial : forall w a128 p, target_ok w a128 -> p <> PVoid ->
  exists d, layout (prim_ty w a128 p) = Some d /\
    declares d (rust_size w p) (rust_align w a128 p) (rust_valid p).
Proof. exact prim_declared. Qed.
Print Assumptions primitive_declarations_partial.
Example primitive_declarations_ex : target_ok x64 16 /\ target_ok i686 4 /\
  rust_size i686 PNzU64 = 8 /\ rust_align i686 4 PNzU64 = 4 /\ rust_valid PNzU64 [0; 0; 0; 0; 0; 0; 1; 0]%N.
Proof.
  split; [repeat split; cbn; auto; discriminate|]. split; [repeat split; cbn; auto; discriminate|].
  repeat split; try reflexivity. exists 1%N. split; [cbn; tauto|discriminate].
Qed.
(** C65: and of the pointers. *)
Theorem pointer_declarations : forall w a128 k, target_ok w a128 ->
  exists d, layout (ptr_ty w k) = Some d /\
    declares d (t_ptr w) (t_ptr w) (fun s => nullable k = true \/ exists b, In b s /\ b <> 0%N) /\
    dind d = true.
Proof. exact ptr_declared. Qed.
Print Assumptions pointer_declarations.
Example pointer_declarations_ex : exists d, layout (ptr_ty i686 KRef) = Some d /\
  forbids (dfv d) [0; 0; 0; 0]%N /\ ~ forbids (dfv d) [0; 16; 0; 0]%N.
Proof. eexists. split; [reflexivity|]. cbn. intuition discriminate. Qed.
(** C65, refuted: [c_void] is declared without size. *)
Theorem c_void_declaration_refuted : exists w a128 p d, target_ok w a128 /\
  layout (prim_ty w a128 p) = Some d /\ dsize d = 0 /\ rust_size w p = 1.
Proof.
  exists x64, 16, PVoid. eexists. split; [repeat split; cbn; auto; discriminate|]. repeat split; reflexivity.
Qed.
Print Assumptions c_void_declaration_refuted.
