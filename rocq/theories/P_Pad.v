(** C108: padding types are the bytes they say. *)
From Coq Require Import String Ascii.
From Coq Require Import List Arith NArith Bool Lia.
From Verif Require Import M_Typenum S_Typenum M_Layout S_Layout M_Report M_Pad S_Pad L_Pad.
Import ListNotations.
Local Open Scope nat_scope.

(** [Result<(), ()>], padded to seven bytes. *)
Definition unit_result : desc := match layout (TResult TUnit TUnit) with Some d => d | None => unit_d end.
Definition behind : pad := PMore (PHelper (PHelper (POf unit_result) true) false).

(** The size [stabby] tells is the one of the type. *)
Theorem pad_size_true : forall p, tsize (tell p) = enc (N.of_nat (rust_size p)).
Proof. exact tell_size. Qed.
Print Assumptions pad_size_true.
Example pad_size_ex : tsize (tell behind) = enc 7 /\ rust_size behind = 7.
Proof. vm_compute. split; reflexivity. Qed.

(** The bits told to be unused are those of padding bytes and those unused in the parameters. *)
Theorem pad_bits_true : forall p, inside p -> forall o i, bit_unused (tub (tell p)) o i <-> idle p o i.
Proof. exact tell_idle. Qed.
Print Assumptions pad_bits_true.
Example pad_bits_ex : inside behind /\ tub (tell behind) <> [] /\
  bit_unused (tub (tell behind)) 3 1 /\ ~ bit_unused (tub (tell behind)) 3 0.
Proof.
  replace behind with (PMore (PHelper (PHelper (POf (Desc 1 1 FEnd [(0, 254%N)] A0 false)) true) false)) by (vm_compute; reflexivity).
  assert (I : inside (PMore (PHelper (PHelper (POf (Desc 1 1 FEnd [(0, 254%N)] A0 false)) true) false))).
  { cbn. intros o i [v [[E|[]] _]]. injection E as <- _. lia. }
  split; [exact I|]. split; [vm_compute; discriminate|]. split.
  - apply pad_bits_true; [exact I|]. cbn. left. split; [lia|]. right; left. split; [lia|]. left. split; [lia|].
    exists 254%N. split; [left; reflexivity|reflexivity].
  - rewrite pad_bits_true by exact I. cbn.
    intros [[_ [[H _]|[[_ [[_ [v [[E|[]] H]]]|[[H _]|[_ [H _]]]]]|[H _]]]]|[H _]]; try lia; try discriminate.
    injection E as <-. discriminate.
Qed.

(** [U<n>::Padding] has [n] bytes, all of their bits unused, no forbidden value, niche or pointer. *)
Theorem padding_true : forall u, number u ->
  N.of_nat (rust_size (padding_of u)) = value u /\
  tsize (tell (padding_of u)) = enc (value u) /\
  (forall o i, bit_unused (tub (tell (padding_of u))) o i <-> (N.of_nat o < value u)%N /\ (i < 8)%N) /\
  tfv (tell (padding_of u)) = FEnd /\ tniche (tell (padding_of u)) = A0 /\ tind (tell (padding_of u)) = false.
Proof.
  intros u W. pose proof (padding_size u W) as E. split; [exact E|].
  split; [rewrite tell_size, E; reflexivity|]. split; [|exact (padding_rest u)].
  intros o i. rewrite tell_idle by apply padding_inside. rewrite padding_idle, <- E. split; intros [H H']; split; auto; lia.
Qed.
Print Assumptions padding_true.
Example padding_ex : number (build_u 5) /\ value (build_u 5) = 5%N /\
  tub (tell (padding_of (build_u 5))) = [(0, 255%N); (1, 255%N); (2, 255%N); (3, 255%N); (4, 255%N)] /\
  number (UInt UTerm false) /\ value (UInt UTerm false) = 0%N.
Proof. vm_compute. auto 10. Qed.

(** [NoNiches] has the size it tells, and the alignment it tells when that is 1. Missing: other alignments. *)
Theorem no_niches_partial : forall x, number (nn_size x) ->
  N.of_nat (fst (nn_rust x)) = value (tsize (fst (nn_told x))) /\
  (snd (nn_told x) = 1 <-> snd (nn_rust x) = snd (nn_told x)) /\
  (forall o i, ~ bit_unused (tub (fst (nn_told x))) o i).
Proof.
  intros x W. split; [exact (padding_size _ W)|]. split; [cbn; split; intros H; congruence|].
  intros o i [v [[] _]].
Qed.
Print Assumptions no_niches_partial.
Example no_niches_ex : number (nn_size (NN (build_u 24) 1 A1 true)) /\ nn_rust (NN (build_u 24) 1 A1 true) = (24, 1).
Proof. vm_compute. auto. Qed.

(** [NoNiches] has alignment 1 whatever it tells. *)
Theorem no_niches_refuted : exists x, number (nn_size x) /\ snd (nn_told x) = 8 /\ nn_rust x = (16, 1).
Proof. exists (NN (build_u 16) 8 A0 false). vm_compute. auto. Qed.
Print Assumptions no_niches_refuted.

(** Paddings of different sizes have the same report and the same identifier. *)
Theorem pad_report_refuted : exists u v r,
  number u /\ number v /\ value u <> value v /\
  pad_report (padding_of u) = Some r /\ pad_report (padding_of v) = Some r /\ is_compatible r r = true.
Proof.
  exists (build_u 1), (build_u 1000). eexists. split; [vm_compute; auto|]. split; [vm_compute; auto|].
  split; [vm_compute; discriminate|]. split; [reflexivity|]. split; reflexivity.
Qed.
Print Assumptions pad_report_refuted.

(** So do all the types described by [NoNiches]. *)
Theorem no_niches_report_refuted : exists x y,
  value (nn_size x) <> value (nn_size y) /\ nn_align x <> nn_align y /\ nn_ind x <> nn_ind y /\
  is_compatible (nn_report x) (nn_report y) = true /\
  forall sha arch, gen_id sha arch (nn_report x) = gen_id sha arch (nn_report y).
Proof.
  exists (NN (build_u 4) 4 A0 false), (NN (build_u 16) 8 A1 true).
  split; [vm_compute; discriminate|]. split; [vm_compute; discriminate|]. split; [vm_compute; discriminate|].
  split; [reflexivity|]. intros. reflexivity.
Qed.
Print Assumptions no_niches_report_refuted.
