(** C102: plain old data. *)
From Coq Require Import String.
From Coq Require Import List Arith NArith Bool Lia.
From Verif Require Import M_Layout S_Layout L_Layout L_Struct M_Result M_Report S_Report L_Report M_Core S_Core L_Core M_Decl S_Decl L_Decl M_Pod S_Pod L_Pod.
Import ListNotations.

(** A type is [IPod] exactly if it is stable, can be copied, has no pointers in it, and nobody has said that it is not. *)
Theorem pod_exact t : is_pod t = true <-> stable t = true /\ is_copy t = true /\ ~ tied t.
Proof.
  unfold is_pod. rewrite !andb_true_iff, negb_true_iff. pose proof (indirect_iff t) as I. destruct (indirect t).
  - split; [intros [[_ H] _]; discriminate H|]. intros (_ & _ & H). exfalso. apply H, I. reflexivity.
  - split; [|tauto]. intros [[S _] C]. split; [exact S|]. split; [exact C|]. intros H. apply I in H. discriminate H.
Qed.
Print Assumptions pod_exact.
(** 64-bit machines. *)
Definition m64 : machine := Machine (Tgt 8 8) 16 false.
(** [struct Item { key: NonZeroU16, on: bool, name: [u8; 5] }], [struct Slot { item: &Item, n: u32 }], [struct Key(NotPod<u32>)] *)
Definition item : pty := PStruct (lit "Item") (lit "shop") 0 None true
  [(lit "key", PPrim PNzU16); (lit "on", PPrim PBool); (lit "name", PArr (PPrim PU8) 5)].
Definition slot : pty := PStruct (lit "Slot") (lit "shop") 0 None true [(lit "item", PPtr KRef item); (lit "n", PPrim PU32)].
Definition key : pty := PStruct (lit "Key") (lit "shop") 0 None true [(lit "0", PNot (PPrim PU32))].
Example pod_exact_ex : is_pod item = true /\ is_pod slot = false /\ tied slot /\ is_pod key = false /\ tied key /\ is_pod (PPrim PAU32) = false /\
  ~ tied (PPrim PAU32) /\ (forall t, is_pod (PNot t) = false).
Proof.
  split; [reflexivity|]. split; [reflexivity|]. split; [apply indirect_iff; reflexivity|]. split; [reflexivity|]. split; [apply indirect_iff; reflexivity|].
  split; [reflexivity|]. split; [intros H; inversion H|]. intros t. unfold is_pod. cbn. rewrite andb_false_r. reflexivity.
Qed.

(** What can be copied is what is nowhere [unique]. *)
Theorem pod_copy t : is_copy t = true <-> ~ unique t.
Proof.
  pose proof (copy_iff t) as C. destruct (is_copy t).
  - split; [intros _ H; apply C in H; discriminate H|reflexivity].
  - split; [discriminate|]. intros H. exfalso. apply H, C. reflexivity.
Qed.
Print Assumptions pod_copy.
Example pod_copy_ex : is_copy item = true /\ unique (PPtr KRefMut item) /\ is_copy (PArr (PPrim PAU8) 2) = false /\ is_copy (PPtr KRef item) = true.
Proof. split; [reflexivity|]. split; [constructor|]. split; reflexivity. Qed.

(** The identifier of a type tells machines with other pointers or another order of bytes apart. *)
Theorem pod_machines sha m m' t : small_machine m -> small_machine m' -> m_u128 m = m_u128 m' ->
  identifier sha m t = identifier sha m' t -> t_ptr (m_target m) = t_ptr (m_target m') /\ m_big m = m_big m'.
Proof. exact (identifier_machine sha m m' t). Qed.
Print Assumptions pod_machines.
Example pod_machines_ex : small_machine m64 /\ small_machine (Machine (Tgt 8 8) 16 true) /\
  (forall sha, identifier sha m64 item <> identifier sha (Machine (Tgt 8 8) 16 true) item).
Proof.
  split; [split; vm_compute; repeat constructor|]. split; [split; vm_compute; repeat constructor|]. intros sha E.
  apply identifier_machine in E; [destruct E as [_ E]; discriminate E|split; vm_compute; repeat constructor|split; vm_compute; repeat constructor|reflexivity].
Qed.

(** This is what the layouts say of indirections, where there is no [NotPod]. *)
Theorem pod_layout w a t d : unmarked t = true -> layout (pod_ty w a t) = Some d -> (dind d = true <-> tied t).
Proof. intros U L. rewrite (dind_pointer _ _ L), (indirect_pointer w a t U). apply indirect_iff. Qed.
Print Assumptions pod_layout.
Example pod_layout_ex : option_map dind (layout (pod_ty (Tgt 8 8) 16 slot)) = Some true /\ option_map dind (layout (pod_ty (Tgt 8 8) 16 item)) = Some false.
Proof. split; vm_compute; reflexivity. Qed.

(** The types have the sizes and alignments that Rust gives them. Missing: [c_void], and structs without fields that are [repr(align)]. *)
Theorem pod_sizes_partial w a t : target_ok w a -> ordinary t ->
  exists d, layout (pod_ty w a t) = Some d /\ rust_layout w a t (dsize d) (dalign d).
Proof. intros T O. destruct (pod_sized w a T t O) as (d & L & R & _). exists d. split; [exact L|exact R]. Qed.
Print Assumptions pod_sizes_partial.
Example pod_sizes_ex : target_ok (Tgt 8 8) 16 /\ ordinary item /\ ordinary slot /\
  option_map (fun d => (dsize d, dalign d)) (layout (pod_ty (Tgt 8 8) 16 item)) = Some (8, 2) /\
  option_map (fun d => (dsize d, dalign d)) (layout (pod_ty (Tgt 8 8) 16 slot)) = Some (16, 8).
Proof.
  split; [unfold target_ok; cbn; intuition lia|]. split; [cbn; intuition discriminate|]. split; [cbn; intuition discriminate|]. split; vm_compute; reflexivity.
Qed.
(** Structs without fields that are [repr(align)] are said to have alignment 1. *)
Theorem pod_sizes_refuted : exists w a t d, target_ok w a /\ is_pod t = true /\ layout (pod_ty w a t) = Some d /\
  rust_layout w a t 0 8 /\ dalign d = 1.
Proof.
  exists (Tgt 8 8), 16, (PStruct (lit "Marker") (lit "shop") 0 (Some 8) true []). eexists. split; [unfold target_ok; cbn; intuition lia|].
  split; [reflexivity|]. split; [reflexivity|]. split; [|reflexivity].
  apply (RlStruct _ _ _ _ _ _ _ [] [] []); [constructor|]. split; [reflexivity|]. exists 0. split; [constructor|apply first_multiple_0].
Qed.
Print Assumptions pod_sizes_refuted.

(** If all bytes of a value are initialised: when it is sent to a machine with the same alignment of u64, and read as a type with the same identifier, the very value is
    received, in the same byte order; otherwise the receiver can tell. *)
Theorem pod_transfer_partial sha m t mem v m' t' s : is_pod t = true -> is_pod t' = true -> described t -> described t' ->
  no_collision sha m t m' t' -> same_u64 m m' -> holds m t mem v -> as_slice mem = Some s ->
  (identifier sha m t = identifier sha m' t' /\ transfer sha m t mem m' t' = Received v /\ m_big m = m_big m') \/
  (identifier sha m t <> identifier sha m' t' /\ transfer sha m t mem m' t' = Refused).
Proof.
  intros P P' D D' C U H A. unfold transfer. rewrite P, P', A. cbn [andb].
  destruct (N.eqb_spec (identifier sha m t) (identifier sha m' t')) as [E|E]; [left|right; auto].
  split; [exact E|]. destruct (C E) as [Ea Er]. apply arch_inj in Ea. destruct Ea as (E1 & E2 & E3). split; [|exact E3].
  assert (T : m_target m = m_target m').
  { destruct m as [[p u] a b], m' as [[p' u'] a' b']. unfold same_u64 in U. cbn in *. congruence. }
  apply pod_exact in P, P'. destruct P as [S _], P' as [S' _].
  assert (R : read m' t' s = Some v).
  { rewrite <- (H s (as_slice_fills _ _ A)). unfold read. rewrite <- T, <- E2 in *. f_equal. symmetry. apply report_pod_ty; assumption. }
  rewrite R. reflexivity.
Qed.
Print Assumptions pod_transfer_partial.
Definition item_bytes : list N := [5; 2; 1; 104; 101; 108; 108; 111]%N.
Definition item_value : val := VPair (VPair (VRaw [5; 2]%N) (VBool true)) (VArr (map (fun b => VRaw [b]) [104; 101; 108; 108; 111]%N)).
Definition whole_holds m t s v : read m t s = Some v -> holds m t (map Some s) v.
Proof.
  intros R s' F. assert (E : s' = s); [|rewrite E; exact R]. clear R. revert s' F. induction s as [|b s IH]; intros s' F; inversion F as [|? ? ? ? X Y]; subst; [reflexivity|].
  f_equal. apply IH. exact Y.
Qed.
Definition sbv_refl : forall r, same_but_version r r.
Proof. fix IH 1. intros [n m v k fs]. constructor. induction fs as [|x fs F]; constructor; [split; [reflexivity|apply IH]|exact F]. Qed.
Example pod_transfer_ex : is_pod item = true /\ described item /\ (forall sha, no_collision sha m64 item m64 item) /\ holds m64 item (map Some item_bytes) item_value /\
  as_slice (map Some item_bytes) = Some item_bytes /\
  (forall sha, transfer sha m64 item (map Some item_bytes) m64 item = Received item_value).
Proof.
  split; [reflexivity|]. split; [|split; [|split; [|split]]].
  - apply DeStruct; [split; [split; discriminate|discriminate]|]. apply Forall_cons; [apply DePrim|]. apply Forall_cons; [apply DePrim|].
    apply Forall_cons; [apply DeArr, DePrim|apply Forall_nil].
  - intros sha _. split; [reflexivity|apply sbv_refl].
  - apply whole_holds. vm_compute. reflexivity.
  - reflexivity.
  - intros sha. unfold transfer. cbn [as_slice map item_bytes]. rewrite N.eqb_refl. vm_compute. reflexivity.
Qed.

(** All bytes are initialised if the type has no gaps, unions, or [MaybeUninit]. *)
Theorem pod_dense m t mem v : dense (pod_ty (m_target m) (m_u128 m) t) -> holds m t mem v -> exists s, as_slice mem = Some s /\ read m t s = Some v.
Proof.
  intros D H. destruct (as_slice mem) as [s|] eqn:A.
  - exists s. split; [reflexivity|]. apply H, as_slice_fills. exact A.
  - exfalso. apply (as_slice_none mem A). assert (Z : (0 < 256)%N) by reflexivity. assert (O : (1 < 256)%N) by reflexivity.
    exact (dense_inj _ D _ _ v (H _ (fill_fills 0 mem Z)) (H _ (fill_fills 1 mem O))).
Qed.
Print Assumptions pod_dense.
Example pod_dense_ex : dense (pod_ty (Tgt 8 8) 16 item) /\ ~ dense (pod_ty (Tgt 8 8) 16 (PStruct (lit "P") (lit "m") 0 None true [(lit "a", PPrim PU16); (lit "b", PPrim PU8)])).
Proof. split; [vm_compute; repeat split|]. vm_compute. intros (_ & H). discriminate H. Qed.

(** Padding is not initialised: [struct P { a: u16, b: u8 }] is [IPod], but its bytes may not be read (istable.rs:92-95 says that they always may). *)
Theorem pod_padding_refuted : exists m t mem v, is_pod t = true /\ described t /\ holds m t mem v /\ forall sha m' t', is_pod t' = true -> transfer sha m t mem m' t' = Undefined.
Proof.
  exists m64, (PStruct (lit "P") (lit "m") 0 None true [(lit "a", PPrim PU16); (lit "b", PPrim PU8)]), [Some 1%N; Some 2%N; Some 3%N; None], (VPair (VRaw [1; 2]%N) (VRaw [3]%N)).
  split; [reflexivity|]. split; [|split].
  - apply DeStruct; [split; [split; discriminate|discriminate]|]. apply Forall_cons; [apply DePrim|]. apply Forall_cons; [apply DePrim|apply Forall_nil].
  - intros s F. inversion F as [|? a ? s1 A F1]; subst. inversion F1 as [|? b ? s2 B F2]; subst. inversion F2 as [|? c ? s3 C F3]; subst.
    inversion F3 as [|? d ? s4 D F4]; subst. inversion F4; subst. apply N.ltb_lt in D. unfold read.
    cbn [m64 m_target m_u128 pod_ty map snd prim_ty struct_ty fields_ty fold_left decode layout option_map]. cbn. rewrite D. reflexivity.
  - intros sha m' t' P. unfold transfer. rewrite P. reflexivity.
Qed.
Print Assumptions pod_padding_refuted.

(** [MaybeUninit<NonZeroU8>] is [IPod] and has the identifier of [NonZeroU8]: a zero is received as a value that must not be zero. *)
Theorem pod_uninit_refuted : exists m t t' mem v, is_pod t = true /\ is_pod t' = true /\ holds m t mem v /\ as_slice mem <> None /\
  forall sha, identifier sha m t = identifier sha m t' /\ transfer sha m t mem m t' = Undefined.
Proof.
  exists m64, (PUninit (PPrim PNzU8)), (PPrim PNzU8), [Some 0%N], (VRaw [0%N]).
  split; [reflexivity|]. split; [reflexivity|]. split; [apply (whole_holds m64 _ [0%N]); vm_compute; reflexivity|]. split; [discriminate|].
  intros sha. assert (E : identifier sha m64 (PUninit (PPrim PNzU8)) = identifier sha m64 (PPrim PNzU8)) by reflexivity.
  split; [exact E|]. unfold transfer. rewrite E, N.eqb_refl. vm_compute. reflexivity.
Qed.
Print Assumptions pod_uninit_refuted.

(** [repr(align)] is not part of the identifier: more bytes may be read than were sent. *)
Theorem pod_align_refuted : exists m t t' mem v, is_pod t = true /\ is_pod t' = true /\ holds m t mem v /\ as_slice mem <> None /\
  forall sha, identifier sha m t = identifier sha m t' /\ transfer sha m t mem m t' = Undefined.
Proof.
  exists m64, (PStruct (lit "P") (lit "m") 0 None true [(lit "a", PPrim PU8)]), (PStruct (lit "P") (lit "m") 0 (Some 4) true [(lit "a", PPrim PU8)]), [Some 7%N], (VRaw [7%N]).
  split; [reflexivity|]. split; [reflexivity|]. split; [apply (whole_holds m64 _ [7%N]); vm_compute; reflexivity|]. split; [discriminate|].
  intros sha. assert (E : forall al, identifier sha m64 (PStruct (lit "P") (lit "m") 0 al true [(lit "a", PPrim PU8)]) = identifier sha m64 (PStruct (lit "P") (lit "m") 0 None true [(lit "a", PPrim PU8)])) by (intros al; reflexivity).
  split; [symmetry; apply E|]. unfold transfer. rewrite (E (Some 4)), N.eqb_refl. vm_compute. reflexivity.
Qed.
Print Assumptions pod_align_refuted.

(** Nor is the alignment of u64: between 32-bit x86 and 32-bit RISC-V or WebAssembly, which agree on pointers, u128 and byte order, [struct P { a: u32, b: u64 }]
    has one identifier, 12 bytes here and 16 there. *)
Theorem pod_u64_refuted : exists m m' t mem v, is_pod t = true /\ described t /\ target_ok (m_target m) (m_u128 m) /\ target_ok (m_target m') (m_u128 m') /\
  holds m t mem v /\ as_slice mem <> None /\
  forall sha, identifier sha m t = identifier sha m' t /\ transfer sha m t mem m' t = Undefined.
Proof.
  set (t := PStruct (lit "P") (lit "m") 0 None true [(lit "a", PPrim PU32); (lit "b", PPrim PU64)]).
  set (m := Machine (Tgt 4 4) 16 false). set (m' := Machine (Tgt 4 8) 16 false).
  exists m, m', t, (map Some [1; 0; 0; 0; 2; 0; 0; 0; 0; 0; 0; 0]%N), (VPair (VRaw [1; 0; 0; 0]%N) (VRaw [2; 0; 0; 0; 0; 0; 0; 0]%N)).
  split; [reflexivity|]. split; [|split; [|split; [|split; [|split]]]].
  - apply DeStruct; [split; [split; discriminate|discriminate]|]. apply Forall_cons; [apply DePrim|]. apply Forall_cons; [apply DePrim|apply Forall_nil].
  - cbn [m m_target m_u128 t_ptr t_u64 target_ok]. split; [right; left; reflexivity|]. split; [left; reflexivity|]. split; [intros H; discriminate H|right; right; left; reflexivity].
  - cbn [m' m_target m_u128 t_ptr t_u64 target_ok]. split; [right; left; reflexivity|]. split; [right; left; reflexivity|]. split; [intros H; discriminate H|right; right; left; reflexivity].
  - apply whole_holds. vm_compute. reflexivity.
  - discriminate.
  - intros sha. assert (E : identifier sha m t = identifier sha m' t) by reflexivity.
    split; [exact E|]. unfold transfer. rewrite E, N.eqb_refl. vm_compute. reflexivity.
Qed.
Print Assumptions pod_u64_refuted.
