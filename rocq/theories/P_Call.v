(** C90: calling a function that was loaded with its report. *)
From Coq Require Import String.
From Coq Require Import List Arith NArith Bool Lia.
From Verif Require Import M_Layout M_Result M_Report S_Report M_Trait M_FnReport S_FnReport M_Decl S_Decl M_Call S_Call L_Call.
Import ListNotations.

(** 64-bit machines. *)
Definition m64 : target := Tgt 8 8.
(** [struct Item { key: NonZeroU16, on: bool }] *)
Definition item : dty := DStruct (lit "Item") (lit "shop") 0 None [(lit "key", DPrim PNzU16); (lit "on", DPrim PBool)].
(** [extern "C" fn(Item, Result<bool, u8>) -> Item] *)
Definition toggle_sig : sig := Sig false false [item; DResult (DPrim PBool) (DPrim PU8)] item.
(** A library, compiled by a recent compiler, that exports a function of that type: it returns the item,
    switched on or off as it is told. *)
Definition toggle : export := Exp 16 toggle_sig (fun vs =>
  match vs with
  | [VPair (VRaw k) _; VOk (VBool b)] => k ++ [if b then 1%N else 0%N; 7%N]
  | _ => [1; 0; 0; 0]%N
  end).

(** C90, when types of the same name have as many fields on both sides and their reports say
    everything about them: the loader gets an error exactly when the two sides disagree on the type of the
    function; otherwise a call whose inputs are, for the caller, the bytes of the values [vs] gives the
    library's code these very values, and the caller gets the very value that this code returns.
    Missing: [repr(align)], [i128] and its non-zero relatives, [ManuallyDrop], [MaybeUninit],
    [UnsafeCell], enums. *)
Theorem call_across_partial : forall w e a asked ss vs v,
  declared (e_a128 e) (e_sig e) -> declared a asked -> same_fields (e_a128 e) a (e_sig e) asked ->
  passes w a asked ss vs -> answers w e vs v ->
  (call w a asked e ss = Returned v /\ same_sig (e_a128 e) a (e_sig e) asked) \/
  (call w a asked e ss = Refused /\ ~ same_sig (e_a128 e) a (e_sig e) asked).
Proof. intros. rewrite <- same_sig_fn. apply call_answers with vs; assumption. Qed.
Print Assumptions call_across_partial.
(** C90: a caller with the same declarations and the same compiler is never refused. *)
Theorem call_itself : forall w e ss vs v, declared (e_a128 e) (e_sig e) ->
  passes w (e_a128 e) (e_sig e) ss vs -> answers w e vs v -> call w (e_a128 e) (e_sig e) e ss = Returned v.
Proof. exact call_own. Qed.
Print Assumptions call_itself.

Ltac self := repeat first [apply SdStruct; [split; discriminate|] | apply SdResult | apply SdPtr | apply Forall_cons | apply Forall_nil
  | apply SdPrim; repeat split; discriminate].
Definition toggle_declared : forall a, u128_align a -> declared a toggle_sig.
Proof.
  intros a H. split; [exact H|]. split; [cbn; lia|].
  destruct H as [->| ->]; (apply Forall_cons; [split; [cbn [toggle_sig s_ret item snd]; self|vm_compute; discriminate]|]);
    cbn [toggle_sig s_args]; repeat (apply Forall_cons; [split; [unfold item; self|vm_compute; discriminate]|]); apply Forall_nil.
Defined.
(** The reports of the types of [toggle] do not depend on the compiler. *)
Definition arity_refl : forall r, same_arity r r.
Proof.
  fix IH 1. intros [n m v k fs]. constructor. induction fs as [|x fs F]; constructor; [apply IH|exact F].
Defined.
Example call_across_ex :
  declared (e_a128 toggle) (e_sig toggle) /\ declared 8 toggle_sig /\ same_fields 16 8 toggle_sig toggle_sig /\
  passes m64 8 toggle_sig [[5; 2; 0; 99]; [0; 1]]%N [VPair (VRaw [5; 2]%N) (VBool false); VOk (VBool true)] /\
  answers m64 toggle [VPair (VRaw [5; 2]%N) (VBool false); VOk (VBool true)] (VPair (VRaw [5; 2]%N) (VBool true)) /\
  call m64 8 toggle_sig toggle [[5; 2; 0; 99]; [0; 1]]%N = Returned (VPair (VRaw [5; 2]%N) (VBool true)) /\
  call m64 8 (Sig false false [item; DResult (DPrim PBool) (DPrim PI8)] item) toggle [[5; 2; 0; 99]; [0; 1]]%N = Refused.
Proof.
  split; [apply toggle_declared; now right|]. split; [apply toggle_declared; now left|].
  split; [|split; [|split; [|split]]].
  - intros d d' Hd Hd'. cbn in Hd, Hd'.
    destruct Hd as [<-|[<-|[<-|[]]]], Hd' as [<-|[<-|[<-|[]]]]; intros H; try (exfalso; vm_compute in H; discriminate H); apply arity_refl.
  - apply (proj2 (read_passes m64 8 _ _ _ _ _ _)). vm_compute. reflexivity.
  - vm_compute. reflexivity.
  - vm_compute. reflexivity.
  - vm_compute. reflexivity.
Qed.
Example call_itself_ex :
  passes m64 16 toggle_sig [[5; 2; 1; 99]; [0; 0]]%N [VPair (VRaw [5; 2]%N) (VBool true); VOk (VBool false)] /\
  answers m64 toggle [VPair (VRaw [5; 2]%N) (VBool true); VOk (VBool false)] (VPair (VRaw [5; 2]%N) (VBool false)).
Proof. split; [apply (proj2 (read_passes m64 16 _ _ _ _ _ _)); vm_compute; reflexivity|vm_compute; reflexivity]. Qed.

(** C90, refuted: a caller that declares an input as [MaybeUninit<NonZeroU8>] is handed a function of
    a [NonZeroU8], which it may give a zero. *)
Theorem call_uninit_refuted : exists e asked ss vs,
  s_args asked = [DWrap (DPrim PNzU8)] /\ s_args (e_sig e) = [DPrim PNzU8] /\
  passes m64 16 asked ss vs /\ call m64 16 asked e ss = Undefined.
Proof.
  exists (Exp 16 (Sig false false [DPrim PNzU8] (DPrim PBool)) (fun _ => [1%N])), (Sig false false [DWrap (DPrim PNzU8)] (DPrim PBool)),
    [[0%N]], [VRaw [0%N]].
  split; [reflexivity|]. split; [reflexivity|]. split; [|vm_compute; reflexivity].
  apply (proj2 (read_passes m64 16 _ _ _ _ _ _)). vm_compute. reflexivity.
Qed.
Print Assumptions call_uninit_refuted.
(** C90, refuted: a caller for which [Item] has no second field is handed the function; the library then
    reads beyond what it was given. *)
Theorem call_prefix_refuted : exists e asked ss vs, declared 16 asked /\ declared 16 (e_sig e) /\ e_a128 e = 16 /\
  passes m64 16 asked ss vs /\ call m64 16 asked e ss = Undefined.
Proof.
  exists (Exp 16 (Sig false false [item] (DPrim PBool)) (fun _ => [1%N])),
    (Sig false false [DStruct (lit "Item") (lit "shop") 0 None [(lit "on", DPrim PBool)]] (DPrim PBool)),
    [[1%N]], [VBool true].
  assert (D : forall d, self_described d -> path (dty_report 16 d) <> (bytes_of "signature", bytes_of "stabby") ->
    declared 16 (Sig false false [d] (DPrim PBool))).
  { intros d H P. split; [now right|]. split; [cbn; lia|]. cbn [s_ret s_args].
    apply Forall_cons; [split; [self|vm_compute; discriminate]|]. apply Forall_cons; [now split|apply Forall_nil]. }
  split; [apply D; [self|vm_compute; discriminate]|]. split; [apply D; [unfold item; self|vm_compute; discriminate]|].
  split; [reflexivity|]. split; [|vm_compute; reflexivity].
  apply (proj2 (read_passes m64 16 _ _ _ _ _ _)). vm_compute. reflexivity.
Qed.
Print Assumptions call_prefix_refuted.
(** C90, refuted: a caller whose struct holds an [i128], compiled before Rust 1.77, is handed a function
    that reads it elsewhere. *)
Theorem call_i128_refuted : exists e asked ss vs, e_sig e = asked /\
  passes m64 8 asked ss vs /\ call m64 8 asked e ss = Undefined.
Proof.
  set (s := Sig false false [DStruct (lit "P") (lit "m") 0 None [(lit "x", DPrim PU8); (lit "y", DPrim PI128)]] (DPrim PBool)).
  exists (Exp 16 s (fun _ => [1%N])), s, [repeat 1%N 24], [VPair (VRaw [1%N]) (VRaw (repeat 1%N 16))].
  split; [reflexivity|]. split; [|vm_compute; reflexivity].
  apply (proj2 (read_passes m64 8 _ _ _ _ _ _)). vm_compute. reflexivity.
Qed.
Print Assumptions call_i128_refuted.
