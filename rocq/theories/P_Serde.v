(** C74: serialisation and deserialisation. *)
From Coq Require Import NArith List Bool Lia.
From Verif Require Import M_Vec S_Vec L_Vec M_String M_Serde S_Serde L_Serde.
Import ListNotations.
Local Open Scope N_scope.

(** What is obtained is what the standard library's type would be, for all formats and all documents; memory is not misused.
    Partial: announced lengths must be such that byte counts fit in usize. *)
Theorem serde_sound_partial : forall doc w (fmt : request -> doc -> visit doc), sized w -> sober w fmt -> forall t d,
  de w fmt t d <> Undefined /\ (forall v, de w fmt t d = Got v -> std_de fmt t d = Some v) /\
  (de w fmt t d = Panics -> exists n, provides w n = false).
Proof.
  intros doc w fmt Hz Hs t d. destruct (de_main w fmt Hz Hs t d) as [[A B]|[(v & A & B)|[A B]]]; rewrite A.
  - split; [discriminate|]. split; [discriminate|]. intros _. exact B.
  - split; [discriminate|]. split; [|discriminate]. intros v' [= <-]. exact B.
  - split; [discriminate|]. split; discriminate.
Qed.
Print Assumptions serde_sound_partial.

(** Whatever the standard library's type accepts is accepted.
    Partial: also, the format must lend strings and bytes, and not give one for the other. *)
Theorem serde_complete_partial : forall doc w (fmt : request -> doc -> visit doc), sized w -> sober w fmt -> lending fmt -> forall t d,
  de w fmt t d = match std_de fmt t d with Some v => Got v | None => Refused end \/
  (de w fmt t d = Panics /\ exists n, provides w n = false).
Proof.
  intros doc w fmt Hz Hs L t d. destruct (de_main w fmt Hz Hs t d) as [[A B]|[(v & A & B)|[A B]]]; rewrite A.
  - right. split; [reflexivity|exact B].
  - left. rewrite B. reflexivity.
  - left. rewrite (B L). reflexivity.
Qed.
Print Assumptions serde_complete_partial.

(** What is serialised is what the standard library's type would be, and is read back, if the standard library's is. *)
Theorem serde_round_trip_partial : forall doc w (fmt : request -> doc -> visit doc) (write : calls -> doc),
  sized w -> sober w fmt -> lending fmt -> forall t v,
  std_ser v (ser v) /\
  forall c, std_ser v c -> std_de fmt t (write c) = Some v ->
  de w fmt t (write (ser v)) = Got v \/ (de w fmt t (write (ser v)) = Panics /\ exists n, provides w n = false).
Proof.
  intros doc w fmt write Hz Hs L t v. split; [apply ser_std; reflexivity|]. intros c C R. apply ser_std in C. subst c.
  destruct (serde_complete_partial doc w fmt Hz Hs L t (write (ser v))) as [A|A]; [left|right; exact A]. rewrite A, R. reflexivity.
Qed.
Print Assumptions serde_round_trip_partial.

(** Reading a sequence: all elements, in order; when one cannot be read, those already read are destroyed, once. *)
Theorem serde_sequence_partial : forall E s ok h (os : list (outcome E)), s <> 0 ->
  fits s (match h with Some h => h | None => 0 end + N.of_nat (length os)) ->
  (exists n, ok n = false /\ visit_seq s ok h os = Unwound []) \/
  exists pre rest, os = (map Got pre ++ rest)%list /\
    ((rest = [] /\ exists v', visit_seq s ok h os = Whole v' /\ v_as_slice v' = Some pre /\
        v_drop v' = Some (pre, negb (vcap v' =? 0))) \/
     (exists r, rest = Refused :: r /\ visit_seq s ok h os = Stopped pre) \/
     (exists r, rest = Panics :: r /\ visit_seq s ok h os = Unwound pre) \/
     (exists r, rest = Undefined :: r) \/
     (exists e r n, rest = Got e :: r /\ ok n = false /\ visit_seq s ok h os = Unwound (pre ++ [e]))).
Proof.
  intros E s ok h os Hs F. destruct (visit_seq_spec s ok h os Hs F) as [A|(pre & rest & Eq & C)]; [left; exact A|].
  right. exists pre, rest. split; [exact Eq|].
  destruct C as [(-> & v' & E3 & H)|[(r & -> & E3)|[(r & -> & E3)|[(r & -> & E3)|C]]]]; eauto 7.
  left. split; [reflexivity|]. exists v'. split; [exact E3|]. split; [exact (v_as_slice_spec s v' pre H)|exact (v_drop_spec s v' pre H)].
Qed.
Print Assumptions serde_sequence_partial.

(** A text format, whose documents are the calls: strings are lent only if they are in the document as they are, without escapes. *)
Definition escaped (b : N) : bool := (b <? 32) || (b =? 34) || (b =? 92).
Definition text (lend : bool) (r : request) (d : calls) : visit calls :=
  match r, d with
  | RNum, CNum n => VNum n
  | RStr, CStr s => VStr (if lend || negb (existsb escaped s) then Borrowed else Transient) s
  | RSeq, CSeq l => VSeq None (map Some l)
  | ROption, CNone => VNone
  | ROption, CSome d => VSome d
  | REnum, CVariant ok d => VEnum ok d
  | _, _ => VFail
  end.
(** All types have 8 bytes; there is memory, or up to a limit. *)
Definition here : world := World (fun _ => 8) (fun _ => true).
Definition small : world := World (fun _ => 8) (fun n => n <=? 2 ^ 30).
(** [Vec<Result<BoxedStr, Option<u64>>>]. *)
Definition ex_ty : sty := SSeq false (SResult (SString true) (SOption SNum)).
Definition ex_val : sval := XSeq [XOk (XText [104; 105]); XErr XNone; XErr (XSome (XNum 5))].
Definition short (r : request) (d : calls) : visit calls :=
  match text true r d with
  | VStr o s => if N.of_nat (length s) <? 100 then VStr o s else VFail
  | VSeq h l => if N.of_nat (length l) <? 100 then VSeq h l else VFail
  | v => v
  end.
Example serde_sound_ex : sized here /\ sober here short /\ lending short /\
  std_de short ex_ty (ser ex_val) = Some ex_val /\ de here short ex_ty (ser ex_val) = Got ex_val /\
  de here short ex_ty (CSeq [ser (XOk (XText [104])); CNum 3]) = Refused.
Proof.
  split; [intros t; discriminate|]. split; [split|split; [split; [|split]|]].
  - intros t d h l. unfold short. destruct (text true RSeq d) as [n|o s|o s|h' l'| | |d'|k d'|] eqn:Ef; try discriminate.
    + destruct (_ <? _); discriminate.
    + destruct (_ <? _) eqn:L; [|discriminate]. apply N.ltb_lt in L. intros [= <- <-].
      destruct d; try discriminate. injection Ef as <- _. cbv beta iota delta [size here]. lia.
  - intros d o s. unfold short. destruct (text true RStr d); try discriminate.
    + destruct (_ <? _) eqn:L; [|discriminate]. apply N.ltb_lt in L. intros [= <- <-]. lia.
    + destruct (_ <? _); discriminate.
  - intros d o s. unfold short, text. destruct d; try discriminate. destruct (_ <? _); [|discriminate]. intros [= <- _]. reflexivity.
  - intros d o s. unfold short, text. destruct d; try discriminate. destruct (_ <? _); discriminate.
  - intros d o s. unfold short, text. destruct d; discriminate.
  - vm_compute. auto.
Qed.
Example serde_sequence_ex : visit_seq 8 (fun _ => true) (Some 1) [Got 7; Got 8; Refused; Got 9] = Stopped [7; 8].
Proof. vm_compute. reflexivity. Qed.

(** Refuted: a [String] cannot be read when the format does not lend it: [deserialize] is that of [Str] (alloc/string.rs:382-390), whose
    visitor only accepts borrowed strings (str.rs:162-173). *)
Theorem serde_string_refuted : exists s,
  ser (XText s) = CStr s /\
  std_de (text false) (SString false) (CStr s) = Some (XText s) /\ de here (text false) (SString false) (CStr s) = Refused.
Proof. exists [104; 10]. vm_compute. auto. Qed.
Print Assumptions serde_string_refuted.

(** A binary format: the announced length comes first; the document ends early. *)
Inductive binary := Length (n : N) (l : list binary) | Num (n : N).
Definition bin (r : request) (d : binary) : visit binary :=
  match r, d with
  | RNum, Num n => VNum n
  | RSeq, Length n l => VSeq (Some n) (map Some l ++ if n =? N.of_nat (length l) then [] else [None])
  | _, _ => VFail
  end.
(** Refuted: the announced length is reserved as it is (alloc/vec.rs:869).  The standard library's vector refuses these documents with an error;
    stabby's writes out of bounds, since the byte count wraps to 0, or panics. *)
Theorem serde_length_refuted : exists d,
  std_de bin (SSeq false SNum) d = None /\ de here bin (SSeq false SNum) d = Undefined.
Proof. exists (Length (2 ^ 61) [Num 1]). vm_compute. auto. Qed.
Print Assumptions serde_length_refuted.
Theorem serde_length_panic_refuted : exists d,
  sized small /\ std_de bin (SSeq false SNum) d = None /\ de small bin (SSeq false SNum) d = Panics.
Proof. exists (Length (2 ^ 40) [Num 1]). split; [intros t; discriminate|]. vm_compute. auto. Qed.
Print Assumptions serde_length_panic_refuted.
