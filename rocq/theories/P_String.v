(** Property theorems for C50: strings. *)
From Coq Require Import NArith List Bool Lia.
From Verif Require Import M_Alloc M_Vec S_Vec L_Vec M_Arc S_Arc M_ArcSlice S_ArcSlice P_ArcSlice M_String S_String L_String.
Import ListNotations.
Local Open Scope N_scope.

(** In any history of safe operations on a string, each operation does to the string what it does to the text, with the same answer, and the string's bytes are
    the encoding of the text.
    Partial: byte counts must stay below [2^64], iterators given to the vector must be honest (C18), and the allocator must have no bytes (refutation below). *)
Theorem string_history_partial : forall h, Forall (fun x => allowed (fst x)) h -> fits 1 (sweights h) ->
  exists s answers t bytes, srun true h v_new = Some (s, answers) /\ trun h [] t answers /\ v_as_slice s = Some bytes /\ is_text bytes t.
Proof.
  intros h A F. destruct (srun_spec h v_new [] A (holds_new 1) (Forall_nil _) F) as [s [t [l [E [H [S T]]]]]].
  exists s, l, t, (encode t). split; [exact E|]. split; [exact T|]. split; [exact (v_as_slice_spec 1 s _ H)|]. split; [exact S|reflexivity].
Qed.
Print Assumptions string_history_partial.
(** "hé", then "€𝄞" (refused once), upper case, bytes cut inside a character (refused), or at its start. *)
Definition yes (_ : N) := true.
Definition hist1 : list (sop * (N -> bool)) :=
  [(SFrom [104; 195; 169], yes); (STryConcat [226; 130; 172], fun _ => false); (SAddAssign [226; 130; 172; 240; 157; 132; 158], yes); (SCase true, yes); (SBoxed, yes);
   (SShared [Some ODowngrade; Some ODropWeak; Some (OUnique IntoInner)], yes); (SBytes [(Truncate 6, yes)], yes); (SClone, yes)].
Definition hist2 : list (sop * (N -> bool)) := hist1 ++ [(SBytes [(Pop, yes)], yes); (SAdd [33], yes)].
Example string_history_ex : Forall (fun x => allowed (fst x)) hist2 /\ fits 1 (sweights hist2) /\
  option_map (fun x => (v_as_slice (fst x), snd x)) (srun true hist1 v_new) = Some (Some [72; 195; 169; 226; 130; 172], [Good; Bad; Good; Good; Good; Good; Good; Good]) /\
  is_text [72; 195; 169; 226; 130; 172] [72; 233; 8364] /\
  option_map (fun x => (v_as_slice (fst x), snd x)) (srun true hist2 v_new) = Some (Some [33], [Good; Bad; Good; Good; Good; Good; Good; Good; Bad; Good]).
Proof.
  split.
  { repeat apply Forall_cons; try apply Forall_nil; cbn [fst allowed]; try exact I; try (repeat constructor; fail).
    - exists [104; 233]. split; [repeat constructor; unfold scalar; lia|reflexivity].
    - exists [8364]. split; [repeat constructor; unfold scalar; lia|reflexivity].
    - exists [8364; 119070]. split; [repeat constructor; unfold scalar; lia|reflexivity].
    - split; [split; cbn; intuition discriminate|reflexivity].
    - exists [33]. split; [repeat constructor; unfold scalar; lia|reflexivity]. }
  split; [reflexivity|]. split; [vm_compute; reflexivity|]. split; [split; [repeat constructor; unfold scalar; lia|reflexivity]|vm_compute; reflexivity].
Qed.

(** A vector of bytes becomes a string exactly when its bytes are those of some text, and then is unchanged. *)
Theorem string_try_from : forall v l, holds 1 v l ->
  (forall v', try_from_vec v = Some (v', Good) <-> v' = v /\ exists t, is_text l t) /\ (try_from_vec v = Some (v_new, Bad) <-> ~ exists t, is_text l t).
Proof.
  intros v l H. unfold try_from_vec. rewrite (v_as_slice_spec 1 v l H). pose proof (from_utf8_iff l) as K. destruct (from_utf8 l).
  - assert (exists t, is_text l t) as X by (apply K; reflexivity). split; [intros v'; split; [intros E; injection E as <-; auto|intros [-> _]; reflexivity]|].
    split; [discriminate|intros Y; destruct (Y X)].
  - assert (~ exists t, is_text l t) as X by (intros Y; apply K in Y; discriminate). split; [intros v'; split; [discriminate|intros [_ Y]; destruct (X Y)]|]. tauto.
Qed.
Print Assumptions string_try_from.
(** A surrogate (U+D800), an overlong "/" and a value above U+10FFFF are refused. *)
Example string_try_from_ex : map from_utf8 [[237; 160; 128]; [192; 175]; [244; 144; 128; 128]; [240; 157; 132; 158]; [226; 130]] = [false; false; false; true; false] /\
  try_from_vec (Vec [Some 195; Some 169] 2 2) = Some (Vec [Some 195; Some 169] 2 2, Good) /\ holds 1 (Vec [Some 195; Some 169] 2 2) [195; 169].
Proof. split; [reflexivity|]. split; [reflexivity|]. exists []. repeat split. Qed.
(** A text has one encoding, and bytes are the encoding of one text at most. *)
Theorem string_text_unique : forall l t u, is_text l t -> is_text l u -> t = u.
Proof.
  intros l t u [St Et] [Su Eu]. pose proof (cmp_before t u St Su) as H. rewrite <- Et, <- Eu, cmp_refl in H. exact H.
Qed.
Print Assumptions string_text_unique.
Example string_text_unique_ex : is_text [226; 130; 172; 33] [8364; 33].
Proof. split; [repeat constructor; unfold scalar; lia|reflexivity]. Qed.

(** Comparison of strings is that of their texts, by scalar values; equality is equality of texts. *)
Theorem string_order : forall s s' l l' t t', holds 1 s l -> holds 1 s' l' -> is_text l t -> is_text l' t' ->
  (str_cmp s s' = Some Lt <-> before t t') /\ (str_cmp s s' = Some Gt <-> before t' t) /\ (str_eq s s' = Some true <-> t = t') /\ str_eq s s' <> None.
Proof.
  intros s s' l l' t t' H H' [St ->] [St' ->]. unfold str_eq, str_cmp. rewrite (v_as_slice_spec 1 s _ H), (v_as_slice_spec 1 s' _ H'). cbn [option_map].
  pose proof (fun b => before_cmp t t' b St St') as B1. pose proof (fun b => before_cmp t' t b St' St) as B2.
  pose proof (cmp_before t t' St St') as C. rewrite cmp_antisym in B2.
  assert (t = t' -> cmp (encode t) (encode t') = Eq) as B3 by (intros ->; apply cmp_refl).
  destruct (cmp (encode t) (encode t')); cbn [CompOpp] in *.
  - split; [split; [discriminate|intros X; discriminate (B1 X)]|]. split; [split; [discriminate|intros X; discriminate (B2 X)]|]. split; [tauto|discriminate].
  - split; [tauto|]. split; [split; [discriminate|intros X; discriminate (B2 X)]|]. split; [split; [discriminate|intros X; discriminate (B3 X)]|discriminate].
  - split; [split; [discriminate|intros X; discriminate (B1 X)]|]. split; [tauto|]. split; [split; [discriminate|intros X; discriminate (B3 X)]|discriminate].
Qed.
Print Assumptions string_order.
(** U+FFFD comes before U+10000, although not in UTF-16. *)
Example string_order_ex : let s := Vec [Some 239; Some 191; Some 189; None] 3 4 in let s' := Vec [Some 240; Some 144; Some 128; Some 128] 4 4 in
  holds 1 s [239; 191; 189] /\ holds 1 s' [240; 144; 128; 128] /\ is_text [239; 191; 189] [65533] /\ is_text [240; 144; 128; 128] [65536] /\ str_cmp s s' = Some Lt.
Proof.
  cbn zeta. split; [exists [None]; repeat split|]. split; [exists []; repeat split|].
  split; [split; [repeat constructor; unfold scalar; lia|reflexivity]|]. split; [split; [repeat constructor; unfold scalar; lia|reflexivity]|reflexivity].
Qed.

(** A string made an [ArcStr] shows its text through every strong handle, whatever is done with the handles by one thread.
    Partial: see C27. *)
Theorem arc_str_text_partial : forall s l t zst ops, holds 1 s l -> is_text l t -> vcap s <> 0 \/ zst = true -> copy_slice_ops ops -> N.of_nat (length ops) < 2 ^ 61 ->
  (0 < n_arc (copy_owners_after ops))%nat ->
  exists bytes, slice_read (fold_left copy_slice_op ops (slice_of_vec zst s)) = Some bytes /\ is_text bytes t.
Proof.
  intros s l t zst ops H T C O L A. exists l. split; [|exact T].
  destruct (copy_slice_history_partial N 1 s l zst ops H C O L) as [_ [_ [_ [R _]]]]. exact (R A).
Qed.
Print Assumptions arc_str_text_partial.
Example arc_str_text_ex : let ops := [Some OClone; Some ODowngrade; Some ODropArc; Some ODropArc; None] in
  copy_slice_ops ops /\ n_arc (copy_owners_after ops) = 1%nat /\
  slice_read (fold_left copy_slice_op ops (slice_of_vec false (Vec [Some 195; Some 169; None] 2 3))) = Some [195; 169].
Proof. cbn zeta. split; [split; cbn; intuition discriminate|]. split; vm_compute; reflexivity. Qed.

(** With an allocator that has bytes, making an empty string an [ArcStr] is undefined behaviour (as for vectors, C27). *)
Theorem string_shared_refuted : exists h, Forall (fun x => allowed (fst x)) h /\ fits 1 (sweights h) /\ srun false h v_new = None.
Proof.
  exists [(SShared [], yes)]. split; [constructor; [|constructor]; split; [split; intros []|reflexivity]|]. split; reflexivity.
Qed.
Print Assumptions string_shared_refuted.
