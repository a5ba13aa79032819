(** C84: [repr] attributes (stabby-macros/src/structs.rs, unions.rs, enums.rs). *)
From Coq Require Import List Arith NArith Bool Lia.
From Verif Require Import M_Layout M_Result M_Core M_Attr S_Layout S_Core S_Attr L_Layout L_Struct L_Core L_Attr.
Import ListNotations.

Definition sizes (ds : list desc) : list (nat * nat) := map (fun d => (dsize d, dalign d)) ds.
Definition fields_have (ts : list ty) (ds : list desc) : Prop := Forall2 (fun t d => layout t = Some d) ts ds /\ Forall (fun d => 0 < dalign d) ds.
Ltac multiple k := cbn; split; [exists k; reflexivity|split; [lia|intros; lia]].
Ltac ins := repeat (match goal with
  | H : In _ _ |- _ => cbn in H
  | H : False |- _ => destruct H
  | H : _ \/ _ |- _ => destruct H as [H|H]
  | H : @eq item _ _ |- _ => first [discriminate H | injection H as <- | injection H as -> | injection H; clear H; intros; subst]
  end).
Ltac legalize k := unfold legal; cbn; repeat match goal with |- _ /\ _ => split end; unfold not; intros; ins; try (now exists k); try reflexivity.
Definition dummy : desc := unit_d.
Definition desc_of (t : ty) : desc := match layout t with Some d => d | None => dummy end.

(** C84: if the checks made by [ID] pass, then the compiler puts the fields of a struct where stabby says, whatever attributes it has (packed ones included).
    Missing: [align] alone. *)
Theorem struct_repr_partial : forall l ts ds d os size al,
  fields_have ts ds -> layout (struct_declared l ts) = Some d -> compiled_struct (said (struct_attrs l)) (sizes ds) os size al ->
  (In C (said l) \/ forall n, ~ In (Attr [Align n] false) l) -> id_check d size al = true -> at_c_offsets (sizes ds) os.
Proof. intros l ts ds d os size al [F P]. now apply struct_repr. Qed.
Print Assumptions struct_repr_partial.
(** [#[repr(packed(4))] struct { a: u8, b: u32, c: bool }]. *)
Definition three := [TPlain 1 1; TPlain 4 4; TBool].
Example c_three m : m = 1 \/ m = 4 -> c_struct m [(1, 1); (4, 4); (1, 1)] [0; 4; 8] 12 4.
Proof.
  intros [-> | ->]; (split; [reflexivity|]); exists 9; (split; [|multiple 3]).
  - apply (c_cons 0 1 1 0); [multiple 0|]. apply (c_cons 1 4 4 4); [multiple 1|]. apply (c_cons 8 1 1 8); [multiple 8|constructor].
  - apply (c_cons 0 1 1 0); [multiple 0|]. apply (c_cons 1 4 4 4); [multiple 1|]. apply (c_cons 8 1 1 8); [multiple 8|constructor].
Qed.
Example struct_repr_ex : exists d, fields_have three (map desc_of three) /\ layout (struct_declared [Attr [Packed 4] false] three) = Some d /\
  compiled_struct (said (struct_attrs [Attr [Packed 4] false])) (sizes (map desc_of three)) [0; 4; 8] 12 4 /\
  id_check d 12 4 = true /\ forall n, ~ In (Attr [Align n] false) [Attr [Packed 4] false].
Proof.
  eexists. split; [split; repeat constructor|]. split; [reflexivity|]. split.
  - split.
    + legalize 2.
    + exists 1, [(1, 1); (4, 4); (1, 1)]. split; [split; [now left|split; [lia|intros; ins]]|]. split.
      * repeat constructor; cbn; auto; intros n [[= <-]|[?|[]]]; try discriminate; lia.
      * apply c_three. now left.
  - split; [reflexivity|]. intros n [H|[]]. discriminate.
Qed.
(** C84: nothing needs checking if all that is said is [C] (in any number of attributes), [transparent], or [align] and then [C]. *)
Theorem struct_repr_unchecked_partial : forall l ts ds d os size al,
  fields_have ts ds -> ts <> [] -> layout (struct_declared l ts) = Some d -> compiled_struct (said (struct_attrs l)) (sizes ds) os size al ->
  ((forall i, In i (said l) -> i = C) \/ l = [Attr [Transparent] false] \/ exists n tr, l = [Attr [Align n] false; Attr [C] tr]) ->
  id_check d size al = true.
Proof.
  intros l ts ds d os size al [F P] NE L S [H|[->|(n & tr & ->)]].
  - eapply struct_plain; eauto.
  - eapply struct_transparent; eauto.
  - eapply struct_aligned; eauto.
Qed.
Print Assumptions struct_repr_unchecked_partial.
Example struct_repr_unchecked_ex : exists d, fields_have three (map desc_of three) /\
  layout (struct_declared [Attr [Align 4] false; Attr [C] true] three) = Some d /\ dsize d = 12 /\
  compiled_struct (said (struct_attrs [Attr [Align 4] false; Attr [C] true])) (sizes (map desc_of three)) [0; 4; 8] 12 4.
Proof.
  eexists. split; [split; repeat constructor|]. split; [reflexivity|]. split; [reflexivity|]. split.
  - legalize 2.
  - exists 4, [(1, 1); (4, 4); (1, 1)]. split; [split; [right; now left|split; [lia|intros n [[= <-]|[?|[]]]; [lia|discriminate]]]|]. split.
    + repeat constructor; cbn; auto; intros; ins.
    + apply c_three. now right.
Qed.
(** C84: attributes that the compiler accepts are still accepted on what is generated.  Missing: trailing commas. *)
Theorem struct_accepted_partial : forall l, (forall a, In a l -> trailing a = false) -> legal (said l) -> legal (said (struct_attrs l)).
Proof.
  intros l T (L1 & L2 & L3 & L4 & L5 & L6). unfold struct_attrs. destruct (find_repr l) as [x|] eqn:F; [rewrite app_nil_r; repeat split; assumption|].
  unfold said. rewrite flat_map_app. cbn [flat_map items app]. fold (said l).
  assert (K : forall i, i <> C -> In i (said l ++ [C]) -> In i (said l)) by (intros i Hi H; apply in_app_or in H as [H|[H|[]]]; congruence).
  unfold legal; repeat match goal with |- _ /\ _ => split end.
  - intros t H. apply (L1 t), K; [discriminate|exact H].
  - intros H. apply L2, K; [discriminate|exact H].
  - intros H. apply L3, K; [discriminate|exact H].
  - intros n m H G. apply (L4 n m); apply K; try discriminate; assumption.
  - intros n [H|H]; apply L5; [left|right]; apply K; try discriminate; assumption.
  - intros H. exfalso. apply K in H; [|discriminate]. pose proof (L6 H) as E. unfold said in H. apply in_flat_map in H as (a & Ha & Hi).
    assert (Ea : items a = [Transparent]).
    { apply in_split in Ha as (l1 & l2 & ->). unfold said in E. rewrite flat_map_app in E. cbn [flat_map] in E.
      apply in_split in Hi as (i1 & i2 & Hi). rewrite Hi in E |- *. assert (G := f_equal (@length item) E). repeat (rewrite app_length in G; cbn [length] in G).
      assert (length i1 = 0) by lia. assert (length i2 = 0) by lia. destruct i1, i2; try discriminate. reflexivity. }
    revert F. pose proof (T a Ha) as Tr. clear - Ha Ea Tr. induction l as [|b l IH]; [destruct Ha|]. cbn [find_repr]. destruct Ha as [->|Ha].
    + unfold parse_allowed. rewrite Ea, Tr. discriminate.
    + destruct (parse_allowed b); [discriminate|]. now apply IH.
Qed.
Print Assumptions struct_accepted_partial.
Example struct_accepted_ex : legal (said [Attr [Transparent] false]) /\ struct_attrs [Attr [Transparent] false] = [Attr [Transparent] false] /\
  legal (said [Attr [Packed 2] false]) /\ struct_attrs [Attr [Packed 2] false] = [Attr [Packed 2] false; Attr [C] false].
Proof. split; [legalize 0|]. split; [reflexivity|]. split; [legalize 1|reflexivity]. Qed.
(** C84, refuted: [#[repr(transparent,)]] is not understood, and [#[repr(C)]] added to it. *)
Theorem struct_accepted_refuted : exists l, legal (said l) /\ ~ legal (said (struct_attrs l)).
Proof.
  exists [Attr [Transparent] true]. split; [legalize 0|]. intros (_ & _ & _ & _ & _ & H). specialize (H (or_introl eq_refl)). discriminate.
Qed.
Print Assumptions struct_accepted_refuted.
(** C84, refuted: [#[repr(align(4))] struct S { a: bool, b: u16 }] is left to the compiler's own layout, which may put [b] first; [ID] checks nothing of it, and the value
    [S { a: true, b: 2 }] is then one that stabby says cannot be (so that an [Option<S>] takes it for [None]). *)
Theorem struct_align_refuted : exists l ts os size al d s,
  fields_have ts (map desc_of ts) /\ layout (struct_declared l ts) = Some d /\ compiled_struct (said (struct_attrs l)) (sizes (map desc_of ts)) os size al /\
  id_check d size al = true /\ length s = size /\
  Forall2 (fun t o => exists v, decode t (slice_at s o (dsize (desc_of t))) = Some v) ts os /\ forbids (dfv d) s.
Proof.
  exists [Attr [Align 4] false], [TBool; TPlain 2 2], [2; 0], 4, 4. eexists. exists [2; 0; 1; 0]%N.
  split; [split; repeat constructor|]. split; [reflexivity|]. split.
  - split.
    + legalize 2.
    + exists 4, [(1, 1); (2, 2)]. split; [split; [right; now left|split; [lia|intros n [[= <-]|[]]; lia]]|]. split.
      * repeat constructor; cbn; auto; intros; ins.
      * split; [reflexivity|]. split; [now exists 1|]. split.
        -- constructor; [split; [now exists 2|cbn; lia]|]. constructor; [split; [now exists 0|cbn; lia]|constructor].
        -- intros i j f g o p Nij Hf Hg Ho Hp. destruct i as [|[|i]], j as [|[|j]]; try (destruct i; discriminate); try (destruct j; discriminate); try lia;
             cbn in *; injection Hf as <-; injection Hg as <-; injection Ho as <-; injection Hp as <-; cbn; lia.
  - split; [reflexivity|]. split; [reflexivity|]. split.
    + constructor; [eexists; reflexivity|]. constructor; [eexists; reflexivity|constructor].
    + cbn. left. exists 2%N. split; [reflexivity|]. lia.
Qed.
Print Assumptions struct_align_refuted.
(** C84, refuted without evaluating [ID]: [#[repr(packed)]], though the parser has an error for it, and [#[repr(C, align(16))]] are accepted as if they were not there. *)
Theorem struct_unchecked_refuted : forall i, i = Packed 1 \/ i = Align 16 -> exists l ts os size al d,
  In i (said l) /\ fields_have ts (map desc_of ts) /\ layout (struct_declared l ts) = Some d /\
  compiled_struct (said (struct_attrs l)) (sizes (map desc_of ts)) os size al /\ size <> dsize d /\ al <> dalign d.
Proof.
  intros i [-> | ->].
  - exists [Attr [Packed 1] false], [TPlain 1 1; TPlain 4 4], [0; 1], 5, 1. eexists.
    split; [now left|]. split; [split; repeat constructor|]. split; [reflexivity|]. split; [|split; cbv; discriminate]. split.
    + legalize 0.
    + exists 1, [(1, 1); (4, 1)]. split; [split; [now left|split; [lia|intros; ins]]|]. split.
      * repeat constructor; cbn; auto; try lia; intros n [[= <-]|[?|[]]]; try discriminate; lia.
      * split; [reflexivity|]. exists 5. split; [|multiple 5].
        apply (c_cons 0 1 1 0); [multiple 0|]. apply (c_cons 1 4 1 1); [multiple 1|constructor].
  - exists [Attr [C; Align 16] false], [TPlain 4 4], [0], 16, 16. eexists.
    split; [right; now left|]. split; [split; repeat constructor|]. split; [reflexivity|]. split; [|split; cbv; discriminate]. split.
    + legalize 4.
    + exists 16, [(4, 4)]. split; [split; [right; right; now left|split; [lia|intros n [?|[[= <-]|[?|[]]]]; try discriminate; lia]]|]. split.
      * repeat constructor; cbn; auto; intros; ins.
      * split; [reflexivity|]. exists 4. split; [|multiple 1].
        apply (c_cons 0 4 4 0); [multiple 0|constructor].
Qed.
Print Assumptions struct_unchecked_refuted.

(** C84: unions have the size and alignment that stabby says, if their attributes say nothing but [C]. *)
Theorem union_repr_partial : forall l ts ds d size al,
  Forall2 (fun t d => layout t = Some d) ts ds -> Forall (fun d => al_ok (dalign d)) ds -> layout (union_ty ts) = Some d ->
  (forall i, In i (said l) -> i = C) -> compiled_union (said (union_attrs l)) (sizes ds) size al -> size = dsize d /\ al = dalign d.
Proof. exact union_plain. Qed.
Print Assumptions union_repr_partial.
Example union_repr_ex : compiled_union (said (union_attrs [])) (sizes (map desc_of [TPlain 3 1; TPlain 2 2])) 4 2 /\ layout (union_ty [TPlain 3 1; TPlain 2 2]) <> None.
Proof.
  split; [|discriminate]. split.
  - legalize 0.
  - exists 1, [(3, 1); (2, 2)]. split; [split; [now left|split; [lia|intros; ins]]|]. split.
    + repeat constructor; cbn; auto; intros; ins.
    + split; [reflexivity|]. multiple 2.
Qed.
(** C84, refuted: with [align] or [packed], and unions are not checked. *)
Theorem union_repr_refuted : exists l ts d size al, Forall (fun t => layout t <> None) ts /\ layout (union_ty ts) = Some d /\
  compiled_union (said (union_attrs l)) (sizes (map desc_of ts)) size al /\ size <> dsize d /\ al <> dalign d.
Proof.
  exists [Attr [Align 16] false], [TPlain 4 4]. eexists. exists 16, 16. split; [repeat constructor; discriminate|]. split; [reflexivity|]. split; [|split; cbv; discriminate]. split.
  - legalize 4.
  - exists 16, [(4, 4)]. split; [split; [right; now left|split; [lia|intros n [[= <-]|[?|[]]]; [lia|discriminate]]]|]. split.
    + repeat constructor; cbn; auto; intros; ins.
    + split; [reflexivity|]. multiple 1.
Qed.
Print Assumptions union_repr_refuted.

(** C84: the attributes of enums are read exactly: at most one, saying one thing besides [C]; [C] alone stands for [C, u8]; everything else is refused. *)
Theorem enum_repr_exactly : forall l r, enum_repr_of l = Some r <-> enum_says l r.
Proof. exact enum_exact. Qed.
Print Assumptions enum_repr_exactly.
Example enum_repr_ex : enum_repr_of [Attr [Int U8; C; Int U8] true] = Some (ETagged U8 true) /\ enum_repr_of [Attr [Int U8; Int U16] false] = None /\
  enum_repr_of [Attr [Int U8] false; Attr [C] false] = None /\ enum_repr_of [Attr [C; Stabby] false] = None /\ enum_repr_of [Attr [Int U8; Align 4] false] = None.
Proof. repeat split. Qed.
(** C84: the newtype that stands for a [repr(stabby)] enum has no attribute; but if its size passes the check then its only field is at its start. *)
Theorem enum_newtype : forall t d os size al, layout t = Some d -> 0 < dalign d -> compiled_struct [] (sizes [d]) os size al -> id_check d size al = true -> os = [0].
Proof.
  intros t d os size al L P (_ & minal & gs & A & B & S) K. cbn [existsb] in S. unfold id_check in K. apply andb_prop in K as [K1 _]. apply Nat.eqb_eq in K1.
  assert (gs = sizes [d]) as -> by (eapply bounded_same; [|exact B]; intros n []).
  destruct S as (_ & _ & F & _). cbn in F. inversion F as [|? o ? os' [_ H] F']; subst. inversion F'; subst. cbn in H. f_equal. lia.
Qed.
Print Assumptions enum_newtype.
Example enum_newtype_ex : exists d, layout (TResult (TPlain 4 4) TBool) = Some d /\ compiled_struct [] (sizes [d]) [0] (dsize d) (dalign d).
Proof.
  eexists. split; [reflexivity|]. split.
  - legalize 0.
  - exists 1. eexists. split; [split; [now left|split; [lia|intros n []]]|]. split; [repeat constructor; cbn; auto; intros n []|]. cbn [existsb].
    split; [reflexivity|]. split; [exists 2; reflexivity|]. split; [repeat constructor; cbn; try lia; now exists 0|].
    intros i j f g o p Nij Hf Hg. destruct i as [|[|i]], j as [|[|j]]; try discriminate; try lia; destruct i; discriminate.
Qed.
