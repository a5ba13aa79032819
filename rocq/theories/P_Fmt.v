(** Property C103: formatting. *)
From Coq Require Import String.
From Coq Require Import List Arith NArith ZArith Bool Lia.
From Verif Require Import M_Report M_Decl M_Num M_Vec M_String M_BTree M_Fmt S_Fmt S_Vec L_Vec L_Num L_Fmt.
Import ListNotations.
Local Open Scope N_scope.
Local Open Scope list_scope.

(** Without parameters, and with [#]. *)
Definition plain_opts : opts := Opts false false false None 32 None None.
Definition alt_opts : opts := Opts true false false None 32 None None.
(** A [Debug] of str that quotes, and escapes nothing but newlines. *)
Definition quoted (s : list N) : list (list N) := [[34]; flat_map (fun c => if c =? 10 then [92; 110] else [c]) s; [34]].
Definition quoted_calm s : ~ In 10 (concat (quoted s)).
Proof.
  unfold quoted. cbn [concat]. intros I. apply in_app_iff in I as [[I|[]]|I]; [discriminate I|]. apply in_app_iff in I as [I|I].
  - apply in_flat_map in I as (c & J & I). destruct (N.eqb_spec c 10) as [E|E]; cbn in I; [destruct I as [I|[I|[]]]; discriminate I|destruct I as [I|[]]; now apply E].
  - apply in_app_iff in I as [[I|[]]|[]]. discriminate I.
Qed.

(** [Debug] of any nesting of stabby's containers writes what that of the standard types they stand for does, with any parameters:
    on one line, or indented. *)
Theorem debug_std : forall str_debug o v, (forall s, ~ In 10 (concat (str_debug s))) -> fill o <> 10 ->
  concat (debug str_debug o v) = show (alternate o) 0 (std_of str_debug o v).
Proof. intros sd o v H F. now apply debug_show. Qed.
Print Assumptions debug_std.

Definition sample : val := VSeq QVec [VSome (VStr XString (lit "a")); VNone; VSome (VSeq QArc [VU 7; VI 8 (-1)]); VEntry (VU 1) (VOk (VLike (VSeq QSlice [])))].
Example debug_std_ex : concat (debug quoted plain_opts sample) = lit "[Some(""a""), None, Some([7, -1]), Entry { key: 1, value: Ok([]) }]" /\
  concat (debug quoted alt_opts sample) = lit "[
    Some(
        ""a"",
    ),
    None,
    Some(
        [
            7,
            -1,
        ],
    ),
    Entry {
        key: 1,
        value: Ok(
            [],
        ),
    },
]" /\ (forall s, ~ In 10 (concat (quoted s))) /\ concat (debug quoted (Opts true true false (Some 6%nat) 32 None (Some true)) (VSeq QBoxed [VU 255])) = lit "[
    0x00FF,
]".
Proof. split; [reflexivity|]. split; [reflexivity|]. split; [apply quoted_calm|reflexivity]. Qed.

(** [Debug] of a set writes its values in order, each once, as sets in sets. *)
Theorem set_debug_partial : forall str_debug o T (f : T -> val) h t l, (forall s, ~ In 10 (concat (str_debug s))) -> fill o <> 10 ->
  set_each h t = Ret l ->
  exists d s, set_debug o (fun x => debug str_debug o (f x)) h t = Ret d /\ flat_map flatten s = l /\
    concat d = lit "ArcBTreeSet" ++ show (alternate o) 0 (TGroup (lit "{") (lit "}") (map (braces (fun x => std_of str_debug o (f x))) s)).
Proof.
  intros sd o T f h [a|] l H F E; cbn [set_each set_debug] in *.
  - destruct (node_debug_ok sd o H F f h _ _ _ E) as (d & s & D & S1 & S2). exists (lit "ArcBTreeSet" :: d), s. rewrite D. split; [reflexivity|]. split; [exact S2|].
    cbn [concat]. rewrite S1. reflexivity.
  - injection E as <-. exists [lit "ArcBTreeSet"; lit "{}"], []. split; [reflexivity|]. split; [reflexivity|]. cbn [show map]. destruct (alternate o); reflexivity.
Qed.
Print Assumptions set_debug_partial.

(** The sets after inserting some numbers, with SPLIT_LIMIT 3. *)
Definition set_after (l : list N) : option (heap N * tree) :=
  match wrun N.compare 3 false world0 (CNew :: map (CInsert 0) l) with
  | Some (Ret (w, _)) => match nth_error (sets w) 0 with Some (Some t) => Some (hp w, t) | _ => None end
  | _ => None
  end.
(** Sets of the same values, in the same order, that [Debug] writes differently: the nesting shows in which order they were inserted. *)
Theorem set_debug_refuted : exists l l' h t h' t' v d d', set_after l = Some (h, t) /\ set_after l' = Some (h', t') /\
  set_each h t = Ret v /\ set_each h' t' = Ret v /\
  set_debug plain_opts (fun x => debug quoted plain_opts (VU x)) h t = Ret d /\
  set_debug plain_opts (fun x => debug quoted plain_opts (VU x)) h' t' = Ret d' /\ concat d <> concat d'.
Proof.
  exists [1; 2; 3; 4], [4; 3; 2; 1].
  destruct (set_after [1; 2; 3; 4]) as [[h t]|] eqn:E; [|vm_compute in E; discriminate E].
  destruct (set_after [4; 3; 2; 1]) as [[h' t']|] eqn:E'; [|vm_compute in E'; discriminate E'].
  vm_compute in E, E'. injection E as <- <-. injection E' as <- <-.
  do 7 eexists. do 2 (split; [reflexivity|]). do 2 (split; [vm_compute; reflexivity|]). do 2 (split; [vm_compute; reflexivity|]).
  vm_compute. discriminate.
Qed.
Print Assumptions set_debug_refuted.
Example set_debug_ex : option_map (fun s => match set_debug plain_opts (fun x => debug quoted plain_opts (VU x)) (fst s) (snd s) with Ret d => Some (concat d) | _ => None end) (set_after [1; 2; 3; 4]) =
  Some (Some (lit "ArcBTreeSet{{1}, 2, {3, 4}}")).
Proof. vm_compute. reflexivity. Qed.

(** Different sequences of integers never look the same in hex, padded or not, unless what fills is itself a colon or a digit. *)
Theorem hex_exact_partial : forall up o l l', clear_fill o ->
  concat (hex_seq up o l) = concat (hex_seq up o l') <-> l = l'.
Proof. intros up o l l' C. split; [now apply hex_inj|now intros ->]. Qed.
Print Assumptions hex_exact_partial.
Example hex_exact_ex : concat (hex_seq false (Opts true true false (Some 4%nat) 32 None None) [1; 171; 70000]) = lit "0x01:0xab:0x11170" /\
  concat (hex_seq true (Opts false false false (Some 3%nat) 46 (Some ALeft) None) [10; 11]) = lit "A..:B.." /\
  clear_fill (Opts false false false (Some 3%nat) 46 (Some ALeft) None).
Proof. split; [reflexivity|]. split; [reflexivity|]. right; right. split; [discriminate|reflexivity]. Qed.
(** It does with such a fill. *)
Theorem hex_fill_refuted : exists up o l l', l <> l' /\ concat (hex_seq up o l) = concat (hex_seq up o l').
Proof.
  exists false, (Opts false false false (Some 2%nat) 49 (Some ALeft) None), [2], [33]. split; [discriminate|reflexivity].
Qed.
Print Assumptions hex_fill_refuted.
(** Sequences of sequences look the same in hex however they are split. *)
Theorem hex_nested_refuted : exists up o l l', clear_fill o /\ l <> l' /\ concat (hex_seq2 up o l) = concat (hex_seq2 up o l').
Proof. exists false, plain_opts, [[1]; [2]], [[1; 2]]. split; [now left|]. split; [discriminate|reflexivity]. Qed.
Print Assumptions hex_nested_refuted.

(** Integers without parameters are written in decimal, after a minus sign if negative; with [x?] and [X?], in hexadecimal, as their bits. *)
Theorem ints_text : forall o, width o = None -> plus o = false -> alternate o = false ->
  (forall n, text_value 10 (concat (display_u o n)) = n) /\
  (forall z, (0 <= z)%Z -> text_value 10 (concat (display_i o z)) = Z.to_N z) /\
  (forall z, (z < 0)%Z -> exists t, concat (display_i o z) = 45 :: t /\ text_value 10 t = Z.to_N (- z)) /\
  (forall up n, dhex o = Some up -> text_value 16 (concat (debug_u o n)) = n) /\
  (forall up w z, dhex o = Some up -> text_value 16 (concat (debug_i w o z)) = Z.to_N (z mod 2 ^ Z.of_N w)).
Proof.
  intros o W P A. unfold display_u, display_i, debug_u, debug_i, hex_u, pad_integral. rewrite W, P, A.
  assert (D : forall up b n, 2 <= b <= 16 -> text_value b (digits up b n ++ []) = n) by (intros up b n H; rewrite app_nil_r; now apply read_digits).
  split; [intros n; now apply D|]. split; [intros z H; rewrite (proj2 (Z.leb_le 0 z) H); cbn [concat app]; rewrite D by lia; lia|].
  split; [intros z H; rewrite (proj2 (Z.leb_gt 0 z) H); cbn [concat app]; eexists; split; [reflexivity|rewrite D by lia; lia]|].
  split; intros up; intros; rewrite H; cbn [concat app]; now apply D.
Qed.
Print Assumptions ints_text.
Example ints_text_ex : concat (display_i plain_opts (-120)) = lit "-120" /\ concat (debug_i 8 (Opts false false false None 32 None (Some true)) (-2)) = lit "FE".
Proof. split; reflexivity. Qed.
(** With any parameters but a width, [Debug] of integers of [w] bits tells them apart. *)
Theorem ints_debug_partial : forall o w z z', width o = None -> (0 < w)%N ->
  (- 2 ^ (Z.of_N w - 1) <= z < 2 ^ (Z.of_N w - 1))%Z -> (- 2 ^ (Z.of_N w - 1) <= z' < 2 ^ (Z.of_N w - 1))%Z ->
  concat (debug_i w o z) = concat (debug_i w o z') <-> z = z'.
Proof.
  intros o w z z' W Hw R R'. split; [|now intros ->]. unfold debug_i. destruct (dhex o) as [up|].
  - unfold hex_u, pad_integral. rewrite W. cbn [concat]. rewrite !app_nil_r. intros E. apply app_inv_head in E. apply digits_inj in E; [|lia].
    assert (Q : (2 ^ Z.of_N w = 2 * 2 ^ (Z.of_N w - 1))%Z) by (rewrite <- Z.pow_succ_r by lia; f_equal; lia).
    pose proof (Z.mod_pos_bound z (2 ^ Z.of_N w) ltac:(lia)). pose proof (Z.mod_pos_bound z' (2 ^ Z.of_N w) ltac:(lia)).
    pose proof (Z.div_mod z (2 ^ Z.of_N w) ltac:(lia)). pose proof (Z.div_mod z' (2 ^ Z.of_N w) ltac:(lia)). apply Z2N.inj in E; [|lia|lia].
    rewrite Q in *. set (m := (2 ^ (Z.of_N w - 1))%Z) in *. assert ((z / (2 * m) - z' / (2 * m)) = 0)%Z by nia. nia.
  - unfold display_i, pad_integral. rewrite W. cbn [concat]. rewrite !app_nil_r.
    assert (NA : forall A : list N, (if alternate o then @nil N else []) = []) by (intros _; now destruct (alternate o)). rewrite (NA []), !app_nil_r.
    assert (M : forall n, ~ In 45 (digits false 10 n)).
    { intros n I. apply digits_in in I as [d I]. unfold digit_char in I. assert (d mod 10 < 10) by now apply N.mod_lt.
      rewrite (proj2 (N.ltb_lt (d mod 10) 10)) in I by assumption. lia. }
    assert (HD : forall n t, digits false 10 n <> 45 :: t) by (intros n t E; apply (M n); rewrite E; now left).
    destruct (Z.leb_spec 0 z), (Z.leb_spec 0 z'); intros E.
    + apply app_inv_head in E. apply digits_inj in E; lia.
    + destruct (plus o); [discriminate E|]. now apply HD in E.
    + destruct (plus o); [discriminate E|]. symmetry in E. now apply HD in E.
    + apply app_inv_head in E. apply digits_inj in E; lia.
Qed.
Print Assumptions ints_debug_partial.
Example ints_debug_ex : concat (debug_i 8 (Opts true false true None 32 None (Some false)) (-1)) = lit "+0xff" /\
  concat (debug_i 8 (Opts true false true None 32 None (Some false)) 1) = lit "+0x1".
Proof. split; reflexivity. Qed.
(** With a width they may look the same, by the fill. *)
Theorem ints_debug_refuted : exists o z z', (- 128 <= z < 128)%Z /\ (- 128 <= z' < 128)%Z /\ z <> z' /\ concat (debug_i 8 o z) = concat (debug_i 8 o z').
Proof. exists (Opts false false false (Some 2%nat) 49 None None), 2%Z, 12%Z. repeat split; try lia; try reflexivity. Qed.
Print Assumptions ints_debug_refuted.

(** Narrow integers made by [new] display as the integer they were made of. *)
Theorem narrow_display_partial : forall o,
  (forall w n v x, n <= w -> um_new w n v = Some x -> display_um o x = display_u o (um_get w n x)) /\
  (forall w n v x, (0 < n < w)%Z -> im_new w n v = Some x -> display_im o x = display_i o (im_get w n x)).
Proof.
  intros o. split; intros w n v x H E.
  - destruct (um_round w n v x H E) as [-> ->]. reflexivity.
  - destruct (im_new_sound w n v x H E) as [_ ->]. apply im_new_some in E. now subst x.
Qed.
Print Assumptions narrow_display_partial.
Example narrow_display_ex : option_map (fun x => concat (display_im plain_opts x)) (im_new 8 6 (-32)) = Some (lit "-32") /\
  option_map (fun x => concat (display_um (Opts false true true (Some 5%nat) 32 None None) x)) (um_new 8 6 63) = Some (lit "+0063").
Proof. split; reflexivity. Qed.
(** [iN::MIN] displays as a positive number. *)
Theorem narrow_display_refuted : forall n w, (0 < n < w)%Z ->
  im_get w n (im_min w n) = (- 2 ^ (n - 1))%Z /\ display_im plain_opts (im_min w n) = display_i plain_opts (2 ^ (n - 1)) /\
  concat (display_im plain_opts (im_min w n)) <> concat (display_i plain_opts (im_get w n (im_min w n))).
Proof.
  intros n w H. split; [now apply im_get_min|]. rewrite im_get_min, im_min_val by exact H. split; [reflexivity|].
  assert (P : (0 < 2 ^ (n - 1))%Z) by (apply Z.pow_pos_nonneg; lia). revert P. generalize (2 ^ (n - 1))%Z. intros z P.
  unfold display_im, display_i, pad_integral, plain_opts. cbn [plus alternate width].
  replace (0 <=? z)%Z with true by (symmetry; apply Z.leb_le; lia). replace (0 <=? - z)%Z with false by (symmetry; apply Z.leb_gt; lia).
  cbn [concat app]. rewrite !app_nil_r. intros E. assert (I : In 45 (digits false 10 (Z.abs_N z))) by (rewrite E; now left).
  apply digits_in in I as [d I]. pose proof (digit_char_ge false (d mod 10)). lia.
Qed.
Print Assumptions narrow_display_refuted.
Example narrow_display_min : concat (display_im plain_opts (im_min 8 6)) = lit "32" /\ im_get 8 6 (im_min 8 6) = (-32)%Z.
Proof. split; reflexivity. Qed.

(** The text of a report says all that is in it. *)
Theorem report_display_partial : forall r r', readable r -> readable r' -> report_display r = report_display r' <-> r = r'.
Proof.
  intros r r' H H'. split; [|now intros ->]. intros E. apply (report_prefix r H r' [] [] H'). now rewrite !app_nil_r.
Qed.
Print Assumptions report_display_partial.
Definition report1 : report := Rep (lit "T") (lit "m::n") 3 KStruct [(lit "x", Rep (lit "u8") (lit "core::primitive") 0 KStruct []); (lit "y", Rep (lit "E") (lit "m") 12 (KEnum (lit "u8")) [])].
Example report_display_ex : report_display report1 = lit "Struct m::n :: T (version3) {x: Struct core::primitive :: u8 (version0) {}, y: Enum(""u8"") m :: E (version12) {}, }" /\ readable report1.
Proof.
  split; [reflexivity|]. assert (P : forall t, forallb (fun c => negb (c =? 32) && negb (c =? 34)) t = true -> plain t).
  { intros t E. apply Forall_forall. intros c I. rewrite forallb_forall in E. apply E in I. apply andb_true_iff in I as [A B]. split; intros ->; discriminate. }
  assert (Q : forall t, forallb (fun c => negb (c =? 58) && negb (c =? 125)) t = true -> plain_field t).
  { intros t E. apply Forall_forall. intros c I. rewrite forallb_forall in E. apply E in I. apply andb_true_iff in I as [A B]. split; intros ->; discriminate. }
  constructor; [now apply P|now apply P|exact Logic.I|]. intros f r [E|[E|[]]]; injection E as <- <-; (split; [now apply Q|]); constructor; try (now apply P); try exact Logic.I; intros f r [].
Qed.
(** Names with blanks, that can be given to the macro or written by hand, make different reports look the same. *)
Theorem report_display_refuted : exists r r', r <> r' /\ report_display r = report_display r'.
Proof.
  exists (Rep (lit "x") (lit "m :: n") 0 KStruct []), (Rep (lit "n :: x") (lit "m") 0 KStruct []). split; [discriminate|reflexivity].
Qed.
Print Assumptions report_display_refuted.

(** Writing to a String appends all the pieces, in order, and says so; or, when memory runs out, whole pieces up to some point. *)
Theorem string_write : forall ok ts s l, S_Vec.holds 1 s l -> fits 1 (N.of_nat (List.length l + List.length (concat ts))) ->
  (exists s', write_all ok ts s = Some (s', true) /\ S_Vec.holds 1 s' (l ++ concat ts)) \/
  (exists s' k, write_all ok ts s = Some (s', false) /\ (k < List.length ts)%nat /\ S_Vec.holds 1 s' (l ++ concat (firstn k ts)) /\ exists n, ok n = false).
Proof. intros ok ts s l. apply write_ok. Qed.
Print Assumptions string_write.
Example string_write_ex : let s := Vec [Some 104; Some 105; None] 2%nat 3 in S_Vec.holds 1 s [104; 105] /\
  option_map (fun r => (firstn (vlen (fst r)) (slots (fst r)), snd r)) (write_all (fun _ => true) (debug quoted plain_opts (VSome (VU 42))) s) = Some (map Some (lit "hiSome(42)"), true) /\
  option_map (fun r => (firstn (vlen (fst r)) (slots (fst r)), snd r)) (write_all (fun n => n <? 8) (debug quoted plain_opts (VSome (VU 42))) s) = Some (map Some (lit "hiSome("), false).
Proof. split; [|split]; [|vm_compute; reflexivity|vm_compute; reflexivity]. exists [None]. repeat split. Qed.
