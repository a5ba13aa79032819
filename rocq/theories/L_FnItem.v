(** Lemmas for C93. *)
From Coq Require Import String.
From Coq Require Import List NArith Arith Bool Lia.
From Verif Require Import M_Generics M_FnItem S_FnItem.
Import ListNotations.
Local Open Scope string_scope.
Local Open Scope list_scope.

Lemma attrs_ok : forall l a, (forall w, ~ In (Word w) l) -> exists b, parse_attrs a l = Some b /\
  (a_unsend b = true <-> a_unsend a = true \/ In Unsend l) /\ (a_unsync b = true <-> a_unsync a = true \/ In Unsync l) /\
  (asked_lt l (a_lt b) \/ (a_lt b = a_lt a /\ forall y, ~ In (Lifetime y) l)).
Proof.
  induction l as [|x l IH]; intros a H.
  - exists a. cbn. split; [reflexivity|]. split; [tauto|]. split; [tauto|]. right. auto.
  - assert (forall w, ~ In (Word w) l) as H' by (intros w Hw; apply (H w); right; exact Hw).
    destruct x as [| |n|w]; [| | |exfalso; apply (H w); left; reflexivity]; cbn [parse_attrs].
    + destruct (IH (Attrs true (a_unsync a) (a_lt a)) H') as (b & E & A & B & C). exists b. split; [exact E|]. cbn in A, B, C. cbn [In].
      split; [rewrite A; intuition|]. split; [rewrite B; intuition congruence|].
      destruct C as [C|[C D]].
      * left. unfold asked_lt in *. destruct (a_lt b); [|intros y [Q|Q]; [discriminate|exact (C y Q)]].
        destruct C as (l1 & l2 & -> & C). exists (Unsend :: l1), l2. auto.
      * right. split; [exact C|]. intros y [Q|Q]; [discriminate|exact (D y Q)].
    + destruct (IH (Attrs (a_unsend a) true (a_lt a)) H') as (b & E & A & B & C). exists b. split; [exact E|]. cbn in A, B, C. cbn [In].
      split; [rewrite A; intuition congruence|]. split; [rewrite B; intuition|].
      destruct C as [C|[C D]].
      * left. unfold asked_lt in *. destruct (a_lt b); [|intros y [Q|Q]; [discriminate|exact (C y Q)]].
        destruct C as (l1 & l2 & -> & C). exists (Unsync :: l1), l2. auto.
      * right. split; [exact C|]. intros y [Q|Q]; [discriminate|exact (D y Q)].
    + destruct (IH (Attrs (a_unsend a) (a_unsync a) (Some n)) H') as (b & E & A & B & C). exists b. split; [exact E|]. cbn in A, B, C. cbn [In].
      split; [rewrite A; intuition congruence|]. split; [rewrite B; intuition congruence|]. left.
      destruct C as [C|[C D]].
      * unfold asked_lt in *. destruct (a_lt b) as [m|] eqn:Q.
        -- destruct C as (l1 & l2 & -> & C). exists (Lifetime n :: l1), l2. auto.
        -- assert (forall l a c, parse_attrs a l = Some c -> a_lt a <> None -> a_lt c <> None) as G.
           { clear. induction l as [|x l IH]; intros a c E N; [injection E as <-; exact N|].
             destruct x; cbn [parse_attrs] in E; try discriminate; apply IH in E; auto; discriminate. }
           exfalso. apply (G _ _ _ E); [discriminate|exact Q].
      * rewrite C. exists [], l. auto.
Qed.
Lemma attrs_word : forall l a b w, parse_attrs a l = Some b -> ~ In (Word w) l.
Proof.
  induction l as [|x l IH]; intros a b w E; [intros []|]. intros [->|H]; [discriminate|].
  destruct x; cbn [parse_attrs] in E; try discriminate; eapply IH; eassumption.
Qed.
Lemma abi_ok : forall a q, gen_abi a = Some q -> q = QExtern (Some (asked_abi a)) /\ stable_abi (asked_abi a).
Proof.
  intros [| |s] q; cbn [gen_abi asked_abi].
  - intros E. injection E as <-. split; [reflexivity|left; reflexivity].
  - intros E. injection E as <-. split; [reflexivity|left; reflexivity].
  - destruct (existsb (String.eqb s) abis) eqn:X; [|discriminate]. intros E. injection E as <-. split; [reflexivity|].
    apply existsb_exists in X. destruct X as (y & Hy & E). apply String.eqb_eq in E. subst y. unfold stable_abi. cbn [abis In] in *. tauto.
Qed.
Lemma abi_some : forall a, stable_abi (asked_abi a) -> gen_abi a = Some (QExtern (Some (asked_abi a))).
Proof.
  intros [| |s] H; cbn [gen_abi asked_abi] in *; try reflexivity. replace (existsb (String.eqb s) abis) with true; [reflexivity|].
  symmetry. apply existsb_exists. exists s. split; [|apply String.eqb_refl]. unfold stable_abi in H. cbn [abis In] in *. tauto.
Qed.
Lemma asserts_types : forall f, (match f_out f with Some t => [t] | None => [] end) ++ map in_ty (f_ins f) = types f.
Proof. reflexivity. Qed.
Definition words (f : fnitem) : list qual :=
  (if f_unsafe f then [QUnsafe] else []) ++ (if f_const f then [QConst] else []) ++ [QExtern (Some (asked_abi (f_abi f)))].
Lemma words_read : forall f, p_quals (words f) = if f_unsafe f && f_const f then None else Some (f_const f, false, f_unsafe f, Some (Some (asked_abi (f_abi f)))).
Proof. intros f. unfold words. destruct (f_unsafe f), (f_const f); reflexivity. Qed.
Lemma types_ok : forall stable ts, forallb (fun t => nameable t && stable t) ts = true <->
  (forall t, In t ts -> stable t = true /\ t <> TNever /\ forall n, t <> TImpl n).
Proof.
  intros stable ts. rewrite forallb_forall. split; intros H t Ht; specialize (H t Ht).
  - apply andb_true_iff in H. destruct H as [A B]. split; [exact B|]. destruct t; try discriminate; split; congruence.
  - destruct H as (A & B & C). rewrite A. destruct t; try reflexivity; exfalso; [exact (C n eq_refl)|apply B; reflexivity].
Qed.
Lemma no_borrow : forall l, forallb (fun u => match u with Borrows _ => false | Moves _ => true end) l = true <-> forall n, ~ In (Borrows n) l.
Proof.
  intros l. rewrite forallb_forall. split.
  - intros H n Hn. specialize (H _ Hn). discriminate.
  - intros H [n|n] Hn; [exfalso; exact (H n Hn)|reflexivity].
Qed.
Lemma gen_shape : forall a f g, gen_fn a f = Some g -> stable_abi (asked_abi (f_abi f)) /\ g_quals g = words f /\ g_asserts g = types f /\ g_where g = [] /\
  g_params g = f_params f /\ g_name g = f_name f /\ g_ins g = f_ins f /\ g_body g = (if f_async f then InAsync (f_body f) else Own (f_body f)) /\
  g_out g = (if f_async f then ODyn (a_lt a) (FFuture (f_out f) :: (if a_unsend a then [] else [FSend]) ++ (if a_unsync a then [] else [FSync]))
             else match f_out f with None => ONone | Some t => OTy t end).
Proof.
  intros a f g. unfold gen_fn. destruct (gen_abi (f_abi f)) as [q|] eqn:E; [|discriminate]. intros H. injection H as <-.
  apply abi_ok in E. destruct E as [-> E]. repeat split. exact E.
Qed.
Lemma gfn_ok_iff : forall stable a f g, gen_fn a f = Some g ->
  (gfn_ok stable g = true <-> (f_unsafe f && f_const f = false /\
    (forall t, In t (types f) -> stable t = true /\ t <> TNever /\ forall n, t <> TImpl n) /\
    (f_async f = true -> forall n, ~ In (Borrows n) (f_body f)))).
Proof.
  intros stable a f g H. apply gen_shape in H. destruct H as (_ & Q & A & _ & _ & _ & _ & B & _).
  unfold gfn_ok. rewrite Q, A, B, words_read. destruct (f_unsafe f && f_const f).
  - split; [discriminate|intros (X & _); discriminate].
  - rewrite andb_false_r. cbn [negb]. rewrite !andb_true_iff, types_ok. destruct (f_async f); cbn [body_ok].
    + rewrite no_borrow. tauto.
    + split; [intros ((_ & X) & _)|intros (_ & X & _)]; repeat split; auto; try discriminate; apply X; assumption.
Qed.
Lemma marks : forall b c l, (b = true <-> In Unsend l) -> (c = true <-> In Unsync l) ->
  let vt := (if b then [] else [FSend]) ++ (if c then [] else [FSync]) in
  (In FSend vt <-> ~ In Unsend l) /\ (In FSync vt <-> ~ In Unsync l).
Proof.
  intros b c l A B. cbv zeta. rewrite <- A, <- B. destruct b, c; cbn; intuition congruence.
Qed.
Lemma fn_works_iff : forall stable l f, fn_works stable l f <-> fn_supported stable l f.
Proof.
  intros stable l f. unfold fn_works, fn_supported, stabby. split.
  - intros (g & E & O & K). destruct (parse_attrs attrs0 l) as [a|] eqn:P; [|discriminate].
    pose proof (gen_shape _ _ _ E) as (S1 & _ & _ & W & _). apply (gfn_ok_iff stable _ _ _ E) in O. destruct O as (A & B & C).
    destruct K as (_ & _ & K & _). split; [intros w; eapply attrs_word; exact P|]. split; [exact S1|].
    split; [intros [X Y]; rewrite X, Y in A; discriminate|]. split; [congruence|]. split; [exact B|exact C].
  - intros (HW & HA & HQ & HC & HT & HB). destruct (attrs_ok l attrs0 HW) as (a & P & U1 & U2 & LT). rewrite P.
    assert (exists g, gen_fn a f = Some g) as (g & E) by (unfold gen_fn; rewrite (abi_some _ HA); eauto).
    exists g. split; [exact E|]. assert (f_unsafe f && f_const f = false) as QF.
    { destruct (f_unsafe f) eqn:X, (f_const f) eqn:Y; try reflexivity. exfalso. apply HQ. auto. }
    split; [apply (gfn_ok_iff stable _ _ _ E); auto|].
    pose proof (gen_shape _ _ _ E) as (_ & Q & _ & W & PS & NM & IN & BD & OT). unfold kept.
    rewrite Q, W, PS, NM, IN, BD, OT, words_read, QF, HC. do 4 (split; [reflexivity|]). split; [reflexivity|]. split; [exact HA|].
    cbn [attrs0 a_unsend a_unsync a_lt] in U1, U2, LT.
    destruct (f_async f).
    + split; [reflexivity|]. split; [reflexivity|]. split.
      * destruct LT as [LT|[LT LN]]; [exact LT|]. rewrite LT. exact LN.
      * apply marks; [rewrite U1|rewrite U2]; intuition congruence.
    + destruct (f_out f); split; reflexivity.
Qed.
Lemma sound : forall stable l f g, stabby l f = Some g -> gfn_ok stable g = true ->
  (forall t, In t (types f) -> stable t = true) /\ exists c u s, p_quals (g_quals g) = Some (c, false, u, Some (Some s)) /\ stable_abi s.
Proof.
  intros stable l f g E O. unfold stabby in E. destruct (parse_attrs attrs0 l) as [a|]; [|discriminate].
  pose proof (gen_shape _ _ _ E) as (S1 & Q & _). apply (gfn_ok_iff stable _ _ _ E) in O. destruct O as (A & B & C).
  split; [intros t Ht; apply B; exact Ht|]. rewrite Q, words_read, A. eauto 6.
Qed.

(** ** Exports *)
Lemma sig_words : forall f, p_quals (t_quals (signature f)) =
  Some (false, f_async f, f_unsafe f, match f_abi f with ANone => None | AExtern => Some None | ANamed s => Some (Some s) end).
Proof. intros f. unfold signature. cbn [t_quals]. destruct (f_async f), (f_unsafe f), (f_abi f); reflexivity. Qed.
Lemma export_shape : forall f, export f = match gen_fn attrs0 f with None => None | Some d =>
  Some (Exported d (signature f)
    (Gfn [QExtern (Some "C")] (String.append (f_name f) "_stabbied_v3") [] [] [Arg (PName 0) TReport] (OTy TOptFn) [TOptFn; TReport] CheckReport)
    (Gfn [QExtern (Some "C")] (String.append (String.append (f_name f) "_stabbied_v3") "_report") [] [] [] (OTy TReport) [TReport] GetReport)) end.
Proof. intros f. unfold export. destruct (gen_fn attrs0 f); reflexivity. Qed.
Lemma append_assoc : forall a b c, String.append (String.append a b) c = String.append a (String.append b c).
Proof. induction a as [|x a IH]; intros b c; [reflexivity|]. cbn. rewrite IH. reflexivity. Qed.
Lemma c_abi : forall a, match a with ANone => false | AExtern => existsb (String.eqb "C") ["C"; "C-unwind"]
    | ANamed s => existsb (String.eqb s) ["C"; "C-unwind"] end = true <-> (a = AExtern \/ a = ANamed "C" \/ a = ANamed "C-unwind").
Proof.
  intros [| |s]; [intuition discriminate|intuition|]. rewrite existsb_exists. cbn [In]. split.
  - intros (x & [<-|[<-|[]]] & E); apply String.eqb_eq in E; subst s; auto.
  - intros [E|[E|E]]; try discriminate; injection E as ->; eexists; (split; [|apply String.eqb_refl]); auto.
Qed.
Lemma exported_iff : forall stable f d, gen_fn attrs0 f = Some d -> gfn_ok stable d = true -> f_where f = [] ->
  forall x, export f = Some x ->
  (exported_ok stable x = true <-> (f_async f = false /\ (f_abi f = AExtern \/ f_abi f = ANamed "C" \/ f_abi f = ANamed "C-unwind") /\
    Forall (fun i => exists n t, i = Arg (PName n) (TPlain t)) (f_ins f) /\ (forall t, f_out f = Some t -> exists n, t = TPlain n) /\
    Forall (fun p => is_lt p = true) (f_params f) /\ (length (f_ins f) <= 15)%nat)).
Proof.
  intros stable f d G O HC x X. rewrite export_shape, G in X. injection X as <-.
  pose proof (gen_shape _ _ _ G) as (_ & Q & _ & _ & PS & _). pose proof O as O'. apply (gfn_ok_iff stable _ _ _ G) in O'. destruct O' as (QF & TS & _).
  unfold exported_ok. cbn [x_def x_sig x_stabbied x_report]. rewrite O. unfold gfn_ok at 1 2.
  cbn [g_quals g_asserts g_body p_quals forallb nameable body_ok andb negb]. rewrite !andb_true_r.
  unfold fnty_ok, fnty_stable, coerces. rewrite Q, words_read, QF, sig_words, PS. cbn [signature t_ins t_out].
  destruct (f_async f) eqn:EA; [cbn; split; [discriminate|intros (Z & _); discriminate]|].
  assert (forall s0, asked_abi (f_abi f) = match s0 with None => "C" | Some s1 => s1 end ->
    (forallb in_sig (f_ins f) && out_sig (f_out f) &&
     (existsb (String.eqb (match s0 with None => "C" | Some s1 => s1 end)) ["C"; "C-unwind"] &&
      forallb (fun i => match in_ty i with TPlain n => stable (TPlain n) | _ => false end) (f_ins f) &&
      match f_out f with None => true | Some (TPlain n) => stable (TPlain n) | Some _ => false end && (length (f_ins f) <=? 15)%nat) &&
     (String.eqb (asked_abi (f_abi f)) (match s0 with None => "C" | Some s1 => s1 end) && implb (f_unsafe f) (f_unsafe f) && forallb is_lt (f_params f)) = true <->
     existsb (String.eqb (match s0 with None => "C" | Some s1 => s1 end)) ["C"; "C-unwind"] = true /\
     Forall (fun i => exists n t, i = Arg (PName n) (TPlain t)) (f_ins f) /\ (forall t, f_out f = Some t -> exists n, t = TPlain n) /\
     Forall (fun p => is_lt p = true) (f_params f) /\ (length (f_ins f) <= 15)%nat)) as MAIN.
  { intros s0 ES. rewrite ES, String.eqb_refl. replace (implb (f_unsafe f) (f_unsafe f)) with true by (destruct (f_unsafe f); reflexivity).
    cbn [andb]. rewrite !andb_true_iff, !forallb_forall, !Forall_forall, Nat.leb_le. split.
    - intros (((A1 & A2) & B) & D). destruct B as (((B1 & B2) & B3) & B4). split; [exact B1|]. split; [|split; [|split; [exact D|exact B4]]].
      + intros i Hi. pose proof (A1 i Hi) as A. specialize (B2 i Hi). destruct i as [|[n|n|n] t]; try discriminate.
        cbn [in_ty] in B2. destruct t; try discriminate. eauto.
      + intros t Ht. rewrite Ht in B3. destruct t; try discriminate. eauto.
    - intros (A & B & C & D & E). split; [split|exact D].
      + split.
        * intros i Hi. destruct (B i Hi) as (n & t & ->). reflexivity.
        * destruct (f_out f) as [t|]; [|reflexivity]. destruct (C t eq_refl) as (n & ->). reflexivity.
      + split; [split; [split; [exact A|]|]|exact E].
        * intros i Hi. destruct (B i Hi) as (n & t & ->). cbn [in_ty]. apply TS. unfold types. apply in_app_iff. right.
          apply in_map_iff. exists (Arg (PName n) (TPlain t)). auto.
        * destruct (f_out f) as [t|] eqn:EO; [|reflexivity]. destruct (C t eq_refl) as (n & ->). apply TS. unfold types. rewrite EO. left. reflexivity. }
  assert (forall a b c : bool, a && b && c && b = a && b && c) as DUP by (intros [] [] []; reflexivity).
  pose proof (c_abi (f_abi f)) as CA. destruct (f_abi f) as [| |s0]; cbn [asked_abi] in *.
  - rewrite andb_false_r. cbn [andb]. split; [discriminate|]. intros (_ & Z & _). apply CA in Z. discriminate.
  - specialize (MAIN None eq_refl). cbn iota in MAIN. rewrite DUP, <- CA, MAIN. intuition.
  - specialize (MAIN (Some s0) eq_refl). cbn iota in MAIN. rewrite DUP, <- CA, MAIN. intuition.
Qed.
Lemma export_works_iff : forall stable f, export_works stable f <-> export_supported stable f.
Proof.
  intros stable f. unfold export_works, export_supported. rewrite <- fn_works_iff. unfold fn_works, stabby. cbn [parse_attrs]. split.
  - intros (x & E & O & K & Y). pose proof E as E'. rewrite export_shape in E'. destruct (gen_fn attrs0 f) as [d|] eqn:G; [|discriminate].
    injection E' as <-. cbn [x_def] in K. assert (gfn_ok stable d = true) as OD.
    { unfold exported_ok in O. rewrite !andb_true_iff in O. apply O. }
    split; [exists d; auto|]. eapply exported_iff; try eassumption.
    destruct K as (_ & _ & K & _). pose proof (gen_shape _ _ _ G) as (_ & _ & _ & W & _). congruence.
  - intros ((d & G & OD & K) & R). rewrite export_shape, G. eexists. split; [reflexivity|]. cbn [x_def]. split; [|split; [exact K|]].
    + eapply (exported_iff stable f d G OD); [|rewrite export_shape, G; reflexivity|exact R].
      destruct K as (_ & _ & K & _). pose proof (gen_shape _ _ _ G) as (_ & _ & _ & W & _). congruence.
    + unfold symbols. cbn [x_def x_stabbied x_report g_name]. rewrite append_assoc.
      pose proof (gen_shape _ _ _ G) as (_ & _ & _ & _ & _ & -> & _). reflexivity.
Qed.
(** What is handed to a loader. *)
Lemma export_sound : forall stable f x, export f = Some x -> exported_ok stable x = true ->
  (forall t, In t (types f) -> stable t = true) /\
  exists c u s, p_quals (g_quals (x_def x)) = Some (c, false, u, Some (Some s)) /\ In s ["C"; "C-unwind"] /\
    exists s', p_quals (t_quals (x_sig x)) = Some (false, false, u, Some s') /\ (match s' with None => "C" | Some y => y end) = s /\
      t_ins (x_sig x) = g_ins (x_def x) /\ g_out (x_def x) = (match t_out (x_sig x) with None => ONone | Some t => OTy t end).
Proof.
  intros stable f x E O. pose proof E as E'. rewrite export_shape in E'. destruct (gen_fn attrs0 f) as [d|] eqn:G; [|discriminate].
  assert (exported_ok stable x = true) as O' by exact O. unfold exported_ok in O'. rewrite !andb_true_iff in O'. destruct O' as (((((A & B) & C) & D) & _) & _).
  injection E' as <-. cbn [x_def x_sig] in *. pose proof (gen_shape _ _ _ G) as (_ & Q & _ & _ & _ & _ & IN & _ & OT).
  pose proof A as A'. apply (gfn_ok_iff stable _ _ _ G) in A'. destruct A' as (QF & TS & _).
  split; [intros t Ht; apply TS; exact Ht|]. unfold fnty_ok, fnty_stable, coerces in *. rewrite sig_words in *. rewrite Q, words_read, QF in *.
  destruct (f_async f); [discriminate|]. cbn [signature t_ins t_out]. rewrite OT, IN.
  destruct (f_abi f) as [| |s0] eqn:EA; [discriminate| |]; cbn [asked_abi].
  - exists (f_const f), (f_unsafe f), "C". split; [reflexivity|]. split; [left; reflexivity|]. exists None. repeat split; reflexivity.
  - exists (f_const f), (f_unsafe f), s0. split; [reflexivity|]. split; [|exists (Some s0); repeat split; reflexivity].
    rewrite !andb_true_iff in C. destruct C as (((C & _) & _) & _). apply existsb_exists in C. destruct C as (y & Hy & Z). apply String.eqb_eq in Z. subst y. exact Hy.
Qed.
Lemma export_bad : forall stable x, fnty_ok (x_sig x) = false \/ fnty_stable stable (x_sig x) = false -> exported_ok stable x = false.
Proof. intros stable x [H|H]; unfold exported_ok; rewrite H; rewrite ?andb_false_r; reflexivity. Qed.
