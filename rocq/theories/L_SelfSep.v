From Coq Require Import Ascii String.
From Coq Require Import List Arith NArith Bool Lia.
From Verif Require Import M_Layout M_Report M_Decl M_SelfRep S_SelfRep L_Report L_Decl L_SelfRep.
Import ListNotations.

Definition r_module (r : report) : list N := match r with Rep _ m _ _ _ => m end.
Definition r_fields (r : report) : list (list N * report) := match r with Rep _ _ _ _ l => l end.
Definition all_prims : list prim :=
  [PUnit; PPhantom; PPinned; PVoid; PBool; POrdering; PU8; PU16; PU32; PU64; PU128; PUsize; PI8; PI16; PI32; PI64; PI128; PIsize;
   PNzU8; PNzU16; PNzU32; PNzU64; PNzU128; PNzUsize; PNzI8; PNzI16; PNzI32; PNzI64; PNzI128; PNzIsize; PF32; PF64;
   PABool; PAI8; PAI16; PAI32; PAI64; PAIsize; PAU8; PAU16; PAU32; PAU64; PAUsize].
Definition unname (a : nat) (l : list N) : option prim := find (fun p => bytes_eqb (prim_name a p) l) all_prims.
Lemma unname_name a p : unname a (prim_name a p) = Some p.
Proof. unfold unname, all_prims, find, prim_name. destruct (a =? 8); destruct p; vm_compute; reflexivity. Qed.
Lemma prim_names a p q : prim_name a p = prim_name a q -> p = q.
Proof. intros H. pose proof (unname_name a p) as Hp. rewrite H, unname_name in Hp. congruence. Qed.
Lemma inner_inj n k (x y : report) : inner_report n x = inner_report k y -> n = k /\ x = y.
Proof. intros [= -> ->]; auto. Qed.
Lemma con_inj a c c' rs rs' r : telling c = true -> telling c' = true -> con_report a c rs = Some r -> con_report a c' rs' = Some r -> c = c' /\ rs = rs'.
Proof.
  intros Tc Tc' H H'.
  assert (K : con_report a c rs = con_report a c' rs') by congruence. clear H'.
  destruct c as [p|k| |n| | | | |]; try discriminate; destruct rs as [|r1 [|r2 [|r3 rs]]]; try discriminate; cbn [con_report] in *;
    try (destruct (n <=? 128) eqn:L1; [apply Nat.leb_le in L1|discriminate]); clear H;
  destruct c' as [q|k'| |n'| | | | |]; try discriminate; destruct rs' as [|s1 [|s2 [|s3 rs']]]; try discriminate; cbn [con_report] in *;
    try (destruct (n' <=? 128) eqn:L2; [apply Nat.leb_le in L2|discriminate]); apply (f_equal (fun o => match o with Some x => x | None => r end)) in K; cbv beta iota in K;
    try (match type of K with inner_report _ _ = inner_report _ _ => apply inner_inj in K as [K ->] end);
    try (apply (f_equal r_module) in K; discriminate); try (apply (f_equal r_fields) in K; discriminate).
  - apply (f_equal report_name) in K. cbn in K. apply prim_names in K as ->. auto.
  - apply ptr_name_inj in K as ->. auto.
  - now apply ptr_not_pin in K.
  - now apply ptr_not_array in K.
  - symmetry in K. now apply ptr_not_pin in K.
  - auto.
  - now apply pin_not_array in K.
  - symmetry in K. now apply ptr_not_array in K.
  - apply array_name_inj in K as ->; auto.
  - injection K as -> ->. auto.
Qed.
Lemma con_module a c rs r : telling c = true -> con_report a c rs = Some r -> r_module r = impls \/ r_module r = lit "stabby_abi::result".
Proof.
  destruct c; try discriminate; intros _; destruct rs as [|r1 [|r2 [|r3 rs]]]; try discriminate; cbn [con_report];
    try (destruct (n <=? 128); [|discriminate]); intros H; injection H as <-; cbn; auto.
Qed.

Lemma mapM_join {A B C W} (P1 : A -> C -> Prop) (P2 : B -> C -> Prop) (h1 : A -> option W) (h2 : B -> option W) l1 l2 fs :
  Forall2 P1 l1 fs -> Forall2 P2 l2 fs ->
  (forall x y z, In x l1 -> In y l2 -> P1 x z -> P2 y z -> exists w, h1 x = Some w /\ h2 y = Some w) ->
  exists l, mapM h1 l1 = Some l /\ mapM h2 l2 = Some l.
Proof.
  intros F1. revert l2. induction F1 as [|x z l1 fs HP F1 IH]; intros l2 F2 H; inversion F2 as [|y z' l2' fs' HQ F2']; subst.
  - exists []. auto.
  - destruct (H x y z) as (w & E1 & E2); [now left|now left|assumption|assumption|].
    destruct (IH _ F2') as (l & L1 & L2); [intros; eapply H; eauto; now right|].
    exists (w :: l). cbn. now rewrite E1, E2, L1, L2.
Qed.

Lemma report_path a E n x args r : type_report a E n (TPath x args) = Some r ->
  exists m d fs, n = S m /\ find_decl E x = Some d /\ length args = length (d_params d) /\
    r = macro_report (d_name d) (d_module d) (d_version d) (d_kind d) fs /\
    Forall2 (fun f g => exists u, resolve E (bind_params d args) (TPath x args) (unself (d_name d) (snd f)) = Some u /\
                        fst g = fst f /\ type_report a E m u = Some (snd g)) (d_fields d) fs.
Proof.
  destruct n as [|m]; [discriminate|]. cbn [type_report]. destruct (find_decl E x) as [d|]; [|discriminate].
  destruct (Nat.eqb_spec (length args) (length (d_params d))) as [L|]; [|discriminate].
  destruct (mapM _ (d_fields d)) as [fs|] eqn:M; [|discriminate]. intros [= <-]. exists m, d, fs. repeat split; auto.
  apply mapM_F in M. revert M. apply Forall2_imp. intros f g _. destruct (resolve _ _ _ _) as [u|]; [|discriminate].
  destruct (type_report a E m u) as [ru|] eqn:Q; [|discriminate]. intros [= <-]. exists u. auto.
Qed.
Lemma report_con a E n c args r : type_report a E n (TCon c args) = Some r ->
  exists m rs, n = S m /\ Forall2 (fun t r => type_report a E m t = Some r) args rs /\ con_report a c rs = Some r.
Proof.
  destruct n as [|m]; [discriminate|]. cbn [type_report]. destruct (mapM _ args) as [rs|] eqn:M; [|discriminate]. intros H.
  exists m, rs. repeat split; auto. now apply mapM_F.
Qed.

Section Sep.
Variables (a : nat) (rec : ident -> list N -> bool).
Definition egood (E : list decl) : Prop := forall d, In d E -> dgood d /\ (d_params d <> [] -> forall f, In f (d_fields d) -> mentions (d_name d) (snd f) = false) /\
  (rec (d_name d) (d_module d) = false -> forall f, In f (d_fields d) -> mentions (d_name d) (snd f) = false /\ mentions Self_name (snd f) = false) /\
  (d_module d <> impls /\ d_module d <> lit "stabby_abi::result" /\ d_module d <> lit "stabby_abi::istable") /\
  (forall f, In f (d_fields d) -> all_telling (snd f) = true) /\ (forall p t, In p (d_params d) -> snd p = Some t -> all_telling t = true).
Lemma good_egood E : good_decls rec E = true -> egood E.
Proof.
  unfold good_decls. rewrite forallb_forall. intros H d I. specialize (H d I). rewrite !andb_true_iff in H. destruct H as [[[[[H1 H2] H3] H4] H5] H6].
  split; [now apply proper_good|]. repeat split.
  - intros N f If. unfold no_default_self in H2. destruct (d_params d); [contradiction|]. rewrite forallb_forall in H2. specialize (H2 f If).
    now apply negb_true_iff in H2.
  - unfold recursive_known in H3. rewrite H in H3. cbn [orb] in H3. rewrite forallb_forall in H3. specialize (H3 f H0). apply andb_prop in H3 as [H3 _].
    now apply negb_true_iff in H3.
  - unfold recursive_known in H3. rewrite H in H3. cbn [orb] in H3. rewrite forallb_forall in H3. specialize (H3 f H0). apply andb_prop in H3 as [_ H3].
    now apply negb_true_iff in H3.
  - unfold foreign in H4. rewrite !andb_true_iff, !negb_true_iff in H4. destruct H4 as [[H4 H7] H8]. intros E1. rewrite E1, eqb_refl' in H4. discriminate.
  - unfold foreign in H4. rewrite !andb_true_iff, !negb_true_iff in H4. destruct H4 as [[H4 H7] H8]. intros E1. rewrite E1, eqb_refl' in H7. discriminate.
  - unfold foreign in H4. rewrite !andb_true_iff, !negb_true_iff in H4. destruct H4 as [[H4 H7] H8]. intros E1. rewrite E1, eqb_refl' in H8. discriminate.
  - intros f If. rewrite forallb_forall in H5. auto.
  - intros p t Ip Ep. rewrite forallb_forall in H6. specialize (H6 p Ip). now rewrite Ep in H6.
Qed.
Lemma eg_good E : egood E -> forall d, In d E -> dgood d.
Proof. intros H d I. now destruct (H d I). Qed.

Lemma fill_telling ps args l : (forall p t, In p ps -> snd p = Some t -> all_telling t = true) -> forallb all_telling args = true ->
  fill ps args = Some l -> forallb all_telling l = true.
Proof.
  revert args l. induction ps as [|[x o] ps IH]; intros args l D A H.
  - destruct args; [|discriminate]. now injection H as <-.
  - assert (D' : forall p t, In p ps -> snd p = Some t -> all_telling t = true) by (intros p t I; apply D; now right).
    destruct args as [|y args]; cbn [fill] in H.
    + destruct o as [t|]; [|discriminate]. destruct (fill ps []) eqn:F; [|discriminate]. injection H as <-. cbn. rewrite (IH [] _ D' eq_refl F).
      rewrite (D (x, Some t) t); [reflexivity|now left|reflexivity].
    + cbn [forallb] in A. apply andb_prop in A as [A1 A2].
      destruct o; (destruct (fill ps args) eqn:F; [|discriminate]; injection H as <-; cbn; rewrite A1; now rewrite (IH args _ D' A2 F)).
Qed.
Lemma resolve_telling E d args self t u : egood E -> forallb all_telling args = true -> all_telling self = true -> all_telling t = true ->
  resolve E (bind_params d args) self t = Some u -> all_telling u = true.
Proof.
  intros G A S. revert u. induction t as [x fs IH|c fs IH] using type_ind'; intros u T H; cbn [all_telling] in T.
  - assert (K : forall ts, forallb all_telling fs = true -> mapM (resolve E (bind_params d args) self) fs = Some ts -> forallb all_telling ts = true).
    { intros ts T' M. apply mapM_F in M. rewrite forallb_forall in T'. rewrite Forall_forall in IH. clear H T.
      induction M as [|f t0 fs ts R M IHM]; [reflexivity|]. cbn. rewrite (IH f) with (u := t0); auto using in_eq.
      apply IHM; intros; [eapply IH|apply T']; eauto using in_cons. }
    assert (Q : match find_decl E x, mapM (resolve E (bind_params d args) self) fs with
                | Some d0, Some ts => option_map (TPath x) (fill (d_params d0) ts) | _, _ => None end = Some u -> all_telling u = true).
    { destruct (find_decl E x) as [e|] eqn:Fe; [|discriminate]. destruct (mapM _ fs) as [ts|] eqn:M; [|discriminate].
      destruct (fill (d_params e) ts) as [l|] eqn:Fl; [|discriminate]. intros [= <-]. cbn [all_telling].
      eapply fill_telling; [|apply (K ts T eq_refl)|exact Fl]. apply find_spec in Fe as [[-> ->]|(_ & I & _)]; [intros p t []|]. apply (G e I). }
    cbn [resolve] in H. destruct fs as [|f0 fs]; [|now apply Q].
    destruct (bytes_eqb x Self_name); [now injection H as <-|]. destruct (lookup _ x) as [v|] eqn:L; [|now apply Q].
    injection H as <-. apply lookup_in in L as [_ I]. rewrite forallb_forall in A. auto.
  - apply andb_prop in T as [Tc T]. cbn [resolve] in H. destruct (mapM _ fs) as [ts|] eqn:M; [|discriminate]. injection H as <-.
    cbn [all_telling]. rewrite Tc. cbn [andb]. apply mapM_F in M. rewrite forallb_forall in T. rewrite Forall_forall in IH.
    induction M as [|f t0 fs ts R M IHM]; [reflexivity|]. cbn. rewrite (IH f) with (u := t0); auto using in_eq.
    apply IHM; intros; [eapply IH|apply T]; eauto using in_cons.
Qed.
Lemma unself_telling x t : all_telling t = true -> all_telling (unself x t) = true.
Proof.
  induction t as [y fs IH|c fs IH] using type_ind'; cbn [all_telling]; intros T.
  - destruct fs as [|f0 fs]; [cbn [unself]; now destruct (_ || _)|]. cbn [unself all_telling]. rewrite forallb_forall in *. rewrite Forall_forall in IH.
    intros z I. apply in_map_iff in I as (w & <- & I). auto.
  - apply andb_prop in T as [Tc T]. cbn [unself all_telling]. rewrite Tc. cbn [andb]. rewrite forallb_forall in *. rewrite Forall_forall in IH.
    intros z I. apply in_map_iff in I as (w & <- & I). auto.
Qed.

Variables E1 E2 : list decl.
Hypotheses (G1 : egood E1) (G2 : egood E2).
(** An enclosing type. *)
Definition enc (E : list decl) (n : nat) (s : type) (r : report) : Prop :=
  type_report a E n s = Some r /\ tame rec E n s = true /\ all_telling s = true /\ avoids self_name s = true.

(** The fields of a declared type, by their true meaning, with the types and the enclosing type that the report has for them. *)
Lemma fields_of E n x args r s m ro : egood E -> x <> self_name -> type_report a E n (TPath x args) = Some r ->
  tame rec E n (TPath x args) = true -> all_telling (TPath x args) = true -> enc E m s ro ->
  exists d fs, find_decl E x = Some d /\ In d E /\ d_name d = x /\ r = macro_report (d_name d) (d_module d) (d_version d) (d_kind d) fs /\
    Forall2 (fun f g => fst g = fst f /\ exists k u s' m', 
      type_report a E k u = Some (snd g) /\ tame rec E k u = true /\ all_telling u = true /\ 
      enc E m' s' (if rec (d_name d) (d_module d) then r else ro) /\
      resolve E (bind_params d (map (sub s) args)) (sub s (TPath x args)) (snd f) = Some (sub s' u)) (d_fields d) fs.
Proof.
  intros G Nx R T A En. pose proof R as R0. apply report_path in R as (k & d & fs & -> & Fd & La & -> & F).
  pose proof Fd as Fd'. apply find_spec in Fd' as [[? _]|(_ & I & Ex)]; [contradiction|].
  exists d, fs. repeat split; auto. cbn [tame] in T. rewrite Fd in T. apply andb_prop in T as [T1 T2]. cbn [all_telling] in A.
  destruct (G d I) as (Gd & Gdef & Grec & _ & Gt & _).
  assert (Ns : bytes_eqb x self_name = false) by now apply neqb.
  revert F. apply Forall2_imp. intros f g If (u & Ru & Eg & Pu). split; [assumption|]. exists k, u.
  rewrite forallb_forall in T2. pose proof (T2 f If) as Tu. rewrite Ru in Tu.
  assert (Au : all_telling u = true).
  { eapply (resolve_telling E d args); [exact G|exact A| |apply unself_telling, (Gt f If)|exact Ru]. cbn. exact A. }
  destruct (rec (d_name d) (d_module d)) eqn:ER.
  - cbn [negb orb] in T1. exists (TPath x args), (S k). repeat split; auto.
    + cbn [tame]. rewrite Fd, ER. cbn [negb orb]. rewrite T1. cbn [andb]. now apply forallb_forall.
    + cbn [avoids]. rewrite Ns. exact T1.
    + cbn [sub]. rewrite Ns. rewrite (subs_avoids s args T1).
      rewrite <- Ex. eapply resolve_unself; eauto; rewrite ?Ex; auto; [apply (eg_good E G)|apply Gd, If].
  - destruct (Grec eq_refl f If) as [M1 M2]. exists s, m. rewrite (unself_none _ _ M1 M2) in Ru. repeat split; try apply En; auto.
    eapply resolve_sub; [apply (eg_good E G)|apply Gd, If|exact M2|exact Ru].
Qed.

Lemma key : forall k n1 n2 t1 t2 r s1 s2 m1 m2 ro,
  type_report a E1 n1 t1 = Some r -> type_report a E2 n2 t2 = Some r -> tame rec E1 n1 t1 = true -> tame rec E2 n2 t2 = true ->
  all_telling t1 = true -> all_telling t2 = true -> enc E1 m1 s1 ro -> enc E2 m2 s2 ro ->
  exists T, unroll E1 k (sub s1 t1) = Some T /\ unroll E2 k (sub s2 t2) = Some T.
Proof.
  induction k as [|k IH]; [intros; exists Cut; auto|].
  (* a declared type *)
  assert (P : forall n1 n2 x1 a1 x2 a2 r s1 s2 m1 m2 ro, x1 <> self_name -> x2 <> self_name ->
     type_report a E1 n1 (TPath x1 a1) = Some r -> type_report a E2 n2 (TPath x2 a2) = Some r -> tame rec E1 n1 (TPath x1 a1) = true -> tame rec E2 n2 (TPath x2 a2) = true ->
     all_telling (TPath x1 a1) = true -> all_telling (TPath x2 a2) = true -> enc E1 m1 s1 ro -> enc E2 m2 s2 ro ->
     exists T, unroll E1 (S k) (sub s1 (TPath x1 a1)) = Some T /\ unroll E2 (S k) (sub s2 (TPath x2 a2)) = Some T).
  { intros n1 n2 x1 a1 x2 a2 r s1 s2 m1 m2 ro N1 N2 R1 R2 T1 T2 A1 A2 Q1 Q2.
    destruct (fields_of E1 n1 x1 a1 r s1 m1 ro) as (d1 & f1 & Fd1 & I1 & Ex1 & Er1 & H1); auto.
    destruct (fields_of E2 n2 x2 a2 r s2 m2 ro) as (d2 & f2 & Fd2 & I2 & Ex2 & Er2 & H2); auto.
    rewrite Er1 in Er2. unfold macro_report in Er2. injection Er2 as En Em Ev Ek Ef. apply (f_equal (@rev _)) in Ef. rewrite !rev_involutive in Ef. subst f2.
    rewrite <- En, <- Em in H2.
    destruct (mapM_join _ _ (fun f => match resolve E1 (bind_params d1 (map (sub s1) a1)) (sub s1 (TPath x1 a1)) (snd f) with
                                       | Some u => option_map (pair (fst f)) (unroll E1 k u) | None => None end)
                            (fun f => match resolve E2 (bind_params d2 (map (sub s2) a2)) (sub s2 (TPath x2 a2)) (snd f) with
                                       | Some u => option_map (pair (fst f)) (unroll E2 k u) | None => None end) _ _ _ H1 H2) as (l & L1 & L2).
    { intros f g z _ _ (Ez1 & k1 & u1 & w1 & p1 & B1 & B2 & B3 & B4 & B5) (Ez2 & k2 & u2 & w2 & p2 & C1 & C2 & C3 & C4 & C5).
      rewrite B5, C5. rewrite Er1 in B4. 
      assert (Er : r = macro_report (d_name d1) (d_module d1) (d_version d1) (d_kind d1) f1) by assumption. rewrite <- Er in B4.
      destruct (IH k1 k2 u1 u2 (snd z) w1 w2 p1 p2 _ B1 C1 B2 C2 B3 C3 B4 C4) as (T & U1 & U2).
      exists (fst f, T). rewrite U1, U2. cbn. split; congruence. }
    exists (Declared (d_name d1) (d_module d1) (d_version d1) (d_kind d1) l).
    cbn [sub] in *. rewrite (neqb _ _ N1), (neqb _ _ N2) in *. cbn [unroll]. rewrite Fd1, Fd2, L1, L2. cbn. now rewrite En, Em, Ev, Ek. }
  assert (SP : forall E n x args r, egood E -> x <> self_name -> type_report a E n (TPath x args) = Some r ->
     r_module r <> impls /\ r_module r <> lit "stabby_abi::result" /\ r_module r <> lit "stabby_abi::istable").
  { intros E n x args r G N R. apply report_path in R as (? & d & fs & _ & Fd & _ & -> & _). apply find_spec in Fd as [[? _]|(_ & I & _)]; [contradiction|].
    cbn. apply (G d I). }
  assert (SS : forall E n args r, type_report a E n (TPath self_name args) = Some r -> r_module r = lit "stabby_abi::istable").
  { intros E n args r R. apply report_path in R as (? & d & fs & _ & Fd & _ & -> & _). apply find_spec in Fd as [[_ ->]|(? & _)]; [reflexivity|contradiction]. }
  assert (DI : forall n, lit "stabby_abi::istable" <> (if n : bool then impls else lit "stabby_abi::result")) by (intros []; vm_compute; discriminate).
  intros n1 n2 t1 t2 r s1 s2 m1 m2 ro R1 R2 T1 T2 A1 A2 Q1 Q2. destruct t1 as [x1 a1|c1 a1], t2 as [x2 a2|c2 a2].
  - destruct (eqb_dec x1 self_name) as [->|N1].
    + destruct (eqb_dec x2 self_name) as [->|N2].
      * cbn [sub]. rewrite eqb_refl'. destruct Q1 as (Q1 & Q1' & Q1'' & Q1'''), Q2 as (Q2 & Q2' & Q2'' & Q2''').
        destruct s1 as [y1 b1|d1 b1], s2 as [y2 b2|d2 b2].
        -- assert (Ny1 : y1 <> self_name) by (intros ->; cbn [avoids] in Q1'''; rewrite eqb_refl' in Q1'''; discriminate).
           assert (Ny2 : y2 <> self_name) by (intros ->; cbn [avoids] in Q2'''; rewrite eqb_refl' in Q2'''; discriminate).
           rewrite <- (sub_avoids (TPath y1 b1) (TPath y1 b1) Q1'''), <- (sub_avoids (TPath y2 b2) (TPath y2 b2) Q2''').
           eapply (P m1 m2 y1 b1 y2 b2 ro (TPath y1 b1) (TPath y2 b2) m1 m2 ro); try eassumption; repeat split; assumption.
        -- exfalso. assert (Ny1 : y1 <> self_name) by (intros ->; cbn [avoids] in Q1'''; rewrite eqb_refl' in Q1'''; discriminate).
           apply (SP E1) in Q1 as (X1 & X2 & X3); auto. apply report_con in Q2 as (? & rs & _ & _ & C). cbn [all_telling] in Q2''. apply andb_prop in Q2'' as [Tc _].
           apply con_module in C as [C|C]; auto.
        -- exfalso. assert (Ny2 : y2 <> self_name) by (intros ->; cbn [avoids] in Q2'''; rewrite eqb_refl' in Q2'''; discriminate).
           apply (SP E2) in Q2 as (X1 & X2 & X3); auto. apply report_con in Q1 as (? & rs & _ & _ & C). cbn [all_telling] in Q1''. apply andb_prop in Q1'' as [Tc _].
           apply con_module in C as [C|C]; auto.
        -- apply report_con in Q1 as (q1 & rs1 & -> & F1 & C1). apply report_con in Q2 as (q2 & rs2 & -> & F2 & C2).
           cbn [all_telling] in Q1'', Q2''. apply andb_prop in Q1'' as [Tc1 Ta1], Q2'' as [Tc2 Ta2]. destruct (con_inj a d1 d2 rs1 rs2 ro Tc1 Tc2 C1 C2) as [-> ->].
           cbn [tame avoids] in *. rewrite forallb_forall in *.
           destruct (mapM_join _ _ (unroll E1 k) (unroll E2 k) _ _ _ F1 F2) as (l & L1 & L2).
           { intros x y z Ix Iy Hx Hy. rewrite <- (sub_avoids x x) by auto. rewrite <- (sub_avoids y y) by auto.
             eapply (IH q1 q2 x y z x y q1 q2 z); eauto; repeat split; auto. }
           exists (Built d2 l). cbn [unroll]. now rewrite L1, L2.
    (* the placeholder against another declared type *)
      * exfalso. apply SS in R1. apply (SP E2) in R2 as (_ & _ & X); [congruence|assumption|]. intros ->. rewrite eqb_refl' in N2. discriminate.
    + assert (N1' : x1 <> self_name) by (intros ->; rewrite eqb_refl' in N1; discriminate).
      assert (N2 : x2 <> self_name). { intros ->. apply SS in R2. apply (SP E1) in R1 as (_ & _ & X); [congruence|assumption|assumption]. }
      eapply P; eassumption.
  - exfalso. apply report_con in R2 as (? & rs & _ & _ & C). cbn [all_telling] in A2. apply andb_prop in A2 as [Tc _].
    destruct (eqb_dec x1 self_name) as [->|N1].
    + apply SS in R1. apply con_module in C as [C|C]; [apply (DI true); congruence|apply (DI false); congruence|assumption].
    + apply (SP E1) in R1 as (X1 & X2 & X3); [|assumption|intros ->; rewrite eqb_refl' in N1; discriminate]. apply con_module in C as [C|C]; auto.
  - exfalso. apply report_con in R1 as (? & rs & _ & _ & C). cbn [all_telling] in A1. apply andb_prop in A1 as [Tc _].
    destruct (eqb_dec x2 self_name) as [->|N2].
    + apply SS in R2. apply con_module in C as [C|C]; [apply (DI true); congruence|apply (DI false); congruence|assumption].
    + apply (SP E2) in R2 as (X1 & X2 & X3); [|assumption|intros ->; rewrite eqb_refl' in N2; discriminate]. apply con_module in C as [C|C]; auto.
  - apply report_con in R1 as (q1 & rs1 & -> & F1 & C1). apply report_con in R2 as (q2 & rs2 & -> & F2 & C2).
    cbn [all_telling] in A1, A2. apply andb_prop in A1 as [Tc1 Ta1], A2 as [Tc2 Ta2]. destruct (con_inj a c1 c2 rs1 rs2 r Tc1 Tc2 C1 C2) as [-> ->].
    cbn [tame] in *. rewrite forallb_forall in *.
    destruct (mapM_join _ _ (fun x => unroll E1 k (sub s1 x)) (fun x => unroll E2 k (sub s2 x)) _ _ _ F1 F2) as (l & L1 & L2).
    { intros x y z Ix Iy Hx Hy. eapply IH; eauto. }
    exists (Built c2 l). cbn [sub unroll].
    assert (MM : forall E s l0, mapM (unroll E k) (map (sub s) l0) = mapM (fun x => unroll E k (sub s x)) l0).
    { intros E s l0. induction l0 as [|y l0 IH0]; [reflexivity|]. cbn. now rewrite IH0. }
    now rewrite !MM, L1, L2.
Qed.
End Sep.
