From Coq Require Import Ascii String.
From Coq Require Import List Arith NArith Bool Lia.
From Verif Require Import M_Layout M_Report M_Decl M_SelfRep S_SelfRep L_Report L_Decl L_SelfRep.
Import ListNotations.

(** * Reports exist *)
Section Exist.
Variables (a : nat) (E : list decl) (rank : ident -> nat).
Hypothesis GE : forall d, In d E -> dgood d.
Hypothesis O : ordered E rank = true.
Definition has (t : type) : Prop := exists n r, type_report a E n t = Some r.

Lemma has_all l : Forall has l -> exists n rs, mapM (type_report a E n) l = Some rs.
Proof.
  induction 1 as [|t l (n & r & H) _ (m & rs & IH)]; [now exists 0, []|].
  exists (max n m), (r :: rs). cbn [mapM]. rewrite (report_mono _ _ _ _ _ H) by lia.
  replace (mapM _ l) with (Some rs); [reflexivity|]. symmetry. apply mapM_F. apply mapM_F in IH. revert IH. apply Forall2_imp.
  intros x y _ G. apply (report_mono _ _ _ _ _ G). lia.
Qed.
Lemma has_con c l : takes c (length l) = true -> Forall has l -> has (TCon c l).
Proof.
  intros T H. apply has_all in H as (n & rs & H). exists (S n).
  assert (X : exists r, con_report a c rs = Some r).
  { apply mapM_len in H. rewrite <- H in T. destruct c; cbn [takes] in T; try (apply andb_prop in T as [T0 T]; apply Nat.leb_le in T0); apply Nat.eqb_eq in T;
      destruct rs as [|r1 [|r2 [|? ?]]]; try discriminate; cbn [con_report]; eauto. 
    apply Nat.leb_le in T0. rewrite T0. eauto. }
  destruct X as [r X]. exists r. cbn [type_report]. now rewrite H.
Qed.
Lemma has_placeholder : has placeholder.
Proof. exists 1. eexists. reflexivity. Qed.

Lemma fill_some_len ps : forall (l l' : list type), length l = length l' -> forall x, fill ps l = Some x -> exists y, fill ps l' = Some y.
Proof.
  induction ps as [|[p d] ps IH]; intros [|b l] [|b' l'] L x H; try discriminate; cbn [fill] in *; eauto.
  assert (H' : option_map (cons b) (fill ps l) = Some x) by (destruct d; exact H). destruct (fill ps l) eqn:F; [|discriminate]. cbn [length] in L.
  destruct (IH l l' ltac:(lia) _ F) as [y Y]. rewrite Y. destruct d; cbn; eauto.
Qed.
Lemma fill_forall (P : type -> Prop) ps l x : Forall P l -> (forall p t, In p ps -> snd p = Some t -> P t) -> fill ps l = Some x -> Forall P x.
Proof.
  revert l x. induction ps as [|[p d] ps IH]; intros [|b l] x Hl Hd H; try discriminate; cbn [fill] in *.
  - injection H as <-. constructor.
  - destruct d as [t|]; [|discriminate]. destruct (fill ps []) as [y|] eqn:F; [|discriminate]. injection H as <-. constructor.
    + apply (Hd (p, Some t) t); [now left|reflexivity].
    + apply (IH [] y); auto. intros q u I. apply Hd. now right.
  - assert (H' : option_map (cons b) (fill ps l) = Some x) by (destruct d; exact H). clear H. rename H' into H.
    destruct (fill ps l) as [y|] eqn:F; [|discriminate]. injection H as <-. inversion Hl; subst. constructor; [assumption|].
    apply (IH l y); auto. intros q u I. apply Hd. now right.
Qed.

(** All declarations of rank below [k]. *)
Definition below (k : nat) : Prop := forall x d args, find_decl E x = Some d -> rank x < k -> length args = length (d_params d) -> Forall has args -> has (TPath x args).

Lemma closed_has k t : below k -> fits E t = true -> uses_below E rank [] k t = true -> has t.
Proof.
  intros B. induction t as [x l IH|c l IH] using type_ind'; cbn [fits uses_below]; intros F U.
  - apply andb_prop in F as [F Fl]. destruct (find_decl E x) as [d|] eqn:D; [|discriminate]. apply Nat.eqb_eq in F.
    apply orb_prop in U as [U|U].
    + destruct l; discriminate.
    + apply andb_prop in U as [U Ul]. destruct (fill (d_params d) l); [|discriminate]. apply Nat.ltb_lt in U.
      apply (B x d l); auto. rewrite forallb_forall in Fl, Ul. rewrite Forall_forall in *. auto.
  - apply andb_prop in F as [F Fl], U as [U Ul]. apply has_con; [assumption|]. rewrite forallb_forall in Fl, Ul. rewrite Forall_forall in *. auto.
Qed.
Lemma lookup_some ps (args : list type) x : length args = length ps -> In x ps -> exists u, lookup (combine ps args) x = Some u.
Proof.
  revert args. induction ps as [|p ps IH]; intros [|b args] L I; try discriminate; [destruct I|]. cbn [combine lookup].
  destruct (eqb_dec p x) as [->|N]; [rewrite eqb_refl'; eauto|]. rewrite N. destruct I as [->|I]; [rewrite eqb_refl' in N; discriminate|].
  apply IH; [cbn in L; lia|assumption].
Qed.
Lemma open_has k d args self t : below k -> In d E -> length args = length (d_params d) -> Forall has args ->
  uses_below E rank (Self_name :: d_name d :: map fst (d_params d)) k t = true ->
  exists u, resolve E (bind_params d args) self (unself (d_name d) t) = Some u /\ has u.
Proof.
  intros B I La Ha. pose proof (GE d I) as Gd. set (bs := Self_name :: d_name d :: map fst (d_params d)).
  assert (DF : forall x e, find_decl E x = Some e -> rank x < k -> forall p t, In p (d_params e) -> snd p = Some t -> has t).
  { intros x e Fe R p t0 Ip Es. apply find_spec in Fe as [[-> ->]|(_ & Ie & <-)]; [destruct Ip|].
    unfold ordered in O. rewrite forallb_forall in O. specialize (O e Ie). apply andb_prop in O as [_ O']. rewrite forallb_forall in O'. specialize (O' p Ip).
    rewrite Es in O'. apply andb_prop in O' as [O1 O2]. apply (closed_has (rank (d_name e))); auto.
    intros y z l Fz Rz. apply B; auto; lia. }
  assert (RP : resolve E (bind_params d args) self placeholder = Some placeholder).
  { cbn [resolve placeholder mapM]. change (bytes_eqb self_name Self_name) with false. cbn match.
    destruct (lookup _ self_name) as [u|] eqn:Lk; [|reflexivity]. apply lookup_in in Lk as [Ik _]. now apply (dg_pself d Gd) in Ik. }
  induction t as [x l IH|c l IH] using type_ind'; cbn [uses_below]; intros U.
  - assert (K : forall e g, (forall y, In y l -> g y = unself (d_name d) y) -> find_decl E x = Some e -> (exists y, fill (d_params e) l = Some y) -> rank x < k ->
        forallb (uses_below E rank bs k) l = true ->
        exists u, match find_decl E x, mapM (resolve E (bind_params d args) self) (map g l) with
                | Some d0, Some ts => option_map (TPath x) (fill (d_params d0) ts) | _, _ => None end = Some u /\ has u).
    { intros e g Eg Fe [y Fy] R Ul. rewrite Fe.
      assert (X : exists ts, mapM (resolve E (bind_params d args) self) (map g l) = Some ts /\ Forall has ts).
      { clear Fy U. induction l as [|b l IHl]; [exists []; split; [reflexivity|constructor]|]. inversion IH; subst. cbn [forallb] in Ul. apply andb_prop in Ul as [Ub Ul].
        destruct IHl as (ts & M & Ht); auto. { intros z Iz. apply Eg. now right. } destruct (H1 Ub) as (u & Ru & Hu). exists (u :: ts). split; [|now constructor].
        cbn [mapM map]. rewrite (Eg b) by now left. now rewrite Ru, M. }
      destruct X as (ts & M & Ht). rewrite M. pose proof (mapM_len _ _ _ M) as Lm. rewrite map_length in Lm.
      destruct (fill_some_len _ _ ts (eq_sym Lm) _ Fy) as [z Fz]. rewrite Fz. cbn [option_map].
      eexists; split; [reflexivity|]. apply (B x e z Fe R (fill_len _ _ _ Fz)). apply (fill_forall has _ _ _ Ht) in Fz; eauto. }
    destruct l as [|b l].
    + cbn [unself]. destruct (bytes_eqb x Self_name) eqn:NS; [cbn [orb]; exists placeholder; split; [assumption|apply has_placeholder]|].
      destruct (bytes_eqb x (d_name d)) eqn:ND; cbn [orb]; [exists placeholder; split; [assumption|apply has_placeholder]|].
      cbn [resolve]. rewrite NS. destruct (lookup (bind_params d args) x) as [u|] eqn:L.
      * exists u. split; [reflexivity|]. apply lookup_in in L as [_ L]. rewrite Forall_forall in Ha. auto.
      * apply orb_prop in U as [U|U].
        -- exfalso. apply existsb_exists in U as (y & Iy & Ey). apply bytes_eqb_eq in Ey as ->. destruct Iy as [<-|[<-|Iy]]; [now rewrite eqb_refl' in NS|now rewrite eqb_refl' in ND|].
           destruct (lookup_some (map fst (d_params d)) args x) as [u Lu]; [rewrite map_length; auto|assumption|]. unfold bind_params in L. congruence.
        -- apply andb_prop in U as [U Ul]. destruct (find_decl E x) as [e|] eqn:Fe; [|discriminate]. destruct (fill (d_params e) []) as [y|] eqn:Fy; [|discriminate].
           apply Nat.ltb_lt in U. apply (K e (fun t => t)); eauto. intros ? [].
    + cbn [orb] in U. apply andb_prop in U as [U Ul]. destruct (find_decl E x) as [e|] eqn:Fe; [|discriminate]. destruct (fill (d_params e) (b :: l)) as [y|] eqn:Fy; [|discriminate].
      apply Nat.ltb_lt in U. destruct (K e (unself (d_name d))) as (u & Ku & Hu); eauto. exists u. split; [|assumption].
      change (unself (d_name d) (TPath x (b :: l))) with (TPath x (map (unself (d_name d)) (b :: l))).
      cbn [resolve]. rewrite Fe. exact Ku.
  - apply andb_prop in U as [U Ul]. cbn [unself resolve].
    assert (X : exists ts, mapM (resolve E (bind_params d args) self) (map (unself (d_name d)) l) = Some ts /\ Forall has ts).
    { clear U. induction l as [|b l IHl]; [exists []; split; [reflexivity|constructor]|]. inversion IH; subst. cbn [forallb] in Ul. apply andb_prop in Ul as [Ub Ul].
      destruct IHl as (ts & M & Ht); auto. destruct (H1 Ub) as (u & Ru & Hu). exists (u :: ts). split; [|now constructor].
      cbn [mapM map]. now rewrite Ru, M. }
    destruct X as (ts & M & Ht). rewrite M. eexists. split; [reflexivity|]. apply has_con; [|assumption].
    pose proof (mapM_len _ _ _ M) as Lm. rewrite map_length in Lm. now rewrite Lm.
Qed.
Lemma all_below k : below k.
Proof.
  induction k as [|k IH]; intros x d args Fd R La Ha; [lia|].
  pose proof Fd as Fd'. apply find_spec in Fd' as [[-> ->]|(_ & I & Ex)]; [exists 1; destruct args; [|discriminate]; eexists; reflexivity|].
  pose proof O as O'. unfold ordered in O'. rewrite forallb_forall in O'. specialize (O' d I). apply andb_prop in O' as [O' _].
  assert (X : exists n rs, mapM (fun f => match resolve E (bind_params d args) (TPath x args) (unself (d_name d) (snd f)) with
                                  | Some u => option_map (pair (fst f)) (type_report a E n u)
                                  | None => None
                                  end) (d_fields d) = Some rs).
  { induction (d_fields d) as [|f fs IHf]; [now exists 0, []|]. cbn [forallb] in O'. apply andb_prop in O' as [Of Ofs].
    destruct (IHf Ofs) as (n & rs & M). rewrite Ex in *.
    assert (B : below (rank x)) by (intros y z l Fz Rz; apply IH; auto; lia).
    destruct (open_has (rank x) d args (TPath x args) (snd f) B I La Ha) as (u & Ru & m & r & Hr); [rewrite Ex; exact Of|]. rewrite Ex in Ru.
   
    exists (max n m), ((fst f, r) :: rs). cbn [mapM]. rewrite Ru. rewrite (report_mono _ _ _ _ _ Hr) by lia. cbn [option_map].
    replace (mapM _ fs) with (Some rs); [reflexivity|]. symmetry. apply mapM_F. apply mapM_F in M. revert M. apply Forall2_imp.
    intros g h _ G. destruct (resolve E _ _ (unself x (snd g))) as [v|]; [|discriminate].
    destruct (type_report a E n v) as [rv|] eqn:Gv; [|discriminate]. now rewrite (report_mono _ _ _ _ _ Gv) by lia. }
  destruct X as (n & rs & M). exists (S n). eexists. cbn [type_report]. rewrite Fd, La, Nat.eqb_refl, M. reflexivity.
Qed.
Lemma exist t : fits E t = true -> has t.
Proof.
  induction t as [x l IH|c l IH] using type_ind'; cbn [fits]; intros F; apply andb_prop in F as [F Fl].
  - destruct (find_decl E x) as [d|] eqn:D; [|discriminate]. apply Nat.eqb_eq in F. apply (all_below (S (rank x)) x d); auto.
    rewrite forallb_forall in Fl. rewrite Forall_forall in *. auto.
  - apply has_con; [assumption|]. rewrite forallb_forall in Fl. rewrite Forall_forall in *. auto.
Qed.
End Exist.

(** * Layouts *)
Section Lay.
Context {L : Type} (combined : decl -> list L -> L) (built : con -> list L -> L) (thin : con -> L).
Variable E : list decl.
Hypothesis GE : forall d, In d E -> dgood d.
Hypothesis GD : forall d, In d E -> d_params d <> [] -> forall f, In f (d_fields d) -> mentions (d_name d) (snd f) = false.
Hypothesis GF : forall d, In d E -> find_decl E (d_name d) = Some d.
Notation tl := (true_layout combined built thin E).
Notation ml := (macro_layout combined built thin E).

Lemma tl_mono n t r : tl n t = Some r -> forall m, n <= m -> tl m t = Some r.
Proof.
  revert t r. induction n as [|n IH]; intros t r H m Le; [discriminate|]. destruct m as [|m]; [lia|].
  cbn [true_layout] in *. destruct t as [x args|c args].
  - destruct (find_decl E x) as [d|]; [|discriminate]. destruct (length args =? length (d_params d)); [|discriminate].
    destruct (mapM _ (d_fields d)) as [fs|] eqn:F in H; [|discriminate].
    rewrite mapM_F in F. replace (mapM _ (d_fields d)) with (Some fs); [assumption|]. symmetry. apply mapM_F.
    revert F. apply Forall2_imp. intros f g _. destruct (resolve _ _ _ _) as [u|]; [|discriminate].
    intros G. apply (IH _ _ G). lia.
  - destruct (is_thin c); [assumption|]. destruct (mapM _ args) as [fs|] eqn:F in H; [|discriminate].
    rewrite mapM_F in F. replace (mapM _ args) with (Some fs); [assumption|]. symmetry. apply mapM_F.
    revert F. apply Forall2_imp. intros f g _ G. apply (IH _ _ G). lia.
Qed.
Lemma ml_mono n t r : ml n t = Some r -> forall m, n <= m -> ml m t = Some r.
Proof.
  revert t r. induction n as [|n IH]; intros t r H m Le; [discriminate|]. destruct m as [|m]; [lia|].
  cbn [macro_layout] in *. destruct t as [x args|c args].
  - destruct (find_decl E x) as [d|]; [|discriminate]. destruct (length args =? length (d_params d)); [|discriminate].
    destruct (mapM _ (d_fields d)) as [fs|] eqn:F in H; [|discriminate].
    rewrite mapM_F in F. replace (mapM _ (d_fields d)) with (Some fs); [assumption|]. symmetry. apply mapM_F.
    revert F. apply Forall2_imp. intros f g _. destruct (resolve _ _ _ _) as [u|]; [|discriminate].
    intros G. apply (IH _ _ G). lia.
  - destruct (is_thin c); [assumption|]. destruct (mapM _ args) as [fs|] eqn:F in H; [|discriminate].
    rewrite mapM_F in F. replace (mapM _ args) with (Some fs); [assumption|]. symmetry. apply mapM_F.
    revert F. apply Forall2_imp. intros f g _ G. apply (IH _ _ G). lia.
Qed.

(** [t'] is [t] with some types, that satisfy [P], replaced by the placeholder. *)
Inductive matches (P : type -> Prop) : type -> type -> Prop :=
| MHole s : P s -> matches P placeholder s
| MPath x l' l : Forall2 (matches P) l' l -> matches P (TPath x l') (TPath x l)
| MCon c l' l : Forall2 (matches P) l' l -> matches P (TCon c l') (TCon c l).
Lemma matches_ind' (P : type -> Prop) (Q : type -> type -> Prop) :
  (forall s, P s -> Q placeholder s) ->
  (forall x l' l, Forall2 (matches P) l' l -> Forall2 Q l' l -> Q (TPath x l') (TPath x l)) ->
  (forall c l' l, Forall2 (matches P) l' l -> Forall2 Q l' l -> Q (TCon c l') (TCon c l)) ->
  forall t' t, matches P t' t -> Q t' t.
Proof.
  intros H1 H2 H3. fix IH 3. intros t' t [s Ps|x l' l F|c l' l F].
  - auto.
  - apply H2; [assumption|]. induction F; constructor; auto.
  - apply H3; [assumption|]. induction F; constructor; auto.
Qed.
Lemma matches_refl P t : matches P t t.
Proof. induction t as [x l IH|c l IH] using type_ind'; constructor; induction IH; constructor; auto. Qed.
Lemma matches_imp (P Q : type -> Prop) t' t : (forall s, P s -> Q s) -> matches P t' t -> matches Q t' t.
Proof.
  intros H M. induction M as [s Ps|x l' l _ F|c l' l _ F] using matches_ind'; constructor; auto.
Qed.
Lemma fill_matches P ps l' l x : Forall2 (matches P) l' l -> fill ps l = Some x -> exists x', fill ps l' = Some x' /\ Forall2 (matches P) x' x.
Proof.
  revert l' l x. induction ps as [|[p d] ps IH]; intros l' l x M F.
  - destruct l; [|discriminate]. inversion M; subst. injection F as <-. exists []. split; [reflexivity|constructor].
  - inversion M as [|b' b k' k Mb Mk]; subst; cbn [fill] in *.
    + destruct d as [t|]; [|discriminate]. destruct (fill ps []) as [y|] eqn:Fy; [|discriminate]. injection F as <-.
      destruct (IH [] [] y M Fy) as (y' & Fy' & My). rewrite Fy in Fy'. injection Fy' as <-. exists (t :: y). split; [reflexivity|]. constructor; [apply matches_refl|assumption].
    + assert (F' : option_map (cons b) (fill ps k) = Some x) by (destruct d; exact F). clear F.
      destruct (fill ps k) as [y|] eqn:Fy; [|discriminate]. injection F' as <-. destruct (IH k' k y Mk Fy) as (y' & -> & My). exists (b' :: y').
      split; [destruct d; reflexivity|]. now constructor.
Qed.
Lemma lookup_matches P ps l' l x : Forall2 (matches P) l' l -> forall u, lookup (combine ps l) x = Some u -> exists u', lookup (combine ps l') x = Some u' /\ matches P u' u.
Proof.
  revert l' l. induction ps as [|p ps IH]; intros l' l M u H; [discriminate|]. inversion M as [|b' b k' k Mb Mk]; subst; [discriminate|]. cbn [combine lookup] in *.
  destruct (bytes_eqb p x); [injection H as <-; eauto|]. eauto.
Qed.
Lemma lookup_none_len ps (l' l : list type) x : length l' = length l -> lookup (combine ps l) x = None -> lookup (combine ps l') x = None.
Proof.
  revert l' l. induction ps as [|p ps IH]; intros [|b' l'] [|b l] Le H; try discriminate; try reflexivity. cbn [combine lookup] in *.
  destruct (bytes_eqb p x); [discriminate|]. eauto.
Qed.
Lemma F2_len {A B} (R : A -> B -> Prop) l l' : Forall2 R l l' -> length l = length l'.
Proof. induction 1; cbn; congruence. Qed.

Lemma resolve_matches (P : type -> Prop) d args' args f u self' : In d E -> length args = length (d_params d) -> Forall2 (matches P) args' args ->
  P (TPath (d_name d) args) -> avoids self_name f = true -> (d_params d <> [] -> mentions (d_name d) f = false) ->
  resolve E (bind_params d args) (TPath (d_name d) args) f = Some u ->
  exists u', resolve E (bind_params d args') self' (unself (d_name d) f) = Some u' /\ matches P u' u.
Proof.
  intros I La Ma PT. pose proof (GE d I) as Gd. pose proof (F2_len _ _ _ Ma) as Le. revert u.
  assert (SS : lookup (bind_params d args') self_name = None).
  { destruct (lookup _ self_name) as [u|] eqn:Lk; [|reflexivity]. apply lookup_in in Lk as [Ik _]. now apply (dg_pself d Gd) in Ik. }
  assert (RP : resolve E (bind_params d args') self' placeholder = Some placeholder).
  { cbn [resolve placeholder mapM]. change (bytes_eqb self_name Self_name) with false. cbn match. rewrite SS. reflexivity. }
  induction f as [x fs IH|c fs IH] using type_ind'; intros u Af Mf H.
  - cbn [avoids] in Af. apply andb_prop in Af as [Ax Afs]. apply negb_true_iff in Ax.
    assert (Mfs : d_params d <> [] -> existsb (mentions (d_name d)) fs = false).
    { intros NP. specialize (Mf NP). cbn [mentions] in Mf. now apply orb_false_iff in Mf. }
    assert (K : forall g u0, (forall y, In y fs -> g y = unself (d_name d) y) ->
              match find_decl E x, mapM (resolve E (bind_params d args) (TPath (d_name d) args)) fs with
                | Some d0, Some ts => option_map (TPath x) (fill (d_params d0) ts) | _, _ => None end = Some u0 ->
              exists u', match find_decl E x, mapM (resolve E (bind_params d args') self') (map g fs) with
                | Some d0, Some ts => option_map (TPath x) (fill (d_params d0) ts) | _, _ => None end = Some u' /\ matches P u' u0).
    { intros g u0 Eg. destruct (find_decl E x) as [e|] eqn:Fe; [|discriminate].
      destruct (mapM (resolve E (bind_params d args) _) fs) as [ts|] eqn:M; [|discriminate]. destruct (fill (d_params e) ts) as [full|] eqn:Fl; [|discriminate].
      intros [= <-].
      assert (X : exists ts', mapM (resolve E (bind_params d args') self') (map g fs) = Some ts' /\ Forall2 (matches P) ts' ts).
      { clear Fl H Mf. revert ts M. induction fs as [|b fs IHf]; intros ts M; cbn [mapM map] in *; [injection M as <-; exists []; split; [reflexivity|constructor]|].
        destruct (resolve E (bind_params d args) _ b) as [ub|] eqn:Rb; [|discriminate]. destruct (mapM _ fs) as [us|] eqn:Rs; [|discriminate]. injection M as <-.
        inversion IH as [|? ? IHb IHs]; subst. cbn [forallb] in Afs. apply andb_prop in Afs as [Ab Afs].
        destruct (IHb ub) as (ub' & Rb' & Mb); auto.
        { intros NP. specialize (Mfs NP). cbn [existsb] in Mfs. now apply orb_false_iff in Mfs. }
        destruct (IHf IHs Afs) with (ts := us) as (us' & Rs' & Ms); auto.
        { intros NP. specialize (Mfs NP). cbn [existsb] in Mfs. now apply orb_false_iff in Mfs. }
        { intros y Iy. apply Eg. now right. }
        rewrite (Eg b) by now left. rewrite Rb', Rs'. exists (ub' :: us'). split; [reflexivity|]. now constructor. }
      destruct X as (ts' & M' & Mt). rewrite M'. destruct (fill_matches P _ _ _ _ Mt Fl) as (x' & -> & Mx). cbn [option_map]. eexists. split; [reflexivity|]. now constructor. }
    destruct fs as [|f0 fs].
    + cbn [unself]. cbn [resolve] in H. destruct (eqb_dec x Self_name) as [->|NS].
      * rewrite eqb_refl' in *. injection H as <-. cbn [orb]. exists placeholder. split; [assumption|]. now constructor.
      * rewrite NS in *. cbn [orb]. destruct (eqb_dec x (d_name d)) as [->|ND].
        -- rewrite eqb_refl'. exists placeholder. split; [assumption|]. constructor.
           destruct (d_params d) eqn:EP.
           ++ destruct (lookup (bind_params d args) (d_name d)) eqn:Lk; [apply lookup_in in Lk as [Ik _]; rewrite EP in Ik; destruct Ik|].
              rewrite (GF d I), EP in H. cbn in H. injection H as <-. destruct args; [|discriminate]. assumption.
           ++ specialize (Mf ltac:(discriminate)). cbn [mentions] in Mf. rewrite eqb_refl' in Mf. discriminate.
        -- rewrite ND. cbn [resolve]. rewrite NS. destruct (lookup (bind_params d args) x) as [v|] eqn:Lk.
           ++ injection H as <-. destruct (lookup_matches P _ _ _ _ Ma _ Lk) as (v' & Lk' & Mv). unfold bind_params. rewrite Lk'. eauto.
           ++ unfold bind_params in *. rewrite (lookup_none_len _ _ _ _ Le Lk). apply (K (fun t => t)); [intros ? []|exact H].
    + change (unself (d_name d) (TPath x (f0 :: fs))) with (TPath x (map (unself (d_name d)) (f0 :: fs))).
      cbn [resolve] in H. destruct (K (unself (d_name d)) u) as (u' & Ku & Mu); [auto|exact H|]. exists u'. split; [|assumption]. exact Ku.
  - cbn [unself resolve avoids] in *. destruct (mapM _ fs) as [ts|] eqn:M in H; [|discriminate]. injection H as <-.
    assert (X : exists ts', mapM (resolve E (bind_params d args') self') (map (unself (d_name d)) fs) = Some ts' /\ Forall2 (matches P) ts' ts).
    { revert ts M. induction fs as [|b fs IHf]; intros ts M; cbn [mapM map] in *; [injection M as <-; exists []; split; [reflexivity|constructor]|].
      destruct (resolve E (bind_params d args) _ b) as [ub|] eqn:Rb; [|discriminate]. destruct (mapM _ fs) as [us|] eqn:Rs; [|discriminate]. injection M as <-.
      inversion IH as [|? ? IHb IHs]; subst. cbn [forallb] in Af. apply andb_prop in Af as [Ab Afs].
      destruct (IHb ub) as (ub' & Rb' & Mb); auto.
      { intros NP. specialize (Mf NP). cbn [mentions existsb] in Mf. now apply orb_false_iff in Mf. }
      destruct (IHf IHs Afs) with (ts := us) as (us' & Rs' & Ms); auto.
      { intros NP. specialize (Mf NP). cbn [mentions existsb] in Mf. now apply orb_false_iff in Mf. }
      rewrite Rb', Rs'. exists (ub' :: us'). split; [reflexivity|]. now constructor. }
    destruct X as (ts' & -> & Mt). eexists. split; [reflexivity|]. now constructor.
Qed.

Lemma layouts : forall n t' t l, matches (fun s => tl n s = None) t' t -> tl n t = Some l -> ml n t' = Some l.
Proof.
  induction n as [n IH] using lt_wf_ind. intros t' t l M T.
  (* the least number of levels *)
  assert (X : exists m, m <= n /\ tl m t = Some l /\ (forall j, j < m -> tl j t = None)).
  { clear -T GE GD GF. induction n as [n IH] using lt_wf_ind. destruct n as [|n]; [discriminate|].
    destruct (tl n t) as [l0|] eqn:T0.
    - pose proof (tl_mono _ _ _ T0 (S n) ltac:(lia)) as T1. rewrite T in T1. injection T1 as <-. destruct (IH n ltac:(lia) T0) as (m & Le & H). exists m. split; [lia|assumption].
    - exists (S n). repeat split; auto. intros j J. destruct (tl j t) as [l1|] eqn:T1; [|reflexivity]. rewrite (tl_mono _ _ _ T1) in T0 by lia. discriminate. }
  destruct X as (m & Le & Tm & Min). destruct m as [|k]; [discriminate|].
  assert (Low : forall s, tl n s = None -> tl k s = None).
  { intros s Hs. destruct (tl k s) as [l1|] eqn:T1; [|reflexivity]. rewrite (tl_mono _ _ _ T1) in Hs by lia. discriminate. }
  apply (ml_mono (S k)); [|lia]. destruct M as [s Ps|x a' a Ma|c a' a Ma]; [congruence| |].
  - assert (Ma' : Forall2 (matches (fun s => tl k s = None)) a' a).
    { revert Ma. apply Forall2_imp. intros ? ? _. apply matches_imp. assumption. }
    pose proof (Min k ltac:(lia)) as Tk. cbn [macro_layout true_layout] in *. destruct (find_decl E x) as [d|] eqn:Fd; [|discriminate].
    rewrite (F2_len _ _ _ Ma). destruct (length a =? length (d_params d)) eqn:La; [|discriminate]. apply Nat.eqb_eq in La.
    pose proof Fd as Fd'. apply find_spec in Fd' as [[-> ->]|(_ & I & Ex)]; [exact Tm|]. subst x.
    destruct (mapM _ (d_fields d)) as [ls|] eqn:F in Tm; [|discriminate]. injection Tm as <-. apply mapM_F in F.
    replace (mapM _ (d_fields d)) with (Some ls); [reflexivity|]. symmetry. apply mapM_F. revert F. apply Forall2_imp. intros f lf If.
    destruct (resolve E (bind_params d a) _ (snd f)) as [u|] eqn:Ru; [|discriminate]. intros Tu.
    destruct (resolve_matches (fun s => tl k s = None) d a' a (snd f) u (TPath (d_name d) a') I La Ma' Tk (dg_fields d (GE d I) f If)) as (u' & Ru' & Mu); auto.
    rewrite Ru'. apply (IH k ltac:(lia) u' u lf Mu Tu).
  - cbn [macro_layout true_layout] in *. destruct (is_thin c); [assumption|]. destruct (mapM _ a) as [ls|] eqn:F in Tm; [|discriminate]. injection Tm as <-.
    apply mapM_F in F. replace (mapM _ a') with (Some ls); [reflexivity|]. symmetry. apply mapM_F.
    clear -F Ma IH Low Le. revert ls F. induction Ma as [|b' b r' r Mb _ IHr]; intros ls F; inversion F; subst; constructor; [|now apply IHr].
    apply (IH k ltac:(lia) b' b); [|assumption]. revert Mb. apply matches_imp. assumption.
Qed.
End Lay.
