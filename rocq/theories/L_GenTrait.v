(** Lemmas for C97. *)
From Coq Require Import List NArith Arith Bool Permutation Lia.
From Verif Require Import M_Generics S_Generics L_Generics M_GenTrait S_GenTrait.
Import ListNotations.
Ltac Zify.zify_post_hook ::= idtac.

(** ** Associated types *)
Lemma find_in : forall x l, In x l -> exists i, find x l = Some i /\ i < length l.
Proof.
  induction l as [|y l IH]; intros H; [contradiction|]. cbn [find length]. destruct (N.eqb_spec y x) as [->|NE]; [exists 0; split; [reflexivity|lia]|].
  destruct H as [H|H]; [contradiction|]. destruct (IH H) as (i & -> & L). exists (S i). split; [reflexivity|lia].
Qed.
Lemma find_nth : forall x l i, find x l = Some i -> nth_error l i = Some x.
Proof.
  induction l as [|y l IH]; intros i H; [discriminate|]. cbn [find] in H. destruct (N.eqb_spec y x) as [->|NE]; [injection H as <-; reflexivity|].
  destruct (find x l) as [j|]; [|discriminate]. injection H as <-. apply IH. reflexivity.
Qed.
Lemma find_none : forall x l, find x l = None <-> ~ In x l.
Proof.
  intros x l. split.
  - intros E H. destruct (find_in x l H) as (i & Q & _). congruence.
  - intros H. destruct (find x l) as [i|] eqn:E; [|reflexivity]. exfalso. apply H. eapply nth_error_In, find_nth. exact E.
Qed.
Lemma extend_in : forall xs l x, In x (extend l xs) <-> In x l \/ In x xs.
Proof.
  induction xs as [|y xs IH]; intros l x; cbn [extend]; [cbn; tauto|]. rewrite IH. destruct (find y l) as [i|] eqn:E.
  - apply find_nth, nth_error_In in E. cbn [In]. split; [tauto|]. intros [H|[<-|H]]; tauto.
  - rewrite in_app_iff. cbn [In]. tauto.
Qed.
Lemma extend_incl : forall xs l, incl xs l -> extend l xs = l.
Proof.
  induction xs as [|y xs IH]; intros l H; [reflexivity|]. cbn [extend]. destruct (find_in y l (H y (or_introl eq_refl))) as (i & -> & _).
  apply IH. intros z Hz. apply H. right. exact Hz.
Qed.
Lemma extend_new : forall xs l, NoDup (l ++ xs) -> extend l xs = l ++ xs.
Proof.
  induction xs as [|y xs IH]; intros l H; [rewrite app_nil_r; reflexivity|]. cbn [extend].
  assert (find y l = None) as ->. { apply find_none. intros I. apply NoDup_remove_2 in H. apply H, in_or_app. left. exact I. }
  rewrite IH by (rewrite <- app_assoc; exact H). rewrite <- app_assoc. reflexivity.
Qed.
Lemma in_shared : forall t m, In m (fns t) <-> In m (t_fns t).
Proof.
  intros t m. unfold fns, shared, muts. rewrite in_app_iff, !filter_In. destruct (m_mut m) eqn:E; cbn [negb]; intuition congruence.
Qed.
Lemma sdts_in : forall t x, In x (sdts t) <-> In x (map fst (t_types t)) \/ exists m, In m (t_fns t) /\ In x (m_types m).
Proof.
  intros t x. unfold sdts. rewrite !extend_in, in_flat_map. cbn [In]. split.
  - intros [[[]|H]|(m & H & I)]; [auto|]. right. exists m. rewrite <- in_shared. auto.
  - intros [H|(m & H & I)]; [auto|]. right. exists m. rewrite in_shared. auto.
Qed.
Lemma n_dyn_odd : forall i, N.even (n_dyn i) = false.
Proof. intros i. unfold n_dyn. rewrite N.even_add, N.even_mul. reflexivity. Qed.
Lemma n_dyn_inj : forall i j, n_dyn i = n_dyn j -> i = j.
Proof. unfold n_dyn. intros. lia. Qed.
Lemma n_dyn_big : forall i, (11 <= n_dyn i)%N.
Proof. unfold n_dyn. intros. lia. Qed.

(** ** Reading *)
Lemma whole_params : forall qs, whole p_param (decls qs) = Some qs.
Proof.
  intros qs. unfold whole, decls. rewrite (list_commas p_param param_toks (fun p => p) head_full read_full).
  - rewrite map_id. reflexivity.
  - pose proof (flat_len param_toks qs). lia.
Qed.
Lemma whole_args : forall qs, whole p_arg (uses qs) = Some (map as_arg qs).
Proof.
  intros qs. unfold whole, uses. rewrite (list_commas p_arg unbound as_arg head_unbound read_unbound).
  - reflexivity.
  - pose proof (flat_len unbound qs). lia.
Qed.
(** Parameters without bounds. *)
Definition bare (l : list N) : list param := map (fun n => PTy n [] None) l.
Lemma vars_decls : forall l, vars l = decls (bare l).
Proof. induction l as [|n l IH]; [reflexivity|]. cbn [vars flat_map bare map decls]. fold (vars l) (bare l) (decls (bare l)). rewrite IH. reflexivity. Qed.
Lemma vars_uses : forall l, vars l = uses (bare l).
Proof. induction l as [|n l IH]; [reflexivity|]. cbn [vars flat_map bare map uses]. fold (vars l) (bare l) (uses (bare l)). rewrite IH. reflexivity. Qed.
Lemma decls_app : forall a b, decls (a ++ b) = decls a ++ decls b.
Proof. intros. unfold decls. apply flat_map_app. Qed.
Lemma uses_app : forall a b, uses (a ++ b) = uses a ++ uses b.
Proof. intros. unfold uses. apply flat_map_app. Qed.
(** The parameters of the vtable. *)
Fixpoint insert (sd : option (list N)) (ps : list param) : list param :=
  match ps with
  | [] => match sd with Some l => bare l | None => [] end
  | PTy n bs d :: r => match sd with Some l => bare l | None => [] end ++ PTy n bs d :: insert None r
  | p :: r => p :: insert sd r
  end.
Lemma vt_gen_decls : forall ps sd, vt_gen true sd ps = decls (insert sd ps).
Proof.
  induction ps as [|p ps IH]; intros sd; cbn [vt_gen insert].
  - destruct sd as [l|]; [apply vars_decls|reflexivity].
  - destruct p as [n bs|n bs d|n x d].
    + rewrite IH. unfold decls at 2. cbn [flat_map]. rewrite <- app_assoc. reflexivity.
    + rewrite decls_app, IH. unfold decls at 3. cbn [flat_map]. rewrite <- app_assoc. destruct sd as [l|]; [rewrite vars_decls|]; reflexivity.
    + rewrite IH. unfold decls at 2. cbn [flat_map]. rewrite <- app_assoc. reflexivity.
Qed.
Lemma insert_none : forall ps, insert None ps = ps.
Proof. induction ps as [|[n bs|n bs d|n x d] ps IH]; cbn [insert app]; rewrite ?IH; reflexivity. Qed.
Lemma insert_in : forall ps l p, In p (insert (Some l) ps) <-> In p ps \/ In p (bare l).
Proof.
  induction ps as [|q ps IH]; intros l p; cbn [insert]; [cbn; tauto|]. destruct q as [n bs|n bs d|n x d]; cbn [In].
  - rewrite IH. tauto.
  - rewrite in_app_iff, insert_none. cbn [In]. tauto.
  - rewrite IH. tauto.
Qed.
(** Lifetimes, then types. *)
Lemma split_params : forall ps, lts_first ps = true -> Forall simple ps ->
  filter is_cst ps = [] /\ ps = filter is_lt ps ++ filter is_ty ps /\
  forall l, insert (Some l) ps = filter is_lt ps ++ bare l ++ filter is_ty ps /\
            vt_gen false (Some l) ps = uses (filter is_lt ps ++ bare l ++ filter is_ty ps).
Proof.
  assert (forall ps, forallb (fun q => negb (is_lt q)) ps = true -> Forall simple ps ->
    filter is_cst ps = [] /\ filter is_lt ps = [] /\ filter is_ty ps = ps /\ vt_gen false None ps = uses ps) as G.
  { induction ps as [|p ps IH]; intros H F; [repeat split|]. inversion F as [|? ? F1 F2]; subst. cbn [forallb] in H. apply andb_true_iff in H. destruct H as [H1 H2].
    destruct (IH H2 F2) as (E1 & E2 & E3 & E4). destruct p as [n bs|n bs [d|]|n x d]; try discriminate; try contradiction.
    cbn [filter is_lt is_ty is_cst]. rewrite E1, E2, E3. repeat split. cbn [vt_gen app]. rewrite E4. reflexivity. }
  induction ps as [|p ps IH]; intros H F.
  - split; [reflexivity|]. split; [reflexivity|]. intros l. cbn [vt_gen insert filter app]. rewrite app_nil_r. split; [reflexivity|apply vars_uses].
  - inversion F as [|? ? F1 F2]; subst. cbn [lts_first] in H. destruct p as [n [|b bs]|n bs [d|]|n x d]; cbn [is_lt] in H; try contradiction.
    + destruct (IH H F2) as (E1 & E2 & E3). cbn [filter is_lt is_ty is_cst app]. split; [exact E1|]. split; [rewrite <- E2; reflexivity|].
      intros l. cbn [insert vt_gen]. destruct (E3 l) as [-> ->]. split; reflexivity.
    + destruct (G ps H F2) as (E1 & E2 & E3 & E4). cbn [filter is_lt is_ty is_cst app]. rewrite E1, E2, E3. split; [reflexivity|]. split; [reflexivity|].
      intros l. cbn [insert vt_gen app]. rewrite insert_none, E4. split; [reflexivity|]. rewrite vars_uses, uses_app. reflexivity.
Qed.
(** What the arguments without bounds tell. *)
Lemma read_args_simple : forall ps k sd r l, p_list p_arg k (vt_gen false sd ps ++ [Gt]) = Some (l, r) ->
  Forall (fun p => match p with PLt _ [] | PTy _ _ _ => True | _ => False end) ps.
Proof.
  assert (forall l0 k X l r, p_list p_arg k (vars l0 ++ X) = Some (l, r) -> exists k' l' r', p_list p_arg k' X = Some (l', r')) as G.
  { induction l0 as [|n l0 IH]; intros k X l r H; [exists k, l, r; exact H|]. destruct k as [|k]; [discriminate|].
    cbn [vars flat_map app] in H. fold (vars l0) in H. cbn [p_list p_arg] in H. destruct (p_list p_arg k (vars l0 ++ X)) as [[l' r']|] eqn:E; [|discriminate].
    eapply IH. exact E. }
  induction ps as [|p ps IH]; intros k sd r l H; [constructor|]. destruct p as [n bs|n bs d|n x d].
  - destruct bs as [|b bs]; [|destruct k; cbn in H; discriminate]. constructor; [exact I|]. destruct k as [|k]; [discriminate|].
    cbn [vt_gen param_toks app p_list p_arg] in H. destruct (p_list p_arg k (vt_gen false sd ps ++ [Gt])) as [[l' r']|] eqn:E; [|discriminate]. eapply IH. exact E.
  - constructor; [exact I|]. cbn [vt_gen] in H.
    assert (exists k l r, p_list p_arg k (Var n :: Comma :: vt_gen false None ps ++ [Gt]) = Some (l, r)) as (k' & l' & r' & E).
    { destruct sd as [l0|]; [|exists k, l, r; exact H]. rewrite <- !app_assoc in H. apply G in H. exact H. }
    destruct k' as [|k']; [discriminate|]. cbn [p_list p_arg] in E. destruct (p_list p_arg k' (vt_gen false None ps ++ [Gt])) as [[? ?]|] eqn:E'; [|discriminate].
    eapply IH. exact E'.
  - destruct k; cbn in H; discriminate.
Qed.

(** ** Where clauses *)
Definition outl (l : list N) : list pred := map (fun n => (XUser n, [BUser n_lt])) l.
Definition b_name (b : abound) : N := match b with ALife n => n | ATrait _ n _ => n end.
(** The parameter of a type. *)
Definition par (t : trait) (x : N) : N := match unself t x with Some n => n | None => 0%N end.
(** The predicates of [vt_bounds]. *)
Definition vt_preds (t : trait) : list pred := map (fun x => (XUser (par t (fst x)), [BUser (b_name (snd x))])) (bounds t).
Lemma bounds_in : forall t x b, In (x, b) (bounds t) <-> exists bs, In (x, bs) (t_types t) /\ In b bs.
Proof.
  intros t x b. unfold bounds. rewrite in_flat_map. split.
  - intros ((y & bs) & H & I). cbn [fst snd] in I. apply in_map_iff in I. destruct I as (c & E & I). injection E as -> ->. exists bs. auto.
  - intros (bs & H & I). exists (x, bs). split; [exact H|]. cbn [fst snd]. apply in_map_iff. exists b. auto.
Qed.
Lemma declared_sdt : forall t x, In x (map fst (t_types t)) -> In x (sdts t).
Proof. intros t x H. apply sdts_in. left. exact H. Qed.
Lemma unself_in : forall t x, In x (sdts t) -> exists i, find x (sdts t) = Some i /\ i < length (sdts t) /\ unself t x = Some (n_dyn i) /\ par t x = n_dyn i.
Proof.
  intros t x H. destruct (find_in x _ H) as (i & E & L). exists i. unfold par, unself. rewrite E. auto.
Qed.
Lemma bounds_sdt : forall t x b, In (x, b) (bounds t) -> In x (sdts t).
Proof. intros t x b H. apply bounds_in in H. destruct H as (bs & H & _). apply declared_sdt. apply in_map_iff. exists (x, bs). auto. Qed.
Lemma vt_bounds_commas : forall t, (forall x b, In (x, b) (bounds t) -> match b with ALife _ => False | _ => True end) -> vt_bounds t = commas (vt_preds t).
Proof.
  intros t H. unfold vt_bounds, vt_preds. assert (forall x b, In (x, b) (bounds t) -> In x (sdts t)) as S0 by (intros; eapply bounds_sdt; eassumption).
  revert H S0. generalize (bounds t). induction l as [|[x b] l IH]; intros H S0; [reflexivity|]. cbn [flat_map map commas]. fold (commas (map (fun x => (XUser (par t (fst x)), [BUser (b_name (snd x))])) l)).
  rewrite IH by (intros; (eapply H || eapply S0); right; eassumption). cbn [fst snd].
  destruct (unself_in t x (S0 x b (or_introl eq_refl))) as (i & _ & _ & -> & E). specialize (H x b (or_introl eq_refl)). destruct b as [k|r k ms]; [contradiction|].
  unfold commas. cbn [flat_map pred_toks fst snd bound_toks b_name app]. rewrite E. reflexivity.
Qed.
Lemma read_where_commas : forall ps, read_where (commas ps) = Some ps.
Proof.
  intros ps. unfold read_where. pose proof (preds_commas ps (length (commas ps)) [] (commas_len ps)) as Q. rewrite app_nil_r in Q. rewrite Q.
  destruct (length (commas ps) - length ps); cbn [p_preds]; rewrite app_nil_r; reflexivity.
Qed.
Lemma outl_toks : forall l, flat_map (fun n => [Ty (XUser n); Colon; Bnd [BUser n_lt]; Comma]) l = commas (outl l).
Proof. intros l. unfold outl, commas. rewrite flat_map_concat_map, (flat_map_concat_map _ (map _ l)), map_map. reflexivity. Qed.
(** A lifetime that is followed by something. *)
Lemma stuck_where : forall t l k x r, (forall y b, In (y, b) l -> In y (sdts t)) ->
  snd (p_preds k (flat_map (fun x => match unself t (fst x) with None => [] | Some n => bound_toks n (snd x) end) l ++ Ty x :: r)) = [] ->
  forall y b, In (y, b) l -> match b with ALife _ => False | _ => True end.
Proof.
  induction l as [|[y b] l IH]; intros k x r S0 H z c I; [contradiction|]. cbn [flat_map fst snd] in H.
  destruct (unself_in t y (S0 y b (or_introl eq_refl))) as (i & _ & _ & E & _). rewrite E in H.
  assert (match b with ALife _ => False | _ => True end /\ exists k' , snd (p_preds k' (flat_map (fun x => match unself t (fst x) with None => [] | Some n => bound_toks n (snd x) end) l ++ Ty x :: r)) = []) as [H1 [k' H2]].
  { destruct k as [|k]; [destruct b; discriminate|]. destruct b as [j|rl j ms]; cbn [bound_toks app p_preds] in H.
    - exfalso. destruct (flat_map _ l ++ Ty x :: r) as [|c0 q] eqn:F.
      + destruct (flat_map _ l); discriminate.
      + assert (c0 <> Comma) as NC.
        { intros ->. destruct l as [|[y2 b2] l]; cbn [flat_map app] in F; [discriminate|]. cbn [fst snd] in F.
          destruct (unself_in t y2 (S0 y2 b2 (or_intror (or_introl eq_refl)))) as (i2 & _ & _ & E2 & _). rewrite E2 in F. destruct b2; discriminate. }
        destruct c0; try discriminate. congruence.
    - split; [exact Logic.I|]. exists k.
      destruct (p_preds k (flat_map _ l ++ Ty x :: r)) as [a b0]. exact H. }
  destruct I as [I|I]; [injection I as <- <-; exact H1|]. eapply IH; [|exact H2|exact I]. intros y' b' Q. eapply S0. right. exact Q.
Qed.

(** ** What is generated, as read *)
Section Items.
  Context (t : trait).
  Definition vtps : list param := lts t ++ bare (dyns t) ++ tys t.
  (** Parameters of items: some, lifetimes, some more, associated types, types. *)
  Definition with_ (a b : list param) : list param := a ++ lts t ++ b ++ bare (dyns t) ++ tys t.
  Definition vref : gref (list arg) := Ref HVt (map as_arg vtps) [].
  Definition tref (h : head) (b : list (N * N)) : gref (list arg) := Ref h (map as_arg (t_params t)) b.
  Definition b_lt : param := PLt n_lt [].
  Definition b_arb : param := PTy n_arb [] None.
  Definition b_der : param := PTy n_der [] None.
  Definition b_vtp : param := PTy n_vtp [] None.
  Definition b_ptr : param := PTy n_ptr [] None.
  Definition dref (h : head) : gref (list arg) := Ref h (map as_arg (with_ [] [b_der])) [].
  Definition e_std : item := Item (Imp (Ref HStd [] []) vref []) vtps (vt_preds t) None [] [] [].
  Definition e_cons : item :=
    Item (Imp (Ref HCons [ALt n_lt; AVar n_arb] []) vref []) (with_ [b_lt] [b_arb])
      (vt_preds t ++ outl (map p_name (tys t)) ++ outl (dyns t)) (Some (n_arb, tref HTr (binds t))) [tref HTr []; vref] (flat_map m_types (fns t)) [].
  Definition e_compound : item :=
    Item (Imp (Ref HCompound [] []) (tref HObj (binds t)) []) (with_ [b_lt] []) (vt_preds t) None [vref] [] [].
  Definition e_dyn : item := Item (New HDyn None (sdt_bounds t)) (with_ [] [b_der]) (vt_preds t) None [] [] (map m_name (shared t)).
  Definition e_self (b : bool) : gref (list arg) := Ref HPtr (if b then [AVar n_ptr; AVar n_vtp] else [AVar n_vtp]) [].
  Definition e_impl (b : bool) : item :=
    Item (Imp (dref HDyn) (e_self b) (binds t)) (with_ [] ((if b then [b_ptr] else []) ++ [b_vtp; b_der])) (vt_preds t) None [vref] [] (map m_name (shared t)).
  Definition e_mut : item := Item (New HMut (Some (dref HDyn)) []) (with_ [] [b_der]) (vt_preds t) None [] [] (map m_name (muts t)).
  Definition e_mimpl : item :=
    Item (Imp (dref HMut) (e_self true) []) (with_ [] [b_ptr; b_vtp; b_der]) (vt_preds t) None [vref] [] (map m_name (muts t)).
  Definition e_items : list item := [e_std; e_cons; e_compound; e_dyn; e_impl false; e_impl true; e_mut; e_mimpl].
  Definition e_decl : decl := Decl KStruct 0 vtps (vt_preds t) (ends_comma (vt_bounds t)) (Braces (map N.of_nat (seq 0 (length (fns t))))).

  Hypothesis HL : lts_first (t_params t) = true.
  Hypothesis HS : Forall simple (t_params t).
  Hypothesis HB : forall x b, In (x, b) (bounds t) -> match b with ALife _ => False | _ => True end.

  Lemma csts_nil : csts t = [].
  Proof. exact (proj1 (split_params _ HL HS)). Qed.
  Lemma params_split : t_params t = lts t ++ tys t.
  Proof. exact (proj1 (proj2 (split_params _ HL HS))). Qed.
  Lemma gen_true : vt_generics true t = decls vtps.
  Proof. unfold vt_generics. rewrite vt_gen_decls. destruct (proj2 (proj2 (split_params _ HL HS)) (dyns t)) as [-> _]. reflexivity. Qed.
  Lemma gen_false : vt_generics false t = uses vtps.
  Proof. unfold vt_generics. destruct (proj2 (proj2 (split_params _ HL HS)) (dyns t)) as [_ ->]. reflexivity. Qed.
  Lemma args_vt : vt_args t = uses vtps.
  Proof. unfold vt_args, vtps. rewrite !uses_app, vars_uses. reflexivity. Qed.
  Lemma args_tr : tr_args t = uses (t_params t).
  Proof. unfold tr_args. rewrite csts_nil. cbn [uses flat_map]. fold (uses (lts t)) (uses (tys t)). rewrite params_split, uses_app, app_nil_r. reflexivity. Qed.
  Lemma args_dyn : dyn_args t = uses (with_ [] [b_der]).
  Proof. unfold dyn_args, with_. rewrite csts_nil, app_nil_l, !uses_app, vars_uses. cbn [uses flat_map unbound b_der app]. rewrite app_nil_r. reflexivity. Qed.
  Lemma where_vt : vt_bounds t = commas (vt_preds t).
  Proof. apply vt_bounds_commas. exact HB. Qed.
  Lemma decls_with : forall a b, decls a ++ decls (lts t) ++ decls b ++ vars (dyns t) ++ decls (tys t) ++ decls (csts t) = decls (with_ a b).
  Proof. intros a b. rewrite csts_nil. unfold with_. rewrite !decls_app, vars_decls. change (decls []) with (@nil tok). rewrite app_nil_r. reflexivity. Qed.
  Lemma read_ref_uses : forall h qs b, read_ref (Ref h (uses qs) b) = Some (Ref h (map as_arg qs) b).
  Proof. intros. unfold read_ref. cbn [f_args f_head f_binds]. rewrite whole_args. reflexivity. Qed.
  Lemma read_ref_nil : forall h b, read_ref (Ref h [] b) = Some (Ref h [] b).
  Proof. reflexivity. Qed.
  Lemma read_ptr : forall b, read_ref (ptr_self b) = Some (e_self b).
  Proof. intros []; reflexivity. Qed.
  Lemma outl_names : flat_map (fun p => [Ty (XUser (p_name p)); Colon; Bnd [BUser n_lt]; Comma]) (tys t) = commas (outl (map p_name (tys t))).
  Proof. rewrite <- outl_toks. rewrite !flat_map_concat_map, map_map. reflexivity. Qed.
  Lemma read_items : all read (raws t) = Some e_items.
  Proof.
    assert (read (std_impl t) = Some e_std) as E0.
    { unfold read, std_impl. cbn [g_what g_params g_where g_bound g_refs g_projs g_fns read_what read_bound all].
      rewrite read_ref_nil, gen_false, read_ref_uses, gen_true, whole_params, where_vt, read_where_commas. reflexivity. }
    assert (read (cons_impl t) = Some e_cons) as E1.
    { unfold read, cons_impl. cbn [g_what g_params g_where g_bound g_refs g_projs g_fns read_what read_bound all].
      rewrite args_vt, args_tr, !read_ref_uses.
      change (read_ref (Ref HCons [Life n_lt; Comma; Var n_arb] [])) with (Some (Ref HCons [ALt n_lt; AVar n_arb] [])).
      pose proof (decls_with [b_lt] [b_arb]) as Q. cbn [decls flat_map b_lt b_arb param_toks app] in Q |- *. fold (decls (lts t)) (decls (tys t)) (decls (csts t)) in Q |- *.
      cbn [app] in Q. rewrite Q, whole_params. rewrite where_vt, outl_toks, outl_names, <- !commas_app, read_where_commas. reflexivity. }
    assert (read (compound_impl t) = Some e_compound) as E2.
    { unfold read, compound_impl. cbn [g_what g_params g_where g_bound g_refs g_projs g_fns read_what read_bound all].
      rewrite args_vt, args_tr, read_ref_nil, !read_ref_uses.
      pose proof (decls_with [b_lt] []) as Q. cbn [decls flat_map b_lt param_toks app] in Q |- *. fold (decls (lts t)) (decls (tys t)) (decls (csts t)) in Q |- *.
      rewrite Q, whole_params. rewrite where_vt, read_where_commas. reflexivity. }
    assert (read (dyn_trait t) = Some e_dyn) as E3.
    { unfold read, dyn_trait. cbn [g_what g_params g_where g_bound g_refs g_projs g_fns read_what read_bound all].
      pose proof (decls_with [] [b_der]) as Q. cbn [decls flat_map b_der param_toks app] in Q |- *. fold (decls (lts t)) (decls (tys t)) (decls (csts t)) in Q |- *.
      rewrite Q, whole_params. rewrite where_vt, read_where_commas. reflexivity. }
    assert (forall b, read (dyn_impl b t) = Some (e_impl b)) as E4.
    { intros b. unfold read, dyn_impl. cbn [g_what g_params g_where g_bound g_refs g_projs g_fns read_what read_bound all].
      rewrite args_vt, args_dyn, !read_ref_uses, read_ptr.
      pose proof (decls_with [] ((if b then [b_ptr] else []) ++ [b_vtp; b_der])) as Q.
      replace (decls ((if b then [b_ptr] else []) ++ [b_vtp; b_der])) with (providers b) in Q by (destruct b; reflexivity). cbn [decls flat_map app] in Q |- *. fold (decls (lts t)) (decls (tys t)) (decls (csts t)) in Q |- *.
      rewrite Q, whole_params. rewrite where_vt, read_where_commas. reflexivity. }
    assert (read (mut_trait t) = Some e_mut) as E5.
    { unfold read, mut_trait. cbn [g_what g_params g_where g_bound g_refs g_projs g_fns read_what read_bound all].
      rewrite args_dyn, !read_ref_uses.
      pose proof (decls_with [] [b_der]) as Q. cbn [decls flat_map b_der param_toks app] in Q |- *. fold (decls (lts t)) (decls (tys t)) (decls (csts t)) in Q |- *.
      rewrite Q, whole_params. rewrite where_vt, read_where_commas. reflexivity. }
    assert (read (mut_impl t) = Some e_mimpl) as E6.
    { unfold read, mut_impl. cbn [g_what g_params g_where g_bound g_refs g_projs g_fns read_what read_bound all].
      rewrite args_vt, args_dyn, !read_ref_uses, read_ptr.
      pose proof (decls_with [] [b_ptr; b_vtp; b_der]) as Q.
      change (decls [b_ptr; b_vtp; b_der]) with (providers true) in Q. cbn [decls flat_map app] in Q |- *. fold (decls (lts t)) (decls (tys t)) (decls (csts t)) in Q |- *.
      rewrite Q, whole_params. rewrite where_vt, read_where_commas. reflexivity. }
    unfold raws. cbn [all]. rewrite E0, E1, E2, E3, !E4, E5, E6. reflexivity.
  Qed.
  Lemma read_vt : read_decl t = Some e_decl.
  Proof.
    unfold read_decl. replace (p_item (vt_decl t)) with (Some (Def KStruct (User 0) vtps (vt_preds t) (Braces (map N.of_nat (seq 0 (length (fns t))))), @nil tok)); [reflexivity|].
    symmetry. unfold vt_decl. rewrite gen_true. cbn [app p_item]. unfold angles, p_params. cbn [app]. rewrite <- app_assoc. cbn [app].
    unfold decls at 1 2. rewrite (list_commas p_param param_toks (fun p => p) head_full read_full).
    - rewrite map_id, where_vt. unfold p_where.
      rewrite preds_commas by (rewrite app_length; pose proof (commas_len (vt_preds t)); lia).
      rewrite preds_end by exact I. rewrite app_nil_r. reflexivity.
    - cbn [length]. rewrite !app_length. pose proof (flat_len param_toks vtps). lia.
  Qed.
End Items.

(** ** Rules *)
Lemma given_in : forall env x bs b, In (x, bs) env -> In b bs -> given env x b = true.
Proof.
  intros env x bs b H I. unfold given. apply existsb_exists. exists (x, bs). split; [exact H|]. cbn [fst snd]. apply andb_true_iff. split.
  - destruct x; cbn; [apply N.eqb_refl|reflexivity|apply Nat.eqb_refl].
  - apply existsb_exists. exists b. split; [exact I|]. destruct b; cbn; [apply N.eqb_refl|reflexivity|reflexivity].
Qed.
Lemma tyx_eqb_eq : forall a b, tyx_eqb a b = true -> a = b.
Proof. intros [n| |n] [m| |m]; cbn; intros H; try discriminate; [apply N.eqb_eq in H; congruence|reflexivity|apply Nat.eqb_eq in H; congruence]. Qed.
Lemma bnd_eqb_eq : forall a b, bnd_eqb a b = true -> a = b.
Proof. intros [n| |] [m| |]; cbn; intros H; try discriminate; [apply N.eqb_eq in H; congruence|reflexivity|reflexivity]. Qed.
Lemma given_out : forall env x b, given env x b = true -> exists bs, In (x, bs) env /\ In b bs.
Proof.
  intros env x b H. unfold given in H. apply existsb_exists in H. destruct H as ((y & bs) & H & E). cbn [fst snd] in E. apply andb_true_iff in E.
  destruct E as [E1 E2]. apply tyx_eqb_eq in E1. subst y. apply existsb_exists in E2. destruct E2 as (c & I & E). apply bnd_eqb_eq in E. subst c. eauto.
Qed.
Lemma holds_incl : forall env l, incl l env -> forallb (holds env) l = true.
Proof.
  intros env l H. apply forallb_forall. intros [x bs] I. unfold holds. apply forallb_forall. intros b J. cbn [fst snd] in *. eapply given_in; [apply H; exact I|exact J].
Qed.
Lemma param_preds_incl : forall a b, incl a b -> incl (param_preds a) (param_preds b).
Proof. intros a b H p I. unfold param_preds in *. apply in_flat_map in I. destruct I as (q & I & J). apply in_flat_map. exists q. split; [apply H; exact I|exact J]. Qed.
Lemma same_self : forall scope qs, incl qs scope -> same scope qs (map as_arg qs) = true.
Proof.
  induction qs as [|q qs IH]; intros H; [reflexivity|]. cbn [map same].
  rewrite IH by (intros x Hx; apply H; right; exact Hx). rewrite andb_true_r. specialize (H q (or_introl eq_refl)).
  destruct q as [n bs|n bs d|n x d]; cbn [as_arg]; rewrite N.eqb_refl; cbn [andb]; apply existsb_exists; eexists; (split; [exact H|]); cbn; apply N.eqb_refl.
Qed.
Lemma in_args : forall h qs b q, In q qs -> In (p_name q) (arg_names (Ref h (map as_arg qs) b)).
Proof.
  intros h qs b q H. unfold arg_names. cbn [f_args f_binds]. apply in_or_app. left. apply in_flat_map. exists (as_arg q). split; [apply in_map; exact H|].
  destruct q; left; reflexivity.
Qed.
Lemma ldec : forall l : list N, (if list_eq_dec N.eq_dec l l then true else false) = true.
Proof. intros l. destruct (list_eq_dec N.eq_dec l l); [reflexivity|congruence]. Qed.
Lemma odd_even : forall n m, N.even n = true -> N.even m = false -> n <> m.
Proof. intros n m A B ->. congruence. Qed.
Lemma nodup_dyns : forall t, NoDup (dyns t).
Proof.
  intros t. unfold dyns. apply FinFun.Injective_map_NoDup; [|apply seq_NoDup]. intros i j. apply n_dyn_inj.
Qed.
Lemma in_dyns : forall t n, In n (dyns t) <-> exists i, i < length (sdts t) /\ n = n_dyn i.
Proof.
  intros t n. unfold dyns. rewrite in_map_iff. split.
  - intros (i & <- & H). apply in_seq in H. exists i. split; [lia|reflexivity].
  - intros (i & L & ->). exists i. split; [reflexivity|]. apply in_seq. lia.
Qed.
Lemma bare_names : forall l, map p_name (bare l) = l.
Proof. intros l. unfold bare. rewrite map_map. apply map_id. Qed.

Section Good.
  Context (t : trait) (HG : legal t) (HP : supported t).
  Let HL := l_lts t HG.
  Let HS := s_params t HP.
  Lemma no_life : forall x b, In (x, b) (bounds t) -> match b with ALife _ => False | _ => True end.
  Proof. intros x b H. apply bounds_in in H. destruct H as (bs & H & I). pose proof (s_bnds t HP x bs b H I) as Q. destruct b; [contradiction|exact Logic.I]. Qed.
  Let HB := no_life.
  Lemma split0 : t_params t = lts t ++ tys t.
  Proof. exact (params_split t HL HS). Qed.
  (** All associated types are declared. *)
  Lemma fn_types : forall m, In m (t_fns t) -> incl (m_types m) (map fst (t_types t)).
  Proof.
    intros m H x I. destruct (l_fns t HG m H) as [_ Q]. specialize (Q x I). unfold all_types in Q. rewrite (s_super t HP), app_nil_r in Q. exact Q.
  Qed.
  Lemma types_once : NoDup (map fst (t_types t)).
  Proof. pose proof (l_types t HG) as H. unfold all_types in H. rewrite (s_super t HP), app_nil_r in H. exact H. Qed.
  Lemma sdts_declared : sdts t = map fst (t_types t).
  Proof.
    unfold sdts. rewrite (extend_new _ []) by exact types_once. cbn [app]. apply extend_incl. intros x H. apply in_flat_map in H.
    destruct H as (m & H & I). eapply fn_types; [rewrite <- in_shared; exact H|exact I].
  Qed.
  Lemma binds_par : forall l k, NoDup l -> (forall i x, nth_error l i = Some x -> par t x = n_dyn (k + i)) ->
    combine l (map n_dyn (seq k (length l))) = map (fun x => (x, par t x)) l.
  Proof.
    induction l as [|x l IH]; intros k ND H; [reflexivity|]. cbn [length seq map combine]. rewrite (IH (S k)).
    - rewrite (H 0 x eq_refl). rewrite Nat.add_0_r. reflexivity.
    - inversion ND; assumption.
    - intros i y E. rewrite (H (S i) y E). f_equal. lia.
  Qed.
  Lemma par_nth : forall i x, nth_error (sdts t) i = Some x -> par t x = n_dyn i.
  Proof.
    intros i x E. assert (In x (sdts t)) as I by (eapply nth_error_In; exact E). destruct (unself_in t x I) as (j & F & L & _ & ->).
    f_equal. apply find_nth in F. pose proof types_once as ND. rewrite <- sdts_declared in ND. rewrite NoDup_nth_error in ND.
    apply ND; [exact L|congruence].
  Qed.
  Lemma binds_v : binds t = bound_by (par t) t.
  Proof.
    unfold binds, dyns. rewrite (binds_par (sdts t) 0).
    - unfold bound_by. rewrite sdts_declared, map_map. reflexivity.
    - rewrite sdts_declared. exact types_once.
    - intros i x E. apply par_nth. exact E.
  Qed.
  Lemma dyns_par : dyns t = map (par t) (sdts t).
  Proof.
    assert (dyns t = map snd (binds t)) as ->.
    { unfold binds. assert (length (sdts t) = length (dyns t)) as E by (unfold dyns; rewrite map_length, seq_length; reflexivity).
      revert E. generalize (dyns t), (sdts t). induction l as [|n l IH]; intros [|x s] E; try discriminate; [reflexivity|]. cbn [combine map snd]. rewrite <- IH by (cbn in E; congruence). reflexivity. }
    rewrite binds_v. unfold bound_by. rewrite map_map, sdts_declared, map_map. reflexivity.
  Qed.
  Lemma free_bare : free (par t) t = bare (dyns t).
  Proof. unfold free, bare. rewrite dyns_par, sdts_declared, !map_map. reflexivity. Qed.

  (** Parameters. *)
  Lemma with_perm : forall a b, Permutation (with_ t a b) ((a ++ b) ++ t_params t ++ bare (dyns t)).
  Proof.
    intros a b. unfold with_. rewrite split0, <- !app_assoc. apply Permutation_app_head.
    rewrite (Permutation_app_comm (lts t) (b ++ bare (dyns t) ++ tys t)). rewrite <- !app_assoc. apply Permutation_app_head.
    rewrite (Permutation_app_comm (bare (dyns t)) (tys t ++ lts t)). rewrite (Permutation_app_comm (tys t) (lts t)), <- app_assoc. reflexivity.
  Qed.
  Lemma with_once : forall a b, NoDup (map p_name (a ++ b)) -> (forall p, In p (a ++ b) -> N.even (p_name p) = false /\ (p_name p < 11)%N) ->
    distinct (map p_name (with_ t a b)) = true.
  Proof.
    intros a b ND H. apply distinct_NoDup. eapply Permutation_NoDup; [apply Permutation_map, Permutation_sym, with_perm|].
    rewrite !map_app, bare_names. rewrite map_app in ND.
    assert (forall A (l m : list A), NoDup l -> NoDup m -> (forall x, In x l -> ~ In x m) -> NoDup (l ++ m)) as G.
    { induction l as [|x l IH]; intros m A1 A2 A3; [exact A2|]. inversion A1 as [|? ? N0 N1]; subst. cbn [app]. constructor.
      - rewrite in_app_iff. intros [Q|Q]; [contradiction|]. exact (A3 x (or_introl eq_refl) Q).
      - apply IH; [exact N1|exact A2|]. intros y Hy. apply A3. right. exact Hy. }
    assert (forall n, In n (map p_name (t_params t)) -> N.even n = true) as EV.
    { intros n I. apply in_map_iff in I. destruct I as (p & <- & I). pose proof (l_names t HG) as F. rewrite Forall_forall in F. apply (F p I). }
    apply G; [exact ND| |].
    - apply G; [exact (l_once t HG)|apply nodup_dyns|]. intros n I J. apply EV in I. apply in_dyns in J. destruct J as (i & _ & ->). rewrite n_dyn_odd in I. discriminate.
    - intros n I J. rewrite <- map_app in I. apply in_map_iff in I. destruct I as (p & <- & I). destruct (H p I) as [H1 H2].
      apply in_app_iff in J. destruct J as [J|J]; [apply EV in J; congruence|]. apply in_dyns in J. destruct J as (i & _ & E). pose proof (n_dyn_big i). lia.
  Qed.
  Lemma with_lts : forall a b, forallb is_lt a = true -> forallb (fun p => negb (is_lt p)) b = true -> lts_first (with_ t a b) = true.
  Proof.
    intros a b A B. clear HL HS HB. unfold with_. induction a as [|p a IH]; cbn [forallb app lts_first] in *.
    - unfold lts. induction (t_params t) as [|q ps IH].
      + cbn [filter app]. assert (forallb (fun q => negb (is_lt q)) (b ++ bare (dyns t) ++ tys t) = true) as Q.
        { rewrite !forallb_app, B. cbn [andb]. apply andb_true_iff. split; apply forallb_forall; intros x I.
          - apply in_map_iff in I. destruct I as (n & <- & _). reflexivity.
          - unfold tys in I. apply filter_In in I. destruct I as [_ I]. destruct x; [discriminate|reflexivity|reflexivity]. }
        revert Q. generalize (b ++ bare (dyns t) ++ tys t). intros [|x l] Q; [reflexivity|]. cbn [forallb lts_first] in *. apply andb_true_iff in Q. destruct Q as [Q1 Q2].
        destruct (is_lt x); [discriminate|exact Q2].
      + cbn [filter]. destruct (is_lt q) eqn:E; [|exact IH]. cbn [app lts_first]. rewrite E. exact IH.
    - apply andb_true_iff in A. destruct A as [A1 A2]. rewrite A1. apply IH. exact A2.
  Qed.
  Lemma with_nodef : forall a b, forallb (fun p => negb (has_default p)) (a ++ b) = true -> forallb (fun p => negb (has_default p)) (with_ t a b) = true.
  Proof.
    intros a b H. apply forallb_forall. intros p I. apply (Permutation_in _ (with_perm a b)) in I. rewrite !in_app_iff in I.
    rewrite forallb_forall in H. destruct I as [[I|I]|[I|I]].
    - apply H, in_or_app. left. exact I.
    - apply H, in_or_app. right. exact I.
    - pose proof HS as F. rewrite Forall_forall in F. specialize (F p I). destruct p as [n bs|n bs [d|]|n x d]; try contradiction; reflexivity.
    - apply in_map_iff in I. destruct I as (n & <- & _). reflexivity.
  Qed.
  Lemma vtps_with : vtps t = with_ t [] [].
  Proof. reflexivity. Qed.
  Lemma incl_vtps : forall a b, incl (vtps t) (with_ t a b).
  Proof. intros a b p I. unfold vtps, with_ in *. rewrite !in_app_iff in *. tauto. Qed.
  Lemma incl_params : forall a b, incl (t_params t) (with_ t a b).
  Proof. intros a b p I. rewrite split0 in I. unfold with_. rewrite !in_app_iff in *. tauto. Qed.
  Lemma incl_dyn : forall a b, In b_der b -> incl (with_ t [] [b_der]) (with_ t a b).
  Proof. intros a b H p I. unfold with_ in *. cbn [app] in I. rewrite !in_app_iff in *. cbn [In] in I. rewrite !in_app_iff in I. intuition congruence. Qed.

  (** References. *)
  Lemma ok_vt : forall a b w, incl (vt_preds t) w -> ref_ok t (e_decl t) (e_items t) (with_ t a b) w (vref t) = true.
  Proof.
    intros a b w H. unfold ref_ok, vref. cbn [f_head f_args def_of binds_ok f_binds e_decl d_params d_where].
    rewrite same_self by apply incl_vtps. rewrite andb_true_r. cbn [andb]. apply holds_incl.
    apply incl_app; [apply incl_appl, param_preds_incl, incl_vtps|apply incl_appr; exact H].
  Qed.
  Lemma ok_dyn : forall h a b w, (h = HDyn \/ h = HMut) -> In b_der b -> incl (vt_preds t) w -> ref_ok t (e_decl t) (e_items t) (with_ t a b) w (dref t h) = true.
  Proof.
    intros h a b w Hh Hb H.
    assert (def_of t (e_decl t) (e_items t) h = Some (with_ t [] [b_der], vt_preds t)) as E by (destruct Hh as [-> | ->]; reflexivity).
    assert (forallb (holds (param_preds (with_ t a b) ++ w)) (param_preds (with_ t [] [b_der]) ++ vt_preds t) = true) as HH
      by (apply holds_incl, incl_app; [apply incl_appl, param_preds_incl, incl_dyn; exact Hb|apply incl_appr; exact H]).
    pose proof (same_self (with_ t a b) _ (incl_dyn a b Hb)) as SS.
    destruct Hh as [-> | ->]; unfold ref_ok, dref; cbn [f_head f_args]; rewrite E, SS, HH; reflexivity.
  Qed.
  Lemma where_holds : forall a b w, forallb (holds (param_preds (with_ t a b) ++ w)) (t_where t) = true.
  Proof.
    intros a b w. apply forallb_forall. intros p I. unfold holds. apply forallb_forall. intros c J.
    destruct (s_where t HP p c I J) as (q & Q & E & B). rewrite E. eapply given_in; [|exact B]. apply in_or_app. left. unfold param_preds. apply in_flat_map.
    exists q. split; [apply incl_params; exact Q|]. destruct q as [n bs|n bs d|n x d]; cbn [p_bnds p_name] in *; [left; reflexivity|left; reflexivity|contradiction].
  Qed.
  Lemma distinct_binds : distinct (map fst (binds t)) = true.
  Proof. apply distinct_NoDup. rewrite binds_v. unfold bound_by. rewrite map_map. exact types_once. Qed.
  Lemma in_bare : forall x a b, In x (map fst (t_types t)) -> existsb (fun q => is_ty q && N.eqb (p_name q) (par t x)) (with_ t a b) = true.
  Proof.
    intros x a b H. apply existsb_exists. exists (PTy (par t x) [] None). split; [|cbn; apply N.eqb_refl].
    unfold with_. rewrite !in_app_iff. right. right. right. left. rewrite <- free_bare. unfold free. apply in_map_iff in H. destruct H as (y & <- & H).
    apply in_map_iff. exists y. auto.
  Qed.
  Lemma binds_good : forall h a b bs, (h = HTr /\ bs = []) \/ ((h = HTr \/ h = HObj) /\ bs = binds t) -> binds_ok t (with_ t a b) (tref t h bs) = true.
  Proof.
    intros h a b bs H. unfold binds_ok, tref. cbn [f_head f_binds].
    destruct H as [[-> ->]|[H ->]]; [reflexivity|]. rewrite distinct_binds.
    assert (forallb (fun c => existsb (N.eqb (fst c)) (map fst (t_types t) ++ t_super t) &&
      existsb (fun q => is_ty q && N.eqb (p_name q) (snd c)) (with_ t a b)) (binds t) = true) as ->.
    { apply forallb_forall. intros c I. rewrite binds_v in I. unfold bound_by in I. apply in_map_iff in I. destruct I as (y & <- & I). cbn [fst snd].
      rewrite in_bare by (apply in_map; exact I). rewrite andb_true_r. apply existsb_exists. exists (fst y). split; [apply in_or_app; left; apply in_map; exact I|apply N.eqb_refl]. }
    cbn [andb]. destruct H as [-> | ->]; [reflexivity|].
    apply forallb_forall. intros n I. rewrite (s_super t HP), app_nil_r in I. apply existsb_exists. exists (n, par t n). split; [|apply N.eqb_refl].
    rewrite binds_v. unfold bound_by. apply in_map_iff in I. destruct I as (y & <- & I). apply in_map_iff. exists y. auto.
  Qed.
  Lemma ok_tr : forall h a b w bs, (h = HTr /\ bs = []) \/ ((h = HTr \/ h = HObj) /\ bs = binds t) -> ref_ok t (e_decl t) (e_items t) (with_ t a b) w (tref t h bs) = true.
  Proof.
    intros h a b w bs H. pose proof (binds_good h a b bs H) as BG.
    assert (def_of t (e_decl t) (e_items t) h = Some (t_params t, t_where t)) as E by (destruct H as [[-> _]|[[-> | ->] _]]; reflexivity).
    pose proof (same_self (with_ t a b) _ (incl_params a b)) as SS.
    assert (forallb (holds (param_preds (with_ t a b) ++ w)) (param_preds (t_params t) ++ t_where t) = true) as HH.
    { rewrite forallb_app, where_holds. rewrite (holds_incl _ (param_preds (t_params t))) by (apply incl_appl, param_preds_incl, incl_params). reflexivity. }
    unfold ref_ok. rewrite BG. destruct H as [[-> _]|[[-> | ->] _]]; cbn [tref f_head f_args]; rewrite E, SS, HH; reflexivity.
  Qed.
  Lemma ok_std : forall h a b w, h = HStd \/ h = HCompound -> ref_ok t (e_decl t) (e_items t) (with_ t a b) w (Ref h [] []) = true.
  Proof. intros h a b w [-> | ->]; reflexivity. Qed.
  Lemma ok_scope : forall h a b w xs, h = HCons \/ h = HPtr -> Forall (fun x => match x with ALt n => In (PLt n []) (a ++ b) | AVar n => In (PTy n [] None) (a ++ b) | ATy _ => True end) xs ->
    ref_ok t (e_decl t) (e_items t) (with_ t a b) w (Ref h xs []) = true.
  Proof.
    intros h a b w xs Hh H. assert (forallb (in_scope (with_ t a b)) xs = true) as E.
    { apply forallb_forall. intros x I. rewrite Forall_forall in H. specialize (H x I).
      assert (forall p, In p (a ++ b) -> In p (with_ t a b)) as G.
      { intros p J. apply (Permutation_in _ (Permutation_sym (with_perm a b))), in_or_app. left. exact J. }
      destruct x as [n|n|x]; cbn [in_scope]; [| |reflexivity]; apply existsb_exists; eexists; (split; [apply G; exact H|]); cbn; apply N.eqb_refl. }
    unfold ref_ok. cbn [f_head f_args]. rewrite E. destruct Hh as [-> | ->]; reflexivity.
  Qed.
  (** Types and constants are determined. *)
  Lemma fixed_in : forall ps l, (forall p, In p ps -> is_lt p = true \/ In (p_name p) l) -> forallb (fun p => is_lt p || existsb (N.eqb (p_name p)) l) ps = true.
  Proof.
    intros ps l H. apply forallb_forall. intros p I. destruct (H p I) as [-> | J]; [reflexivity|]. apply orb_true_iff. right. apply existsb_exists.
    exists (p_name p). split; [exact J|apply N.eqb_refl].
  Qed.
  Lemma fixed_obj : forall p, In p (with_ t [b_lt] []) -> is_lt p = true \/ In (p_name p) (arg_names (tref t HObj (binds t))).
  Proof.
    intros p I. apply (Permutation_in _ (with_perm [b_lt] [])) in I. rewrite !in_app_iff in I. destruct I as [[[<-|[]]|[]]|[I|I]]; [left; reflexivity| |]; right.
    - apply in_args. exact I.
    - unfold arg_names. apply in_or_app. right. cbn [tref f_binds]. rewrite binds_v. unfold bound_by. rewrite map_map. cbn [snd]. rewrite <- free_bare in I. unfold free in I.
      apply in_map_iff in I. destruct I as (y & <- & I). cbn [p_name]. apply in_map_iff. exists y. auto.
  Qed.
  (** Bounds of associated types are given. *)
  Lemma sdt_given : forall a b, forallb (fun u => forallb (fun c => existsb (N.eqb (fst u)) (map fst (binds t)) &&
    forallb (fun x => negb (N.eqb (fst x) (fst u)) || given (param_preds (with_ t a b) ++ vt_preds t) (XUser (snd x)) c) (binds t)) (snd u)) (sdt_bounds t) = true.
  Proof.
    intros a b. apply forallb_forall. intros u I. unfold sdt_bounds in I. apply in_map_iff in I. destruct I as (x & <- & I). cbn [fst snd].
    apply forallb_forall. intros c J. apply in_flat_map in J. destruct J as ([y e] & J & K). cbn [fst snd] in K. destruct (N.eqb_spec y x) as [->|]; [|contradiction].
    destruct K as [K|[]]. apply andb_true_iff. split.
    - apply existsb_exists. exists x. split; [|apply N.eqb_refl]. rewrite binds_v. unfold bound_by. rewrite map_map. rewrite sdts_declared in I. exact I.
    - apply forallb_forall. intros z L. rewrite binds_v in L. unfold bound_by in L. apply in_map_iff in L. destruct L as (q & <- & L). cbn [fst snd].
      destruct (N.eqb_spec (fst q) x) as [->|]; [|reflexivity]. cbn [negb orb]. eapply given_in; [apply in_or_app; right; unfold vt_preds; apply in_map_iff; exists (x, e); split; [reflexivity|exact J]|].
      cbn [fst snd]. left. rewrite <- K. destruct e; reflexivity.
  Qed.
  Lemma binds_fst : map fst (sdt_bounds t) = map fst (binds t).
  Proof. rewrite binds_v. unfold sdt_bounds, bound_by. rewrite !map_map, sdts_declared. cbn [fst]. rewrite map_id. reflexivity. Qed.

  Ltac side := try reflexivity; first [apply distinct_NoDup; reflexivity|intros p I; cbn [app In] in I; repeat (destruct I as [<-|I]; [split; reflexivity|]); contradiction].
  Ltac wi a b := change (vtps t) with (with_ t a b).
  Lemma good_std : item_ok t (e_decl t) (e_items t) (e_std t) = true.
  Proof.
    unfold item_ok. cbn [e_std g_params g_bound g_refs g_projs g_where forallb what_ok g_what f_head].
    wi (@nil param) (@nil param). rewrite with_lts, with_once by side. unfold what_ok. cbn [e_std g_what g_params g_where g_fns f_head].
    wi (@nil param) (@nil param). rewrite with_nodef by reflexivity. rewrite ok_std, ok_vt by (auto || apply incl_refl).
    rewrite fixed_in; [reflexivity|]. intros p I. right. apply in_or_app. right. apply in_args. exact I.
  Qed.
  Lemma good_cons : item_ok t (e_decl t) (e_items t) (e_cons t) = true.
  Proof.
    unfold item_ok. cbn [e_cons g_params g_bound g_refs g_projs g_where forallb].
    rewrite with_lts, with_once by side.
    unfold what_ok. cbn [e_cons g_what g_params g_where g_fns f_head].
    rewrite with_nodef by reflexivity. rewrite ok_vt by apply incl_appl, incl_refl.
    rewrite ok_scope by (auto; repeat constructor; cbn; auto). rewrite !ok_tr by auto.
    rewrite fixed_in.
    - assert (in_scope (with_ t [b_lt] [b_arb]) (AVar n_arb) = true) as ->.
      { cbn [in_scope]. apply existsb_exists. exists b_arb. split; [|reflexivity]. unfold with_. rewrite !in_app_iff. right. right. left. left. reflexivity. }
      cbn [andb]. apply forallb_forall. intros x I. apply in_flat_map in I. destruct I as (m & I & J). apply existsb_exists. exists x. split; [|apply N.eqb_refl].
      eapply fn_types; [rewrite <- in_shared; exact I|exact J].
    - intros p I. unfold with_ in I. rewrite !in_app_iff in I. destruct I as [[<-|[]]|[I|[[<-|[]]|I]]].
      + left. reflexivity.
      + right. apply in_or_app. right. apply in_args. apply in_or_app. left. exact I.
      + right. apply in_or_app. left. cbn. auto.
      + right. apply in_or_app. right. apply in_args. unfold vtps. rewrite !in_app_iff. right. exact I.
  Qed.
  Lemma good_compound : item_ok t (e_decl t) (e_items t) (e_compound t) = true.
  Proof.
    unfold item_ok. cbn [e_compound g_params g_bound g_refs g_projs g_where forallb].
    rewrite with_lts, with_once by side.
    unfold what_ok. cbn [e_compound g_what g_params g_where g_fns f_head].
    rewrite with_nodef by reflexivity. rewrite ok_vt by apply incl_refl. rewrite ok_std, ok_tr by auto.
    rewrite fixed_in; [reflexivity|]. intros p I. destruct (fixed_obj p I) as [E|J]; [left; exact E|]. right. apply in_or_app. right. exact J.
  Qed.
  Lemma good_dyn : item_ok t (e_decl t) (e_items t) (e_dyn t) = true.
  Proof.
    unfold item_ok. cbn [e_dyn g_params g_bound g_refs g_projs g_where forallb].
    rewrite with_lts, with_once by side.
    unfold what_ok. cbn [e_dyn g_what g_params g_where g_fns f_head]. rewrite nodef_last; [reflexivity|]. apply with_nodef. reflexivity.
  Qed.
  Lemma good_mut : item_ok t (e_decl t) (e_items t) (e_mut t) = true.
  Proof.
    unfold item_ok. cbn [e_mut g_params g_bound g_refs g_projs g_where forallb].
    rewrite with_lts, with_once by side.
    unfold what_ok. cbn [e_mut g_what g_params g_where g_fns f_head]. rewrite nodef_last by (apply with_nodef; reflexivity).
    rewrite ok_dyn by (cbn; auto; apply incl_refl). reflexivity.
  Qed.
  Lemma dyn_fixed : forall h b p, In p (with_ t [] ((if b : bool then [b_ptr] else []) ++ [b_vtp; b_der])) ->
    is_lt p = true \/ In (p_name p) (arg_names (dref t h) ++ arg_names (e_self b)).
  Proof.
    intros h b p I. right. apply in_or_app. unfold with_ in I. rewrite !in_app_iff in I.
    assert (In p (lts t) \/ p = b_ptr /\ b = true \/ p = b_vtp \/ p = b_der \/ In p (bare (dyns t)) \/ In p (tys t)) as [J|[[-> ->]|[->|J]]].
    { destruct b; cbn [In] in I; intuition congruence. }
    - left. apply in_args. unfold with_. rewrite !in_app_iff. tauto.
    - right. left. reflexivity.
    - right. destruct b; cbn; auto.
    - left. apply in_args. unfold with_. rewrite !in_app_iff. cbn [In]. intuition congruence.
  Qed.
  Lemma good_impl : forall b, item_ok t (e_decl t) (e_items t) (e_impl t b) = true.
  Proof.
    intros b. unfold item_ok. cbn [e_impl g_params g_bound g_refs g_projs g_where forallb].
    rewrite with_lts, with_once by (destruct b; side).
    unfold what_ok. cbn [e_impl g_what g_params g_where g_fns dref f_head]. fold (dref t HDyn).
    rewrite with_nodef by (destruct b; reflexivity). rewrite ok_dyn by (auto; try apply incl_refl; destruct b; cbn; auto).
    rewrite ok_vt by apply incl_refl. unfold e_self. rewrite ok_scope by (auto; destruct b; repeat constructor; cbn; auto). fold (e_self b).
    rewrite fixed_in by (intros p I; apply dyn_fixed; exact I).
    change (trait_of HDyn (e_items t)) with (Some (e_dyn t)). cbn [e_dyn g_what g_fns]. rewrite binds_fst, !ldec, sdt_given. reflexivity.
  Qed.
  Lemma good_mimpl : item_ok t (e_decl t) (e_items t) (e_mimpl t) = true.
  Proof.
    unfold item_ok. cbn [e_mimpl g_params g_bound g_refs g_projs g_where forallb].
    rewrite with_lts, with_once by side.
    unfold what_ok. cbn [e_mimpl g_what g_params g_where g_fns dref f_head]. fold (dref t HMut).
    rewrite with_nodef by reflexivity. rewrite ok_dyn by (auto; try apply incl_refl; cbn; auto).
    rewrite ok_vt by apply incl_refl. unfold e_self. rewrite ok_scope by (auto; repeat constructor; cbn; auto). fold (e_self true).
    rewrite fixed_in by (intros p I; apply (dyn_fixed HMut true); exact I).
    change (trait_of HMut (e_items t)) with (Some (e_mut t)). cbn [e_mut g_what g_fns map]. rewrite !ldec. reflexivity.
  Qed.

  (** The vtable. *)
  Lemma decl_works : S_Generics.works (e_decl t).
  Proof.
    assert (forallb (fun p => negb (has_default p)) (vtps t) = true) as D by (apply (with_nodef [] []); reflexivity).
    apply works_iff.
    - split.
      + cbn [M_Generics.item_ok e_decl d_kind d_params]. change (vtps t) with (with_ t [] []) in *. rewrite with_lts by reflexivity. rewrite nodef_last by exact D.
        apply (with_once [] []); [constructor|intros ? []].
      + intros H. contradiction H. reflexivity.
    - split; [|right; discriminate]. intros i j n x o m bs y Hi. exfalso. cbn [e_decl d_params] in Hi. apply nth_error_In in Hi.
      apply (Permutation_in _ (with_perm [] [])) in Hi. cbn [app] in Hi. apply in_app_iff in Hi. destruct Hi as [Hi|Hi].
      + pose proof HS as F. rewrite Forall_forall in F. apply (F _ Hi).
      + apply in_map_iff in Hi. destruct Hi as (q & E & _). discriminate.
  Qed.
  Lemma decl_used : forallb (fun p => is_cst p || existsb (N.eqb (p_name p)) (field_uses t)) (vtps t) = true.
  Proof.
    apply forallb_forall. intros p I. apply orb_true_iff. right. apply existsb_exists. exists (p_name p). split; [|apply N.eqb_refl].
    apply (Permutation_in _ (with_perm [] [])) in I. cbn [app] in I. apply in_app_iff in I. unfold field_uses. apply in_flat_map. destruct I as [I|I].
    - destruct (s_used t HP p I) as (m & H & J). exists m. rewrite in_shared. split; [exact H|]. apply in_or_app. left. exact J.
    - rewrite <- free_bare in I. unfold free in I. apply in_map_iff in I. destruct I as (y & <- & I). cbn [p_name].
      destruct (s_types t HP (fst y)) as (m & H & J); [apply in_map; exact I|]. exists m. rewrite in_shared. split; [exact H|]. apply in_or_app. right.
      apply in_flat_map. exists (fst y). split; [exact J|]. destruct (unself_in t (fst y)) as (i & _ & _ & -> & ->); [apply declared_sdt, in_map; exact I|]. left. reflexivity.
  Qed.
  Lemma good_all : accepted t (e_decl t) (e_items t) = true.
  Proof.
    unfold accepted, vt_ok. destruct decl_works as (is & -> & -> & _). cbn [e_decl d_params]. rewrite decl_used. cbn [andb].
    unfold e_items at 2. cbn [forallb]. rewrite good_std, good_cons, good_compound, good_dyn, !good_impl, good_mut, good_mimpl. reflexivity.
  Qed.
  Lemma good_compile : compile t = Some (e_decl t, e_items t).
  Proof.
    unfold compile. rewrite (read_vt t HL HS HB), (read_items t HL HS HB).
    assert (forallb (fun x => found t (snd x)) (bounds t) = true) as ->; [|reflexivity].
    apply forallb_forall. intros [x b] I. cbn [snd]. apply bounds_in in I. destruct I as (bs & I & J). pose proof (l_bnds t HG x bs b I J) as Q.
    destruct b as [k|r k ms]; [reflexivity|]. destruct Q as [_ Q]. cbn [found]. apply forallb_forall. intros m M. apply Q in M.
    unfold all_types in M. rewrite (s_super t HP), app_nil_r in M. destruct (unself_in t m (declared_sdt t m M)) as (i & _ & _ & -> & _). reflexivity.
  Qed.
End Good.

Lemma methods_shared : forall t, map m_name (shared t) = methods false t.
Proof. intros t. unfold shared, methods. apply (f_equal (map m_name)), filter_ext. intros m. destruct (m_mut m); reflexivity. Qed.
Lemma methods_muts : forall t, map m_name (muts t) = methods true t.
Proof. intros t. unfold muts, methods. apply (f_equal (map m_name)), filter_ext. intros m. destruct (m_mut m); reflexivity. Qed.
Lemma fns_length : forall t, length (fns t) = length (t_fns t).
Proof.
  intros t. unfold fns, shared, muts. rewrite app_length. induction (t_fns t) as [|m l IH]; [reflexivity|]. cbn [filter]. destruct (m_mut m); cbn [negb length]; lia.
Qed.
Lemma par_inj : forall t x y, In x (sdts t) -> In y (sdts t) -> par t x = par t y -> x = y.
Proof.
  intros t x y Hx Hy E. destruct (unself_in t x Hx) as (i & Fi & _ & _ & Ei). destruct (unself_in t y Hy) as (j & Fj & _ & _ & Ej).
  rewrite Ei, Ej in E. apply n_dyn_inj in E. subst j. apply find_nth in Fi. apply find_nth in Fj. congruence.
Qed.

Theorem good_works : forall t, legal t -> supported t -> works t.
Proof.
  intros t HG HP. exists (e_decl t), (e_items t), (par t), (map as_arg (vtps t)), n_lt, n_arb.
  split; [exact (good_compile t HG HP)|]. split; [exact (good_all t HG HP)|].
  split. { intros x y Hx Hy. apply par_inj; apply declared_sdt; assumption. }
  split. { intros x p Hx Hp E. destruct (unself_in t x (declared_sdt t x Hx)) as (i & _ & _ & _ & Q). rewrite Q in E.
    pose proof (l_names t HG) as F. rewrite Forall_forall in F. destruct (F p Hp) as [Ev _]. rewrite <- E, n_dyn_odd in Ev. discriminate. }
  pose proof (with_perm t HG HP [] []) as PM. cbn [app] in PM. rewrite <- (free_bare t HG HP) in PM.
  split. { unfold own. rewrite <- map_app. apply Permutation_map. exact PM. }
  split. { split; [exact (decl_works t HG HP)|]. split; [exact PM|]. split; [reflexivity|]. eexists. split; [reflexivity|]. split.
    - apply FinFun.Injective_map_NoDup; [|apply seq_NoDup]. intros i j E. lia.
    - rewrite map_length, seq_length. apply fns_length. }
  split. { do 4 eexists. split; [right; left; unfold e_cons, tref; rewrite (binds_v t HG HP); reflexivity|]. split.
    - eapply Permutation_trans; [apply (with_perm t HG HP)|]. rewrite <- (free_bare t HG HP). reflexivity.
    - rewrite !Forall_app. split; [|split].
      + unfold vt_preds. apply Forall_forall. intros p I. apply in_map_iff in I. destruct I as ((x & b) & <- & I). left. exists x, (b_name b). split; [reflexivity|].
        apply bounds_in in I. destruct I as (bs & I & J). pose proof (s_bnds t HP x bs b I J) as Q. destruct b; [contradiction|exact Q].
      + apply Forall_forall. intros p I. unfold outl in I. apply in_map_iff in I. destruct I as (n & <- & _). right. eauto.
      + apply Forall_forall. intros p I. unfold outl in I. apply in_map_iff in I. destruct I as (n & <- & _). right. eauto. }
  split. { do 3 eexists. split; [right; right; left; unfold e_compound, tref; rewrite (binds_v t HG HP); reflexivity|]. left. reflexivity. }
  split. { intros r Hr. rewrite <- methods_shared, <- (binds_v t HG HP). destruct Hr as [<-|[<-|[]]].
    - do 4 eexists. split; [right; right; right; right; left; reflexivity|]. left. reflexivity.
    - do 4 eexists. split; [right; right; right; right; right; left; reflexivity|]. left. reflexivity. }
  rewrite <- methods_muts. do 4 eexists. split; [do 7 right; left; reflexivity|]. left. reflexivity.
Qed.

(** ** Only then *)
Lemma all_in : forall A B (f : A -> option B) l m x, all f l = Some m -> In x l -> exists y, f x = Some y /\ In y m.
Proof.
  induction l as [|a l IH]; intros m x H I; [contradiction|]. cbn [all] in H. destruct (f a) as [b|] eqn:E; [|discriminate].
  destruct (all f l) as [s|] eqn:F; [|discriminate]. injection H as <-. destruct I as [<-|I].
  - exists b. split; [exact E|left; reflexivity].
  - destruct (IH s x eq_refl I) as (y & H1 & H2). exists y. split; [exact H1|right; exact H2].
Qed.
Lemma simple_of : forall t d is, compile t = Some (d, is) -> accepted t d is = true -> Forall simple (t_params t).
Proof.
  intros t d is C A. unfold compile in C. destruct (forallb _ _); [|discriminate]. destruct (read_decl t) as [d'|]; [|discriminate].
  destruct (all read (raws t)) as [is'|] eqn:E; [|discriminate]. injection C as -> ->.
  destruct (all_in _ _ _ _ _ (std_impl t) E (or_introl eq_refl)) as (i & R & I).
  unfold accepted in A. apply andb_true_iff in A. destruct A as [_ A]. rewrite forallb_forall in A. specialize (A i I).
  unfold read, std_impl in R. cbn [g_what g_params g_where g_bound g_refs g_projs g_fns read_what read_bound all] in R.
  rewrite read_ref_nil in R. unfold read_ref in R. cbn [f_args f_head f_binds] in R.
  destruct (whole p_arg (vt_generics false t)) as [xs|] eqn:W; [|discriminate].
  unfold vt_generics at 1 in R. rewrite vt_gen_decls, whole_params in R. destruct (read_where (vt_bounds t)) as [w|]; [|discriminate]. injection R as <-.
  unfold item_ok in A. rewrite !andb_true_iff in A. destruct A as [[[[_ A] _] _] _]. unfold what_ok in A. cbn [g_what g_params] in A. rewrite !andb_true_iff in A.
  destruct A as [[[[A _] _] _] _]. rewrite forallb_forall in A.
  unfold whole, vt_generics in W. destruct (p_list p_arg _ _) as [[l [|? ?]]|] eqn:PL in W; try discriminate. apply read_args_simple in PL.
  rewrite Forall_forall in *. intros p Hp. specialize (PL p Hp). assert (negb (has_default p) = true) as D by (apply A, insert_in; left; exact Hp).
  destruct p as [n [|b bs]|n bs [x|]|n x y]; try contradiction; try discriminate; exact Logic.I.
Qed.
Lemma no_life_of : forall t d is, compile t = Some (d, is) -> forall x b, In (x, b) (bounds t) -> match b with ALife _ => False | _ => True end.
Proof.
  intros t d is C x b I. unfold compile in C. destruct (forallb _ _); [|discriminate]. destruct (read_decl t) as [d'|]; [|discriminate].
  destruct (all read (raws t)) as [is'|] eqn:E; [|discriminate]. clear C.
  destruct (all_in _ _ _ _ _ (cons_impl t) E (or_intror (or_introl eq_refl))) as (i & R & _).
  unfold read in R. destruct (read_what _) as [w0|]; [|discriminate]. destruct (whole p_param _) as [ps0|]; [|discriminate].
  destruct (read_where (g_where (cons_impl t))) as [w|] eqn:W; [|discriminate]. clear R. unfold cons_impl in W. cbn [g_where] in W.
  unfold read_where in W. destruct (p_preds _ _) as [l r] eqn:P in W. destruct r; [|discriminate]. clear W.
  assert (exists y q, flat_map (fun p => [Ty (XUser (p_name p)); Colon; Bnd [BUser n_lt]; Comma]) (tys t) ++
    flat_map (fun n => [Ty (XUser n); Colon; Bnd [BUser n_lt]; Comma]) (dyns t) = Ty y :: q) as (y & q & Q).
  { destruct (tys t) as [|p ps]; [|do 2 eexists; reflexivity]. cbn [flat_map app]. pose proof (bounds_sdt t x b I) as J. unfold dyns.
    destruct (sdts t) as [|z zs]; [contradiction|]. do 2 eexists. reflexivity. }
  rewrite Q in P. eapply (stuck_where t (bounds t)); [|unfold vt_bounds in P; rewrite P; reflexivity|exact I]. intros y' b' J. eapply bounds_sdt. exact J.
Qed.

Lemma works_supported : forall t, legal t -> works t -> supported t.
Proof.
  intros t HG (d & is & v & vs & l & a & C & A & VI & VP & _ & _ & (ps & w & rs & xs & IC & _ & FW) & _).
  pose proof (simple_of t d is C A) as HS. pose proof (no_life_of t d is C) as HB. pose proof (l_lts t HG) as HL.
  unfold compile in C. destruct (forallb _ _) in C; [|discriminate]. rewrite (read_vt t HL HS HB), (read_items t HL HS HB) in C. injection C as <- <-.
  unfold accepted in A. apply andb_true_iff in A. destruct A as [AV AI]. rewrite forallb_forall in AI.
  pose proof (params_split t HL HS) as PS.
  (* the vtable *)
  unfold vt_ok in AV. apply andb_true_iff in AV. destruct AV as [_ AU]. cbn [e_decl d_params] in AU. rewrite forallb_forall in AU.
  assert (forall p, In p (t_params t) \/ In p (bare (dyns t)) -> In (p_name p) (field_uses t)) as US.
  { intros p Hp. assert (In p (vtps t)) as I by (unfold vtps; rewrite !in_app_iff; rewrite PS, in_app_iff in Hp; tauto). specialize (AU p I).
    assert (is_cst p = false) as NC.
    { destruct p as [| |n x y]; try reflexivity. destruct Hp as [Hp|Hp]; [rewrite Forall_forall in HS; destruct (HS _ Hp)|apply in_map_iff in Hp; destruct Hp as (? & ? & _); discriminate]. }
    rewrite NC in AU. cbn [orb] in AU. apply existsb_exists in AU. destruct AU as (n & J & E). apply N.eqb_eq in E. rewrite E. exact J. }
  assert (forall n, In n (map p_name (t_params t)) -> N.even n = true) as EV.
  { intros n I. apply in_map_iff in I. destruct I as (p & <- & I). pose proof (l_names t HG) as F. rewrite Forall_forall in F. apply (F p I). }
  (* super traits *)
  assert (t_super t = []) as SU.
  { destruct (t_super t) as [|x sup] eqn:ES; [reflexivity|]. exfalso.
    assert (~ In x (map fst (t_types t))) as NI.
    { pose proof (l_types t HG) as ND. unfold all_types in ND. rewrite ES in ND. apply NoDup_remove_2 in ND. intros I. apply ND, in_or_app. left. exact I. }
    pose proof (AI (e_compound t) (or_intror (or_intror (or_introl eq_refl)))) as K. unfold item_ok in K. rewrite !andb_true_iff in K. destruct K as [[[[_ K] _] _] _].
    unfold what_ok in K. cbn [e_compound g_what g_params] in K. rewrite !andb_true_iff in K. destruct K as [[[_ K] _] _].
    unfold ref_ok in K. apply andb_true_iff in K. destruct K as [_ K]. unfold binds_ok in K. cbn [tref f_head f_binds] in K. rewrite !andb_true_iff in K. destruct K as [_ K].
    rewrite forallb_forall in K. specialize (K x). rewrite ES in K. assert (In x (map fst (t_types t) ++ x :: sup)) as IX by (apply in_or_app; right; left; reflexivity). specialize (K IX). clear IX.
    apply existsb_exists in K. destruct K as ([y n] & K & E). apply N.eqb_eq in E. cbn [fst] in E. subst y. unfold binds in K. apply in_combine_l in K.
    apply sdts_in in K. destruct K as [K|(m & K1 & K2)]; [contradiction|].
    pose proof (AI (e_cons t) (or_intror (or_introl eq_refl))) as K. unfold item_ok in K. rewrite !andb_true_iff in K. destruct K as [_ K]. cbn [e_cons g_projs] in K.
    rewrite forallb_forall in K. specialize (K x). rewrite existsb_exists in K. destruct K as (y & K & E).
    - apply in_flat_map. exists m. rewrite in_shared. auto.
    - apply N.eqb_eq in E. subst y. contradiction. }
  (* the item for implementors *)
  assert (is_cons : In (Item (Imp (Ref HCons [ALt l; AVar a] []) (Ref HVt vs []) []) ps w (Some (a, Ref HTr (own t) (bound_by v t))) rs xs []) [e_cons t]).
  { destruct IC as [E|[E|[E|[E|[E|[E|[E|[E|[]]]]]]]]]; try discriminate. left. exact E. }
  destruct is_cons as [E|[]]. unfold e_cons, tref in E. injection E. clear E. intros.
  constructor.
  - exact HS.
  - intros p Hp. specialize (US p (or_introl Hp)). unfold field_uses in US. apply in_flat_map in US. destruct US as (m & I & J). rewrite in_shared in I.
    exists m. split; [exact I|]. apply in_app_iff in J. destruct J as [J|J]; [exact J|]. exfalso. apply in_flat_map in J. destruct J as (x & _ & J).
    unfold unself in J. destruct (find x (sdts t)) as [i|]; [|contradiction]. destruct J as [J|[]]. specialize (EV (p_name p) (in_map _ _ _ Hp)). rewrite <- J, n_dyn_odd in EV. discriminate.
  - intros x Hx. destruct (unself_in t x (declared_sdt t x Hx)) as (i & F & L & _ & _). assert (In (PTy (n_dyn i) [] None) (bare (dyns t))) as I.
    { unfold bare. apply in_map_iff. exists (n_dyn i). split; [reflexivity|]. apply in_dyns. eauto. }
    specialize (US _ (or_intror I)). cbn [p_name] in US. unfold field_uses in US. apply in_flat_map in US. destruct US as (m & J & K). rewrite in_shared in J. exists m. split; [exact J|].
    apply in_app_iff in K. destruct K as [K|K].
    + exfalso. destruct (l_fns t HG m J) as [Q _]. specialize (EV _ (Q _ K)). rewrite n_dyn_odd in EV. discriminate.
    + apply in_flat_map in K. destruct K as (y & K1 & K2). unfold unself in K2. destruct (find y (sdts t)) as [j|] eqn:Fj; [|contradiction]. destruct K2 as [K2|[]].
      apply n_dyn_inj in K2. subst j. apply find_nth in F. apply find_nth in Fj. assert (x = y) by congruence. subst y. exact K1.
  - intros x bs b I J. assert (In (x, b) (bounds t)) as IB by (apply bounds_in; eauto). pose proof (HB x b IB) as Q. destruct b as [k|r k ms]; [contradiction|].
    assert (In (XUser (par t x), [BUser k]) w) as IW.
    { match goal with H : _ = w |- _ => rewrite <- H end. apply in_or_app. left. unfold vt_preds. apply in_map_iff. exists (x, ATrait r k ms). auto. }
    rewrite Forall_forall in FW. destruct (FW _ IW) as [(x' & n & E & D)|(n & E)].
    + injection E as E E'. subst n. assert (In x' (map fst (t_types t))) as Ix' by (destruct D as (bs' & b' & D & _); apply in_map_iff; exists (x', bs'); auto).
      assert (In x (map fst (t_types t))) as Ix by (apply in_map_iff; exists (x, bs); auto).
      assert (v x = par t x) as EX.
      { assert (In (x, v x) (bound_by v t)) as Q' by (unfold bound_by; apply in_map_iff; exists (x, bs); auto).
        match goal with H : _ = bound_by v t |- _ => rewrite <- H in Q' end. clear - Q' HG SU. unfold binds in Q'.
        assert (NoDup (sdts t)) as ND.
        { assert (NoDup (map fst (t_types t))) as ND by (pose proof (l_types t HG) as H; unfold all_types in H; rewrite SU, app_nil_r in H; exact H).
          replace (sdts t) with (map fst (t_types t)); [exact ND|]. symmetry. unfold sdts. rewrite (extend_new _ []) by exact ND. cbn [app]. apply extend_incl.
          intros y H. apply in_flat_map in H. destruct H as (m & H & I). rewrite in_shared in H. destruct (l_fns t HG m H) as [_ Q].
          specialize (Q y I). unfold all_types in Q. rewrite SU, app_nil_r in Q. exact Q. }
        apply In_nth_error in Q'. destruct Q' as (i & Q'). assert (nth_error (sdts t) i = Some x /\ nth_error (dyns t) i = Some (v x)) as [N1 N2].
        { revert i Q'. generalize (sdts t), (dyns t). induction l as [|y l IH]; intros [|n l'] [|i] Q'; try discriminate; [injection Q' as -> ->; auto|exact (IH l' i Q')]. }
        assert (In x (sdts t)) as IS by (eapply nth_error_In; exact N1). destruct (unself_in t x IS) as (j & F & L & _ & ->). apply find_nth in F.
        assert (i = j) as ->. { rewrite NoDup_nth_error in ND. apply ND; [|congruence]. apply nth_error_Some. congruence. }
        unfold dyns in N2. rewrite nth_error_map in N2. destruct (nth_error (seq 0 (length (sdts t))) j) as [q|] eqn:SQ; [|discriminate]. cbn [option_map] in N2.
        injection N2 as <-. f_equal. apply nth_error_nth with (d := 0) in SQ. rewrite seq_nth in SQ by exact L. cbn in SQ. symmetry. exact SQ. }
      rewrite <- EX in E. symmetry in E. apply VI in E; [|assumption|assumption]. subst x'. exact D.
    + exfalso. injection E as _ E. pose proof (l_bnds t HG x bs _ I J) as [Ev _]. rewrite E in Ev.
      match goal with H : n_lt = l |- _ => rewrite <- H in Ev end. discriminate.
  - exact SU.
  - intros p b Ip Ib. pose proof (AI (e_cons t) (or_intror (or_introl eq_refl))) as K. unfold item_ok in K. rewrite !andb_true_iff in K. destruct K as [[_ K] _].
    cbn [e_cons g_refs g_params g_where forallb] in K. rewrite !andb_true_iff in K. destruct K as [K _]. unfold ref_ok in K. cbn [tref f_head f_args def_of] in K.
    rewrite !andb_true_iff in K. destruct K as [[_ K] _]. rewrite forallb_forall in K. assert (In p (param_preds (t_params t) ++ t_where t)) as IP by (apply in_or_app; right; exact Ip). specialize (K p IP). clear IP.
    unfold holds in K. rewrite forallb_forall in K. specialize (K b Ib). apply given_out in K. destruct K as (bs & K & Kb).
    pose proof (l_where t HG) as F. rewrite Forall_forall in F. destruct (F p Ip) as [(n & En & Ev) Fb]. rewrite Forall_forall in Fb. specialize (Fb b Ib).
    rewrite En in K |- *.
    apply in_app_iff in K. destruct K as [K|K].
    + unfold param_preds in K. apply in_flat_map in K. destruct K as (q & Iq & Kq). unfold with_ in Iq. rewrite !in_app_iff in Iq.
      assert (In q (t_params t) \/ bs = []) as [Hq|Hq].
      { rewrite PS, in_app_iff. destruct Iq as [[<-|[]]|[Iq|[[<-|[]]|[Iq|Iq]]]]; [right|left; left; exact Iq|right|right|left; right; exact Iq].
        - destruct Kq as [Kq|[]]. injection Kq as _ <-. reflexivity.
        - destruct Kq as [Kq|[]]. injection Kq as _ <-. reflexivity.
        - apply in_map_iff in Iq. destruct Iq as (o & <- & _). destruct Kq as [Kq|[]]. injection Kq as _ <-. reflexivity. }
      * exists q. split; [exact Hq|]. destruct q as [o bs'|o bs' y|o y z]; cbn [p_name p_bnds] in *; try contradiction; destruct Kq as [Kq|[]]; injection Kq as -> ->; auto.
      * subst bs. contradiction.
    + exfalso. rewrite !in_app_iff in K. destruct K as [K|[K|K]].
      * unfold vt_preds in K. apply in_map_iff in K. destruct K as ((x & b') & K & Ix). injection K as K _. cbn [fst] in K.
        destruct (unself_in t x (bounds_sdt t x b' Ix)) as (i & _ & _ & _ & E). rewrite E in K. rewrite <- K, n_dyn_odd in Ev. discriminate.
      * unfold outl in K. apply in_map_iff in K. destruct K as (o & K & _). injection K as _ <-. destruct Kb as [<-|[]]. discriminate.
      * unfold outl in K. apply in_map_iff in K. destruct K as (o & K & _). injection K as _ <-. destruct Kb as [<-|[]]. discriminate.
Qed.
Theorem works_iff_supported : forall t, legal t -> (works t <-> supported t).
Proof. intros t H. split; [apply works_supported; exact H|apply good_works; exact H]. Qed.
