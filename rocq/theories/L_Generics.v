(** Lemmas for C92. *)
From Coq Require Import List NArith Arith Bool Permutation Lia.
From Verif Require Import M_Generics S_Generics.
Import ListNotations.

(** ** Reading lists *)
Definition sep (ps : list param) : list param := filter is_lt ps ++ filter is_ty ps ++ filter is_cst ps.
Definition ends (c : tok) : Prop := c = Comma \/ c = Gt.

Lemma read_full : forall p c r, ends c -> p_param (param_toks p ++ c :: r) = Some (p, c :: r).
Proof.
  intros [n [|b bs]|n [|b bs] [d|]|n t [d|]] c r [-> | ->]; reflexivity.
Qed.
Lemma read_nodef : forall p c r, ends c -> p_param (no_default p ++ c :: r) = Some (strip p, c :: r).
Proof. intros [n [|b bs]|n [|b bs] d|n t d] c r [-> | ->]; reflexivity. Qed.
Lemma read_unbound : forall p c r, ends c -> p_arg (unbound p ++ c :: r) = Some (as_arg p, c :: r).
Proof. intros [n bs|n bs d|n t d] c r _; reflexivity. Qed.

Section Lists.
  Context {A : Type} (p : list tok -> option (A * list tok)) (f : param -> list tok) (g : param -> A).
  Hypothesis head : forall x r, match f x ++ r with Gt :: _ => False | [] => False | _ => True end.
  Lemma p_list_one : forall k t x c r, match t with Gt :: _ => False | _ => True end -> p t = Some (x, c :: r) -> ends c ->
    p_list p (S k) t = match c with Gt => Some ([x], r) | _ => match p_list p k r with None => None | Some (l, r') => Some (x :: l, r') end end.
  Proof. intros k t x c r H E [-> | ->]; cbn [p_list]; rewrite E; destruct t as [|[] ?]; try reflexivity; contradiction. Qed.
  Lemma p_list_none : forall k t, match t with Gt :: _ => False | _ => True end -> p t = None -> p_list p k t = None.
  Proof. intros [|k] t H E; [reflexivity|]. cbn [p_list]; rewrite E; destruct t as [|[] ?]; try reflexivity; contradiction. Qed.
  Lemma p_list_bad : forall k t x c r, match t with Gt :: _ => False | _ => True end -> p t = Some (x, c :: r) -> ~ ends c ->
    p_list p k t = None.
  Proof.
    intros [|k] t x c r H E N; [reflexivity|]. cbn [p_list]; rewrite E.
    destruct t as [|[] ?]; try contradiction; destruct c; try reflexivity; exfalso; apply N; unfold ends; auto.
  Qed.
  Hypothesis good : forall x c r, ends c -> p (f x ++ c :: r) = Some (g x, c :: r).
  Lemma list_commas : forall xs k r, length xs < k -> p_list p k (flat_map (fun x => f x ++ [Comma]) xs ++ Gt :: r) = Some (map g xs, r).
  Proof.
    induction xs as [|x xs IH]; intros [|k] r L; cbn [length] in L; try lia; [reflexivity|].
    cbn [flat_map map]. rewrite <- !app_assoc. cbn [app].
    rewrite (p_list_one k _ (g x) Comma (flat_map (fun x => f x ++ [Comma]) xs ++ Gt :: r)).
    - rewrite IH by lia. reflexivity.
    - specialize (head x (Comma :: flat_map (fun x0 => f x0 ++ [Comma]) xs ++ Gt :: r)). destruct (f x ++ _) as [|[] ?]; auto.
    - apply good. left. reflexivity.
    - left. reflexivity.
  Qed.
  Lemma list_seps : forall xs k r, length xs < k -> p_list p k (seps (map f xs) ++ Gt :: r) = Some (map g xs, r).
  Proof.
    induction xs as [|x xs IH]; intros [|k] r L; cbn [length] in L; try lia; [reflexivity|].
    destruct xs as [|y xs].
    - cbn [map seps]. rewrite (p_list_one k _ (g x) Gt r); [reflexivity| |apply good; right; reflexivity|right; reflexivity].
      specialize (head x (Gt :: r)). destruct (f x ++ _) as [|[] ?]; auto.
    - change (seps (map f (x :: y :: xs))) with (f x ++ Comma :: seps (map f (y :: xs))). rewrite <- app_assoc. cbn [app].
      rewrite (p_list_one k _ (g x) Comma (seps (map f (y :: xs)) ++ Gt :: r)).
      + rewrite IH by (cbn [length] in *; lia). reflexivity.
      + specialize (head x (Comma :: seps (map f (y :: xs)) ++ Gt :: r)). destruct (f x ++ _) as [|[] ?]; auto.
      + apply good. left. reflexivity.
      + left. reflexivity.
  Qed.
End Lists.

Lemma head_full : forall x r, match param_toks x ++ r with Gt :: _ => False | [] => False | _ => True end.
Proof. intros [n bs|n bs d|n t d] r; exact I. Qed.
Lemma head_nodef : forall x r, match no_default x ++ r with Gt :: _ => False | [] => False | _ => True end.
Proof. intros [n bs|n bs d|n t d] r; exact I. Qed.
Lemma head_unbound : forall x r, match unbound x ++ r with Gt :: _ => False | [] => False | _ => True end.
Proof. intros [n bs|n bs d|n t d] r; exact I. Qed.

Lemma no_lts : forall ps, forallb (fun q => negb (is_lt q)) ps = true ->
  filter is_lt ps = [] /\ filter (fun q => negb (is_lt q)) ps = ps.
Proof.
  induction ps as [|p ps IH]; intros H; [auto|]. cbn [forallb] in H. apply andb_true_iff in H. destruct H as [H1 H2].
  destruct (IH H2) as [E1 E2]. cbn [filter]. rewrite H1. destruct (is_lt p); [discriminate|]. rewrite E1, E2. auto.
Qed.
Lemma lts_sorted : forall ps, lts_first ps = true -> filter is_lt ps ++ filter (fun p => negb (is_lt p)) ps = ps.
Proof.
  induction ps as [|p ps IH]; intros H; [reflexivity|]. cbn [lts_first filter] in *. destruct (is_lt p) eqn:E; cbn [negb].
  - cbn [app]. rewrite IH by exact H. reflexivity.
  - destruct (no_lts ps H) as [-> ->]. reflexivity.
Qed.

Definition starts (t : list tok) : Prop := match t with Lt :: _ => False | _ => True end.
Lemma seps_len : forall l, (forall x, In x l -> x <> []) -> length l <= length (seps l).
Proof.
  induction l as [|x l IH]; intros H; [cbn; lia|]. assert (length x <> 0) as Hx.
  { specialize (H x (or_introl eq_refl)). destruct x; [congruence|cbn; lia]. }
  destruct l as [|y l]; [cbn; lia|]. change (seps (x :: y :: l)) with (x ++ Comma :: seps (y :: l)). rewrite app_length.
  cbn [length] in *. assert (S (length l) <= length (seps (y :: l))). { apply IH. intros z Hz. apply H. right. exact Hz. } lia.
Qed.
Lemma flat_len : forall f (ps : list param), length ps <= length (flat_map (fun p => f p ++ [Comma]) ps).
Proof. induction ps as [|p ps IH]; [cbn; lia|]. cbn [flat_map length]. rewrite !app_length. cbn [length]. lia. Qed.
Lemma params_full : forall ps r, lts_first ps = true -> starts r -> p_params (full ps ++ r) = Some (ps, r).
Proof.
  intros ps r H HS. destruct ps as [|q ps]; [destruct r as [|[] ?]; try reflexivity; contradiction|].
  unfold full. rewrite lts_sorted by exact H. cbn [app]. unfold p_params. rewrite <- app_assoc. cbn [app].
  rewrite (list_seps p_param param_toks (fun p => p) head_full read_full).
  - rewrite map_id. reflexivity.
  - cbn [length]. rewrite !app_length. cbn [length]. pose proof (seps_len (map param_toks (q :: ps))) as L. rewrite map_length in L. cbn [length] in L.
    assert (S (length ps) <= length (seps (map param_toks (q :: ps)))); [|lia]. apply L.
    intros x Hx. apply in_map_iff in Hx. destruct Hx as (p & <- & _). destruct p; discriminate.
Qed.
Lemma params_gen : forall ps r, p_params (angles (separated no_default ps) ++ r) = Some (map strip (sep ps), r).
Proof.
  intros ps r. unfold angles. cbn [app]. unfold p_params. rewrite <- app_assoc. cbn [app].
  unfold separated. fold (sep ps). rewrite (list_commas p_param no_default strip head_nodef read_nodef); [reflexivity|].
  cbn [length]. rewrite !app_length. pose proof (flat_len no_default (sep ps)). lia.
Qed.
Lemma args_un : forall ps r k, k = length (separated unbound ps ++ Gt :: r) ->
  p_list p_arg k (separated unbound ps ++ Gt :: r) = Some (map as_arg (sep ps), r).
Proof.
  intros ps r k ->. unfold separated. fold (sep ps).
  rewrite (list_commas p_arg unbound as_arg head_unbound read_unbound); [reflexivity|].
  rewrite !app_length. pose proof (flat_len unbound (sep ps)). cbn [length]. lia.
Qed.

(** ** Where clauses *)
Definition closes (c : tok) : Prop := match c with Ty _ | Comma => False | _ => True end.
Lemma preds_end : forall k c r, closes c -> p_preds k (c :: r) = ([], c :: r).
Proof. intros [|k] c r H; [reflexivity|]. destruct c; try contradiction; reflexivity. Qed.
Lemma preds_commas : forall ps k t, length ps <= k ->
  p_preds k (commas ps ++ t) = let '(l, r) := p_preds (k - length ps) t in (ps ++ l, r).
Proof.
  induction ps as [|[x bs] ps IH]; intros k t L.
  - cbn [length commas flat_map app]. rewrite Nat.sub_0_r. destruct (p_preds k t). reflexivity.
  - destruct k as [|k]; cbn [length] in L; [lia|]. unfold commas. cbn [flat_map pred_toks app fst snd p_preds]. fold (commas ps).
    rewrite IH by lia. cbn [length Nat.sub]. destruct (p_preds (k - length ps) t). reflexivity.
Qed.
Lemma preds_last : forall k x bs c r, closes c -> p_preds (S k) (pred_toks (x, bs) ++ c :: r) = ([(x, bs)], c :: r).
Proof. intros k x bs c r H. cbn [pred_toks app fst snd p_preds]. destruct c; try contradiction; reflexivity. Qed.
Lemma preds_stuck : forall k x bs y r, p_preds (S k) (pred_toks (x, bs) ++ Ty y :: r) = ([(x, bs)], Ty y :: r).
Proof. reflexivity. Qed.
Lemma seps_snoc : forall (ps : list pred) (q : pred), seps (map pred_toks (ps ++ [q])) = commas ps ++ pred_toks q.
Proof.
  induction ps as [|p ps IH]; intros q; [reflexivity|].
  change (map pred_toks ((p :: ps) ++ [q])) with (pred_toks p :: map pred_toks (ps ++ [q])).
  assert (exists y l, map pred_toks (ps ++ [q]) = y :: l) as (y & l & E) by (destruct ps; cbn; eauto).
  rewrite E. change (seps (pred_toks p :: y :: l)) with (pred_toks p ++ Comma :: seps (y :: l)). rewrite <- E, IH.
  unfold commas. cbn [flat_map]. rewrite <- !app_assoc. reflexivity.
Qed.
(** The user's predicates, without a comma and with one. *)
Lemma user_shape : forall d, (d_where d = [] /\ user_preds d = []) \/ (d_where d <> [] /\ d_comma d = true /\ user_preds d = commas (d_where d)) \/
  (d_comma d = false /\ exists ps q, d_where d = ps ++ [q] /\ user_preds d = commas ps ++ pred_toks q).
Proof.
  intros d. unfold user_preds. destruct (d_where d) as [|p w] eqn:E; [left; auto|]. right.
  assert (p :: w <> []) as NE by discriminate. destruct (exists_last NE) as (ps & q & E'). rewrite E', seps_snoc. destruct (d_comma d) eqn:C.
  - left. split; [intros Z; destruct ps; discriminate|]. split; [reflexivity|].
    unfold commas. rewrite flat_map_app. cbn [flat_map]. rewrite app_nil_r.
    destruct (ps ++ [q]) eqn:Z; [destruct ps; discriminate|]. rewrite <- app_assoc. reflexivity.
  - right. split; [reflexivity|]. exists ps, q. split; [reflexivity|]. destruct (ps ++ [q]) eqn:Z; [destruct ps; discriminate|]. rewrite app_nil_r. reflexivity.
Qed.
Lemma preds_user : forall d k c r, closes c -> length (d_where d) <= k -> p_preds k (user_preds d ++ c :: r) = (d_where d, c :: r).
Proof.
  intros d k c r H L. destruct (user_shape d) as [(E & ->)|[(_ & _ & ->)|(_ & ps & q & E & ->)]].
  - rewrite E. cbn [app]. apply preds_end. exact H.
  - rewrite preds_commas by exact L. rewrite preds_end by exact H. rewrite app_nil_r. reflexivity.
  - rewrite E in *. rewrite app_length in L. cbn [length] in L. rewrite <- app_assoc, preds_commas by lia.
    destruct (k - length ps) as [|j] eqn:J; [lia|]. destruct q as [x bs]. rewrite preds_last by exact H. reflexivity.
Qed.
Lemma commas_len : forall ps, length ps <= length (commas ps).
Proof. induction ps as [|p ps IH]; [cbn; lia|]. unfold commas. cbn [flat_map]. rewrite !app_length. fold (commas ps). cbn [length pred_toks]. lia. Qed.
Lemma user_len : forall d, length (d_where d) <= length (user_preds d).
Proof.
  intros d. destruct (user_shape d) as [(E & ->)|[(_ & _ & ->)|(_ & ps & q & E & ->)]].
  - rewrite E. cbn. lia.
  - apply commas_len.
  - rewrite E, !app_length. pose proof (commas_len ps). cbn [length pred_toks]. lia.
Qed.
Lemma commas_app : forall a b, commas (a ++ b) = commas a ++ commas b.
Proof. intros. unfold commas. apply flat_map_app. Qed.
(** Predicates of stabby followed by those of the user. *)
Lemma where_user : forall d ps c r, closes c -> p_where (KwWhere :: commas ps ++ user_preds d ++ c :: r) = (ps ++ d_where d, c :: r).
Proof.
  intros d ps c r H. unfold p_where. pose proof (commas_len ps). pose proof (user_len d).
  rewrite preds_commas by (rewrite app_length; lia). rewrite preds_user; [reflexivity|exact H|]. rewrite !app_length. lia.
Qed.
(** Predicates of stabby, those of the user, and the layout's. *)
Lemma where_layout : forall d ps c r, closes c -> d_where d = [] \/ d_comma d = true ->
  p_where (KwWhere :: commas ps ++ user_preds d ++ pred_toks layout_pred ++ c :: r) = (ps ++ d_where d ++ [layout_pred], c :: r).
Proof.
  intros d ps c r H C. assert (user_preds d = commas (d_where d)) as E.
  { destruct (user_shape d) as [(E & ->)|[(_ & _ & ->)|(C' & ps' & q & E & _)]]; [rewrite E; reflexivity|reflexivity|].
    destruct C as [C|C]; [rewrite C in E; destruct ps'; discriminate|congruence]. }
  rewrite E. unfold p_where. pose proof (commas_len ps). pose proof (commas_len (d_where d)).
  rewrite preds_commas by (rewrite app_length; lia). rewrite preds_commas by (rewrite !app_length; lia).
  rewrite !app_length. destruct (_ - length (d_where d)) as [|k] eqn:J; [cbn [length pred_toks] in J; lia|].
  unfold layout_pred. rewrite preds_last by exact H. reflexivity.
Qed.
Lemma where_stuck : forall d ps c r, d_where d <> [] -> d_comma d = false ->
  exists w, p_where (KwWhere :: commas ps ++ user_preds d ++ pred_toks layout_pred ++ c :: r) = (w, pred_toks layout_pred ++ c :: r).
Proof.
  intros d ps c r H C. destruct (user_shape d) as [(E & _)|[(_ & C' & _)|(_ & us & q & E & ->)]]; [contradiction|congruence|].
  unfold p_where. pose proof (commas_len ps). pose proof (commas_len us).
  rewrite preds_commas by (rewrite app_length; lia). rewrite <- app_assoc. rewrite preds_commas by (rewrite !app_length; lia).
  rewrite !app_length. destruct (_ - length us) as [|k] eqn:J; [cbn [length pred_toks] in J; lia|].
  destruct q as [x bs]. unfold layout_pred. cbn [pred_toks fst snd app]. cbn [p_preds]. eauto.
Qed.

(** ** Items *)
Lemma impl_item : forall pst ps tr n us wh w r,
  (forall t, starts t -> p_params (pst ++ t) = Some (ps, t)) -> tr = [] \/ tr = [Trait; KwFor] ->
  p_where (KwWhere :: wh ++ Body :: r) = (w, Body :: r) ->
  p_item (impl_toks pst tr n (separated unbound us) wh ++ r) =
    Some (Impl ps (match tr with [] => false | _ => true end) n (map as_arg (sep us)) w, r).
Proof.
  intros pst ps tr n us wh w r HP HT HW. unfold impl_toks. rewrite <- !app_assoc. cbn [app p_item].
  rewrite HP by (destruct HT as [-> | ->]; exact I).
  assert (p_list p_arg (length (separated unbound us ++ Gt :: KwWhere :: wh ++ Body :: r)) (separated unbound us ++ Gt :: KwWhere :: wh ++ Body :: r) =
    Some (map as_arg (sep us), KwWhere :: wh ++ Body :: r)) as E by (apply args_un; reflexivity).
  destruct HT as [-> | ->]; cbn [app]; rewrite E, HW; reflexivity.
Qed.

Lemma impl_stuck : forall pst ps n us wh r, (forall t, starts t -> p_params (pst ++ t) = Some (ps, t)) ->
  (forall r', match snd (p_where (KwWhere :: wh ++ Body :: r')) with Body :: _ => False | _ => True end) ->
  forall tr, tr = [] \/ tr = [Trait; KwFor] -> p_item (impl_toks pst tr n (separated unbound us) wh ++ r) = None.
Proof.
  intros pst ps n us wh r HP HW tr HT. unfold impl_toks. rewrite <- !app_assoc. cbn [app p_item].
  rewrite HP by (destruct HT as [-> | ->]; exact I).
  assert (p_list p_arg (length (separated unbound us ++ Gt :: KwWhere :: wh ++ Body :: r)) (separated unbound us ++ Gt :: KwWhere :: wh ++ Body :: r) =
    Some (map as_arg (sep us), KwWhere :: wh ++ Body :: r)) as E by (apply args_un; reflexivity).
  specialize (HW r). destruct (p_where (KwWhere :: wh ++ Body :: r)) as [w r0] eqn:EW. cbn [snd] in HW.
  destruct HT as [-> | ->]; cbn [app]; rewrite E, EW; destruct r0 as [|[] ?]; try reflexivity; contradiction.
Qed.
Lemma where_plain : forall d c r, closes c -> c <> KwWhere -> p_where (user_where d ++ c :: r) = (d_where d, c :: r).
Proof.
  intros d c r H N. unfold user_where. destruct (d_where d) as [|p w] eqn:E.
  - cbn [app]. destruct c; try contradiction; try reflexivity.
  - cbn [app]. pose proof (where_user d [] c r H) as Q. cbn [app commas flat_map] in Q. rewrite E in Q. exact Q.
Qed.
Lemma starts_where : forall d c r, c <> Lt -> starts (user_where d ++ c :: r).
Proof. intros d c r H. unfold user_where. destruct (d_where d); cbn; [destruct c; auto|exact I]. Qed.
Lemma struct_item : forall n d r, lts_first (d_params d) = true -> d_where d = [] \/ (forall ts, d_shape d <> Parens ts) ->
  p_item (struct_toks n d ++ r) = Some (Def KStruct n (d_params d) (d_where d) (d_shape d), r).
Proof.
  intros n d r HL HW. unfold struct_toks. rewrite <- !app_assoc. cbn [app p_item]. destruct (d_shape d) as [ts|ts|] eqn:ES; cbn [shape_toks app].
  - rewrite params_full by (try exact HL; apply starts_where; discriminate).
    pose proof (where_plain d (Brace ts) r I ltac:(discriminate)) as Q.
    unfold user_where in *. destruct (d_where d) as [|p w]; cbn [app] in *; [reflexivity|]. rewrite Q. reflexivity.
  - destruct HW as [HW|HW]; [|exfalso; exact (HW ts eq_refl)]. unfold user_where. rewrite HW. cbn [app].
    rewrite params_full by (try exact HL; exact I). reflexivity.
  - rewrite params_full by (try exact HL; apply starts_where; discriminate).
    pose proof (where_plain d Semi r I ltac:(discriminate)) as Q.
    unfold user_where in *. destruct (d_where d) as [|p w]; cbn [app] in *; [reflexivity|]. rewrite Q. reflexivity.
Qed.
Lemma struct_stuck : forall n d r ts, lts_first (d_params d) = true -> d_where d <> [] -> d_shape d = Parens ts ->
  p_item (struct_toks n d ++ r) = None.
Proof.
  intros n d r ts HL HW ES. unfold struct_toks. rewrite <- !app_assoc. cbn [app p_item]. rewrite ES. cbn [shape_toks app].
  rewrite params_full by (try exact HL; apply starts_where; discriminate).
  pose proof (where_plain d (Paren ts) (Semi :: r) I ltac:(discriminate)) as Q.
  unfold user_where in *. destruct (d_where d) as [|p w]; cbn [app] in *; [congruence|]. rewrite Q. reflexivity.
Qed.

Lemma items_step : forall k t i r, p_item t = Some (i, r) ->
  p_items (S k) t = match p_items k r with None => None | Some l => Some (i :: l) end.
Proof. intros k [|c t] i r E; [discriminate|]. cbn [p_items]. rewrite E. reflexivity. Qed.
Lemma items_none : forall k t, p_item t = None -> t <> [] -> p_items k t = None.
Proof. intros [|k] [|c t] E N; try congruence; [reflexivity|]. cbn [p_items]. rewrite E. reflexivity. Qed.
Lemma items_last : forall k t i, p_item t = Some (i, []) -> p_items (S k) t = Some [i].
Proof. intros. rewrite (items_step k t i []) by assumption. destruct k; reflexivity. Qed.
Lemma impl_len : forall a b n c e, 6 <= length (impl_toks a b n c e).
Proof. intros. unfold impl_toks. rewrite !app_length. cbn [length]. lia. Qed.
Lemma expand_len : forall d, exists k, length (expand d) = S (S (S (S (S k)))).
Proof.
  intros d. assert (5 <= length (expand d)) as H.
  { unfold expand. destruct (d_kind d) as [| | |[|]]; rewrite !app_length; pose proof impl_len;
    repeat match goal with |- context [length (impl_toks ?a ?b ?n ?c ?e)] =>
      let l := fresh "l" in let E := fresh "E" in pose proof (impl_len a b n c e); remember (length (impl_toks a b n c e)) as l eqn:E; clear E end; lia. }
  exists (length (expand d) - 5). lia.
Qed.

(** ** The order of parameters *)
Lemma sep_perm : forall ps, Permutation (sep ps) ps.
Proof.
  unfold sep. induction ps as [|[n bs|n bs x|n t x] ps IH]; [constructor| | |]; cbn [filter is_lt is_ty is_cst].
  - cbn [app]. constructor. exact IH.
  - eapply Permutation_trans; [apply Permutation_sym, Permutation_middle|]. constructor. exact IH.
  - rewrite app_assoc. eapply Permutation_trans; [apply Permutation_sym, Permutation_middle|]. constructor. rewrite <- app_assoc. exact IH.
Qed.
Lemma sep_ordered : forall ps, in_order (sep ps).
Proof.
  intros ps i j n t x m bs y Hi Hj. unfold sep in *. rewrite app_assoc in *.
  destruct (Nat.lt_ge_cases i (length (filter is_lt ps ++ filter is_ty ps))) as [L|L].
  - rewrite nth_error_app1 in Hi by exact L. apply nth_error_In, in_app_iff in Hi.
    destruct Hi as [Hi|Hi]; apply filter_In in Hi; destruct Hi; discriminate.
  - destruct (Nat.lt_ge_cases j (length (filter is_lt ps ++ filter is_ty ps))) as [L'|L']; [lia|].
    rewrite nth_error_app2 in Hj by exact L'. apply nth_error_In, filter_In in Hj. destruct Hj; discriminate.
Qed.
Lemma in_order_tl : forall p ps, in_order (p :: ps) -> in_order ps.
Proof. intros p ps H i j n t x m bs y Hi Hj. specialize (H (S i) (S j) n t x m bs y Hi Hj). lia. Qed.
Lemma filter_none : forall (f : param -> bool) ps, (forall p, In p ps -> f p = false) -> filter f ps = [].
Proof. induction ps as [|p ps IH]; intros H; [reflexivity|]. cbn [filter]. rewrite (H p (or_introl eq_refl)). apply IH. intros q Hq. apply H. right. exact Hq. Qed.
Lemma sep_id : forall ps, lts_first ps = true -> in_order ps -> sep ps = ps.
Proof.
  induction ps as [|p ps IH]; intros HL HO; [reflexivity|]. assert (in_order ps) as HO' by (eapply in_order_tl; exact HO).
  unfold sep in *. destruct p as [n bs|n bs x|n t x]; cbn [lts_first is_lt is_ty is_cst filter] in *.
  - cbn [app]. rewrite IH by assumption. reflexivity.
  - assert (lts_first ps = true) as HL' by (destruct ps as [|q ps]; [reflexivity|]; cbn [forallb lts_first] in *;
      apply andb_true_iff in HL; destruct HL as [A B]; rewrite B; destruct (is_lt q); [discriminate|reflexivity]).
    specialize (IH HL' HO'). destruct (no_lts ps HL) as [E _]. rewrite E in *. cbn [app] in *. rewrite IH. reflexivity.
  - assert (lts_first ps = true) as HL' by (destruct ps as [|q ps]; [reflexivity|]; cbn [forallb lts_first] in *;
      apply andb_true_iff in HL; destruct HL as [A B]; rewrite B; destruct (is_lt q); [discriminate|reflexivity]).
    specialize (IH HL' HO'). destruct (no_lts ps HL) as [E _]. rewrite E in *.
    assert (filter is_ty ps = []) as E2.
    { apply filter_none. intros q Hq. destruct q as [| |]; try reflexivity. apply In_nth_error in Hq. destruct Hq as [j Hj].
      specialize (HO 0 (S j) n t x n0 bs d eq_refl Hj). lia. }
    rewrite E2 in *. cbn [app] in *. rewrite IH. reflexivity.
Qed.
Lemma distinct_NoDup : forall l, distinct l = true <-> NoDup l.
Proof.
  induction l as [|x l IH]; cbn [distinct]; [split; [constructor|reflexivity]|]. rewrite andb_true_iff, IH, negb_true_iff. split.
  - intros [A B]. constructor; [|exact B]. intros Hx. assert (existsb (N.eqb x) l = true); [|congruence].
    apply existsb_exists. exists x. split; [exact Hx|apply N.eqb_refl].
  - intros H. inversion H; subst. split; [|assumption]. destruct (existsb (N.eqb x) l) eqn:E; [|reflexivity].
    apply existsb_exists in E. destruct E as (y & Hy & E). apply N.eqb_eq in E. subst y. contradiction.
Qed.
Lemma strip_name : forall ps, map p_name (map strip ps) = map p_name ps.
Proof. intros. rewrite map_map. apply map_ext. intros []; reflexivity. Qed.
Lemma same_names : forall all l ps, NoDup (map p_name all) -> incl l all -> incl ps all -> map p_name l = map p_name ps -> l = ps.
Proof.
  intros all. induction l as [|x l IH]; intros [|y ps] ND I1 I2 E; try discriminate; [reflexivity|]. cbn [map] in E. injection E as E0 E.
  f_equal.
  - assert (In x all) as Hx by (apply I1; left; reflexivity). assert (In y all) as Hy by (apply I2; left; reflexivity).
    clear - ND Hx Hy E0. induction all as [|z all IHa]; [contradiction|]. cbn [map] in ND. inversion ND; subst.
    destruct Hx as [->|Hx], Hy as [->|Hy]; auto.
    + exfalso. apply H1. rewrite E0. apply in_map. exact Hy.
    + exfalso. apply H1. rewrite <- E0. apply in_map. exact Hx.
  - apply IH; auto; intros z Hz; [apply I1|apply I2]; right; exact Hz.
Qed.
Lemma names_sep : forall ps, distinct (map p_name ps) = true -> map as_arg (sep ps) = map as_arg ps -> sep ps = ps.
Proof.
  intros ps H E. assert (map p_name (sep ps) = map p_name ps) as E1.
  { assert (forall l, map p_name l = map (fun a => match a with ALt n | AVar n => n | ATy _ => 0%N end) (map as_arg l)) as G
      by (intros l; rewrite map_map; apply map_ext; intros []; reflexivity). rewrite !G, E. reflexivity. }
  apply distinct_NoDup in H. apply (same_names ps); auto; [|intros x Hx; exact Hx].
  intros x Hx. eapply Permutation_in; [apply sep_perm|exact Hx].
Qed.
Lemma strip_lts : forall ps, lts_first (map strip ps) = lts_first ps.
Proof.
  assert (forall p, is_lt (strip p) = is_lt p) as G by (intros []; reflexivity).
  induction ps as [|p ps IH]; [reflexivity|]. cbn [map lts_first]. rewrite G, IH. destruct (is_lt p); [reflexivity|].
  clear - G. induction ps as [|q ps IH]; [reflexivity|]. cbn [map forallb]. rewrite G, IH. reflexivity.
Qed.
Lemma strip_nodef : forall ps, forallb (fun p => negb (has_default p)) (map strip ps) = true.
Proof. induction ps as [|[] ps IH]; cbn; auto. Qed.
Lemma nodef_last : forall ps, forallb (fun p => negb (has_default p)) ps = true -> defaults_last ps = true.
Proof. induction ps as [|p ps IH]; cbn; intros H; [reflexivity|]. apply andb_true_iff in H. destruct H as [A B]. destruct (has_default p); [discriminate|auto]. Qed.
Lemma fits_self : forall scope p, In (strip p) scope -> fits scope p (as_arg p) = true.
Proof. intros scope [n bs|n bs d|n t d] H; cbn [fits as_arg]; apply existsb_exists; eexists; (split; [exact H|]); cbn; apply N.eqb_refl. Qed.
Lemma fit_self : forall scope ps, incl (map strip ps) scope -> fit scope ps (map as_arg ps) = true.
Proof.
  induction ps as [|p ps IH]; intros H; [reflexivity|]. cbn [fit map]. rewrite fits_self by (apply H; left; reflexivity). apply IH.
  intros x Hx. apply H. right. exact Hx.
Qed.

(** ** The items of each kind *)
Lemma legal_parts : forall d, legal d -> lts_first (d_params d) = true /\ defaults_last (d_params d) = true /\ distinct (map p_name (d_params d)) = true.
Proof.
  intros d [H _]. unfold item_ok in H. apply andb_true_iff in H. destruct H as [H C]. apply andb_true_iff in H. destruct H. auto.
Qed.
Lemma sep_lts : forall ps, lts_first (sep ps) = true.
Proof.
  intros ps. unfold sep. assert (forallb (fun q => negb (is_lt q)) (filter is_ty ps ++ filter is_cst ps) = true) as H.
  { apply forallb_forall. intros x Hx. apply in_app_iff in Hx. destruct Hx as [Hx|Hx]; apply filter_In in Hx; destruct Hx as [_ Hx]; destruct x; try discriminate; reflexivity. }
  revert H. generalize (filter is_ty ps ++ filter is_cst ps) as t. intros t H.
  assert (lts_first t = true) as Ht.
  { destruct t as [|q t]; [reflexivity|]. cbn [forallb lts_first] in *. apply andb_true_iff in H. destruct H as [A B]. rewrite B. destruct (is_lt q); [discriminate|reflexivity]. }
  induction ps as [|p ps IH]; [exact Ht|]. cbn [filter]. destruct (is_lt p) eqn:E; [|exact IH]. cbn [app lts_first]. rewrite E. exact IH.
Qed.
Lemma sep_distinct : forall ps, distinct (map p_name ps) = true -> distinct (map p_name (map strip (sep ps))) = true.
Proof.
  intros ps H. rewrite strip_name. apply distinct_NoDup. apply distinct_NoDup in H.
  eapply Permutation_NoDup; [|exact H]. apply Permutation_map, Permutation_sym, sep_perm.
Qed.
Lemma sep_head : forall ps, lts_first (map strip (sep ps)) && forallb (fun p => negb (has_default p)) (map strip (sep ps)) = true.
Proof. intros. rewrite strip_lts, sep_lts, strip_nodef. reflexivity. Qed.

Definition wh_of (d : decl) : list pred := layout_pred :: report_preds d ++ d_where d.
Lemma where_struct : forall d r,
  p_where (KwWhere :: (pred_toks layout_pred ++ [Comma] ++ commas (report_preds d) ++ user_preds d) ++ Body :: r) = (wh_of d, Body :: r).
Proof.
  intros d r. pose proof (where_user d (layout_pred :: report_preds d) Body r I) as Q.
  unfold commas in Q. cbn [flat_map] in Q. fold (commas (report_preds d)) in Q. rewrite <- !app_assoc in *. exact Q.
Qed.
Definition struct_items (d : decl) : list item :=
  [Def KStruct (User (d_name d)) (d_params d) (d_where d) (d_shape d);
   Impl (map strip (sep (d_params d))) true (User (d_name d)) (map as_arg (sep (d_params d))) (wh_of d);
   Def KStruct (Made (d_name d)) (d_params d) (d_where d) (d_shape d);
   Impl (map strip (sep (d_params d))) false (User (d_name d)) (map as_arg (sep (d_params d))) (wh_of d)].
Lemma parse_struct : forall d, d_kind d = KStruct -> lts_first (d_params d) = true ->
  d_where d = [] \/ (forall ts, d_shape d <> Parens ts) -> parse (expand d) = Some (struct_items d).
Proof.
  intros d K HL HW. unfold parse. destruct (expand_len d) as [k ->]. unfold expand. rewrite K.
  erewrite items_step by (apply struct_item; assumption).
  erewrite items_step by (apply impl_item; [intros t _; apply params_gen|right; reflexivity|apply where_struct]).
  erewrite items_step by (apply struct_item; assumption).
  erewrite items_last; [reflexivity|]. rewrite <- (app_nil_r (impl_toks _ _ _ _ _)).
  apply impl_item; [intros t _; apply params_gen|left; reflexivity|apply where_struct].
Qed.
Lemma parse_struct_stuck : forall d ts, d_kind d = KStruct -> lts_first (d_params d) = true -> d_where d <> [] -> d_shape d = Parens ts ->
  parse (expand d) = None.
Proof.
  intros d ts K HL HW ES. unfold parse. apply items_none; [|unfold expand; rewrite K; discriminate].
  unfold expand. rewrite K. eapply struct_stuck; eassumption.
Qed.

(** Unions and enums. *)
Definition flat_items (d : decl) (ts : list N) : list item :=
  [Def (d_kind d) (User (d_name d)) (d_params d) [] (Braces ts);
   Impl (d_params d) true (User (d_name d)) (map as_arg (d_params d)) (report_preds d ++ [layout_pred])].
Lemma where_flat : forall ps r, p_where (KwWhere :: (commas ps ++ pred_toks layout_pred) ++ Body :: r) = (ps ++ [layout_pred], Body :: r).
Proof.
  intros ps r. rewrite <- app_assoc.
  exact (where_layout (Decl KUnion 0 [] [] true Nothing) ps Body r I (or_introl eq_refl)).
Qed.
Lemma plain_unbound : forall p, plain p -> param_toks p = unbound p.
Proof. intros [n [|b bs]|n [|b bs] [d|]|n t d] H; try contradiction; reflexivity. Qed.
Lemma args_plain : forall ps r k, Forall plain ps -> length ps < k ->
  p_list p_arg k (seps (map param_toks ps) ++ Gt :: r) = Some (map as_arg ps, r).
Proof.
  intros ps r k H L. replace (map param_toks ps) with (map unbound ps).
  - apply (list_seps p_arg unbound as_arg head_unbound read_unbound). exact L.
  - apply map_ext_in. intros p Hp. symmetry. apply plain_unbound. rewrite Forall_forall in H. auto.
Qed.
Lemma plain_dec : forall p, plain p \/ ~ plain p.
Proof. intros [n [|b bs]|n [|b bs] [d|]|n t d]; cbn; auto. Qed.
Lemma plains_dec : forall ps, Forall plain ps \/ ~ Forall plain ps.
Proof.
  induction ps as [|p ps [F|F]]; [left; constructor| |right; intros H; inversion H; contradiction].
  destruct (plain_dec p) as [P|P]; [left; constructor; assumption|right; intros H; inversion H; contradiction].
Qed.
Lemma args_bad : forall ps r k, ~ Forall plain ps -> p_list p_arg k (seps (map param_toks ps) ++ Gt :: r) = None.
Proof.
  induction ps as [|p ps IH]; intros r k H; [exfalso; apply H; constructor|]. destruct (plain_dec p) as [P|P].
  - assert (~ Forall plain ps) as H' by (intros F; apply H; constructor; assumption).
    destruct ps as [|q ps]; [exfalso; apply H'; constructor|].
    change (seps (map param_toks (p :: q :: ps))) with (param_toks p ++ Comma :: seps (map param_toks (q :: ps))). rewrite <- app_assoc. cbn [app].
    destruct k as [|k]; [reflexivity|]. rewrite (plain_unbound p P).
    rewrite (p_list_one p_arg k _ (as_arg p) Comma (seps (map param_toks (q :: ps)) ++ Gt :: r)).
    + rewrite IH by exact H'. reflexivity.
    + destruct p; exact I.
    + apply read_unbound. left. reflexivity.
    + left. reflexivity.
  - clear IH H. assert (exists t, seps (map param_toks (p :: ps)) ++ Gt :: r = param_toks p ++ t) as (t & ->).
    { destruct ps as [|q ps]; [eexists; reflexivity|].
      change (seps (map param_toks (p :: q :: ps))) with (param_toks p ++ Comma :: seps (map param_toks (q :: ps))). rewrite <- app_assoc. eauto. }
    assert (~ ends Colon /\ ~ ends Eq) as [NC NE] by (split; intros [|]; discriminate).
    destruct p as [n [|b bs]|n [|b bs] [x|]|n u x]; cbn [plain] in P; try (exfalso; apply P; exact I); cbn [param_toks app].
    + eapply p_list_bad; [exact I|reflexivity|exact NC].
    + eapply p_list_bad; [exact I|reflexivity|exact NE].
    + eapply p_list_bad; [exact I|reflexivity|exact NC].
    + eapply p_list_bad; [exact I|reflexivity|exact NC].
    + apply p_list_none; [exact I|reflexivity].
Qed.
Lemma flat_def : forall d ts r kw, lts_first (d_params d) = true -> (kw = KwUnion /\ d_kind d = KUnion) \/ (kw = KwEnum /\ d_kind d = KEnum) ->
  p_item ([kw; Id (User (d_name d))] ++ full (d_params d) ++ [Brace ts] ++ r) = Some (Def (d_kind d) (User (d_name d)) (d_params d) [] (Braces ts), r).
Proof.
  intros d ts r kw HL [[-> ->]|[-> ->]]; cbn [app p_item]; rewrite params_full by (try exact HL; exact I); reflexivity.
Qed.
Lemma flat_impl : forall ps n wh w, lts_first ps = true -> Forall plain ps -> p_where (KwWhere :: wh ++ [Body]) = (w, [Body]) ->
  p_item (impl_toks (full ps) [Trait; KwFor] n (seps (map param_toks ps)) wh) = Some (Impl ps true n (map as_arg ps) w, []).
Proof.
  intros ps n wh w HL HP HW. unfold impl_toks. cbn [app p_item]. rewrite params_full by (try exact HL; exact I).
  rewrite args_plain; [rewrite HW; reflexivity|exact HP|]. rewrite app_length. cbn [length].
  pose proof (seps_len (map param_toks ps)) as L. rewrite map_length in L.
  assert (length ps <= length (seps (map param_toks ps))); [|lia]. apply L. intros x Hx. apply in_map_iff in Hx. destruct Hx as (p & <- & _). destruct p; discriminate.
Qed.
Lemma flat_impl_bad : forall ps n wh, lts_first ps = true -> ~ Forall plain ps ->
  p_item (impl_toks (full ps) [Trait; KwFor] n (seps (map param_toks ps)) wh) = None.
Proof.
  intros ps n wh HL HP. unfold impl_toks. cbn [app p_item]. rewrite params_full by (try exact HL; exact I). rewrite args_bad by exact HP. reflexivity.
Qed.
Lemma parse_flat : forall d ts, d_kind d = KUnion \/ d_kind d = KEnum -> d_shape d = Braces ts -> lts_first (d_params d) = true -> Forall plain (d_params d) ->
  parse (expand d) = Some (flat_items d ts).
Proof.
  intros d ts K ES HL HP. unfold parse. destruct (expand_len d) as [k ->]. unfold expand, flat_items. rewrite ES. cbn [shape_toks].
  assert (exists kw, (kw = KwUnion /\ d_kind d = KUnion) \/ (kw = KwEnum /\ d_kind d = KEnum)) as (kw & KW) by (destruct K; eauto).
  pose proof (fun r => flat_def d ts r kw HL KW) as D.
  pose proof (flat_impl (d_params d) (User (d_name d)) (commas (report_preds d) ++ pred_toks layout_pred) _ HL HP (where_flat _ _)) as I.
  destruct KW as [[-> E]|[-> E]]; rewrite E in *; rewrite (items_step _ _ _ _ (D _)), (items_last _ _ _ I); reflexivity.
Qed.
Lemma parse_flat_stuck : forall d ts, d_kind d = KUnion \/ d_kind d = KEnum -> d_shape d = Braces ts -> lts_first (d_params d) = true -> ~ Forall plain (d_params d) ->
  parse (expand d) = None.
Proof.
  intros d ts K ES HL HP. unfold parse. destruct (expand_len d) as [k ->]. unfold expand. rewrite ES. cbn [shape_toks].
  assert (exists kw, (kw = KwUnion /\ d_kind d = KUnion) \/ (kw = KwEnum /\ d_kind d = KEnum)) as (kw & KW) by (destruct K; eauto).
  pose proof (fun r => flat_def d ts r kw HL KW) as D.
  pose proof (flat_impl_bad (d_params d) (User (d_name d)) (commas (report_preds d) ++ pred_toks layout_pred) HL HP) as I.
  destruct KW as [[-> E]|[-> E]]; rewrite E in *; rewrite (items_step _ _ _ _ (D _)), (items_none _ _ I); try reflexivity; discriminate.
Qed.

(** Enums with [repr(stabby)]. *)
Definition tree_preds (d : decl) : list pred := report_preds d ++ part_preds d.
Lemma tree_commas : forall d t, commas (report_preds d) ++ (commas (part_preds d) ++ user_preds d) ++ t = commas (tree_preds d) ++ user_preds d ++ t.
Proof. intros. unfold tree_preds. rewrite commas_app, <- !app_assoc. reflexivity. Qed.
Definition tree_items (d : decl) (check : bool) (ts : list N) : list item :=
  let ps := map strip (sep (d_params d)) in
  let xs := map as_arg (sep (d_params d)) in
  let w := tree_preds d ++ d_where d ++ [layout_pred] in
  Def KStruct (User (d_name d)) (d_params d) (tree_preds d ++ d_where d) (Parens ts) ::
  (if check then [Def KEnum (Made (d_name d)) ps (part_preds d ++ d_where d) (Braces ts); Impl ps false (User (d_name d)) xs w] else []) ++
  [Impl ps true (User (d_name d)) xs w; Impl (d_params d) false (User (d_name d)) xs (tree_preds d ++ d_where d)].
Lemma tree_def : forall d ts r, lts_first (d_params d) = true ->
  p_item ([KwStruct; Id (User (d_name d))] ++ full (d_params d) ++ [Paren ts; KwWhere] ++ commas (report_preds d) ++ (commas (part_preds d) ++ user_preds d) ++ [Semi] ++ r) =
    Some (Def KStruct (User (d_name d)) (d_params d) (tree_preds d ++ d_where d) (Parens ts), r).
Proof.
  intros d ts r HL. rewrite tree_commas. cbn [app p_item]. rewrite params_full by (try exact HL; exact I). rewrite where_user by exact I. reflexivity.
Qed.
Lemma tree_check : forall d ts r,
  p_item ([KwEnum; Id (Made (d_name d))] ++ angles (separated no_default (d_params d)) ++ [KwWhere] ++ (commas (part_preds d) ++ user_preds d) ++ [Brace ts] ++ r) =
    Some (Def KEnum (Made (d_name d)) (map strip (sep (d_params d))) (part_preds d ++ d_where d) (Braces ts), r).
Proof. intros d ts r. cbn [app p_item]. rewrite params_gen. rewrite <- app_assoc, where_user by exact I. reflexivity. Qed.
Lemma tree_layout : forall d r, d_where d = [] \/ d_comma d = true ->
  p_where (KwWhere :: (commas (report_preds d) ++ (commas (part_preds d) ++ user_preds d) ++ pred_toks layout_pred) ++ Body :: r) =
    (tree_preds d ++ d_where d ++ [layout_pred], Body :: r).
Proof. intros d r C. rewrite tree_commas, <- !app_assoc. apply where_layout; [exact I|exact C]. Qed.
Lemma tree_stuck : forall d r, d_where d <> [] -> d_comma d = false ->
  match snd (p_where (KwWhere :: (commas (report_preds d) ++ (commas (part_preds d) ++ user_preds d) ++ pred_toks layout_pred) ++ Body :: r)) with Body :: _ => False | _ => True end.
Proof.
  intros d r H C. rewrite tree_commas, <- !app_assoc. destruct (where_stuck d (tree_preds d) Body r H C) as (w & ->). exact I.
Qed.
Lemma tree_end : forall d r, p_where (KwWhere :: (commas (report_preds d) ++ (commas (part_preds d) ++ user_preds d)) ++ Body :: r) =
  (tree_preds d ++ d_where d, Body :: r).
Proof. intros d r. rewrite <- app_assoc, tree_commas. apply where_user. exact I. Qed.
Lemma parse_tree : forall d check ts, d_kind d = KStabby check -> d_shape d = Braces ts -> lts_first (d_params d) = true -> d_where d = [] \/ d_comma d = true ->
  parse (expand d) = Some (tree_items d check ts).
Proof.
  intros d check ts K ES HL C. unfold parse. destruct (expand_len d) as [k ->]. unfold expand, tree_items. rewrite K, ES. cbn [shape_toks shape_tys].
  rewrite (items_step _ _ _ _ (tree_def d ts _ HL)). destruct check.
  - pose proof (tree_check d ts) as TC. pose proof (fun r => tree_layout d r C) as TL. pose proof (tree_end d) as TE.
    set (B := commas (part_preds d) ++ user_preds d) in *. clearbody B. rewrite <- !app_assoc. rewrite (items_step _ _ _ _ (TC _)).
    erewrite items_step by (apply impl_item; [intros t _; apply params_gen|left; reflexivity|apply TL]).
    erewrite items_step by (apply impl_item; [intros t _; apply params_gen|right; reflexivity|apply TL]).
    erewrite items_last; [reflexivity|]. rewrite <- (app_nil_r (impl_toks _ _ _ _ _)).
    apply impl_item; [intros t Ht; apply params_full; assumption|left; reflexivity|apply TE].
  - cbn [app].
    erewrite items_step by (apply impl_item; [intros t _; apply params_gen|right; reflexivity|apply tree_layout; exact C]).
    erewrite items_last; [reflexivity|]. rewrite <- (app_nil_r (impl_toks _ _ _ _ _)).
    apply impl_item; [intros t Ht; apply params_full; assumption|left; reflexivity|apply tree_end].
Qed.
Lemma parse_tree_stuck : forall d check ts, d_kind d = KStabby check -> d_shape d = Braces ts -> lts_first (d_params d) = true ->
  d_where d <> [] -> d_comma d = false -> parse (expand d) = None.
Proof.
  intros d check ts K ES HL H C. unfold parse. destruct (expand_len d) as [k ->]. unfold expand. rewrite K, ES. cbn [shape_toks shape_tys].
  rewrite (items_step _ _ _ _ (tree_def d ts _ HL)). destruct check.
  - pose proof (tree_check d ts) as TC. pose proof (fun r => tree_stuck d r H C) as TL.
    set (B := commas (part_preds d) ++ user_preds d) in *. clearbody B. rewrite <- !app_assoc. rewrite (items_step _ _ _ _ (TC _)).
    rewrite items_none; [reflexivity| |discriminate].
    eapply impl_stuck; [intros t _; apply params_gen|exact TL|left; reflexivity].
  - cbn [app]. rewrite items_none; [reflexivity| |discriminate].
    eapply impl_stuck; [intros t _; apply params_gen|intros r; apply tree_stuck; assumption|right; reflexivity].
Qed.

(** ** Acceptance *)
Lemma def_ok : forall is k n ps w s, lts_first ps = true -> defaults_last ps = true -> distinct (map p_name ps) = true -> item_ok is (Def k n ps w s) = true.
Proof. intros is k n ps w s A B C. cbn [item_ok]. rewrite A, B, C. reflexivity. Qed.
Lemma impl_ok : forall is ps b n args w qs, lts_first ps = true -> forallb (fun p => negb (has_default p)) ps = true -> distinct (map p_name ps) = true ->
  lookup n is = Some qs -> fit ps qs args = true -> item_ok is (Impl ps b (User n) args w) = true.
Proof. intros is ps b n args w qs A B C D E. cbn [item_ok]. rewrite A, B, C, D, E. reflexivity. Qed.
Lemma nodef_strip : forall ps, forallb (fun p => negb (has_default p)) ps = true <-> Forall without_default ps.
Proof.
  intros ps. rewrite forallb_forall, Forall_forall. unfold without_default. split; intros H x Hx; specialize (H x Hx).
  - destruct x as [|n bs [d|]|n t [d|]]; cbn in *; congruence.
  - destruct x as [|n bs [d|]|n t [d|]]; cbn in *; congruence.
Qed.
Lemma plain_strip : forall ps, Forall plain ps -> Forall without_default ps.
Proof. intros ps H. eapply Forall_impl; [|exact H]. intros [n [|b bs]|n [|b bs] [d|]|n t d] P; try contradiction; reflexivity. Qed.
Lemma strip_id : forall ps, Forall without_default ps -> map strip ps = ps.
Proof. induction 1 as [|p ps H _ IH]; [reflexivity|]. cbn [map]. rewrite IH, H. reflexivity. Qed.

Lemma struct_works : forall d, d_kind d = KStruct -> legal d -> supported d -> works d.
Proof.
  intros d K L S0. destruct (legal_parts d L) as (HL & HD & HN). unfold supported in S0. rewrite K in S0. destruct S0 as [HO HW].
  exists (struct_items d). pose proof (sep_id _ HL HO) as ES. split; [apply parse_struct; assumption|].
  assert (lts_first (map strip (sep (d_params d))) = true) as A by (rewrite strip_lts; apply sep_lts).
  pose proof (strip_nodef (sep (d_params d))) as B. pose proof (sep_distinct _ HN) as C. unfold struct_items. rewrite ES in *. split; [|split].
  - assert (forall is, lookup (d_name d) (Def KStruct (User (d_name d)) (d_params d) (d_where d) (d_shape d) :: is) = Some (d_params d)) as LK
      by (intros is; cbn [lookup]; rewrite N.eqb_refl; reflexivity).
    assert (fit (map strip (d_params d)) (d_params d) (map as_arg (d_params d)) = true) as F by (apply fit_self; intros x Hx; exact Hx).
    unfold accepts. cbn [forallb]. rewrite !andb_true_iff.
    split; [apply def_ok; assumption|]. split; [eapply impl_ok; try eassumption; apply LK|].
    split; [apply def_ok; assumption|]. split; [eapply impl_ok; try eassumption; apply LK|reflexivity].
  - exists (d_where d). split; [apply incl_refl|]. rewrite K. destruct (d_shape d); left; reflexivity.
  - exists (map strip (d_params d)), (wh_of d). split; [right; left; reflexivity|]. split; [apply Permutation_refl|].
    intros x Hx. right. apply in_app_iff. right. exact Hx.
Qed.
Lemma struct_only : forall d, d_kind d = KStruct -> legal d -> works d -> supported d.
Proof.
  intros d K L (is & HP & HA & HD & HI). destruct (legal_parts d L) as (HL & _ & HN).
  assert (d_where d = [] \/ (forall ts, d_shape d <> Parens ts)) as HW.
  { destruct (d_where d) as [|p w] eqn:E; [left; reflexivity|]. right. intros ts ES.
    rewrite (parse_struct_stuck d ts K HL) in HP; [discriminate|rewrite E; discriminate|exact ES]. }
  unfold supported. rewrite K. split; [|exact HW]. rewrite (parse_struct d K HL HW) in HP. injection HP as <-.
  destruct HI as (ps & w & HI & _). cbn [struct_items In] in HI.
  destruct HI as [HI|[HI|[HI|[HI|[]]]]]; try discriminate. injection HI as _ HI _. rewrite <- (names_sep _ HN HI). apply sep_ordered.
Qed.
Lemma flat_works : forall d, d_kind d = KUnion \/ d_kind d = KEnum -> legal d -> supported d -> works d.
Proof.
  intros d K L S0. destruct (legal_parts d L) as (HL & HD & HN). destruct L as [_ L].
  assert (exists ts, d_shape d = Braces ts) as (ts & ES) by (apply L; destruct K as [-> | ->]; discriminate).
  assert (Forall plain (d_params d) /\ d_where d = []) as [HP HW] by (unfold supported in S0; destruct K as [K|K]; rewrite K in S0; exact S0).
  exists (flat_items d ts). split; [apply parse_flat; assumption|]. pose proof (plain_strip _ HP) as HS. unfold flat_items. split; [|split].
  - unfold accepts. cbn [forallb]. rewrite !andb_true_iff. split; [apply def_ok; assumption|]. split; [|reflexivity].
    eapply impl_ok; try eassumption; [apply nodef_strip; exact HS|cbn [lookup]; rewrite N.eqb_refl; reflexivity|].
    apply fit_self. rewrite strip_id by exact HS. apply incl_refl.
  - exists []. split; [rewrite HW; apply incl_refl|]. rewrite ES. destruct K as [K|K]; rewrite K; left; reflexivity.
  - eexists _, _. split; [right; left; reflexivity|]. split; [rewrite strip_id by exact HS; apply Permutation_refl|rewrite HW; intros x []].
Qed.
Lemma flat_only : forall d, d_kind d = KUnion \/ d_kind d = KEnum -> legal d -> works d -> supported d.
Proof.
  intros d K L (is & HP & HA & HD & HI). destruct (legal_parts d L) as (HL & _ & HN). destruct L as [_ L].
  assert (exists ts, d_shape d = Braces ts) as (ts & ES) by (apply L; destruct K as [-> | ->]; discriminate).
  assert (Forall plain (d_params d)) as HPl.
  { assert (Forall plain (d_params d) \/ ~ Forall plain (d_params d)) as [F|F]; [|exact F|].
    - apply plains_dec.
    - rewrite (parse_flat_stuck d ts K ES HL F) in HP. discriminate. }
  assert (d_where d = []) as HW.
  { rewrite (parse_flat d ts K ES HL HPl) in HP. injection HP as <-. destruct HD as (w & HW & HD). rewrite ES in HD.
    assert (w = []) as -> by (destruct K as [K|K]; rewrite K in HD; cbn [flat_items In] in HD; destruct HD as [HD|[HD|[]]]; congruence).
    destruct (d_where d) as [|p q]; [reflexivity|]. destruct (HW p (or_introl eq_refl)). }
  unfold supported. destruct K as [K|K]; rewrite K; auto.
Qed.
Lemma tree_works : forall d check, d_kind d = KStabby check -> legal d -> supported d -> works d.
Proof.
  intros d check K L S0. destruct (legal_parts d L) as (HL & HD & HN). destruct L as [_ L].
  assert (exists ts, d_shape d = Braces ts) as (ts & ES) by (apply L; rewrite K; discriminate).
  unfold supported in S0. rewrite K in S0. destruct S0 as (HO & HS & HC).
  exists (tree_items d check ts). split; [apply parse_tree; assumption|].
  pose proof (sep_id _ HL HO) as EP. pose proof HS as HF. rewrite <- nodef_strip in HF. unfold tree_items. rewrite EP, (strip_id _ HS).
  assert (fit (d_params d) (d_params d) (map as_arg (d_params d)) = true) as F by (apply fit_self; rewrite strip_id by exact HS; apply incl_refl).
  assert (forall is w s, lookup (d_name d) (Def KStruct (User (d_name d)) (d_params d) w s :: is) = Some (d_params d)) as LK
      by (intros is w s; cbn [lookup]; rewrite N.eqb_refl; reflexivity).
  split; [|split].
  - unfold accepts. destruct check; cbn [forallb app]; rewrite !andb_true_iff.
    + split; [apply def_ok; assumption|]. split; [apply def_ok; assumption|]. split; [eapply impl_ok; try eassumption; apply LK|].
      split; [eapply impl_ok; try eassumption; apply LK|]. split; [eapply impl_ok; try eassumption; apply LK|reflexivity].
    + split; [apply def_ok; assumption|]. split; [eapply impl_ok; try eassumption; apply LK|]. split; [eapply impl_ok; try eassumption; apply LK|reflexivity].
  - exists (tree_preds d ++ d_where d). split; [apply incl_appr, incl_refl|]. rewrite K, ES. left. reflexivity.
  - exists (d_params d), (tree_preds d ++ d_where d ++ [layout_pred]).
    split; [right; destruct check; cbn [app In]; auto|]. split; [rewrite strip_id by exact HS; apply Permutation_refl|].
    apply incl_appr, incl_appl, incl_refl.
Qed.
Lemma tree_only : forall d check, d_kind d = KStabby check -> legal d -> works d -> supported d.
Proof.
  intros d check K L (is & HP & HA & HD & HI). destruct (legal_parts d L) as (HL & _ & HN). destruct L as [_ L].
  assert (exists ts, d_shape d = Braces ts) as (ts & ES) by (apply L; rewrite K; discriminate).
  assert (d_where d = [] \/ d_comma d = true) as HC.
  { destruct (d_where d) as [|p w] eqn:E; [left; reflexivity|]. right. destruct (d_comma d) eqn:C; [reflexivity|].
    rewrite (parse_tree_stuck d check ts K ES HL) in HP; [discriminate|rewrite E; discriminate|exact C]. }
  rewrite (parse_tree d check ts K ES HL HC) in HP. injection HP as <-. unfold supported. rewrite K.
  split; [|split; [|exact HC]].
  - destruct HI as (ps & w & HI & _).
    assert (map as_arg (sep (d_params d)) = map as_arg (d_params d)) as E.
    { unfold tree_items in HI. destruct check; cbn [In app] in HI; repeat destruct HI as [HI|HI]; try discriminate; try contradiction; congruence. }
    rewrite <- (names_sep _ HN E). apply sep_ordered.
  - unfold accepts in HA. rewrite forallb_forall in HA.
    specialize (HA (Impl (d_params d) false (User (d_name d)) (map as_arg (sep (d_params d))) (tree_preds d ++ d_where d))).
    assert (item_ok (tree_items d check ts) (Impl (d_params d) false (User (d_name d)) (map as_arg (sep (d_params d))) (tree_preds d ++ d_where d)) = true) as Q
      by (apply HA; unfold tree_items; right; apply in_app_iff; right; right; left; reflexivity).
    cbn [item_ok] in Q. rewrite !andb_true_iff in Q. apply nodef_strip. apply Q.
Qed.
Lemma works_iff : forall d, legal d -> (works d <-> supported d).
Proof.
  intros d L. split; intros H; destruct (d_kind d) as [| | |c] eqn:K.
  - apply struct_only; assumption.
  - apply flat_only; auto.
  - apply flat_only; auto.
  - eapply tree_only; eassumption.
  - apply struct_works; assumption.
  - apply flat_works; auto.
  - apply flat_works; auto.
  - eapply tree_works; eassumption.
Qed.

(** ** Bounds *)
Lemma bounds_acc : forall ts seen acc p, In p acc -> In p (bounds_from seen acc ts).
Proof.
  induction ts as [|t r IH]; intros seen acc p H; cbn [bounds_from]; [exact H|].
  destruct (existsb _ seen); apply IH; [exact H|now right].
Qed.
Lemma bounds_all : forall ts seen acc t, (forall s, In s seen -> In (XUser s, [BStable]) acc) -> In t ts -> In (XUser t, [BStable]) (bounds_from seen acc ts).
Proof.
  induction ts as [|u r IH]; intros seen acc t S H; [contradiction H|]. cbn [bounds_from].
  destruct (existsb (N.eqb u) seen) eqn:E.
  - apply existsb_exists in E as (x & I & X). apply N.eqb_eq in X. subst x. destruct H as [<-|H]; [apply bounds_acc, S, I|now apply IH].
  - destruct H as [<-|H]; [apply bounds_acc; now left|]. apply IH; [|exact H]. intros s [<-|I]; [now left|right; now apply S].
Qed.
Lemma report_all : forall d t, In t (field_types (d_shape d)) -> In (XUser t, [BStable]) (report_preds d).
Proof. intros d t H. apply bounds_all; [intros s []|exact H]. Qed.
Lemma part_all : forall d i, (0 < i < length (field_types (d_shape d)))%nat -> In (XPart i, [BDet]) (part_preds d) /\ In (XPart i, [BStable]) (part_preds d).
Proof.
  intros d i H. change (field_types (d_shape d)) with (shape_tys (d_shape d)) in H. unfold part_preds.
  split; apply in_flat_map; exists i; (split; [apply in_seq; lia|]); [now left|right; now left].
Qed.
Lemma legal_lts : forall d, legal d -> lts_first (d_params d) = true.
Proof. intros d [L _]. unfold item_ok in L. now repeat apply andb_true_iff in L as [L _]. Qed.
Lemma supported_bounds : forall d is, legal d -> supported d -> parse (expand d) = Some is ->
  forall ps n xs w, In (Impl ps true n xs w) is -> bounded d w.
Proof.
  intros d is L S P ps n xs w I. pose proof (legal_lts d L) as HL. destruct L as [_ L]. unfold supported in S.
  destruct (d_kind d) as [| | |c] eqn:K.
  - destruct S as [_ S]. rewrite (parse_struct d K HL S) in P. injection P as <-. unfold struct_items in I. cbn [In] in I.
    destruct I as [I|[I|[I|[I|[]]]]]; try discriminate I. injection I as _ _ _ <-. unfold bounded, wh_of. rewrite K.
    split; [now left|]. split; [|exact Logic.I]. intros t T. right. apply in_or_app. left. now apply report_all.
  - destruct S as [S _]. destruct (L ltac:(discriminate)) as [ts ES]. rewrite (parse_flat d ts (or_introl K) ES HL S) in P. injection P as <-.
    unfold flat_items in I. cbn [In] in I. destruct I as [I|[I|[]]]; [discriminate I|]. injection I as _ _ _ <-. unfold bounded. rewrite K.
    split; [apply in_or_app; right; now left|]. split; [|exact Logic.I]. intros t T. apply in_or_app. left. now apply report_all.
  - destruct S as [S _]. destruct (L ltac:(discriminate)) as [ts ES]. rewrite (parse_flat d ts (or_intror K) ES HL S) in P. injection P as <-.
    unfold flat_items in I. cbn [In] in I. destruct I as [I|[I|[]]]; [discriminate I|]. injection I as _ _ _ <-. unfold bounded. rewrite K.
    split; [apply in_or_app; right; now left|]. split; [|exact Logic.I]. intros t T. apply in_or_app. left. now apply report_all.
  - destruct S as (_ & _ & S). destruct (L ltac:(discriminate)) as [ts ES]. rewrite (parse_tree d c ts K ES HL S) in P. injection P as <-.
    assert (W : w = tree_preds d ++ d_where d ++ [layout_pred]).
    { unfold tree_items in I. cbv zeta in I. destruct I as [I|I]; [discriminate I|]. apply in_app_or in I as [I|I].
      - destruct c; [|contradiction I]. destruct I as [I|[I|[]]]; discriminate I.
      - destruct I as [I|[I|[]]]; [now injection I as _ _ _ <-|discriminate I]. }
    subst w. unfold bounded, tree_preds. rewrite K. split; [apply in_or_app; right; apply in_or_app; right; now left|].
    split; [intros t T; apply in_or_app; left; apply in_or_app; left; now apply report_all|].
    intros i H. destruct (part_all d i H). split; apply in_or_app; left; apply in_or_app; now right.
Qed.
