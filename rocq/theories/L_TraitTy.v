(** Lemmas about the types of a trait's signatures. *)
From Coq Require Import List Arith NArith Bool Lia.
From Verif Require M_Trait L_Trait.
From Verif Require Import M_TraitTy S_TraitTy.
Import ListNotations.

Scheme sty_mut := Induction for sty Sort Prop with segs_mut := Induction for segs Sort Prop with sargs_mut := Induction for sargs Sort Prop
with gargs_mut := Induction for gargs Sort Prop with stys_mut := Induction for stys Sort Prop with oty_mut := Induction for oty Sort Prop.
Combined Scheme sty_all from sty_mut, segs_mut, sargs_mut, gargs_mut, stys_mut, oty_mut.

(** The type that comes back. *)
Fixpoint clean (t : sty) : sty :=
  match t with
  | SPath lead p => SPath lead (clean_segs p)
  | SQual t lead p1 p2 => SQual (clean t) false (clean_segs p1) (clean_segs p2)
  | SFn head ins v out => SFn head (clean_list ins) v (clean_out out)
  | SGroup t => clean t
  | SParen t => SParen (clean t)
  | SArr t len => SArr (clean t) len
  | SPtr m t => SPtr m (clean t)
  | SRef l m t => SRef l m (clean t)
  | STuple l => STuple (clean_list l)
  | SNever => SNever
  | SSlice t => SSlice (clean t)
  | SOther n => SOther n
  end
with clean_segs (p : segs) : segs := match p with PNil => PNil | PCons i a p => PCons i (if N.eqb i SELF then ANone else clean_args a) (clean_segs p) end
with clean_args (a : sargs) : sargs :=
  match a with ANone => ANone | AAngle _ l => AAngle true (clean_gargs l) | AParen ins out => AParen (clean_list ins) (clean_out out) end
with clean_gargs (l : gargs) : gargs :=
  match l with
  | GNil => GNil | GLt l r => GLt l (clean_gargs r) | GTy t r => GTy (clean t) (clean_gargs r)
  | GConst c r => GConst c (clean_gargs r) | GBind b r => GBind b (clean_gargs r)
  end
with clean_list (l : stys) : stys := match l with TNil => TNil | TCons t r => TCons (clean t) (clean_list r) end
with clean_out (o : oty) : oty := match o with ONone => OTy (STuple TNil) | OTy t => OTy (clean t) end.

Lemma bind_some {A B} (o : option A) (f : A -> option B) b : bind o f = Some b -> exists a, o = Some a /\ f a = Some b.
Proof. destruct o; cbn; [eauto|discriminate]. Qed.
Ltac binds := repeat match goal with
  | H : bind _ _ = Some _ |- _ => apply bind_some in H; destruct H as (? & ? & H)
  | H : Some _ = Some _ |- _ => injection H as H; subst
  end.

Definition starts (l : list tok) : bool :=
  match l with (KBang | KParen _ | KBracket _ _ | KAmp | KStar | KFn _ | KLess | KColon2 | KId _) :: _ => true | _ => false end.
Lemma iter_starts p T : from_iter p = Some T -> exists i r, print T = KId i :: r.
Proof.
  destruct p as [|i a p]; cbn [from_iter]; [discriminate|]. destruct (N.eqb i SELF); intros H; binds; cbn [print]; eauto.
  destruct p; binds; cbn [print]; eauto.
Qed.
Lemma from_starts : forall t T, from t = Some T -> starts (print T) = true.
Proof.
  fix IH 1. intros t T H. destruct t; cbn [from] in H.
  - binds. match goal with H : from_iter _ = Some _ |- _ => apply iter_starts in H; destruct H as (i & r & E) end. destruct lead; cbn [print]; [|rewrite E]; reflexivity.
  - binds. reflexivity.
  - destruct variadic; [discriminate|]. binds. reflexivity.
  - apply (IH t). exact H.
  - discriminate.
  - binds. reflexivity.
  - binds. reflexivity.
  - binds. reflexivity.
  - destruct l; [binds; reflexivity|discriminate].
  - binds. reflexivity.
  - discriminate.
  - discriminate.
Qed.
(** What may come after a type. *)
Definition follow (l : list tok) : bool := match l with [] | (KComma | KGreater | KAs) :: _ => true | _ => false end.
Definition ev {A} (f : nat -> option A) (a : A) : Prop := exists n, forall k, n <= k -> f k = Some a.

Ltac fuel n := exists (S n); intros [|k] Hk; [lia|].
Definition Pt (t : sty) := forall T, from t = Some T -> forall rest, follow rest = true -> ev (fun k => p_ty k (print T ++ rest)) (clean t, rest).
Definition Ps (p : segs) := forall T, from_iter p = Some T -> forall rest, follow rest = true -> ev (fun k => p_segs k (print T ++ rest)) (clean_segs p, rest).
Definition Pa (a : sargs) := forall A, from_args a = Some A -> forall rest, (follow rest = true \/ exists i r, rest = KColon2 :: KId i :: r) ->
  ev (fun k => p_args k (print_args A ++ rest)) (clean_args a, rest).
Definition Pg (l : gargs) := forall L, from_gargs l = Some L -> forall rest, ev (fun k => p_gargs k (print_gargs L ++ KGreater :: rest)) (clean_gargs l, rest).
Definition Pl (l : stys) := forall L, from_list l = Some L -> ev (fun k => p_list k (print_tys L)) (clean_list l, match l with TNil => EPlain | _ => EComma end).
Definition Po (o : oty) := forall T, from_out o = Some T -> forall rest, follow rest = true -> ev (fun k => p_out k (KArrow :: print T ++ rest)) (clean_out o, rest).

Lemma p_args_none k rest : (follow rest = true \/ exists i r, rest = KColon2 :: KId i :: r) -> p_args (S k) rest = Some (ANone, rest).
Proof. intros [H|(i & r & ->)]; [|reflexivity]. destruct rest as [|[] ?]; cbn in H; try discriminate; reflexivity. Qed.

Lemma roundtrip : (forall t, Pt t) /\ (forall p, Ps p) /\ (forall a, Pa a) /\ (forall l, Pg l) /\ (forall l, Pl l) /\ (forall o, Po o).
Proof.
  apply sty_all; unfold Pt, Ps, Pa, Pg, Pl, Po.
  - (* SPath *) intros lead p IH T H rest R. cbn [from] in H. binds. match goal with E : from_iter _ = Some _ |- _ => pose proof (iter_starts _ _ E) as (i & r & E'); destruct (IH _ E rest R) as (n & G) end.
    fuel n. destruct lead; cbn [print app clean].
    + cbn [p_ty]. rewrite G by lia. reflexivity.
    + rewrite E' in *. cbn [app] in *. cbn [p_ty]. rewrite G by lia. reflexivity.
  - (* SQual *) intros t IHt lead p1 IH1 p2 IH2 T H rest R. cbn [from] in H. binds.
    match goal with E : from t = Some ?a, E1 : from_iter p1 = Some ?b, E2 : from_iter p2 = Some ?c |- _ =>
      destruct (IHt _ E (KAs :: print b ++ KGreater :: KColon2 :: print c ++ rest) eq_refl) as (n & G);
      destruct (IH1 _ E1 (KGreater :: KColon2 :: print c ++ rest) eq_refl) as (n1 & G1); destruct (IH2 _ E2 rest R) as (n2 & G2);
      pose proof (iter_starts _ _ E1) as (i & r & E1'); set (B := print b) in *; set (C := print c) in *; set (A := print a) in * end.
    fuel (n + n1 + n2). cbn [print clean]. fold A B C. cbn [app]. rewrite <- app_assoc. cbn [app]. rewrite <- app_assoc. cbn [app].
    cbn [p_ty]. rewrite G by lia. cbn [bind fst snd]. rewrite E1' in *. cbn [app] in *. rewrite G1 by lia. cbn [bind fst snd]. rewrite G2 by lia. reflexivity.
  - (* SFn *) intros head ins IHi v out IHo T H rest R. cbn [from] in H. destruct v; [discriminate|]. binds.
    match goal with E : from_list ins = Some ?a, E1 : from_out out = Some ?b |- _ => destruct (IHi _ E) as (n & G); destruct (IHo _ E1 rest R) as (n1 & G1) end.
    fuel (n + n1). cbn [print app clean p_ty]. rewrite G by lia. cbn [bind fst snd]. rewrite G1 by lia. cbn [bind fst snd]. destruct ins; reflexivity.
  - (* SGroup *) intros t IH T H rest R. cbn [from clean] in *. apply IH; assumption.
  - (* SParen *) intros t IH T H. discriminate.
  - (* SArr *) intros t IH len T H rest R. cbn [from] in H. binds. match goal with E : from t = Some ?a |- _ => destruct (IH _ E [] eq_refl) as (n & G) end.
    fuel n. cbn [print app clean p_ty]. rewrite app_nil_r in G. rewrite G by lia. reflexivity.
  - (* SPtr *) intros m t IH T H rest R. cbn [from] in H. binds. match goal with E : from t = Some ?a |- _ => destruct (IH _ E rest R) as (n & G) end.
    fuel n. cbn [print app clean]. destruct m; cbn [p_ty]; rewrite G by lia; reflexivity.
  - (* SRef *) intros l m t IH T H rest R. cbn [from] in H. binds.
    match goal with E : from t = Some ?a |- _ => destruct (IH _ E rest R) as (n & G); pose proof (from_starts _ _ E) as ST; set (A := print a) in * end.
    fuel n. cbn [print clean]. fold A. cbn [app]. rewrite <- !app_assoc.
    assert (NM : match A ++ rest with KMut :: r => (true, r) | _ => (false, A ++ rest) end = (false, A ++ rest)) by (destruct A as [|[] ?]; try discriminate; reflexivity).
    assert (NL : match A ++ rest with KLt l :: r => (Some l, r) | _ => (None, A ++ rest) end = (None, A ++ rest)) by (destruct A as [|[] ?]; try discriminate; reflexivity).
    cbn [p_ty]. destruct l as [l|], m; cbn [app]; rewrite ?NL, ?NM; rewrite G by lia; reflexivity.
  - (* STuple *) intros l _ T H rest R. cbn [from] in H. destruct l; [|discriminate]. binds. fuel 1. destruct k; [lia|]. reflexivity.
  - (* SNever *) intros T H rest R. cbn [from] in H. binds. fuel 0. reflexivity.
  - intros t IH T H. discriminate.
  - intros n T H. discriminate.
  - (* PNil *) intros T H. discriminate.
  - (* PCons *) intros i a IHa p IHp T H rest R. cbn [from_iter clean_segs] in *. destruct (N.eqb i SELF) eqn:EI.
    + binds. match goal with E : from_iter p = Some ?b |- _ => destruct (IHp _ E rest R) as (n & G); pose proof (iter_starts _ _ E) as (j & r & E') end.
      fuel (S n). cbn [print app p_segs]. destruct k as [|k]; [lia|]. rewrite p_args_none by (right; rewrite E'; cbn [app]; eauto).
      cbn [bind fst snd]. rewrite G by lia. cbn [bind fst snd]. apply N.eqb_eq in EI. subst i. reflexivity.
    + binds. rename x into A. match goal with E : from_args a = Some A |- _ => rename E into EA end. destruct p as [|j b p].
      * binds. destruct (IHa _ EA rest (or_introl R)) as (n & G). fuel n. cbn [print]. rewrite app_nil_r. cbn [app p_segs]. rewrite G by lia.
        cbn [bind fst snd clean_segs]. destruct rest as [|[] ?]; cbn in R; try discriminate; reflexivity.
      * binds. match goal with E : from_iter (PCons j b p) = Some ?b |- _ => destruct (IHp _ E rest R) as (n & G); pose proof (iter_starts _ _ E) as (j' & r & E'); set (B := print b) in * end.
        destruct (IHa _ EA (KColon2 :: B ++ rest)) as (n1 & G1); [right; rewrite E'; cbn [app]; eauto|].
        fuel (n + n1). cbn [print]. fold B. cbn [app]. rewrite <- app_assoc. cbn [app p_segs]. rewrite G1 by lia. cbn [bind fst snd]. rewrite G by lia. reflexivity.
  - (* ANone *) intros A H rest R. cbn [from_args] in H. binds. fuel 0. cbn [print_args app clean_args]. apply p_args_none. exact R.
  - (* AAngle *) intros tf l IH A H rest R. cbn [from_args] in H. binds. match goal with E : from_gargs l = Some ?b |- _ => destruct (IH _ E rest) as (n & G) end.
    fuel n. cbn [print_args app clean_args]. rewrite <- app_assoc. cbn [app p_args]. rewrite G by lia. reflexivity.
  - intros ins _ out _ A H. discriminate.
  - (* GNil *) intros L H rest. cbn [from_gargs] in H. binds. fuel 0. reflexivity.
  - (* GLt *) intros l r IH L H rest. cbn [from_gargs] in H. binds. match goal with E : from_gargs r = Some ?b |- _ => destruct (IH _ E rest) as (n & G) end.
    fuel n. cbn [print_gargs app clean_gargs p_gargs]. rewrite G by lia. reflexivity.
  - (* GTy *) intros t IHt r IH L H rest. cbn [from_gargs] in H. binds.
    match goal with E : from t = Some ?a, E1 : from_gargs r = Some ?b |- _ => destruct (IH _ E1 rest) as (n & G);
      destruct (IHt _ E (KComma :: print_gargs b ++ KGreater :: rest) eq_refl) as (n1 & G1); pose proof (from_starts _ _ E) as ST; set (A := print a) in *; set (B := print_gargs b) in * end.
    fuel (n + n1). cbn [print_gargs clean_gargs]. fold A B. rewrite <- app_assoc. cbn [app].
    destruct A as [|[] A]; try discriminate; cbn [app p_gargs] in *; rewrite G1 by lia; cbn [bind fst snd]; rewrite G by lia; reflexivity.
  - (* GConst *) intros l r IH L H rest. cbn [from_gargs] in H. binds. match goal with E : from_gargs r = Some ?b |- _ => destruct (IH _ E rest) as (n & G) end.
    fuel n. cbn [print_gargs app clean_gargs p_gargs]. rewrite G by lia. reflexivity.
  - (* GBind *) intros l r IH L H rest. cbn [from_gargs] in H. binds. match goal with E : from_gargs r = Some ?b |- _ => destruct (IH _ E rest) as (n & G) end.
    fuel n. cbn [print_gargs app clean_gargs p_gargs]. rewrite G by lia. reflexivity.
  - (* TNil *) intros L H. cbn [from_list] in H. binds. fuel 0. reflexivity.
  - (* TCons *) intros t IHt r IH L H. cbn [from_list] in H. binds.
    match goal with E : from t = Some ?a, E1 : from_list r = Some ?b |- _ => destruct (IH _ E1) as (n & G);
      destruct (IHt _ E (KComma :: print_tys b) eq_refl) as (n1 & G1); pose proof (from_starts _ _ E) as ST; rename E1 into EL; set (A := print a) in * end.
    fuel (n + n1). cbn [print_tys clean_list]. fold A.
    assert (PL : p_list (S k) (A ++ KComma :: print_tys x0) = bind (p_ty k (A ++ KComma :: print_tys x0)) (fun x => match snd x with
          | [] => Some (TCons (fst x) TNil, EPlain)
          | [KComma] => Some (TCons (fst x) TNil, EComma)
          | KComma :: r => bind (p_list k r) (fun y => Some (TCons (fst x) (fst y), snd y))
          | _ => None
          end)) by (destruct A as [|[] A]; try discriminate; reflexivity).
    rewrite PL, G1 by lia. cbn [bind fst snd]. destruct r as [|u r].
    + cbn [from_list] in EL. binds. reflexivity.
    + cbn [from_list] in EL. binds. cbn [print_tys] in *.
      match goal with E : from u = Some ?a |- _ => pose proof (from_starts _ _ E) as ST2; destruct (print a) as [|tk A2]; [discriminate|] end.
      cbn [app] in *. rewrite G by lia. reflexivity.
  - (* ONone *) intros T H rest R. cbn [from_out] in H. binds. fuel 2. destruct k as [|[|k]]; [lia|lia|]. reflexivity.
  - (* OTy *) intros t IH T H rest R. cbn [from_out] in H. destruct (IH _ H rest R) as (n & G). fuel n. cbn [p_out clean_out]. rewrite G by lia. reflexivity.
Qed.

Lemma clean_pnil p : clean_segs p = PNil <-> p = PNil.
Proof. destruct p; cbn; split; congruence. Qed.
Lemma supported_from :
  (forall t, supported t -> (exists T, from t = Some T) /\ meaning (clean t) = meaning t) /\
  (forall p, supported_segs p -> (exists T, from_iter p = Some T) /\ meaning_segs (clean_segs p) = meaning_segs p) /\
  (forall a, supported_args a -> (exists T, from_args a = Some T) /\ meaning_args (clean_args a) = meaning_args a) /\
  (forall l, supported_gargs l -> (exists T, from_gargs l = Some T) /\ meaning_gargs (clean_gargs l) = meaning_gargs l) /\
  (forall l, supported_list l -> (exists T, from_list l = Some T) /\ meaning_list (clean_list l) = meaning_list l) /\
  (forall o, supported_out o -> (exists T, from_out o = Some T) /\ meaning_out (clean_out o) = meaning_out o).
Proof.
  apply sty_all; cbn [supported supported_segs supported_args supported_gargs supported_list supported_out from from_iter from_args from_gargs from_list from_out
    clean clean_segs clean_args clean_gargs clean_list clean_out meaning meaning_segs meaning_args meaning_gargs meaning_list meaning_out];
    intros; repeat match goal with
      | H : False |- _ => destruct H
      | H : _ /\ _ |- _ => destruct H
      | IH : ?P -> (exists _, _) /\ _, H : ?P |- _ => specialize (IH H); destruct IH as [[? ?] ?]
      | E : _ = Some _ |- _ => rewrite E in *; clear E
      end; subst; cbn [bind]; try (split; [eauto|congruence]).
  - (* STuple *) cbn. eauto.
  - (* PCons *) match goal with H : _ \/ _ |- _ => destruct H as [(-> & -> & Hp)|(NE & Ha & Hp)] end.
    + rewrite N.eqb_refl. match goal with IH : supported_segs p -> _ |- _ => destruct (IH Hp) as [[T E] M] end. rewrite E. cbn [bind meaning_args]. split; [eauto|congruence].
    + apply N.eqb_neq in NE. rewrite NE. match goal with IH : supported_args a -> _ |- _ => destruct (IH Ha) as [[A E] M] end. rewrite E. cbn [bind].
      destruct Hp as [->|Hp]; [cbn; split; [eauto|congruence]|].
      match goal with IH : supported_segs p -> _ |- _ => destruct (IH Hp) as [[T E2] M2] end. rewrite E2. destruct p; [discriminate|]. cbn [bind]. split; [eauto|congruence].
Qed.
Lemma from_supported :
  (forall t T, from t = Some T -> meaning (clean t) = meaning t -> supported t) /\
  (forall p T, from_iter p = Some T -> meaning_segs (clean_segs p) = meaning_segs p -> supported_segs p) /\
  (forall a T, from_args a = Some T -> meaning_args (clean_args a) = meaning_args a -> supported_args a) /\
  (forall l T, from_gargs l = Some T -> meaning_gargs (clean_gargs l) = meaning_gargs l -> supported_gargs l) /\
  (forall l T, from_list l = Some T -> meaning_list (clean_list l) = meaning_list l -> supported_list l) /\
  (forall o T, from_out o = Some T -> meaning_out (clean_out o) = meaning_out o -> supported_out o).
Proof.
  apply sty_all; cbn [supported supported_segs supported_args supported_gargs supported_list supported_out from from_iter from_args from_gargs from_list from_out
    clean clean_segs clean_args clean_gargs clean_list clean_out meaning meaning_segs meaning_args meaning_gargs meaning_list meaning_out];
    intros; try discriminate.
  - binds. match goal with M : SPath _ _ = _ |- _ => injection M as M end. eauto.
  - binds. match goal with M : SQual _ _ _ _ = _ |- _ => injection M as M1 M2 M3 M4 end. repeat split; eauto.
  - destruct variadic; [discriminate|]. binds. match goal with M : SFn _ _ _ _ = _ |- _ => injection M as M1 M2 end. repeat split; eauto.
  - eauto.
  - binds. match goal with M : SArr _ _ = _ |- _ => injection M as M end. eauto.
  - binds. match goal with M : SPtr _ _ = _ |- _ => injection M as M end. eauto.
  - binds. match goal with M : SRef _ _ _ = _ |- _ => injection M as M end. eauto.
  - destruct l; [reflexivity|discriminate].
  - exact Logic.I.
  - (* PCons *) match goal with M : PCons _ _ _ = _ |- _ => injection M as M1 M2 end. destruct (N.eqb i SELF) eqn:EI.
    + binds. left. split; [apply N.eqb_eq; exact EI|]. split; [destruct a; [reflexivity|discriminate|discriminate]|eauto].
    + binds. right. split; [apply N.eqb_neq; exact EI|]. split; [eauto|]. destruct p; [left; reflexivity|]. binds. right. eauto.
  - exact Logic.I.
  - binds. match goal with M : AAngle _ _ = _ |- _ => injection M as M end. eauto.
  - exact Logic.I.
  - binds. match goal with M : GLt _ _ = _ |- _ => injection M as M end. eauto.
  - binds. match goal with M : GTy _ _ = _ |- _ => injection M as M1 M2 end. eauto.
  - binds. match goal with M : GConst _ _ = _ |- _ => injection M as M end. eauto.
  - binds. match goal with M : GBind _ _ = _ |- _ => injection M as M end. eauto.
  - exact Logic.I.
  - binds. match goal with M : TCons _ _ = _ |- _ => injection M as M1 M2 end. eauto.
  - exact Logic.I.
  - match goal with M : OTy _ = _ |- _ => injection M as M end. eauto.
Qed.
Lemma from_clean :
  (forall t T, from t = Some T -> from (clean t) = Some T) /\
  (forall p T, from_iter p = Some T -> from_iter (clean_segs p) = Some T) /\
  (forall a T, from_args a = Some T -> from_args (clean_args a) = Some T) /\
  (forall l T, from_gargs l = Some T -> from_gargs (clean_gargs l) = Some T) /\
  (forall l T, from_list l = Some T -> from_list (clean_list l) = Some T) /\
  (forall o T, from_out o = Some T -> from_out (clean_out o) = Some T).
Proof.
  apply sty_all; cbn [from from_iter from_args from_gargs from_list from_out clean clean_segs clean_args clean_gargs clean_list clean_out];
    intros; try discriminate; try (destruct variadic; [discriminate|]); try (binds; repeat match goal with
      | IH : forall T, ?f ?x = Some T -> _ , E : ?f ?x = Some _ |- _ => rewrite (IH _ E); clear E end; reflexivity).
  - destruct l; [cbn; assumption|discriminate].
  - destruct (N.eqb i SELF) eqn:EI.
    + binds. repeat match goal with IH : forall T, ?f ?x = Some T -> _ , E : ?f ?x = Some _ |- _ => rewrite (IH _ E); clear E end. reflexivity.
    + binds. match goal with IH : forall T, from_args ?x = Some T -> _ , E : from_args ?x = Some _ |- _ => rewrite (IH _ E); clear E end. cbn [bind].
      destruct p as [|j b p]; [exact H1|]. binds. match goal with IH : forall T, from_iter ?x = Some T -> _ , E : from_iter ?x = Some _ |- _ => rewrite (IH _ E); clear E end.
      cbn [clean_segs]. reflexivity.
Qed.
Lemma comes_back t T : from t = Some T -> parses (print T) (clean t).
Proof. intros H. destruct (proj1 roundtrip t T H [] eq_refl) as (n & G). exists n. intros k Hk. specialize (G k Hk). rewrite app_nil_r in G. exact G. Qed.
Lemma parses_unique l t t' : parses l t -> parses l t' -> t = t'.
Proof. intros (n & G) (n' & G'). specialize (G (n + n')). specialize (G' (n + n')). rewrite G in G' by lia. injection (G' ltac:(lia)) as ->. reflexivity. Qed.
Lemma exact_main t : (exists T t', from t = Some T /\ parses (print T) t' /\ meaning t' = meaning t) <-> supported t.
Proof.
  split.
  - intros (T & t' & E & P & M). rewrite (parses_unique _ _ _ P (comes_back _ _ E)) in M. exact (proj1 from_supported t T E M).
  - intros H. destruct (proj1 supported_from t H) as [[T E] M]. exists T, (clean t). split; [exact E|]. split; [apply comes_back; exact E|exact M].
Qed.
Lemma print_inj t t' T T' : from t = Some T -> from t' = Some T' -> print T = print T' -> T = T'.
Proof.
  intros E E' P. pose proof (comes_back _ _ E) as C. pose proof (comes_back _ _ E') as C'. rewrite P in C. pose proof (parses_unique _ _ _ C C') as EQ.
  apply (proj1 from_clean) in E, E'. rewrite EQ in E. congruence.
Qed.

Scheme ty_mut := Induction for ty Sort Prop with targs_mut := Induction for targs Sort Prop with tgargs_mut := Induction for tgargs Sort Prop
with tys_mut := Induction for tys Sort Prop with onext_mut := Induction for onext Sort Prop.
Combined Scheme ty_all from ty_mut, targs_mut, tgargs_mut, tys_mut, onext_mut.
Lemma emb_inj :
  (forall t u, plain t -> plain u -> emb t = emb u -> t = u) /\
  (forall a b, plain_args a -> plain_args b -> emb_args a = emb_args b -> a = b) /\
  (forall a b, plain_gargs a -> plain_gargs b -> emb_gargs a = emb_gargs b -> a = b) /\
  (forall a b, plain_tys a -> plain_tys b -> emb_tys a = emb_tys b -> a = b) /\
  (forall a b, plain_next a -> plain_next b -> emb_next a = emb_next b -> a = b).
Proof.
  apply ty_all; intros;
    match goal with E : ?f _ = ?f ?b |- _ => destruct b end;
    cbn [emb emb_args emb_gargs emb_tys emb_next plain plain_args plain_gargs plain_tys plain_next] in *;
    try discriminate; try tauto;
    repeat match goal with H : _ /\ _ |- _ => destruct H end;
    try (match goal with E : _ = _ |- _ => injection E; clear E; intros; subst; f_equal; auto; fail end).
  - destruct l; cbn in *; try discriminate; tauto.
  - destruct l; cbn in *; try discriminate; tauto.
  - f_equal. auto.
Qed.
Lemma same_print t t' T T' : from t = Some T -> from t' = Some T' -> plain T -> plain T' -> (M_Trait.same (emb T) (emb T') = true <-> print T = print T').
Proof.
  intros E E' P P'. split.
  - intros H. apply (proj1 L_Trait.same_sound) in H. rewrite (proj1 emb_inj _ _ P P' H). reflexivity.
  - intros H. rewrite (print_inj _ _ _ _ E E' H). apply (proj1 L_Trait.same_refl).
Qed.
