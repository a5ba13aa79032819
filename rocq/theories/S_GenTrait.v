(** What a user expects of [#[stabby::stabby]] on a trait with parameters and associated types (for C97). Of
    [M_GenTrait], the syntax of traits and items, and what Rust makes of them ([compile], [accepted]) are used. *)
From Coq Require Import List NArith Bool Permutation.
From Verif Require Import M_Generics S_Generics M_GenTrait.
Import ListNotations.
Local Open Scope N_scope.

(** A bound of the user. *)
Definition mine (b : bnd) : Prop := match b with BUser n => N.even n = true | _ => False end.
(** The bounds of a parameter. *)
Definition p_bnds (p : param) : list bnd := match p with PLt _ bs | PTy _ bs _ => bs | PCst _ _ _ => [] end.
(** All associated types there are. *)
Definition all_types (t : trait) : list N := map fst (t_types t) ++ t_super t.
(** Rust accepts the trait: order of parameters, names once each, and only what is there is mentioned. *)
Record legal (t : trait) : Prop := Legal {
  l_lts : lts_first (t_params t) = true;
  l_def : defaults_last (t_params t) = true;
  l_once : NoDup (map p_name (t_params t));
  l_names : Forall (fun p => N.even (p_name p) = true /\ Forall mine (p_bnds p)) (t_params t);
  l_where : Forall (fun p => (exists n, fst p = XUser n /\ N.even n = true) /\ Forall mine (snd p)) (t_where t);
  l_types : NoDup (all_types t);
  l_bnds : forall x bs b, In (x, bs) (t_types t) -> In b bs ->
    match b with ALife n => N.even n = true | ATrait _ n ms => N.even n = true /\ incl ms (all_types t) end;
  l_fns : forall m, In m (t_fns t) -> incl (m_pars m) (map p_name (t_params t)) /\ incl (m_types m) (all_types t) }.

(** The trait at its own parameters. *)
Definition own (t : trait) : list arg := map as_arg (t_params t).
(** The declared associated types, bound by [v]. *)
Definition bound_by (v : N -> N) (t : trait) : list (N * N) := map (fun x => (fst x, v (fst x))) (t_types t).
(** One parameter for each associated type. *)
Definition free (v : N -> N) (t : trait) : list param := map (fun x => PTy (v (fst x)) [] None) (t_types t).
(** The trait has this bound for its associated type [x]. *)
Definition declares (t : trait) (x n : N) : Prop :=
  exists bs b, In (x, bs) (t_types t) /\ In b bs /\ match b with ALife k => k = n | ATrait r k _ => r = false /\ k = n end.
(** A predicate that holds whenever the trait is implemented, with associated types [v], for the lifetime [l]. *)
Definition implied (t : trait) (v : N -> N) (l : N) (p : pred) : Prop :=
  (exists x n, p = (XUser (v x), [BUser n]) /\ declares t x n) \/ (exists n, p = (XUser n, [BUser l])).
(** The names of the methods, by receiver. *)
Definition methods (m : bool) (t : trait) : list N := map m_name (filter (fun f => Bool.eqb (m_mut f) m) (t_fns t)).

(** All is well: there is an assignment of parameters to associated types such that what is generated is accepted by Rust and
    - the vtable has the parameters of the trait and those, and one field per method;
    - every type that implements the trait has a vtable;
    - the trait object has that vtable;
    - [..Dyn] is implemented for [DynRef] and [Dyn], with the methods for [&self], and [..DynMut] for [Dyn], with the
      methods for [&mut self]. *)
Definition works (t : trait) : Prop :=
  exists d is v vs l a,
    compile t = Some (d, is) /\ accepted t d is = true /\
    (forall x y, In x (map fst (t_types t)) -> In y (map fst (t_types t)) -> v x = v y -> x = y) /\
    (forall x p, In x (map fst (t_types t)) -> In p (t_params t) -> v x <> p_name p) /\
    Permutation vs (own t ++ map as_arg (free v t)) /\
    (S_Generics.works d /\ Permutation (d_params d) (t_params t ++ free v t) /\ map as_arg (d_params d) = vs /\
     exists ts, d_shape d = Braces ts /\ NoDup ts /\ length ts = length (t_fns t)) /\
    (exists ps w rs xs, In (Item (Imp (Ref HCons [ALt l; AVar a] []) (Ref HVt vs []) []) ps w (Some (a, Ref HTr (own t) (bound_by v t))) rs xs []) is /\
       Permutation ps (PLt l [] :: PTy a [] None :: t_params t ++ free v t) /\ Forall (implied t v l) w) /\
    (exists ps w rs, In (Item (Imp (Ref HCompound [] []) (Ref HObj (own t) (bound_by v t)) []) ps w None rs [] []) is /\ In (Ref HVt vs []) rs) /\
    (forall r, In r [[]; [AVar n_ptr]] -> exists ps w rs xs,
       In (Item (Imp (Ref HDyn xs []) (Ref HPtr (r ++ [AVar n_vtp]) []) (bound_by v t)) ps w None rs [] (methods false t)) is /\ In (Ref HVt vs []) rs) /\
    (exists ps w rs xs,
       In (Item (Imp (Ref HMut xs []) (Ref HPtr [AVar n_ptr; AVar n_vtp] []) []) ps w None rs [] (methods true t)) is /\ In (Ref HVt vs []) rs).

(** A lifetime without bounds, or a type without default. *)
Definition simple (p : param) : Prop := match p with PLt _ [] | PTy _ _ None => True | _ => False end.
(** The traits for which all is well. *)
Record supported (t : trait) : Prop := Supported {
  s_params : Forall simple (t_params t);
  s_used : forall p, In p (t_params t) -> exists m, In m (t_fns t) /\ In (p_name p) (m_pars m);
  s_types : forall x, In x (map fst (t_types t)) -> exists m, In m (t_fns t) /\ In x (m_types m);
  s_bnds : forall x bs b, In (x, bs) (t_types t) -> In b bs -> match b with ALife _ => False | ATrait _ n _ => declares t x n end;
  s_super : t_super t = [];
  s_where : forall p b, In p (t_where t) -> In b (snd p) ->
    exists q, In q (t_params t) /\ fst p = XUser (p_name q) /\ In b (p_bnds q) }.
