(** C70, C71, C72: the vtables generated for traits. *)
From Coq Require Import String.
From Coq Require Import List Arith NArith Bool.
From Verif Require Import M_Report S_Report L_Report M_Trait S_Trait L_Trait.
Import ListNotations.
Local Open Scope N_scope.

(** A named type. *)
Definition named (n : N) : ty := TPath (User n) ANil NNone.
(** A trait with an associated type (11), a [&mut self] method declared before a [&self] one:
    [fn set(&mut self, &'a Self::A, Vec<Self::A>)], [fn get(&self, u8) -> Self::A]. *)
Definition ex_trait : decl :=
  Decl (bytes_of "T") (bytes_of "m") true
    [IFn (Mk (bytes_of "set") 1 true
       [TRef (Some 5) false (TSelf (named 11)); TPath (User 20) (ATy (TSelf (named 11)) ANil) NNone] None);
     IType 11;
     IFn (Mk (bytes_of "get") 0 false [named 1] (Some (TSelf (named 11))))].

(** C71: for every trait the macro succeeds; the vtable has one entry for each method, those that
    take [&self] first; whatever the implementor's associated types are, an entry has the type of
    the method it is named after, the receiver being [&()], and so has the pointer that is stored
    in it. *)
Theorem vtable_signatures : forall d, proper d -> exists fs, vtable d = Some fs /\
  Forall2 (fun m f => f_name f = m_name m /\
    forall assoc lt w, let e := venv assoc lt (sdts (describe d)) in
      denote_sig e (f_sig f) = denote_sig e (declared_sig true m) /\
      denote_sig e (ptr_signature w m) = denote_sig e (declared_sig false m)) (vt_methods d) fs.
Proof. exact vtable_sigs. Qed.
Print Assumptions vtable_signatures.
Example vtable_signatures_ex : proper ex_trait /\
  option_map (map f_name) (vtable ex_trait) = Some [bytes_of "get"; bytes_of "set"] /\
  option_map (map (fun f => (s_inputs (f_sig f), s_output (f_sig f)))) (vtable ex_trait) =
    Some [([named 1], Some (TPath (Gen 0) ANil NNone));
          ([TRef (Some 5) false (TPath (Gen 0) ANil NNone);
            TPath (User 20) (ATy (TPath (Gen 0) ANil NNone) ANil) NNone], None)].
Proof.
  split; [|split; vm_compute; reflexivity].
  intros m t Hm Ht. cbn in Hm. destruct Hm as [<-|[<-|[]]]; cbn in Ht;
    repeat (destruct Ht as [<-|Ht]; [reflexivity|]); destruct Ht.
Qed.
(** C71: the macro numbers a type that depends on [Self] once, however often it occurs: the
    parameters of the vtable are determined by the types written in the trait. *)
Theorem vtable_parameters : forall d i j t,
  nth_error (sdts (describe d)) i = Some t -> nth_error (sdts (describe d)) j = Some t -> i = j.
Proof. exact sdts_nodup. Qed.
Print Assumptions vtable_parameters.
Example vtable_parameters_ex : sdts (describe ex_trait) = [named 11].
Proof. vm_compute; reflexivity. Qed.

(** C70: exactly what [checked] checks: types up to lifetimes, without arrays, function pointers
    and [Self::x] but in the arguments of a path. *)
Theorem checked_trait_exactly : forall d (St : ty -> Prop) assoc fs, proper d -> d_checked d = true ->
  vtable d = Some fs ->
  let e := venv assoc (fun _ => static) (sdts (describe d)) in
  vt_stable (fun t => St (denote e t)) fs <->
  forall m t, In m (methods d) -> In t (types m) -> plain t = true -> St (denote e t).
Proof. exact checked_exactly. Qed.
Print Assumptions checked_trait_exactly.
(** C70: nothing is refused without reason. *)
Theorem checked_trait_complete : forall d (St : ty -> Prop) assoc fs, proper d ->
  vtable d = Some fs ->
  let e := venv assoc (fun _ => static) (sdts (describe d)) in
  (forall m t, In m (methods d) -> In t (types m) -> St (denote e t)) ->
  vt_stable (fun t => St (denote e t)) fs.
Proof. exact checked_complete. Qed.
Print Assumptions checked_trait_complete.
(** C70, for traits whose methods do not exchange arrays, function pointers and associated types
    directly. *)
Theorem checked_trait_partial : forall d (St : ty -> Prop) assoc fs, proper d -> d_checked d = true ->
  vtable d = Some fs ->
  (forall m t, In m (methods d) -> In t (types m) -> plain t = true) ->
  let e := venv assoc (fun _ => static) (sdts (describe d)) in
  vt_stable (fun t => St (denote e t)) fs <->
  forall m t, In m (methods d) -> In t (types m) -> St (denote e t).
Proof.
  intros d St assoc fs P C V H e. pose proof (checked_exactly d St assoc fs P C V) as K. split.
  - intros A m t Hm Ht. exact (proj1 K A m t Hm Ht (H m t Hm Ht)).
  - intros A. apply K. intros m t Hm Ht _. exact (A m t Hm Ht).
Qed.
Print Assumptions checked_trait_partial.
(** [fn put(&self, Vec<Self::A>, &'a u8) -> bool]. *)
Definition ex_plain : decl :=
  Decl (bytes_of "T") (bytes_of "m") true
    [IType 11; IFn (Mk (bytes_of "put") 0 false
       [TPath (User 20) (ATy (TSelf (named 11)) ANil) NNone; TRef (Some 5) false (named 1)] (Some (named 2)))].
Example checked_trait_ex :
  (forall m t, In m (methods ex_plain) -> In t (types m) -> written t = true /\ plain t = true) /\
  (forall a, match vtable ex_plain with
   | Some fs =>
       vt_stable (fun t => stable (fun n => negb (n =? 9)%N)
         (denote (venv (fun _ => named a) (fun _ => static) (sdts (describe ex_plain))) t) = true) fs <-> a <> 9
   | None => False
   end).
Proof.
  split.
  - intros m t Hm Ht. cbn in Hm. destruct Hm as [<-|[]]; cbn in Ht;
      repeat (destruct Ht as [<-|Ht]; [split; reflexivity|]); destruct Ht.
  - intros a. cbn. unfold vt_stable. split.
    + intros H. inversion H as [|? ? A _]; subst. cbn in A. destruct A as [[_ A] _].
      rewrite andb_true_r in A. intros ->. discriminate.
    + intros H. constructor; [|constructor]. cbn. apply N.eqb_neq in H. rewrite H. repeat split.
Qed.
(** C70, refuted: the vtable of a checked trait is marked as stable although none of the types
    its methods exchange are: [[Unstable; 4]], [extern "C" fn(Unstable)], [&'a [Unstable; 4]],
    [*const Self::A], [Self::A] when [Self::A] is [Unstable]. *)
Theorem checked_trait_refuted : exists d fs unstable assoc,
  proper d /\ d_checked d = true /\ vtable d = Some fs /\
  let e := venv assoc (fun _ => static) (sdts (describe d)) in
  let St t := stable (fun n => negb (n =? unstable)) t = true in
  vt_stable (fun t => St (denote e t)) fs /\
  length (flat_map types (methods d)) = 5%nat /\
  forall m t, In m (methods d) -> In t (types m) -> ~ St (denote e t).
Proof.
  exists (Decl (bytes_of "T") (bytes_of "m") true
    [IType 11;
     IFn (Mk (bytes_of "a") 0 false [TArr (named 9) 4] (Some (TSelf (named 11))));
     IFn (Mk (bytes_of "b") 0 true [TFn 0 (ATy (named 9) ANil) TUnit; TRef (Some 5) false (TArr (named 9) 4)] None);
     IFn (Mk (bytes_of "c") 0 false [] (Some (TPtr false (TSelf (named 11)))))]).
  eexists; exists 9, (fun _ => named 9).
  split; [|split; [reflexivity|split; [vm_compute; reflexivity|]]].
  - intros m t Hm Ht. cbn in Hm. destruct Hm as [<-|[<-|[<-|[]]]]; cbn in Ht;
      repeat (destruct Ht as [<-|Ht]; [reflexivity|]); destruct Ht.
  - cbn zeta. split; [repeat constructor|]. split; [reflexivity|].
    intros m t Hm Ht. cbn in Hm. destruct Hm as [<-|[<-|[<-|[]]]]; cbn in Ht;
      repeat (destruct Ht as [<-|Ht]; [cbn; discriminate|]); destruct Ht.
Qed.
Print Assumptions checked_trait_refuted.

(** C72: the report of a trait object tells exactly the names and modules of its traits, in
    order, and the names of their methods, counted from the last. *)
Theorem dyn_report_exactly : forall l l',
  (forall d fs, In (d, fs) (l ++ l') -> vtable d = Some fs) ->
  is_compatible (dynref_report (compound_report l)) (dynref_report (compound_report l')) = true <->
  Forall2 (fun x y => d_name (fst x) = d_name (fst y) /\ d_module (fst x) = d_module (fst y) /\
    forall i a b, nth_error (rev (map m_name (vt_methods (fst x)))) i = Some a ->
      nth_error (rev (map m_name (vt_methods (fst y)))) i = Some b -> a = b) l l'.
Proof. exact dyn_reports. Qed.
Print Assumptions dyn_report_exactly.
(** C72, for traits with as many methods, as far as names go: compatible trait objects have the
    same methods, by name, in the same places. *)
Theorem dyn_report_partial : forall l l',
  (forall d fs, In (d, fs) (l ++ l') -> vtable d = Some fs) ->
  Forall2 (fun x y => length (methods (fst x)) = length (methods (fst y))) l l' ->
  is_compatible (dynref_report (compound_report l)) (dynref_report (compound_report l')) = true ->
  map (fun x => map fst (interface (fst x))) l = map (fun x => map fst (interface (fst x))) l'.
Proof. exact dyn_reports_names. Qed.
Print Assumptions dyn_report_partial.
(** A trait with one method. *)
Definition one (t : ty) : decl :=
  Decl (bytes_of "T") (bytes_of "m") true [IFn (Mk (bytes_of "f") 0 false [t] None)].
(** The fields of [one]. *)
Definition one_fields (t : ty) : list field :=
  [Field (bytes_of "f") (Sig 0 false true [t] None) (Some (CUnion CUnit t))].
Example dyn_report_ex : vtable (one (named 1)) = Some (one_fields (named 1)) /\
  is_compatible (dynref_report (compound_report [(one (named 1), one_fields (named 1))]))
    (dynref_report (compound_report [(one (named 1), one_fields (named 1)); (ex_plain, [])])) = false.
Proof. split; vm_compute; reflexivity. Qed.
(** C72, refuted: signatures are not part of reports: a function that takes [&dyn T] is handed
    over to a caller whose [T] has another argument type, even if the traits are checked. *)
Theorem dyn_report_refuted : exists d d' fs fs' (f : nat),
  proper d /\ proper d' /\ d_checked d = true /\ d_checked d' = true /\
  vtable d = Some fs /\ vtable d' = Some fs' /\
  interface d <> interface d' /\
  stabbied (dynref_report (compound_report [(d, fs)])) f (dynref_report (compound_report [(d', fs')])) = Some f.
Proof.
  exists (one (named 1)), (one (named 2)), (one_fields (named 1)), (one_fields (named 2)), 0%nat.
  split. { intros m t Hm Ht. cbn in Hm. destruct Hm as [<-|[]]. cbn in Ht. destruct Ht as [<-|[]]. reflexivity. }
  split. { intros m t Hm Ht. cbn in Hm. destruct Hm as [<-|[]]. cbn in Ht. destruct Ht as [<-|[]]. reflexivity. }
  split; [reflexivity|]. split; [reflexivity|]. split; [vm_compute; reflexivity|]. split; [vm_compute; reflexivity|].
  split; [discriminate|]. vm_compute. reflexivity.
Qed.
Print Assumptions dyn_report_refuted.
