(** C79: the lifetimes in what is generated for a trait. *)
From Coq Require Import String.
From Coq Require Import List Arith NArith Bool Lia.
From Verif Require Import M_Report M_Trait S_Trait L_Trait P_Trait S_Scope L_Scope.
Import ListNotations.
Local Open Scope N_scope.

(** C79: exactly when all lifetimes in the generated vtable are in scope: when the output of a
    method omits lifetimes, its arguments have none but the receiver's; and, if the trait is
    checked, the types that are checked have no omitted lifetimes, nor function pointers with
    lifetimes of the method. *)
Theorem vtable_lifetimes_exactly : forall binds recv d fs, proper d -> vtable d = Some fs ->
  Forall (legal_field binds recv) fs <->
  forall m, In m (methods d) -> legal_pointer binds recv (declared_sig true m) /\
    (d_checked d = true -> forall t, In t (types m) -> plain t = true -> explicit binds t).
Proof. exact scope_exactly. Qed.
Print Assumptions vtable_lifetimes_exactly.
(** C79, for traits whose methods have all their lifetimes written, and whose function pointers
    use no lifetimes but their own: the macro succeeds and the lifetimes are in scope, whether
    the trait is checked or not. *)
Theorem vtable_lifetimes_partial : forall binds recv d, proper d ->
  (forall m t, In m (methods d) -> In t (types m) -> explicit binds t) ->
  exists fs, vtable d = Some fs /\ Forall (legal_field binds recv) fs.
Proof.
  intros binds recv d P H. destruct (vtable_total d) as [fs E]. exists fs. split; [exact E|].
  apply (vtable_lifetimes_exactly binds recv d fs P E). intros m Hm. split; [|intros _ t Ht _; exact (H m t Hm Ht)].
  intros (o & Ho & Hn). cbn in Ho.
  exfalso. apply (H m o Hm) in Hn; [apply Hn; reflexivity|]. unfold types. rewrite Ho. left; reflexivity.
Qed.
Print Assumptions vtable_lifetimes_partial.
(** [fn put(&self, Vec<Self::A>, &'a u8, *const S<'b, &'a u8>, for<'c> fn(&'c u8, &u8)) -> bool]. *)
Definition ex_scope (checked : bool) : decl :=
  Decl (bytes_of "T") (bytes_of "m") checked
    [IType 11; IFn (Mk (bytes_of "put") 0 false
       [TPath (User 20) (ATy (TSelf (named 11)) ANil) NNone; TRef (Some 5) false (named 1);
        TPtr false (TPath (User 21) (ALt 6 (ATy (TRef (Some 5) false (named 1)) ANil)) NNone);
        TPath (User 20) (ATy (TFn 3 (ATy (TRef (Some 7) false (named 1)) (ATy (TRef None false (named 1)) ANil)) TUnit) ANil) NNone]
       (Some (named 2)))].
Example vtable_lifetimes_ex : proper (ex_scope true) /\
  (forall m t, In m (methods (ex_scope true)) -> In t (types m) ->
     explicit (fun c l => (c =? 3) && (l =? 7)) t) /\
  option_map (map f_if) (vtable (ex_scope true)) =
    Some [Some (CUnion (CUnion (CUnion (CUnion (CTy (named 2))
      (TPath (User 20) (ATy (TPath (Gen 0) ANil NNone) ANil) NNone)) (TRef (Some static) false (named 1)))
      (TPtr false (TPath (User 21) (ALt static (ATy (TRef (Some static) false (named 1)) ANil)) NNone)))
      (TPath (User 20) (ATy (TFn 3 (ATy (TRef (Some 7) false (named 1)) (ATy (TRef None false (named 1)) ANil)) TUnit) ANil) NNone))].
Proof.
  split; [|split; [|vm_compute; reflexivity]].
  - intros m t Hm Ht. cbn in Hm. destruct Hm as [<-|[]]; cbn in Ht;
      repeat (destruct Ht as [<-|Ht]; [reflexivity|]); destruct Ht.
  - intros m t Hm Ht. cbn in Hm. destruct Hm as [<-|[]]; cbn in Ht;
      repeat (destruct Ht as [<-|Ht]; [intros i x Hx; cbn in Hx;
        repeat (destruct Hx as [E|Hx]; [injection E as <- <-; discriminate|]); destruct Hx|]); destruct Ht.
Qed.
(** C79, refuted: [fn f(&self, &u8)] in a checked trait puts a reference without lifetime in the
    type of a field; [fn f<'a>(&'a self, Vec<extern "C" fn(&'a u8)>)] a lifetime of the method;
    and [fn f(&self, &u8) -> &u8], checked or not, has an entry whose output has an ambiguous
    lifetime.  Each is a legal method. *)
Theorem vtable_lifetimes_refuted : exists d d' d'' fs fs' fs'',
  proper d /\ proper d' /\ proper d'' /\ d_checked d = true /\ d_checked d' = true /\ d_checked d'' = false /\
  vtable d = Some fs /\ vtable d' = Some fs' /\ vtable d'' = Some fs'' /\
  forall binds recv, (forall c l, binds c l = false) ->
    recv 0 = None ->
    ~ Forall (legal_field binds recv) fs /\ ~ Forall (legal_field binds recv) fs' /\
    ~ Forall (legal_field binds recv) fs''.
Proof.
  exists (Decl (bytes_of "T") (bytes_of "m") true
    [IFn (Mk (bytes_of "f") 0 false [TRef None false (named 1)] None)]),
   (Decl (bytes_of "T") (bytes_of "m") true
    [IFn (Mk (bytes_of "f") 1 false
      [TPath (User 20) (ATy (TFn 0 (ATy (TRef (Some 5) false (named 1)) ANil) TUnit) ANil) NNone] None)]),
   (Decl (bytes_of "T") (bytes_of "m") false
    [IFn (Mk (bytes_of "f") 0 false [TRef None false (named 1)] (Some (TRef None false (named 1))))]).
  do 3 eexists.
  assert (P : forall n c b is o, (forall t, In t (types (Mk n c b is o)) -> written t = true) -> forall x y z,
    proper (Decl x y z [IFn (Mk n c b is o)])).
  { intros n c b is o H x y z m t [<-|[]] Ht. exact (H t Ht). }
  split; [apply P; intros t Ht; cbn in Ht; repeat (destruct Ht as [<-|Ht]; [reflexivity|]); destruct Ht|].
  split; [apply P; intros t Ht; cbn in Ht; repeat (destruct Ht as [<-|Ht]; [reflexivity|]); destruct Ht|].
  split; [apply P; intros t Ht; cbn in Ht; repeat (destruct Ht as [<-|Ht]; [reflexivity|]); destruct Ht|].
  do 3 (split; [reflexivity|]). do 3 (split; [vm_compute; reflexivity|]).
  intros binds recv Hb Hr. split; [|split]; intros F; inversion F as [|? ? [A B] _]; subst; clear F.
  - cbn in B. destruct B as [_ B]. specialize (B (false, None) (or_introl eq_refl)). discriminate.
  - cbn in B. destruct B as [_ B]. rewrite Hb in B. specialize (B (true, Some 5) (or_introl eq_refl)). discriminate.
  - destruct (A ltac:(eexists; split; [reflexivity|left; reflexivity]) _ (false, None) (or_introl eq_refl) (or_introl eq_refl))
      as (l & H & _). cbn in H. rewrite Hr in H. discriminate.
Qed.
Print Assumptions vtable_lifetimes_refuted.
