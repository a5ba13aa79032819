(** C93: functions with [#[stabby::stabby]] and [#[stabby::export]]. *)
From Coq Require Import String.
From Coq Require Import List NArith Arith Bool Lia.
From Verif Require Import M_Generics M_FnItem S_FnItem L_FnItem.
Import ListNotations.
Local Open Scope string_scope.
Local Open Scope list_scope.

(** C93, exactly where it holds: what [#[stabby::stabby]] generates for a function is accepted and is the function as declared with a
    stable convention (for async ones, returning a boxed future with the bounds asked for) if and only if its arguments are known, its convention is
    stable, it is not [const unsafe], it has no where clause, its types are stable and
    neither [impl Trait] nor [!], and, if it is async, its body borrows no input.
    Missing: attributes, visibility, variadics; which types are stable is an oracle. *)
Theorem fn_exact_partial : forall stable l f, fn_works stable l f <-> fn_supported stable l f.
Proof. exact fn_works_iff. Qed.
Print Assumptions fn_exact_partial.
(** C93: a generated function that is accepted has stable types only, and a stable convention. *)
Theorem fn_stable : forall stable l f g, stabby l f = Some g -> gfn_ok stable g = true ->
  (forall t, In t (types f) -> stable t = true) /\ exists c u s, p_quals (g_quals g) = Some (c, false, u, Some (Some s)) /\ stable_abi s.
Proof. exact sound. Qed.
Print Assumptions fn_stable.
(** C93, exports, exactly where it holds: all that [#[stabby::export]] generates is accepted, and the symbols are those that loaders ask for, if and only if
    moreover the function is not async, says [extern], [extern "C"] or [extern "C-unwind"], has
    no parameters but lifetimes, its inputs are at most fifteen names with types that have no elided lifetime and mention no parameter, and so is its output. *)
Theorem export_exact_partial : forall stable f, export_works stable f <-> export_supported stable f.
Proof. exact export_works_iff. Qed.
Print Assumptions export_exact_partial.
(** C93: the function that is handed to a loader has the type whose report the loader compared: same convention, safety, inputs and output, all stable. *)
Theorem export_stable : forall stable f x, export f = Some x -> exported_ok stable x = true ->
  (forall t, In t (types f) -> stable t = true) /\
  exists c u s, p_quals (g_quals (x_def x)) = Some (c, false, u, Some (Some s)) /\ In s ["C"; "C-unwind"] /\
    exists s', p_quals (t_quals (x_sig x)) = Some (false, false, u, Some s') /\ (match s' with None => "C" | Some y => y end) = s /\
      t_ins (x_sig x) = g_ins (x_def x) /\ g_out (x_def x) = (match t_out (x_sig x) with None => ONone | Some t => OTy t end).
Proof. exact export_sound. Qed.
Print Assumptions export_stable.

(** [#[stabby::stabby('a, unsync)] async unsafe fn f<'a, T: IStable>(mut x: T, y: &u8) -> u16 { drop(x) }] *)
Definition load : fnitem := Fn false true true ANone "load" [PLt 1 []; PTy 2 [BStable] None] [] [Arg (PMut 1) (TGen 2); Arg (PName 2) (TRef 3)] (Some (TPlain 4)) [Moves 1].
(** [#[stabby::export] const extern "C" fn add(x: u8, y: u16) -> u32] *)
Definition add : fnitem := Fn true false false (ANamed "C") "add" [] [] [Arg (PName 1) (TPlain 1); Arg (PName 2) (TPlain 2)] (Some (TPlain 3)) [Borrows 1].
(** All types are stable but the ninth. *)
Definition most (t : ty) : bool := match t with TPlain 9 => false | _ => true end.
Example fn_ex :
  legal_fn load /\ fn_works most [Lifetime 7; Unsync; Lifetime 1] load /\
  stabby [Lifetime 7; Unsync; Lifetime 1] load =
    Some (Gfn [QUnsafe; QExtern (Some "C")] "load" [PLt 1 []; PTy 2 [BStable] None] [] [Arg (PMut 1) (TGen 2); Arg (PName 2) (TRef 3)]
      (ODyn (Some 1%N) [FFuture (Some (TPlain 4)); FSend]) [TPlain 4; TGen 2; TRef 3] (InAsync [Moves 1])) /\
  legal_fn add /\ export_works most add /\
  ~ fn_works most [] (Fn false false false ANone "f" [] [] [Arg (PName 1) (TPlain 9)] None []) /\
  ~ fn_works most [] (Fn false false false (ANamed "Rust") "f" [] [] [] None []).
Proof.
  assert (legal_fn load) as A.
  { split; [intros [X _]; discriminate|]. split; [intros p t [E|[E|[]]]; injection E as <- <-; exact I|].
    split; [intros t E; injection E as <-; left; exact I|]. intros [|[|i]]; discriminate || (destruct i; discriminate). }
  assert (legal_fn add) as B.
  { split; [intros [_ X]; discriminate|]. split; [intros p t [E|[E|[]]]; injection E as <- <-; exact I|].
    split; [intros t E; injection E as <-; left; exact I|]. intros [|[|i]]; discriminate || (destruct i; discriminate). }
  split; [exact A|]. split; [|split; [reflexivity|split; [exact B|split; [|split]]]].
  - apply fn_exact_partial. split; [intros w [E|[E|[E|[]]]]; discriminate|]. split; [left; reflexivity|].
    split; [intros [X _]; discriminate|]. split; [reflexivity|]. split; [|intros _ n [E|[]]; discriminate].
    intros t [<-|[<-|[<-|[]]]]; repeat split; discriminate || (intros; discriminate).
  - apply export_exact_partial. split; [|split; [reflexivity|split; [right; left; reflexivity|split; [|split; [|split]]]]].
    + split; [intros w []|]. split; [left; reflexivity|]. split; [intros [_ X]; discriminate|]. split; [reflexivity|]. split; [|intros X; discriminate].
      intros t [<-|[<-|[<-|[]]]]; repeat split; discriminate || (intros; discriminate).
    + repeat constructor; eauto.
    + intros t E. injection E as <-. eauto.
    + constructor.
    + cbn. lia.
  - intros W. apply fn_exact_partial in W. destruct W as (_ & _ & _ & _ & W & _). destruct (W (TPlain 9)) as [X _]; [left; reflexivity|discriminate].
  - intros W. apply fn_exact_partial in W. destruct W as (_ & W & _). unfold stable_abi in W. cbn in W. intuition discriminate.
Qed.

Ltac lawful := split; [intros [X Y]; discriminate|split; [intros p t Z; cbn in Z; intuition (try congruence); match goal with H : Arg _ _ = Arg _ _ |- _ => injection H as <- <-; exact I end
  |split; [intros t E; try discriminate; injection E as <-; first [left; exact I|right; reflexivity]|intros [|[|i]]; discriminate || (destruct i; discriminate)]]].
(** C93: not for [const unsafe fn], which is printed [unsafe const extern "C" fn]. *)
Theorem fn_const_unsafe_refuted : exists f g, legal_fn f /\ f_async f = false /\ f_ins f = [] /\ stabby [] f = Some g /\ forall stable, gfn_ok stable g = false.
Proof. exists (Fn true false true ANone "f" [] [] [] None []). eexists. split; [lawful|]. repeat split. Qed.
Print Assumptions fn_const_unsafe_refuted.
(** C93: where clauses vanish. *)
Theorem fn_where_refuted : exists f g, legal_fn f /\ f_where f <> [] /\ stabby [] f = Some g /\ gfn_ok (fun _ => true) g = true /\ g_where g = [].
Proof.
  exists (Fn false false false ANone "f" [PTy 2 [BStable] None] [(XUser 2, [BUser 3])] [Arg (PName 1) (TGen 2)] None []). eexists.
  split; [lawful|]. split; [discriminate|]. repeat split.
Qed.
Print Assumptions fn_where_refuted.
(** C93: not for async functions that read an input, as the block is not [move]: [async fn f(x: u8) -> u8 { x + 1 }]. *)
Theorem fn_async_refuted : exists f g, legal_fn f /\ f_async f = true /\ stabby [] f = Some g /\ forall stable, gfn_ok stable g = false.
Proof.
  exists (Fn false true false ANone "f" [] [] [Arg (PName 1) (TPlain 1)] (Some (TPlain 1)) [Borrows 1]). eexists.
  split; [lawful|]. split; [reflexivity|]. split; [reflexivity|]. intros stable. unfold gfn_ok. cbn. rewrite ?andb_false_r. reflexivity.
Qed.
Print Assumptions fn_async_refuted.
(** C93: not for functions that never return, nor for inputs of type [impl Trait]. *)
Theorem fn_types_refuted : (exists f g, legal_fn f /\ f_ins f = [] /\ f_out f = Some TNever /\ stabby [] f = Some g /\ forall stable, gfn_ok stable g = false) /\
  (exists f g n, legal_fn f /\ f_ins f = [Arg (PName n) (TImpl n)] /\ stabby [] f = Some g /\ forall stable, gfn_ok stable g = false).
Proof.
  split.
  - exists (Fn false false false ANone "f" [] [] [] (Some TNever) []). eexists. split; [lawful|]. repeat split.
  - exists (Fn false false false ANone "f" [] [] [Arg (PName 1) (TImpl 1)] None []). do 2 eexists. split; [lawful|]. repeat split.
Qed.
Print Assumptions fn_types_refuted.
(** C93: async functions cannot be exported: the type of the function is written [async fn(..)]. *)
Theorem export_async_refuted : exists f, legal_fn f /\ fn_works (fun _ => true) [] f /\ f_abi f = ANamed "C" /\ f_ins f = [] /\ f_params f = [] /\
  exists x, export f = Some x /\ forall stable, exported_ok stable x = false.
Proof.
  exists (Fn false true false (ANamed "C") "f" [] [] [] (Some (TPlain 1)) []). split; [lawful|]. split; [|split; [reflexivity|split; [reflexivity|split; [reflexivity|]]]].
  - apply fn_exact_partial. split; [intros w []|]. split; [left; reflexivity|]. split; [intros [X _]; discriminate|]. split; [reflexivity|]. split; [|intros _ n []].
    intros t [<-|[]]; repeat split; discriminate || (intros; discriminate).
  - eexists. split; [reflexivity|]. intros stable. apply export_bad. left. reflexivity.
Qed.
Print Assumptions export_async_refuted.
(** C93: functions with elided lifetimes or with [mut] inputs cannot be exported, although they can be stabby's. *)
Theorem export_input_refuted : forall i, i = Arg (PName 1) (TRef 1) \/ i = Arg (PMut 1) (TPlain 1) ->
  exists f, legal_fn f /\ fn_works (fun _ => true) [] f /\ f_abi f = ANamed "C" /\ f_ins f = [i] /\ f_params f = [] /\ f_async f = false /\
    exists x, export f = Some x /\ forall stable, exported_ok stable x = false.
Proof.
  intros i Hi. exists (Fn false false false (ANamed "C") "f" [] [] [i] None []).
  split; [destruct Hi as [-> | ->]; lawful|]. split; [|do 4 (split; [reflexivity|])].
  - apply fn_exact_partial. split; [intros w []|]. split; [left; reflexivity|]. split; [intros [X _]; discriminate|]. split; [reflexivity|]. split; [|intros X; discriminate].
    intros t [<-|[]]; destruct Hi as [-> | ->]; repeat split; discriminate || (intros; discriminate).
  - eexists. split; [reflexivity|]. intros stable. apply export_bad. destruct Hi as [-> | ->]; [right|left]; reflexivity.
Qed.
Print Assumptions export_input_refuted.
