(** Property C67: boxes own their value, their allocator and their memory. *)
From Coq Require Import List Arith Bool Lia Permutation.
From Verif Require Import M_Box S_Box L_Box.
Import ListNotations.

(** A program: a box is made, cloned, assigned to, anonimized and called; another is turned into its value; a third fails to be initialised; two have no
    memory; one goes through a raw pointer and is dropped. *)
Definition prog0 : list op :=
  [New 10 1 true; Clone 0 11 2 true; Assign 1 12; Anonimize 1; CallOnce 1; IntoInner 0; Make CErr 3 true; Drop 2 false; TryNew 13 4 false; New 14 5 false;
   Make (CInit 15) 6 true; IntoRaw 3; FromRaw 3; Drop 3 false; New 16 7 true; Anonimize 4].
(** Runs by computation. *)
Definition checks (s : state) (o : op) : bool :=
  match o with
  | TryNew _ _ _ | New _ _ _ | Make _ _ _ => true
  | IntoInner i | IntoRaw i | Anonimize i | Assign i _ | Clone i _ _ _ => match var s i with Some (KBox, _) => true | _ => false end
  | FromRaw i => match var s i with Some (KRaw, _) => true | _ => false end
  | Drop i _ => match var s i with Some (KRaw, _) | None => false | _ => true end
  | CallOnce i => match var s i with Some (KDyn, _) => true | _ => false end
  end.
Fixpoint final (s : state) (os : list op) : option state :=
  match os with
  | [] => Some s
  | o :: os => if checks s o then match step s o with Some s1 => final s1 os | None => None end else None
  end.
Example final_runs : forall os ops s s', runs ops (Some s) -> final s os = Some s' -> runs (ops ++ os) (Some s').
Proof.
  induction os as [|o os IH]; intros ops s s' R H; cbn [final] in H; [injection H as <-; rewrite app_nil_r; exact R|].
  destruct (checks s o) eqn:K; [|discriminate]. destruct (step s o) as [s1|] eqn:E; [|discriminate].
  replace (ops ++ o :: os) with ((ops ++ [o]) ++ os) by (rewrite <- app_assoc; reflexivity). apply (IH _ s1); [|exact H]. rewrite <- E. constructor; [exact R|].
  unfold checks, compiles, holds, var in *. destruct o as [v a ok|v a ok|c a ok|i|i|i|i|i v|i v a ok|i bad|i]; auto;
    destruct (nth_error (vars s) i) as [[[[| | |] p]|]|]; try discriminate; eauto.
Qed.
Definition end0 : state :=
  St [None; None; None; None; Some (Blk (Some 7) (Some 16))] [None; None; None; None; Some (KDyn, 4)] [13; 10] [15; 14; 11] [12] [4] [6; 5; 3; 1; 2]
    [(6, 3); (3, 2); (1, 0); (2, 1)] true.
Example prog0_runs : runs prog0 (Some end0).
Proof. apply (final_runs prog0 [] start); [constructor|reflexivity]. Qed.

(** C67: whatever a program does with boxes, there is no undefined behaviour, and each value put in a box is in exactly one place: a box or trait object that a
    variable holds, given back to the caller, destroyed, or consumed by the call of a boxed FnOnce.  This includes panics and allocation failures. *)
Theorem box_values : forall ops r, runs ops r -> exists s, r = Some s /\
  Permutation (flat_map new_values ops) (held_values s ++ out s ++ dropped s ++ called s).
Proof.
  intros ops r R. destruct (runs_ledger _ _ R) as (s & E & L). exists s. split; [exact E|]. apply cnt_perm. intros x. rewrite (l_values _ _ L), !cnt_app.
  unfold held_values, vals. rewrite !Nat.add_assoc. reflexivity.
Qed.
Print Assumptions box_values.
Example box_values_ex : flat_map new_values prog0 = [10; 11; 12; 13; 14; 15; 16] /\
  held_values end0 ++ out end0 ++ dropped end0 ++ called end0 = [16; 13; 10; 15; 14; 11; 12].
Proof. split; reflexivity. Qed.

(** C67: each step does to variables, gives to the caller, destroys and calls what is expected, as if variables held their values themselves. *)
Theorem box_effect : forall ops s o s', runs ops (Some s) -> compiles s o -> step s o = Some s' ->
  let '(m, g, d, c) := effect (shows s) o in
  shows s' = m /\ out s' = g ++ out s /\ dropped s' = d ++ dropped s /\ called s' = c ++ called s.
Proof. intros ops s o s' R K E. destruct (runs_ledger _ _ R) as (s0 & E0 & L). injection E0 as <-. exact (step_effect ops s o s' L K E). Qed.
Print Assumptions box_effect.
Example box_effect_ex : compiles end0 (CallOnce 4) /\ exists s', step end0 (CallOnce 4) = Some s' /\ shows end0 = [None; None; None; None; Some (KDyn, Some 16)] /\
  shows s' = [None; None; None; None; None] /\ called s' = [16; 12].
Proof. split; [exists 4; reflexivity|]. eexists. repeat split; reflexivity. Qed.

(** C67: each block is freed at most once, by the allocator that provided it; blocks held by variables are not freed, and no two variables hold the same. *)
Theorem box_blocks : forall ops s, runs ops (Some s) ->
  length (heap s) = length (requests ops) /\
  NoDup (map snd (freed s)) /\ (forall a p, In (a, p) (freed s) -> nth_error (requests ops) p = Some a) /\
  (forall p, p < length (requests ops) -> In p (live_blocks s) <-> ~ In p (map snd (freed s))) /\
  NoDup (held_blocks s) /\ incl (held_blocks s) (live_blocks s).
Proof.
  intros ops s R. destruct (runs_ledger _ _ R) as (s' & E & L). injection E as <-. destruct (l_good _ _ L) as [G1 G2 G3 G4 G5 G6 G7].
  assert (LV : forall p, In p (live_blocks s) <-> exists b, nth_error (heap s) p = Some (Some b)).
  { intros p. unfold live_blocks. rewrite filter_In, in_seq. destruct (nth_error (heap s) p) as [[b|]|] eqn:H.
    - split; [eauto|]. intros _. split; [|reflexivity]. split; [lia|]. apply nth_error_Some. congruence.
    - split; [intros (_ & C); discriminate|intros (b & C); discriminate].
    - split; [intros (_ & C); discriminate|intros (b & C); discriminate]. }
  split; [exact G1|]. split; [exact G6|]. split; [exact G7|]. split; [|split; [exact G4|]].
  - intros p Hp. rewrite LV, G5. rewrite <- G1 in Hp. apply nth_error_Some in Hp. destruct (nth_error (heap s) p) as [[b|]|]; [|split|contradiction].
    + split; [discriminate|eauto].
    + intros (b & C). discriminate.
    + intros C. contradiction C. reflexivity.
  - intros p Hp. apply LV. change (In p (ptrs (vars s))) in Hp. apply ptrs_in in Hp. destruct Hp as (k & I). destruct (G3 _ _ I) as (a & x & H & _). eauto.
Qed.
Print Assumptions box_blocks.
Example box_blocks_ex : requests prog0 = [1; 2; 3; 6; 7] /\ freed end0 = [(6, 3); (3, 2); (1, 0); (2, 1)] /\ live_blocks end0 = [4] /\ held_blocks end0 = [4].
Proof. repeat split; reflexivity. Qed.

(** C67: each allocator given to a box is in exactly one place: in the prefix of a block not freed, given back to the caller, or destroyed. *)
Theorem box_allocators : forall ops s, runs ops (Some s) -> Permutation (flat_map new_allocs ops) (live_allocs s ++ hout s ++ hdropped s).
Proof.
  intros ops s R. destruct (runs_ledger _ _ R) as (s' & E & L). injection E as <-. apply cnt_perm. intros x. rewrite (l_allocs _ _ L), !cnt_app.
  unfold live_allocs. fold allocs_of. rewrite !Nat.add_assoc. reflexivity.
Qed.
Print Assumptions box_allocators.
Example box_allocators_ex : flat_map new_allocs prog0 = [1; 2; 3; 4; 5; 6; 7] /\ live_allocs end0 ++ hout end0 ++ hdropped end0 = [7; 4; 6; 5; 3; 1; 2].
Proof. split; reflexivity. Qed.

(** C67: blocks are not leaked: all those not freed are held by variables.  Missing: destructors that panic, for which this fails (below), and constructors
    that panic, which are documented to leak. *)
Theorem box_no_leak_partial : forall ops s, runs ops (Some s) -> Forall calm ops -> Permutation (live_blocks s) (held_blocks s).
Proof.
  intros ops s R C. pose proof (box_blocks _ _ R) as (B1 & B2 & B3 & B4 & B5 & B6). apply NoDup_Permutation; [apply NoDup_filter, seq_NoDup|exact B5|].
  intros p. split; [|apply B6]. intros I. destruct (runs_ledger _ _ R) as (s' & E & L). injection E as <-. unfold live_blocks in I. apply filter_In in I.
  destruct I as (_ & I). destruct (nth_error (heap s) p) as [[b|]|] eqn:H; try discriminate. exact (l_calm _ _ L C _ _ H).
Qed.
Print Assumptions box_no_leak_partial.
Example box_no_leak_ex : runs prog0 (Some end0) /\ Forall calm prog0.
Proof. split; [exact prog0_runs|]. repeat constructor. Qed.
(** A destructor that panics: the block and its allocator are leaked, although no variable is left. *)
Theorem box_no_leak_refuted : exists ops s, runs ops (Some s) /\ ops = [New 10 1 true; Drop 0 true] /\ held_blocks s = [] /\ dropped s = [10] /\
  live_blocks s = [0] /\ live_allocs s = [1] /\ freed s = [].
Proof.
  exists [New 10 1 true; Drop 0 true]. eexists. split; [apply (final_runs [New 10 1 true; Drop 0 true] [] start); [constructor|reflexivity]|]. repeat split; reflexivity.
Qed.
Print Assumptions box_no_leak_refuted.
