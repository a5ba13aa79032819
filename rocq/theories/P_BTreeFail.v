(** Property C81: insertions in B-trees that panic. *)
From Coq Require Import List Arith Bool Lia Permutation.
From Verif Require Import M_Import M_BTree S_BTree L_BTree L_BTreeIns L_BTreeSet L_BTreeTop M_BTreeFail S_BTreeFail L_BTreeFail L_BTreeFailProg P_BTree.
Import ListNotations.

(** C81: for any total order, any odd split limit of at least 3, with or without replacement, any number of sets sharing nodes, and any history of
    calls in which each insertion may be interrupted by a comparison, a clone of a value or an allocation that panics, but for the first allocation of a set:
    nothing undefined ever happens, then or later; an interrupted insertion leaves its set unchanged, or (when the allocation for half of a full node or for a new root is
    refused) without a run of consecutive values; the other sets are unchanged; and all other answers are those of independent finite sets. *)
Theorem btree_interrupted_partial : forall T (cmp : T -> T -> comparison) lim repl cs,
  total_order cmp -> Nat.odd lim = true -> 3 <= lim -> probes_ok cmp (map fst cs) -> first_ok cs ->
  match fwrun cmp lim repl fworld0 cs with
  | None => frun cmp repl [] (map fst cs) = None
  | Some (Ret (_, xs)) => exists F ys, grun cmp lim repl [] cs F ys /\ Forall2 (fagrees cmp) xs ys
  | Some _ => False
  end.
Proof.
  intros T cmp lim repl cs O D L P FO. apply odd_half in D.
  pose proof (frun_simL cmp lim repl O D L cs [] fworld0 [] [] _ (winvL0 cmp lim) eq_refl eq_refl P FO) as S.
  destruct (fwrun cmp lim repl fworld0 cs) as [[[w xs]| | |]|]; auto. destruct S as (_ & LK & F & ys & G & R & A & _). eauto.
Qed.
Print Assumptions btree_interrupted_partial.
(** Eight insertions, then a snapshot; then insertions in the shared tree, interrupted: after four comparisons (the root is copied by then), at the first clone of a
    value in a leaf, at the copy of that leaf, and at the split of another one, which loses 2 (being inserted) and 3. *)
Definition interrupted_calls : list (call nat * plan) :=
  (CNew, None) :: map (fun v => (CInsert 0 v, None)) [5; 1; 9; 3; 7; 8; 10; 12] ++
  [(CClone 0, None); (CInsert 0 6, Some (KCmp, 4)); (CEach 0, None); (CInsert 0 6, Some (KClone, 0)); (CEach 0, None);
   (CInsert 0 6, Some (KCopy, 0)); (CEach 0, None); (CInsert 0 2, Some (KSplit, 0)); (CEach 0, None); (CEach 1, None); (CInsert 0 6, None); (CEach 0, None)].
Example btree_interrupted_ex :
  match fwrun Nat.compare 3 false fworld0 interrupted_calls with
  | Some (Ret (w, xs)) => skipn 10 xs = [None; Some (AList [1; 3; 5; 7; 8; 9; 10; 12]); None; Some (AList [1; 3; 5; 7; 8; 9; 10; 12]);
      None; Some (AList [1; 3; 5; 7; 8; 9; 10; 12]); None; Some (AList [1; 5; 7; 8; 9; 10; 12]); Some (AList [1; 3; 5; 7; 8; 9; 10; 12]);
      Some (AOpt None); Some (AList [1; 5; 6; 7; 8; 9; 10; 12])]
  | _ => False
  end /\ first_ok interrupted_calls /\ probes_ok Nat.compare (map fst interrupted_calls).
Proof.
  split; [vm_compute; reflexivity|]. split.
  - intros c n I. cbn in I. repeat (destruct I as [I|I]; [discriminate I|]). contradiction.
  - intros i p I. cbn in I. repeat (destruct I as [I|I]; [discriminate I|]). contradiction.
Qed.

(** C81, shape: whatever was interrupted, the trees stay balanced and lookups logarithmic, as in C30. *)
Theorem btree_interrupted_balanced_partial : forall T (cmp : T -> T -> comparison) lim repl cs w xs i a,
  total_order cmp -> Nat.odd lim = true -> 3 <= lim -> probes_ok cmp (map fst cs) -> first_ok cs ->
  fwrun cmp lim repl fworld0 cs = Some (Ret (w, xs)) -> nth_error (sets (base w)) i = Some (Some (Some a)) ->
  exists n len, balanced lim (hp (base w)) n 1 a /\ set_len (hp (base w)) (Some a) = Ret len /\ 2 * (lim / 2 + 1) ^ n <= len + 1 /\
    forall p, lookup_cost (S (next (hp (base w)))) (hp (base w)) p a <= n + 1.
Proof.
  intros T cmp lim repl cs w xs i a O D L P FO E Ei. apply odd_half in D.
  pose proof (frun_simL cmp lim repl O D L cs [] fworld0 [] [] _ (winvL0 cmp lim) eq_refl eq_refl P FO) as S. rewrite E in S.
  destruct S as (_ & LK & F & ys & G & _ & _ & (W & _) & _).
  destruct (wf_live _ _ _ _ _ a W) as (nd & M).
  { apply in_or_app. right. apply in_flat_map. exists (Some (Some a)). split; [eapply nth_error_In; eauto|cbn; auto]. }
  pose proof (wf_size _ _ D L _ _ _ W _ a nd M eq_refl) as Z.
  assert (S1 : 1 <= sz (G a)). { destruct (w_loc _ _ _ _ _ W a nd M). lia. }
  assert (B : balanced lim (hp (base w)) (ht (G a)) 1 a) by (eapply wf_balanced; eauto).
  exists (ht (G a)), (length (cont (G a))). split; [exact B|]. split; [|split].
  - pose proof (wf_height _ _ _ _ _ _ _ W M). apply (node_len_ok cmp lim D L _ _ _ W _ a nd M). lia.
  - nia.
  - intros p. rewrite Nat.add_1_r. eapply balanced_cost; eauto.
Qed.
Print Assumptions btree_interrupted_balanced_partial.
Example btree_interrupted_balanced_ex :
  match fwrun Nat.compare 3 false fworld0 interrupted_calls with
  | Some (Ret (w, _)) => nth_error (sets (base w)) 0 = Some (Some (Some 7)) /\
      set_len (hp (base w)) (Some 7) = Ret 8 /\ lookup_cost 10 (hp (base w)) (fun x => Some (x ?= 6)) 7 = 3
  | _ => False
  end.
Proof. vm_compute. auto. Qed.

(** C81, memory: if no clone of a value panicked, whatever else was interrupted, the nodes in memory are those that the sets use. *)
Theorem btree_interrupted_released_partial : forall T (cmp : T -> T -> comparison) lim repl cs w xs,
  total_order cmp -> Nat.odd lim = true -> 3 <= lim -> probes_ok cmp (map fst cs) -> first_ok cs -> clones_ok cs ->
  fwrun cmp lim repl fworld0 cs = Some (Ret (w, xs)) ->
  forall a, (exists nd, mem (hp (base w)) a = Some nd) <-> reachable (base w) a.
Proof.
  intros T cmp lim repl cs w xs O D L P FO CO E a. apply odd_half in D.
  pose proof (frun_simL cmp lim repl O D L cs [] fworld0 [] [] _ (winvL0 cmp lim) eq_refl eq_refl P FO) as S. rewrite E in S.
  destruct S as (_ & LK & F & ys & G & _ & _ & W & N). specialize (N CO). subst LK. change (winv cmp lim (base w) F G) in W. split.
  - intros (nd & M). eapply (wf_reach cmp lim D L (base w) F G W); eauto.
  - apply (reach_live cmp lim (base w) F G a W).
Qed.
Print Assumptions btree_interrupted_released_partial.
(** After a refused copy and a refused split, dropping both sets releases all nodes. *)
Definition refused_calls : list (call nat * plan) :=
  (CNew, None) :: map (fun v => (CInsert 0 v, None)) [5; 1; 9; 3; 7; 8; 10; 12] ++
  [(CClone 0, None); (CInsert 0 6, Some (KCopy, 1)); (CInsert 0 2, Some (KSplit, 0)); (CDrop 0, None); (CDrop 1, None)].
Example btree_interrupted_released_ex :
  match fwrun Nat.compare 3 false fworld0 refused_calls with
  | Some (Ret (w, xs)) => sets (base w) = [None; None] /\ map (mem (hp (base w))) (seq 0 (next (hp (base w)))) = repeat None (next (hp (base w))) /\
      firstn 2 (skipn 10 xs) = [None; None] /\ 8 <= next (hp (base w))
  | _ => False
  end /\ clones_ok refused_calls.
Proof.
  split; [vm_compute; repeat split; repeat constructor|].
  intros c n I. cbn in I. repeat (destruct I as [I|I]; [discriminate I|]). contradiction.
Qed.

(** The rest of C81 is false.  An insertion that panics can lose values that were in the set: with limit 3, eleven insertions in increasing order of which the
    last is refused its second allocation. *)
Definition world_of (cs : list (call nat * plan)) : fworld nat :=
  match fwrun Nat.compare 3 false fworld0 cs with Some (Ret (w, _)) => w | _ => fworld0 end.
Definition answers_of (cs : list (call nat * plan)) : list (fanswer nat) :=
  match fwrun Nat.compare 3 false fworld0 cs with Some (Ret (_, xs)) => xs | _ => [] end.
Definition ten : list (call nat * plan) := (CNew, None) :: map (fun v => (CInsert 0 v, None)) [1; 2; 3; 4; 5; 6; 7; 8; 9; 10].
Theorem btree_interrupted_unchanged_refuted : exists cs i v p a a',
  fwrun Nat.compare 3 false fworld0 cs = Some (Ret (world_of cs, answers_of cs)) /\ nth_error (sets (base (world_of cs))) i = Some (Some (Some a)) /\
  set_each (hp (base (world_of cs))) (Some a) = Ret [1; 2; 3; 4; 5; 6; 7; 8; 9; 10] /\
  nth_error (answers_of (cs ++ [(CInsert i v, p)])) (length cs) = Some None /\
  nth_error (sets (base (world_of (cs ++ [(CInsert i v, p)])))) i = Some (Some (Some a')) /\
  set_each (hp (base (world_of (cs ++ [(CInsert i v, p)])))) (Some a') = Ret [1; 2; 3; 4; 5; 6; 7].
Proof. exists ten, 0, 11, (Some (KSplit, 1)), 6, 6. vm_compute. repeat (split; [reflexivity|]). reflexivity. Qed.
Print Assumptions btree_interrupted_unchanged_refuted.
(** A clone of a value that panics leaks the clones made before it: all sets being dropped, a node stays in memory. *)
Definition leak_calls : list (call nat * plan) :=
  (CNew, None) :: map (fun v => (CInsert 0 v, None)) [1; 2; 3; 4; 5; 6; 7; 8; 9] ++
  [(CClone 0, None); (CInsert 0 10, Some (KClone, 2)); (CDrop 0, None); (CDrop 1, None)].
Theorem btree_interrupted_leak_refuted : exists cs a,
  first_ok cs /\ fwrun Nat.compare 3 false fworld0 cs = Some (Ret (world_of cs, answers_of cs)) /\
  sets (base (world_of cs)) = [None; None] /\ mem (hp (base (world_of cs))) a <> None.
Proof.
  exists leak_calls, 3. split.
  - intros c n I. cbn in I. repeat (destruct I as [I|I]; [discriminate I|]). contradiction.
  - vm_compute. repeat (split; [reflexivity|]). discriminate.
Qed.
Print Assumptions btree_interrupted_leak_refuted.
(** A refused first allocation leaves an empty set whose allocator was dropped: the set's own Drop drops it again, and so would inserting or cloning use it. *)
Theorem btree_interrupted_allocator_refuted : exists cs,
  fwrun Nat.compare 3 false fworld0 cs = Some (Ret (world_of cs, answers_of cs)) /\ sets (base (world_of cs)) = [Some None] /\
  fwstep Nat.compare 3 false (world_of cs) (CDrop 0) None = Some Fault /\ fwstep Nat.compare 3 false (world_of cs) (CInsert 0 7) None = Some Fault /\
  fwstep Nat.compare 3 false (world_of cs) (CClone 0) None = Some Fault.
Proof. exists [(CNew, None); (CInsert 0 7, Some (KFirst, 0))]. vm_compute. repeat (split; [reflexivity|]). reflexivity. Qed.
Print Assumptions btree_interrupted_allocator_refuted.
