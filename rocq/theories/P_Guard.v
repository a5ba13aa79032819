(** Property theorems for C49: temporary conversion guards. *)
From Coq Require Import List Arith NArith Bool Permutation Lia.
From Verif Require Import M_Guard S_Guard L_Guard.
Import ListNotations.

(** [ref_as] through a conversion that moves the value: the heap is as before, the target has the converted words and the same blocks, all readable; afterwards
    nothing is lost, and the source can be read and dropped.  Missing: the other conversions, see the next theorem. *)
Theorem ref_as_moving_partial : forall f h v others, balanced h (v :: others) ->
  exists t, ref_as (moving f) h v = Some (h, t) /\ data t = f (data v) /\ reads h (owns t) = reads h (owns v) /\ reads h (owns v) <> None /\
    balanced (ref_end h) (v :: others) /\ exists h', free_all (ref_end h) (owns v) = Some h' /\ balanced h' others.
Proof.
  intros f h v others B. eexists. split; [reflexivity|]. cbn. split; [reflexivity|]. split; [reflexivity|].
  split; [destruct (balanced_reads h _ v B (or_introl eq_refl)) as [r ->]; discriminate|]. split; [exact B|]. apply balanced_drop, B.
Qed.
Print Assumptions ref_as_moving_partial.
Example ref_as_moving_ex : balanced [Some [1; 2]%N; None; Some [3%N]] [Value [7%N] [2]; Value [] [0]] /\
  ref_as (moving (fun l => 1%N :: l)) [Some [1; 2]%N; None; Some [3%N]] (Value [7%N] [2]) = Some ([Some [1; 2]%N; None; Some [3%N]], Value [1; 7]%N [2]).
Proof. split; [apply perm_swap|reflexivity]. Qed.

(** For any conversion that takes its argument over correctly, [ref_as] is balanced exactly when the target has the blocks of the source. *)
Theorem ref_as_iff_partial : forall c h v h' t others, keeps_balance c others -> balanced h (v :: others) -> ref_as c h v = Some (h', t) ->
  (balanced (ref_end h') (v :: others) <-> Permutation (owns v) (owns t)).
Proof. intros c h v h' t others K B E. apply balanced_iff. exact (K h v h' t B E). Qed.
Print Assumptions ref_as_iff_partial.
Example ref_as_iff_ex : keeps_balance single_to_vec [Value [] [0]] /\ balanced [Some [1%N]] [Value [5%N] []; Value [] [0]] /\
  ref_as single_to_vec [Some [1%N]] (Value [5%N] []) = Some ([Some [1%N]; Some [5%N]], Value [] [1]) /\ ~ Permutation (@nil nat) [1].
Proof. split; [apply single_balance|]. split; [apply Permutation_refl|]. split; [reflexivity|]. intros H. apply Permutation_nil in H. discriminate. Qed.

(** [mut_as], whatever the conversions and the use of the target, when the guard is dropped: everything is balanced, and the new source can be read.
    Missing: for which contents, see the next theorem. *)
Theorem mut_as_partial : forall c use back h v h1 t h2 t2 h3 v' others,
  keeps_balance c others -> keeps_balance use others -> keeps_balance back others -> balanced h (v :: others) ->
  mut_as c h v = Some (h1, t) -> use h1 t = Some (h2, t2) -> mut_end back h2 t2 = Some (h3, v') ->
  balanced h3 (v' :: others) /\ reads h3 (owns v') <> None.
Proof.
  intros c use back h v h1 t h2 t2 h3 v' others K1 K2 K3 B E1 E2 E3.
  assert (balanced h3 (v' :: others)) as B3 by exact (K3 _ _ _ _ (K2 _ _ _ _ (K1 _ _ _ _ B E1) E2) E3). split; [exact B3|].
  destruct (balanced_reads h3 _ v' B3 (or_introl eq_refl)) as [r ->]. discriminate.
Qed.
Print Assumptions mut_as_partial.
(** A single seen as a vector to which an element is pushed. *)
Definition push (x : N) : conversion := fun h v =>
  match owns v with
  | [b] => match nth_error h b with
           | Some (Some l) => match free (h ++ [Some (l ++ [x])]) b with Some h' => Some (h', Value [] [length h]) | None => None end
           | _ => None
           end
  | _ => None
  end.
Example push_balance others : keeps_balance (push 9%N) others.
Proof.
  intros h v h' v' B E. unfold push, balanced in *. cbn [flat_map] in *. destruct (owns v) as [|b [|]]; try discriminate.
  destruct (nth_error h b) as [[x|]|] eqn:Eb; try discriminate. pose proof (live_alloc h (x ++ [9%N])) as A. cbn [alloc fst] in A.
  destruct (free _ b) as [h2|] eqn:Ef; [|discriminate]. injection E as <- <-. cbn [owns app].
  pose proof (live_free _ _ _ Ef) as F. apply (Permutation_cons_inv (a := b)). rewrite <- F, A, B. cbn [app]. apply perm_swap.
Qed.
Example mut_as_ex : keeps_balance single_to_vec [Value [] [0]] /\ keeps_balance (push 9%N) [Value [] [0]] /\ keeps_balance vec_to_single [Value [] [0]] /\
  balanced [Some [1%N]] [Value [5%N] []; Value [] [0]] /\
  mut_as single_to_vec [Some [1%N]] (Value [5%N] []) = Some ([Some [1%N]; Some [5%N]], Value [] [1]) /\
  push 9%N [Some [1%N]; Some [5%N]] (Value [] [1]) = Some ([Some [1%N]; None; Some [5; 9]%N], Value [] [2]) /\
  mut_end vec_to_single [Some [1%N]; None; Some [5; 9]%N] (Value [] [2]) = Some ([Some [1%N]; None; Some [5; 9]%N], Value [] [2]).
Proof.
  split; [apply single_balance|]. split; [apply push_balance|]. split; [apply moving_balance|]. split; [apply Permutation_refl|]. split; [reflexivity|]. split; reflexivity.
Qed.

(** [mut_as] between the two kinds of [String] shows the text of the source and, after any use of the target, the source has the text of the target; other values
    keep theirs.  Missing: panics of the code that holds the guard. *)
Theorem mut_as_string_partial : forall use h v others, keeps_balance use others -> length (owns v) <= 1 -> balanced h (v :: others) ->
  exists h1 t, mut_as string_copy h v = Some (h1, t) /\ text h1 t = text h v /\ text h v <> None /\ (forall w, In w others -> reads h1 (owns w) = reads h (owns w)) /\
  forall h2 t2, use h1 t = Some (h2, t2) -> length (owns t2) <= 1 ->
  exists h3 v', mut_end string_copy h2 t2 = Some (h3, v') /\ text h3 v' = text h2 t2 /\ text h2 t2 <> None /\ balanced h3 (v' :: others) /\
    forall w, In w others -> reads h3 (owns w) = reads h2 (owns w).
Proof.
  intros use h v others K Hl B. destruct (string_copy_ok h v others Hl B) as [h1 [t [E [T [Tn [_ [B1 W]]]]]]]. exists h1, t.
  split; [exact E|]. split; [exact T|]. split; [exact Tn|]. split; [exact W|]. intros h2 t2 U Hl2.
  destruct (string_copy_ok h2 t2 others Hl2 (K _ _ _ _ B1 U)) as [h3 [v' [E3 [T3 [Tn3 [_ [B3 W3]]]]]]]. exists h3, v'. split; [exact E3|]. auto.
Qed.
Print Assumptions mut_as_string_partial.
Example mut_as_string_ex : keeps_balance (push 9%N) [Value [] [0]] /\ balanced [Some [1%N]; Some [104%N]] [Value [] [1]; Value [] [0]] /\
  mut_as string_copy [Some [1%N]; Some [104%N]] (Value [] [1]) = Some ([Some [1%N]; None; Some [104%N]], Value [] [2]) /\
  push 9%N [Some [1%N]; None; Some [104%N]] (Value [] [2]) = Some ([Some [1%N]; None; None; Some [104; 9]%N], Value [] [3]) /\
  mut_end string_copy [Some [1%N]; None; None; Some [104; 9]%N] (Value [] [3]) = Some ([Some [1%N]; None; None; None; Some [104; 9]%N], Value [] [4]).
Proof. split; [apply push_balance|]. split; [apply perm_swap|]. split; [reflexivity|]. split; reflexivity. Qed.

(** A [String] seen as a [std::string::String]: the source's block is released, so that the source cannot be read or dropped any more. *)
Theorem ref_as_string_refuted : exists h v h' t, balanced h [v] /\ reads h (owns v) = Some [[104; 105]%N] /\
  ref_as string_copy h v = Some (h', t) /\ reads h' (owns t) = Some [[104; 105]%N] /\
  reads (ref_end h') (owns v) = None /\ free_all (ref_end h') (owns v) = None /\ ~ balanced (ref_end h') [v].
Proof.
  exists [Some [104; 105]%N], (Value [] [0]). eexists. eexists. split; [apply Permutation_refl|]. split; [reflexivity|]. split; [reflexivity|]. split; [reflexivity|].
  split; [reflexivity|]. split; [reflexivity|]. intros H. unfold balanced in H. vm_compute in H. apply Permutation_length_1 in H. discriminate.
Qed.
Print Assumptions ref_as_string_refuted.
(** A [SingleOrVec] holding a single, seen as a [Vec]: the vector is leaked. *)
Theorem ref_as_single_refuted : exists h v h' t, balanced h [v] /\ ref_as single_to_vec h v = Some (h', t) /\ live (ref_end h') = [0] /\ owns v = [].
Proof. exists [], (Value [5%N] []). eexists. eexists. split; [apply Permutation_refl|]. split; [reflexivity|]. split; reflexivity. Qed.
Print Assumptions ref_as_single_refuted.
(** The documentation (as_mut.rs:78) says that forgetting the guard only loses the changes.  If the guard of [mut_as] is forgotten after its target was grown, the source is left with a released block. *)
Theorem mut_as_forgotten_refuted : exists h v h1 t h2 t2, balanced h [v] /\ mut_as (moving (fun l => l)) h v = Some (h1, t) /\ push 9%N h1 t = Some (h2, t2) /\
  reads h2 (owns v) = None /\ free_all h2 (owns v) = None.
Proof.
  exists [Some [1%N]], (Value [] [0]). eexists. eexists. eexists. eexists. split; [apply Permutation_refl|]. split; [reflexivity|]. split; [reflexivity|]. split; reflexivity.
Qed.
Print Assumptions mut_as_forgotten_refuted.
