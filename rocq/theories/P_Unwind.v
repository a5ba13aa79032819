(** C75: vectors when the user's code panics. *)
From Coq Require Import NArith List Bool Lia Permutation Arith.
From Verif Require Import M_Vec S_Vec L_Vec M_Unwind S_Unwind L_Unwind.
Import ListNotations.

(** Elements are given back, destroyed, leaked or held, once, whatever panics; programs continue with a valid vector.
    Partial: up to the first [truncate] or dropped [into_iter] in which a destructor panics; and as in C18, honest hints and byte counts that fit. *)
Theorem vec_unwind_partial : forall E bad s (h : list (uop E * (N -> bool))), s <> 0%N ->
  Forall (fun x => honest' (fst x)) h -> Forall (fun x => moving' (fst x)) h -> fits s (weights' h) ->
  exists h1 h2 v l ret destroyed leaked made threw lost, h = h1 ++ h2 /\
    u_run bad 0 s h1 v_new = Goes v ret destroyed threw lost /\ v_as_slice v = Some l /\
    urun bad 0 h1 [] l ret destroyed leaked made threw /\ (lost = true -> threw = true) /\
    (threw = false -> Forall (fun x => ~ forgets (fst x)) h1 -> leaked = []) /\
    Permutation (givens' h1 ++ made) (l ++ ret ++ destroyed ++ leaked) /\
    (NoDup (givens' h1 ++ made) -> NoDup (l ++ ret ++ destroyed)) /\
    (h2 = [] \/ exists o ok h3, h2 = (o, ok) :: h3 /\
       ((u_step bad (length destroyed) s ok o v = Aborted /\ exists i, bad i = true) \/ hazard bad (length destroyed) o l)).
Proof.
  intros E bad s h Hs Ho M F.
  destruct (u_run_spec bad s h 0 v_new [] Hs (holds_new s) Ho F) as (h1 & h2 & v & l & a & b & k & m & p & q & -> & R & H & U & Q & T).
  assert (M1 : Forall (fun x => moving' (fst x)) h1) by (apply Forall_app in M; tauto).
  pose proof (urun_conserves bad 0 h1 [] l a b k m p M1 U) as P. cbn [app] in P.
  exists h1, h2, v, l, a, b, k, m, p, q. split; [reflexivity|]. split; [exact R|]. split; [exact (v_as_slice_spec s v l H)|].
  split; [exact U|]. split; [exact Q|]. split; [exact (urun_leaks bad 0 h1 [] l a b k m p U)|]. split; [exact P|]. split; [|exact T].
  intro N. apply (Permutation_NoDup P) in N. rewrite !app_assoc in N. rewrite app_assoc. exact (NoDup_left _ _ N).
Qed.
Print Assumptions vec_unwind_partial.

(** A drain whose destructors panic, a panicking clone, a panicking iterator: nothing is destroyed twice. *)
Definition yes (_ : N) := true.
Definition at_call (i : nat) (j : nat) : bool := Nat.eqb i j.
Definition hist : list (uop nat * (N -> bool)) :=
  [(Plain (Extend [1; 2; 3; 4; 5; 6] 6 None), yes); (UDrain (Included 1) (Excluded 4) 1 Dropped, yes);
   (ExtendPanic [7; 8] [9] 0 None, yes); (UClone (fun i => if Nat.eqb i 2 then None else Some (20 + i)), yes);
   (UClone (fun i => Some (30 + i)), yes); (Plain (Truncate 2), yes); (UInto 1, yes)].
Example vec_unwind_ex :
  Forall (fun x => honest' (fst x)) hist /\ Forall (fun x => moving' (fst x)) hist /\ fits 8 (weights' hist) /\
  u_run (at_call 0) 0 8 hist v_new = Goes v_new [2; 30] [3; 4; 9; 1; 7; 8; 32; 31] true false /\
  urun (at_call 0) 0 hist [] [] [2; 30] [3; 4; 9; 1; 7; 8; 32; 31] [5; 6; 20; 21] [20; 21; 30; 31; 32] true.
Proof.
  split; [repeat constructor; vm_compute; congruence|]. split; [repeat constructor|]. split; [reflexivity|]. split; [vm_compute; reflexivity|].
  unfold hist.
  refine (ur_cons _ _ _ _ _ _ [1; 2; 3; 4; 5; 6] _ [] [] [] [] _ _ _ _ _ _ (us_plain _ _ _ _ _ _ _ _ _ (ls_extend yes [1; 2; 3; 4; 5; 6] 6 None [])) _).
  refine (ur_cons _ _ _ _ _ _ [1] _ [2] [3; 4] [5; 6] [] true _ _ _ _ _ (us_drain_panic _ _ _ (Included 1) (Excluded 4) 1 [1] [2; 3; 4] [5; 6] eq_refl eq_refl _) _); [discriminate|].
  refine (ur_cons _ _ _ _ _ _ [1; 7; 8] _ [] [9] [] [] true _ _ _ _ _ (us_extend _ _ _ [7; 8] [9] 0 None [1]) _).
  refine (ur_cons _ _ _ _ _ _ [1; 7; 8] _ [] [] [20; 21] [20; 21] true _ _ _ _ _ (us_clone_panic _ _ _ _ [1; 7; 8] [20; 21] _ eq_refl eq_refl) _); [cbn; lia|].
  refine (ur_cons _ _ _ _ _ _ [30; 31; 32] _ [] [1; 7; 8] [] [30; 31; 32] false _ _ _ _ _ (us_clone (at_call 0) 3 yes (fun i => Some (30 + i)) [1; 7; 8] [30; 31; 32] eq_refl) _).
  refine (ur_cons _ _ _ _ _ _ [30; 31] _ [] [32] [] [] false _ _ _ _ _ (us_plain _ _ _ _ _ _ _ _ _ (ls_truncate yes 2 [30; 31; 32])) _).
  refine (ur_cons _ _ _ _ _ _ [] _ [30] [31] [] [] false _ _ _ _ _ (us_into _ _ _ 1 [30; 31]) _).
  constructor.
Qed.

(** Refuted: when a destructor panics in [truncate], all the elements it destroyed are still in the vector (vec.rs:251-254), which destroys them again. *)
Theorem vec_truncate_unwind_refuted : forall E bad c s ok n (v : vec E) l, holds s v l -> panics bad c (length l - n) = 1 ->
  u_step bad c s ok (Plain (Truncate n)) v = Goes v [] (skipn n l) true false /\ v_as_slice v = Some l /\ skipn n l <> [] /\
  forall bad' c', panics bad' c' (length l) = 0 -> u_step bad' c' s ok UDrop v = Goes v_new [] l false false.
Proof.
  intros E bad c s ok n v l H P. pose proof (v_as_slice_spec s v l H) as A.
  assert (L : n < length l) by (destruct (Nat.lt_ge_cases n (length l)); [auto|]; replace (length l - n) with 0 in P by lia; discriminate).
  destruct (v_truncate_spec s v l n H) as (v' & E1 & _). pose proof H as (rest & H1 & H2 & _).
  cbn [u_step]. unfold u_truncate. unfold v_truncate in E1. rewrite H2 in *.
  replace (Nat.leb (length l) n) with false in * by (symmetry; apply Nat.leb_gt; lia).
  destruct (get_slots n (length l - n) (slots v)) as [d|]; [|discriminate]. injection E1 as <- ->.
  rewrite skipn_length. unfold destroying. rewrite P. cbn. split; [reflexivity|]. split; [exact A|].
  split; [intro Z; apply (f_equal (@length E)) in Z; rewrite skipn_length in Z; cbn in Z; lia|].
  intros bad' c' P'. rewrite (u_drop_spec bad' c' false s v l H). unfold destroying. rewrite P'. cbn. reflexivity.
Qed.
Print Assumptions vec_truncate_unwind_refuted.
Definition three : vec nat := Vec [Some 10; Some 20; Some 30; None] 3 4.
Example vec_truncate_unwind_ex : holds 8 three [10; 20; 30] /\ panics (at_call 1) 0 (3 - 1) = 1 /\
  u_step (at_call 1) 0 8 yes (Plain (Truncate 1)) three = Goes three [] [20; 30] true false /\
  u_step (at_call 1) 2 8 yes UDrop three = Goes v_new [] [10; 20; 30] false false.
Proof. split; [exists [None]; repeat split|]. repeat split. Qed.

(** Refuted: when a destructor panics as an [into_iter] is dropped, its vector is dropped with its former length (vec.rs:662-667): all elements are
    destroyed, those given back too, and the others a second time. *)
Theorem vec_into_iter_unwind_refuted : forall E bad c s ok k (v : vec E) l, holds s v l -> panics bad c (length l - k) = 1 ->
  panics bad (c + (length l - k)) (length l) = 0 ->
  u_step bad c s ok (UInto k) v = Goes v_new (firstn k l) (skipn k l ++ l) true false /\ skipn k l <> [].
Proof.
  intros E bad c s ok k v l H P P'.
  assert (L : k < length l) by (destruct (Nat.lt_ge_cases k (length l)); [auto|]; replace (length l - k) with 0 in P by lia; discriminate).
  pose proof H as (rest & H1 & H2 & _). cbn [u_step]. rewrite (ii_takes_spec s k v l 0 H). cbn [Nat.leb skipn Nat.add].
  unfold u_ii_drop. cbn [ii_vec ii_index]. rewrite Nat.min_l by lia. rewrite H2, H1, get_slots_some by lia. rewrite firstn_skipn_all, skipn_length.
  unfold destroying at 1. rewrite P. cbn [Nat.add]. rewrite (u_drop_spec bad _ true s v l H). unfold destroying. rewrite P'. cbn [Nat.add ending_with Nat.eqb orb negb].
  split; [reflexivity|]. intro Z. apply (f_equal (@length E)) in Z. rewrite skipn_length in Z. cbn in Z. lia.
Qed.
Print Assumptions vec_into_iter_unwind_refuted.
Example vec_into_iter_unwind_ex : u_step (at_call 1) 0 8 yes (UInto 1) three = Goes v_new [10] [20; 30; 10; 20; 30] true false.
Proof. reflexivity. Qed.

(** Refuted: a panicking destructor makes [Drop] leak the block (vec.rs:540-545), and a drain lose the elements after its range (vec.rs:724-738); a
    panicking [Clone] leaks the clones made (vec.rs:455-462).  The standard library's vectors lose nothing. *)
Theorem vec_unwind_leak_refuted : exists (v : vec nat) l, holds 8 v l /\
  (exists bad, u_step bad 0 8 yes UDrop v = Goes v_new [] l true true) /\
  (exists bad v' b1 b2 z, u_step bad 0 8 yes (UDrain b1 b2 0 Dropped) v = Goes v' [] [10] true false /\ In z l /\ z <> 10 /\
     v_as_slice v' = Some []) /\
  (exists cl made, u_clone 8 yes cl v = Interrupted made /\ length made = 2).
Proof.
  exists three, [10; 20; 30]. split; [exists [None]; repeat split|]. split; [exists (at_call 0); reflexivity|]. split.
  - exists (at_call 0). eexists. exists Unbounded, (Excluded 1), 20. split; [vm_compute; reflexivity|]. split; [cbn; auto|]. split; [discriminate|reflexivity].
  - exists (fun i => if Nat.eqb i 2 then None else Some i). eexists. split; reflexivity.
Qed.
Print Assumptions vec_unwind_leak_refuted.
