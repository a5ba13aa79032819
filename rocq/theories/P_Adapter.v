(** Property theorems for C48: adapters of iterators and futures are transparent. *)
From Coq Require Import List Arith NArith Bool Lia.
From Verif Require Import M_Layout M_Result M_Enum M_Dyn M_Waker M_Adapter S_Layout S_Dyn S_Adapter L_Adapter P_Dyn.
Import ListNotations.

(** Any number of calls of [next] through any number of trait objects yields the items of the base iterator, which ends in the same state; and [size_hint] is the same.
    Missing: trait objects over [&mut] (refuted below), items containing a [Result] with mismatched payloads (C07). *)
Theorem iterator_transparent_partial : forall (S : Type) pg reg mem h T (f : S -> option (list N) * S) (g : S -> list N * option (list N)) (i : iter S) n,
  arity pg h = 2 -> wf T -> yields T f -> (forall st v, snd (g st) = Some v -> exists x, decode (TPlain 8 8) v = Some x) -> layered pg reg mem h i ->
  exists l i', nexts S pg mem h T f n i = Some (l, i') /\ Forall2 (same_item T) l (fst (base_nexts f n (inside i))) /\
    inside i' = snd (base_nexts f n (inside i)) /\
    exists lo hi, size_hint S pg mem h g i' = Some (lo, hi) /\ lo = fst (g (inside i')) /\ same_item (TPlain 8 8) hi (snd (g (inside i'))).
Proof.
  intros S pg reg mem h T f g i n A W Y Yg L. destruct (nexts_same S pg reg mem h T A W f n Y i L) as [l [i' [E [Hl [Hi [L' _]]]]]].
  exists l, i'. split; [exact E|]. split; [exact Hl|]. split; [exact Hi|]. exact (hint_same S pg reg mem h A g i' Yg L').
Qed.
Print Assumptions iterator_transparent_partial.
(** Two layers around an iterator over [n], [n] - 1, ..., 1. *)
Definition down (n : nat) : option (list N) * nat := match n with O => (None, O) | S m => (Some [N.of_nat n], m) end.
Definition two : iter nat := Layer 9 (from pg0 reg0 80 KBox v0 6 77) (Layer 6 (from pg0 reg0 77 KBox v0 5 3) (Base 5 3 2)).
Example iterator_transparent_ex : arity pg0 4 = 2 /\ wf (TPlain 1 1) /\ layered pg0 reg0 mem0 4 two /\ yields (TPlain 1 1) (fun n => if n <=? 255 then down n else (None, n)) /\
  option_map fst (nexts nat pg0 mem0 4 (TPlain 1 1) (fun n => if n <=? 255 then down n else (None, n)) 4 two) = Some [Some [2%N]; Some [1%N]; None; None].
Proof.
  split; [reflexivity|]. split; [vm_compute; reflexivity|]. split; [|split].
  - split; [apply (built_from pg0 reg0 mem0 80 KBox); apply pg0_registered|]. split; [reflexivity|].
    split; [apply (built_from pg0 reg0 mem0 77 KBox); apply pg0_registered|]. split; [reflexivity|exact I].
  - intros st v H. destruct (Nat.leb_spec st 255) as [Hs|Hs]; [|discriminate]. destruct st as [|m]; [discriminate|].
    unfold down in H. cbn [fst] in H. change (Some [N.of_nat (S m)] = Some v) in H. assert (v = [N.of_nat (S m)]) as -> by congruence. clear H. remember (N.of_nat (S m)) as b eqn:Eb. exists (VRaw [b]).
    assert (N.ltb b 256 = true) as Hb by (apply N.ltb_lt; lia). cbn [decode layout length forallb]. rewrite Hb. reflexivity.
  - vm_compute. reflexivity.
Qed.

(** The same for futures polled with any wakers; the base future sees wrapped wakers, with the same root. *)
Theorem future_transparent_partial : forall (S : Type) pg reg mem h T (f : S -> waker -> option (list N) * S) (i : iter S) ws,
  0 < arity pg h -> wf T -> (forall w, yields T (fun st => f st w)) -> same_waker_same f -> layered pg reg mem h i ->
  exists l i', polls S pg mem h T f ws i = Some (l, i') /\ Forall2 (same_item T) l (fst (base_polls f ws (inside i))) /\
    inside i' = snd (base_polls f ws (inside i)).
Proof.
  intros S pg reg mem h T f i ws A W Y K L. destruct (polls_same S pg reg mem h T A W f ws Y K i L) as [l [i' [E [Hl [Hi _]]]]]. eauto.
Qed.
Print Assumptions future_transparent_partial.
(** A future ready at the third poll, with the number of the waker's origin. *)
Definition third (n : nat) (w : waker) : option (list N) * nat :=
  (if n =? 2 then match root w with OOrig 5 => Some [5%N] | _ => Some [0%N] end else None, S n).
Example future_transparent_ex : layered pg0 reg0 mem0 4 (Layer 6 (from pg0 reg0 77 KBox v0 5 3) (Base 5 3 0)) /\ same_waker_same third /\
  option_map fst (polls nat pg0 mem0 4 (TPlain 1 1) third [Own (OOrig 1); Own (OOrig 1); Borrowed 0 (Own (OOrig 5)); Own (OShared 3)] (Layer 6 (from pg0 reg0 77 KBox v0 5 3) (Base 5 3 0))) =
    Some [None; None; Some [5%N]; None].
Proof.
  split; [|split].
  - split; [apply (built_from pg0 reg0 mem0 77 KBox); apply pg0_registered|]. split; [reflexivity|exact I].
  - intros st w w' H. unfold third. rewrite H. reflexivity.
  - vm_compute. reflexivity.
Qed.

(** A trait object over [&mut] to an iterator, or the result of [as_mut]: [next] is called on something else. *)
Theorem iterator_mut_refuted : exists o (i : iter nat), built pg0 reg0 mem0 false o (type_of i) (addr_of i) /\ dkind o = KMut /\ nth_error (heads (vtype o)) 0 = Some 4 /\ arity pg0 4 = 2 /\
  next nat pg0 mem0 4 (TPlain 1 1) down (Layer 6 o i) = None.
Proof.
  exists (from pg0 reg0 77 KMut v0 5 3), (Base 5 3 2). split; [apply (built_from pg0 reg0 mem0 77 KMut); apply pg0_registered|].
  split; [reflexivity|]. split; [reflexivity|]. split; [reflexivity|]. vm_compute. reflexivity.
Qed.
Print Assumptions iterator_mut_refuted.
