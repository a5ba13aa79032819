(** Properties C29 to C31, C59 and C60: B-trees sharing nodes. *)
From Coq Require Import List Arith Bool Lia Permutation.
From Verif Require Import M_Import M_BTree S_BTree L_BTree L_BTreeIns L_BTreeSet L_BTreeTop.
Import ListNotations.

(** C29, sets: for any total order, any odd split limit of at least 3, with or without replacement, and any history of
    creations, clones, insertions, lookups, counts, visits and drops on any number of sets sharing nodes: no call panics or does
    anything undefined, and all answers are those of independent finite sets, visits being in increasing order. *)
Theorem btree_set : forall T (cmp : T -> T -> comparison) lim repl cs,
  total_order cmp -> Nat.odd lim = true -> 3 <= lim -> probes_ok cmp cs ->
  match wrun cmp lim repl world0 cs with
  | None => frun cmp repl [] cs = None
  | Some (Ret (_, xs)) => exists F ys, frun cmp repl [] cs = Some (F, ys) /\ Forall2 (agrees cmp) xs ys
  | Some _ => False
  end.
Proof.
  intros T cmp lim repl cs O D L P. apply odd_half in D.
  pose proof (run_sim cmp lim repl O D L cs _ _ _ (winv0 cmp lim) P) as S.
  destruct (wrun cmp lim repl world0 cs) as [[[w xs]| | |]|]; auto. destruct S as (F & ys & G & E & A & _). eauto.
Qed.
Print Assumptions btree_set.

Definition nat_order : total_order Nat.compare.
Proof.
  constructor.
  - apply Nat.compare_refl.
  - intros. apply Nat.compare_antisym.
  - intros x y z. rewrite !Nat.compare_lt_iff. lia.
  - intros x y z H. apply Nat.compare_eq in H. subst. reflexivity.
Qed.
(** Ten insertions with limit 3 and a snapshot after seven: two levels of nodes. *)
Definition btree_calls : list (call nat) :=
  [CNew; CInsert 0 5; CInsert 0 1; CInsert 0 9; CInsert 0 3; CInsert 0 7; CInsert 0 3; CInsert 0 8; CClone 0;
   CInsert 0 6; CInsert 0 2; CInsert 1 4; CEach 0; CEach 1; CLen 0; CGet 1 (fun x => Some (x ?= 4)); CGet 0 (fun x => Some (x ?= 4))].
Example btree_set_ex :
  match wrun Nat.compare 3 false world0 btree_calls with
  | Some (Ret (w, xs)) => skipn 6 xs = [AOpt (Some 3); AOpt None; AUnit; AOpt None; AOpt None; AOpt None; AList [1; 2; 3; 5; 6; 7; 8; 9];
      AList [1; 3; 4; 5; 7; 8; 9]; ANat 8; AOpt (Some 4); AOpt None]
  | _ => False
  end /\ probes_ok Nat.compare btree_calls.
Proof.
  split; [vm_compute; reflexivity|]. intros i p I. cbn in I. repeat (destruct I as [I|I]; [try discriminate I|]); try contradiction;
  injection I as <- <-; apply cmp_probe, nat_order.
Qed.

(** C29, maps: any number of insertions returns what the mathematical map had for the key, and lookups return what it has. *)
Theorem btree_map : forall K V (kcmp : K -> K -> comparison) lim (l : list (K * V)),
  total_order kcmp -> Nat.odd lim = true -> 3 <= lim ->
  exists h t, map_run kcmp lim heap0 None l = Ret (h, t, snd (mrun kcmp (fun _ => None) l)) /\
    forall k, map_get kcmp h t k = Ret (fst (mrun kcmp (fun _ => None) l) k).
Proof.
  intros K V kcmp lim l O D L. apply odd_half in D.
  destruct (map_run_ok kcmp lim O D L l heap0 None [] (fun _ => Info 0 [] 0) (fun _ => None)) as (h & t & F & G & os & E & W & R).
  { split; [apply wf_empty|]. repeat constructor. }
  { reflexivity. }
  exists h, t. destruct (mrun kcmp (fun _ => None) l) as [m os']. destruct R as (-> & R). split; [exact E|]. cbn [fst snd].
  intros k. unfold map_get. pose proof (get_ok (entry_cmp kcmp) lim D L _ _ _ 0 t F _ W (map_probe_ok kcmp O k) eq_refl eq_refl) as Q. cbn [hp] in Q. rewrite Q.
  cbn [bind]. rewrite <- R. reflexivity.
Qed.
Print Assumptions btree_map.
Example btree_map_ex :
  match map_run Nat.compare 3 heap0 None [(3, 30); (1, 10); (2, 20); (1, 11); (4, 40); (5, 50); (4, 41)] with
  | Ret (h, t, os) => os = [None; None; None; Some 10; None; None; Some 40] /\ map_get Nat.compare h t 1 = Ret (Some 11) /\
      map_get Nat.compare h t 4 = Ret (Some 41) /\ map_get Nat.compare h t 6 = Ret None
  | _ => False
  end.
Proof. vm_compute. auto. Qed.

(** C29, documentation of [insert]: without replacement, inserting a value that is present changes nothing at all (no node is cloned),
    and gives the value back. *)
Theorem btree_insert_present : forall T (cmp : T -> T -> comparison) lim cs w xs i t v x,
  total_order cmp -> Nat.odd lim = true -> 3 <= lim -> probes_ok cmp cs ->
  wrun cmp lim false world0 cs = Some (Ret (w, xs)) -> nth_error (sets w) i = Some (Some t) ->
  set_get (hp w) t (fun y => Some (cmp y v)) = Ret (Some x) ->
  set_insert cmp lim false (hp w) t v = Ret (hp w, t, Some v).
Proof.
  intros T cmp lim cs w xs i t v x O D L P E Ei Eg. apply odd_half in D.
  destruct (run_inv cmp lim false O D L cs w xs P E) as (F & G & W).
  destruct t as [a|]; [|discriminate Eg]. destruct (winv_live _ _ _ _ _ _ _ W Ei) as (nd & M). destruct W as (W & _).
  cbn [set_insert]. unfold node_insert. cbn [set_get] in Eg. rewrite Eg. reflexivity.
Qed.
Print Assumptions btree_insert_present.
Example btree_insert_present_ex :
  match wrun Nat.compare 3 false world0 btree_calls with
  | Some (Ret (w, _)) => nth_error (sets w) 1 = Some (Some (Some 12)) /\ set_get (hp w) (Some 12) (fun y => Some (y ?= 4)) = Ret (Some 4)
  | _ => False
  end.
Proof. vm_compute. auto. Qed.

(** C30: after any history, all leaves of a set are at the same depth [n]; its nodes have less than [lim] entries, the top one at least one and
    the others at least [lim / 2]; so [n] is logarithmic in the number of values, and a lookup reads at most [n + 1] nodes. *)
Theorem btree_balanced : forall T (cmp : T -> T -> comparison) lim repl cs w xs i a,
  total_order cmp -> Nat.odd lim = true -> 3 <= lim -> probes_ok cmp cs ->
  wrun cmp lim repl world0 cs = Some (Ret (w, xs)) -> nth_error (sets w) i = Some (Some (Some a)) ->
  exists n len, balanced lim (hp w) n 1 a /\ set_len (hp w) (Some a) = Ret len /\ 2 * (lim / 2 + 1) ^ n <= len + 1 /\
    forall p, lookup_cost (S (next (hp w))) (hp w) p a <= n + 1.
Proof.
  intros T cmp lim repl cs w xs i a O D L P E Ei. apply odd_half in D.
  destruct (run_inv cmp lim repl O D L cs w xs P E) as (F & G & W).
  destruct (winv_live _ _ _ _ _ _ _ W Ei) as (nd & M). destruct W as (W & _).
  pose proof (wf_size _ _ D L _ _ _ W _ a nd M eq_refl) as Z.
  assert (S1 : 1 <= sz (G a)). { destruct (w_loc _ _ _ _ _ W a nd M). lia. }
  assert (B : balanced lim (hp w) (ht (G a)) 1 a) by (eapply wf_balanced; eauto).
  exists (ht (G a)), (length (cont (G a))). split; [exact B|]. split; [|split].
  - pose proof (wf_height _ _ _ _ _ _ _ W M). apply (node_len_ok cmp lim D L _ _ _ W _ a nd M). lia.
  - nia.
  - intros p. rewrite Nat.add_1_r. eapply balanced_cost; eauto.
Qed.
Print Assumptions btree_balanced.
(** Fifteen insertions in increasing order make four levels, and at most four nodes are read. *)
Example btree_balanced_ex :
  match wrun Nat.compare 3 false world0 (CNew :: map (CInsert 0) (seq 1 15)) with
  | Some (Ret (w, _)) => nth_error (sets w) 0 = Some (Some (Some 14)) /\
      map (fun v => lookup_cost 20 (hp w) (fun x => Some (x ?= v)) 14) [4; 6; 8; 15] = [2; 3; 1; 4]
  | _ => False
  end.
Proof. vm_compute. auto. Qed.

(** C31: what a set contains is not changed by any history of calls on the others, whatever they share with it. *)
Theorem btree_snapshot : forall T (cmp : T -> T -> comparison) lim repl cs1 w1 xs1 cs2 w2 xs2 j t,
  total_order cmp -> Nat.odd lim = true -> 3 <= lim -> probes_ok cmp cs1 -> probes_ok cmp cs2 ->
  wrun cmp lim repl world0 cs1 = Some (Ret (w1, xs1)) -> nth_error (sets w1) j = Some (Some t) ->
  wrun cmp lim repl w1 cs2 = Some (Ret (w2, xs2)) -> (forall c, In c cs2 -> ~ changes j c) ->
  nth_error (sets w2) j = Some (Some t) /\
  (exists l, set_each (hp w1) t = Ret l /\ set_each (hp w2) t = Ret l) /\
  (forall p, probe cmp p -> set_get (hp w2) t p = set_get (hp w1) t p).
Proof.
  intros T cmp lim repl cs1 w1 xs1 cs2 w2 xs2 j t O D L P1 P2 E1 Ej E2 N. apply odd_half in D.
  destruct (run_inv cmp lim repl O D L cs1 w1 xs1 P1 E1) as (F1 & G1 & W1).
  pose proof (run_sim cmp lim repl O D L cs2 w1 F1 G1 W1 P2) as S. rewrite E2 in S. destruct S as (F2 & ys & G2 & R & _ & W2).
  destruct (spec_of _ _ _ _ _ _ _ W1 Ej) as (l & Fj).
  pose proof (frun_other cmp repl cs2 _ _ _ j _ R N Fj) as Fj2.
  pose proof (wrun_other cmp lim repl cs2 _ _ _ j _ E2 N Ej) as Ej2.
  split; [exact Ej2|].
  destruct (each_ok cmp lim D L _ _ _ _ _ _ W1 Ej Fj) as (A1 & B1 & C1).
  destruct (each_ok cmp lim D L _ _ _ _ _ _ W2 Ej2 Fj2) as (A2 & B2 & C2).
  split.
  - exists (below G1 t). split; [exact A1|]. rewrite A2. f_equal. apply (sorted_unique cmp O); auto. etransitivity; [exact B2|symmetry; exact B1].
  - intros p Pp. rewrite (get_ok cmp lim D L _ _ _ _ _ _ p W1 Pp Ej Fj), (get_ok cmp lim D L _ _ _ _ _ _ p W2 Pp Ej2 Fj2). reflexivity.
Qed.
Print Assumptions btree_snapshot.
(** Above, after the clone (call 9), insertions in set 0 cloned shared nodes and left set 1 as it was. *)
Example btree_snapshot_ex :
  match wrun Nat.compare 3 false world0 (firstn 9 btree_calls) with
  | Some (Ret (w1, _)) =>
      match wrun Nat.compare 3 false w1 [CInsert 0 6; CInsert 0 2] with
      | Some (Ret (w2, _)) => nth_error (sets w1) 1 = Some (Some (Some 2)) /\ nth_error (sets w1) 0 = Some (Some (Some 2)) /\
          nth_error (sets w2) 0 = Some (Some (Some 9)) /\ set_each (hp w2) (Some 2) = Ret [1; 3; 5; 7; 8; 9] /\
          set_each (hp w2) (Some 9) = Ret [1; 2; 3; 5; 6; 7; 8; 9]
      | _ => False
      end
  | _ => False
  end.
Proof. vm_compute. auto. Qed.

(** C59: after any history, the nodes in memory are those that can be reached from the sets that exist: nothing is released
    while in use, everything is once unused. *)
Theorem btree_released : forall T (cmp : T -> T -> comparison) lim repl cs w xs,
  total_order cmp -> Nat.odd lim = true -> 3 <= lim -> probes_ok cmp cs ->
  wrun cmp lim repl world0 cs = Some (Ret (w, xs)) ->
  forall a, (exists nd, mem (hp w) a = Some nd) <-> reachable w a.
Proof.
  intros T cmp lim repl cs w xs O D L P E a. apply odd_half in D.
  destruct (run_inv cmp lim repl O D L cs w xs P E) as (F & G & W). split.
  - intros (nd & M). eapply (wf_reach cmp lim D L w F G W); eauto.
  - apply (reach_live cmp lim w F G a W).
Qed.
Print Assumptions btree_released.
(** All thirteen nodes of the history above are released when both sets are. *)
Example btree_released_ex :
  match wrun Nat.compare 3 false world0 (btree_calls ++ [CDrop 0; CDrop 1]) with
  | Some (Ret (w, _)) => sets w = [None; None] /\ next (hp w) = 13 /\ map (mem (hp w)) (seq 0 13) = repeat None 13
  | _ => False
  end.
Proof. vm_compute. auto. Qed.

(** C60 is false of SPLIT_LIMIT = 1, which [from_alloc] accepts (arc_btree.rs:355-357): the first insertion panics. *)
Theorem btree_limit_one_refuted : exists cs, Nat.odd 1 = true /\ wrun Nat.compare 1 false world0 cs = Some Panic.
Proof. exists [CNew; CInsert 0 7]. split; reflexivity. Qed.
Print Assumptions btree_limit_one_refuted.
(** C60 is false of even limits, which [AtomicArcBTreeSet] never checks (it makes its sets by [copy_from_ptr], arc_btree.rs:273-276,
    not by [from_alloc]): as many insertions as the limit read past the end of the array of entries. *)
Theorem btree_even_limit_refuted : exists lim cs, Nat.even lim = true /\ wrun Nat.compare lim false world0 cs = Some Fault.
Proof. exists 4, [CNew; CInsert 0 1; CInsert 0 2; CInsert 0 3; CInsert 0 4]. split; vm_compute; reflexivity. Qed.
Print Assumptions btree_even_limit_refuted.
