(** C91: shared slices in memory. *)
From Coq Require Import NArith List Bool Lia Permutation.
From Verif Require Import M_Alloc S_Alloc M_Vec M_VecMem S_VecMem M_ShMem S_ShMem L_VecMem L_ShMem.
Import ListNotations.
Local Open Scope N_scope.
Ltac Zify.zify_post_hook ::= idtac.

(** A heap with one foreign block, of 8 bytes at 4096. *)
Definition g_one : heap := Heap [(4096, 8)] (fun x => if (4096 <=? x) && (x <? 4104) then Some 7 else None).
Example g_one_ok : heap_ok g_one.
Proof. split; [repeat constructor | repeat constructor]. Qed.
(** [u32] with a prefix of [n] bytes aligned to 8. *)
Example w32_ok : types_ok 4 4 32 8 /\ types_ok 4 4 40 8.
Proof.
  assert (forall k : N, alignment (2 ^ k)) as AL by (intros k; exists k; reflexivity).
  split; unfold types_ok; (split; [lia|]); (split; [lia|]); (split; [exact (AL 2)|]); (split; [exists 1; reflexivity|]);
    (split; [exact (AL 3)|]); [split; [exists 4; reflexivity|]|split; [exists 5; reflexivity|]]; repeat split; lia.
Qed.
Definition e4 (x : N) : elem := [x; 0; 0; 0].
(** A vector is shared, cloned, downgraded; written while there is but one handle; a second vector in between. *)
Definition sprog : list sop :=
  [Owned New; Owned (Reserve 0 2 8192); Owned (Push 0 (e4 1) 0); Owned (Push 0 (e4 2) 0); Share 0; SetH 0 1 (e4 5); CloneH 0;
   SetH 0 1 (e4 6); Downgrade 1; Owned New; Owned (Reserve 1 1 8256); Owned (Push 1 (e4 9) 0); Counts 0; Unshare 0; ReadH 1; DropH 0;
   Upgrade 2; DropH 1; DropH 3; Upgrade 2; ForceUpgrade 2; Share 1; ReadH 0].
Example sprog_ok : Forall (sop_ok 4) sprog /\ N.of_nat (length sprog) < 2 ^ 62.
Proof. split; [repeat constructor; vm_compute; discriminate|reflexivity]. Qed.

(** Whatever a program does with its vectors, its boxed slices and its handles to shared slices, on whatever heap and with whatever
    allocator, no access leaves the blocks that are live and initialised, the handles to a slice see the same list, and their
    counts are those of the handles there are. *)
Theorem shmem_refines_partial : forall s a psz pal copy os h0,
  types_ok s a psz pal -> heap_ok h0 -> Forall (sop_ok s) os -> N.of_nat (length os) < 2 ^ 62 ->
  exists tr st ls, srun s a psz pal copy os ([], [], h0) = Some (tr, st) /\
    shistory s a psz pal copy os ([], [], h0) ([], [], []) st ls.
Proof.
  intros s a psz pal copy os h0 TOK H OK B.
  destruct (srun_good s a psz pal copy TOK os (blocks h0) (mem h0) [] [] [] [] h0 OK (sinv_start s a psz pal h0 H) B)
    as (tr & gs & gh & cs & acs & h & E & Hi & _).
  eexists tr, _, _. split; [exact E|exact Hi].
Qed.
Print Assumptions shmem_refines_partial.
Example shmem_refines_ex : option_map fst (srun 4 4 32 8 false sprog ([], [], g_one)) =
  Some (repeat yes 7 ++ [no; yes; yes; yes; yes; (Obs true [] [], [2; 2]); no; (Obs true [e4 1; e4 5] [], []); yes; yes; yes;
        (Obs true [] [e4 1; e4 5], []); no; no; yes; no]).
Proof. vm_compute. reflexivity. Qed.

(** Blocks that belong to others stay live, and no byte of them changes. *)
Theorem shmem_frame : forall s a psz pal copy os h0 tr w hs h,
  types_ok s a psz pal -> heap_ok h0 -> Forall (sop_ok s) os -> N.of_nat (length os) < 2 ^ 62 ->
  srun s a psz pal copy os ([], [], h0) = Some (tr, (w, hs, h)) ->
  heap_ok h /\ forall b, In b (blocks h0) -> In b (blocks h) /\ forall x, fst b <= x < fst b + snd b -> mem h x = mem h0 x.
Proof.
  intros s a psz pal copy os h0 tr w hs h TOK H OK B R.
  destruct (srun_good s a psz pal copy TOK os (blocks h0) (mem h0) [] [] [] [] h0 OK (sinv_start s a psz pal h0 H) B)
    as (tr' & gs & gh & cs & acs & h' & E & _ & ((P & W) & _ & _ & K) & _).
  cbn [map] in E. rewrite R in E. injection E as _ _ _ <-. split; [exact W|].
  intros b Hb. split; [|intros x Hx; exact (K x b Hb Hx)].
  eapply Permutation_in; [apply Permutation_sym; exact P|]. apply in_or_app. right. apply in_or_app. right. exact Hb.
Qed.
Print Assumptions shmem_frame.
Example shmem_frame_ex : match srun 4 4 32 8 false sprog ([], [], g_one) with
  | Some (_, (_, h)) => blocks h = [(8256, 40); (8192, 40); (4096, 8)] /\ mem h 4100 = Some 7
  | None => False
  end.
Proof. vm_compute. split; reflexivity. Qed.

(** Nothing leaks: once every object and every handle is dropped, the live blocks are those there were. *)
Theorem shmem_no_leak : forall s a psz pal copy os h0 tr w hs h,
  types_ok s a psz pal -> heap_ok h0 -> Forall (sop_ok s) os -> N.of_nat (length os) < 2 ^ 62 ->
  srun s a psz pal copy os ([], [], h0) = Some (tr, (w, hs, h)) ->
  (forall x, In x w -> x = None) -> (forall x, In x hs -> x = None) -> Permutation (blocks h) (blocks h0).
Proof.
  intros s a psz pal copy os h0 tr w hs h TOK H OK B R D1 D2.
  destruct (srun_good s a psz pal copy TOK os (blocks h0) (mem h0) [] [] [] [] h0 OK (sinv_start s a psz pal h0 H) B)
    as (tr' & gs & gh & cs & acs & h' & E & _ & ((P & _) & _ & _ & _) & HI).
  cbn [map] in E. rewrite R in E. injection E as _ -> -> <-.
  rewrite (no_objects s a psz pal gs D1) in P. rewrite (no_cells s a psz pal gh cs acs HI D2) in P. exact P.
Qed.
Print Assumptions shmem_no_leak.
Example shmem_no_leak_ex : match srun 4 4 32 8 false (sprog ++ [DropH 2; DropH 4]) ([], [], g_one) with
  | Some (tr, (w, hs, h)) => w = [None; None] /\ hs = [None; None; None; None; None] /\ blocks h = [(4096, 8)] /\
      skipn 23 tr = [yes; (Obs true [] [e4 9], [])]
  | None => False
  end.
Proof. vm_compute. repeat split. Qed.

(** What a forced upgrade gives back is the list that was shared, also after its last strong handle is gone. *)
Example shmem_force_ex : option_map fst (srun 4 4 32 8 true [Owned New; Owned (Reserve 0 1 8192); Owned (Push 0 (e4 3) 0); Share 0; Downgrade 0;
    DropH 0; Upgrade 1; ForceUpgrade 1; ReadH 2; Counts 2; DropH 2; DropH 1] ([], [], g_one)) =
  Some [yes; yes; yes; yes; yes; yes; no; yes; (Obs true [e4 3] [], []); (Obs true [] [], [1; 2]); yes; yes].
Proof. vm_compute. reflexivity. Qed.

(** Sharing a vector without capacity writes the allocator to the prefix of the vector's own, dangling, pointer: with an
    allocator that has a size, that is outside the block it just got. *)
Theorem shmem_empty_alloc_refuted : types_ok 4 4 40 8 /\ grants [] 40 8 8192 = true /\
  exists os w h v, Forall (sop_ok 4) os /\ option_map snd (srun 4 4 40 8 false os ([], [], Heap [] (fun _ => None))) = Some (w, [], h) /\
    nth_error w 0 = Some (Some (OV v)) /\ s_of_vec 4 4 40 8 h v 8192 = None.
Proof.
  split; [exact (proj2 w32_ok)|]. split; [vm_compute; reflexivity|].
  exists [Owned New], [Some (OV (m_new 4))], (Heap [] (fun _ => None)), (m_new 4).
  split; [repeat constructor|]. split; [reflexivity|]. split; [reflexivity|]. vm_compute. reflexivity.
Qed.
Print Assumptions shmem_empty_alloc_refuted.

(** With one that has none, the block made for it is lost once the slice is made a vector again: that vector has no capacity. *)
Theorem shmem_empty_leak_refuted : types_ok 4 4 32 8 /\
  match s_of_vec 4 4 32 8 (Heap [] (fun _ => None)) (m_new 4) 8192 with
  | Some (Some b, h) =>
      match s_into_vec 4 32 h b with
      | Some (Some v) => match m_drop 4 32 h v with Some (d, h') => d = [] /\ blocks h' = [(8192, 32)] | None => False end
      | _ => False
      end
  | _ => False
  end.
Proof. split; [exact (proj1 w32_ok)|]. vm_compute. split; reflexivity. Qed.
Print Assumptions shmem_empty_leak_refuted.
