(** C89: vectors and boxed slices in memory. *)
From Coq Require Import NArith List Bool Lia Permutation.
From Verif Require Import M_Alloc S_Alloc M_Vec M_VecMem S_VecMem L_VecMem.
Import ListNotations.
Local Open Scope N_scope.
Ltac Zify.zify_post_hook ::= idtac.

(** A heap with one foreign block, of 8 bytes at 4096. *)
Definition h_one : heap := Heap [(4096, 8)] (fun x => if (4096 <=? x) && (x <? 4104) then Some 7 else None).
(** [u32] in [RustAlloc]: an [AllocPrefix] of 32 bytes aligned to 8. *)
Example u32_ok : types_ok 4 4 32 8.
Proof.
  assert (forall k : N, alignment (2 ^ k)) as AL by (intros k; exists k; reflexivity).
  unfold types_ok. split; [lia|]. split; [lia|]. split; [exact (AL 2)|]. split; [exists 1; reflexivity|].
  split; [exact (AL 3)|]. split; [exists 4; reflexivity|]. repeat split; lia.
Qed.
Example h_one_ok : heap_ok h_one.
Proof. split; [repeat constructor | repeat constructor]. Qed.
(** The elements of the examples. *)
Definition el (x : N) : elem := [x; 0; 0; 0].
(** Two vectors grow in turns, one is cloned, one becomes a boxed slice. *)
Definition prog1 : list op :=
  [New; New; Reserve 0 2 8192; Push 0 (el 1) 0; Reserve 1 1 8256; Push 1 (el 9) 0; Push 0 (el 2) 0; Push 0 (el 3) 8320;
   CloneV 0 12288; Remove 0 0; Swap 2 0 2; Extend 1 [el 5; el 6] 3 16384; DrainV 2 0 2 1; IntoBoxed 1; Push 1 (el 8) 0;
   Push 1 (el 8) 0; Read 0; Read 1; Read 2; Push 2 (el 4) 0].
Example prog1_ok : Forall (op_ok 4) prog1.
Proof. repeat constructor; vm_compute; discriminate. Qed.

(** Whatever a program does with its vectors and boxed slices, on whatever heap and with whatever allocator, no
    access leaves the blocks that are live and initialised, and each object is a list that only its own operations change. *)
Theorem vecmem_refines_partial : forall s a psz pal os h0,
  types_ok s a psz pal -> heap_ok h0 -> Forall (op_ok s) os ->
  exists tr w h ls, run s a psz pal os ([], h0) = Some (tr, (w, h)) /\ history s a psz pal os ([], h0) [] (w, h) ls.
Proof.
  intros s a psz pal os h0 TOK H OK.
  destruct (run_good s a psz pal TOK os (blocks h0) (mem h0) [] h0 OK (inv_start s a psz pal h0 H)) as (tr & gs & h & E & Hi & _).
  exists tr, (map gw gs), h, (map ga gs). auto.
Qed.
Print Assumptions vecmem_refines_partial.
Example vecmem_refines_ex : option_map fst (run 4 4 32 8 prog1 ([], h_one)) =
  Some [Obs true [] []; Obs true [] []; Obs true [] []; Obs true [] []; Obs true [] []; Obs true [] []; Obs true [] []; Obs true [] [];
        Obs true [] []; Obs true [el 1] []; Obs true [] []; Obs true [] []; Obs true [el 3] [el 2]; Obs true [] []; Obs true [] [];
        Obs false [] []; Obs true [el 2; el 3] []; Obs true [el 9; el 5; el 6; el 8] []; Obs true [el 1] []; Obs true [] []].
Proof. vm_compute. reflexivity. Qed.

(** Blocks that belong to others stay live, and no byte of them changes. *)
Theorem vecmem_frame : forall s a psz pal os h0 tr w h,
  types_ok s a psz pal -> heap_ok h0 -> Forall (op_ok s) os -> run s a psz pal os ([], h0) = Some (tr, (w, h)) ->
  heap_ok h /\ forall b, In b (blocks h0) -> In b (blocks h) /\ forall x, fst b <= x < fst b + snd b -> mem h x = mem h0 x.
Proof.
  intros s a psz pal os h0 tr w h TOK H OK R.
  destruct (run_good s a psz pal TOK os (blocks h0) (mem h0) [] h0 OK (inv_start s a psz pal h0 H))
    as (tr' & gs & h' & E & _ & ((P & W) & _ & K)).
  cbn [map] in E. rewrite R in E. injection E as _ _ <-. split; [exact W|].
  intros b Hb. split; [|intros x Hx; exact (K x b Hb Hx)].
  eapply Permutation_in; [apply Permutation_sym; exact P|]. apply in_or_app. auto.
Qed.
Print Assumptions vecmem_frame.
Example vecmem_frame_ex : match run 4 4 32 8 prog1 ([], h_one) with
  | Some (_, (_, h)) => map fst (blocks h) = [16384; 12288; 8320; 4096] /\ mem h 4100 = Some 7
  | None => False
  end.
Proof. vm_compute. split; reflexivity. Qed.

(** Nothing leaks: once every object is dropped, the live blocks are those there were. *)
Theorem vecmem_no_leak : forall s a psz pal os h0 tr w h,
  types_ok s a psz pal -> heap_ok h0 -> Forall (op_ok s) os -> run s a psz pal os ([], h0) = Some (tr, (w, h)) ->
  (forall x, In x w -> x = None) -> Permutation (blocks h) (blocks h0).
Proof.
  intros s a psz pal os h0 tr w h TOK H OK R D.
  destruct (run_good s a psz pal TOK os (blocks h0) (mem h0) [] h0 OK (inv_start s a psz pal h0 H))
    as (tr' & gs & h' & E & _ & ((P & _) & _ & _)).
  cbn [map] in E. rewrite R in E. injection E as _ -> <-.
  assert (flat_map (gblocks s a psz pal) gs = []) as Z.
  { clear - D. induction gs as [|g gs IH]; [reflexivity|]. cbn [flat_map]. rewrite IH by (intros x Hx; apply D; right; exact Hx).
    specialize (D (gw g) (or_introl eq_refl)). destruct g as [[[x l] c]|]; [discriminate | reflexivity]. }
  rewrite Z in P. exact P.
Qed.
Print Assumptions vecmem_no_leak.
Example vecmem_no_leak_ex : match run 4 4 32 8 (prog1 ++ [DropO 0; DropO 1; DropO 2]) ([], h_one) with
  | Some (tr, (w, h)) => w = [None; None; None] /\ blocks h = [(4096, 8)] /\
      skipn 20 tr = [Obs true [] [el 2; el 3]; Obs true [] [el 9; el 5; el 6; el 8]; Obs true [] [el 1; el 4]]
  | None => False
  end.
Proof. vm_compute. repeat split. Qed.

(** After a successful [reserve(n)], [n] pushes succeed without the allocator; also if the vector is made a boxed
    slice in between. *)
Theorem vecmem_room : forall s a psz pal os h0 tr st0 i n ans st (ps : list (elem * N)),
  types_ok s a psz pal -> heap_ok h0 -> Forall (op_ok s) os -> run s a psz pal os ([], h0) = Some (tr, st0) ->
  op_ok s (Reserve i n ans) -> step s a psz pal (Reserve i n ans) st0 = Some (Obs true [] [], st) ->
  Forall (fun p => length (fst p) = s) ps -> N.of_nat (length ps) <= n ->
  let pushes := map (fun p => Push i (fst p) (snd p)) ps in
  (exists st', run s a psz pal pushes st = Some (map (fun _ => Obs true [] []) ps, st') /\ blocks (snd st') = blocks (snd st)) /\
  (forall st1, step s a psz pal (IntoBoxed i) st = Some (Obs true [] [], st1) ->
   exists st', run s a psz pal pushes st1 = Some (map (fun _ => Obs true [] []) ps, st') /\ blocks (snd st') = blocks (snd st1)).
Proof.
  intros s a psz pal os h0 tr st0 i n ans st ps TOK H OK R OKR E L C pushes.
  destruct (run_good s a psz pal TOK os (blocks h0) (mem h0) [] h0 OK (inv_start s a psz pal h0 H)) as (tr' & gs & h & E' & _ & I).
  cbn [map] in E'. rewrite R in E'. injection E' as _ ->.
  destruct (reserved s a psz pal TOK _ _ gs h i n ans st I OKR E) as (g1 & g2 & v & l & c & h' & -> & -> & I' & C'). split.
  - destruct (pushes_vec s a psz pal TOK ps _ _ g1 g2 v l c h' I' L) as (w2 & h2 & E2 & B2); [lia|]. exists (w2, h2). auto.
  - intros st1 E1. destruct (boxed_after s a psz pal TOK _ _ g1 g2 v l c h' st1 I' E1) as (b & h1 & -> & I1).
    destruct (pushes_box s a psz pal TOK ps _ _ g1 g2 b l c h1 I1 L) as (w2 & h2 & E2 & B2); [lia|]. exists (w2, h2). auto.
Qed.
Print Assumptions vecmem_room.
Example vecmem_room_ex : option_map fst (run 4 4 32 8 [New; Reserve 0 3 8192; Push 0 (el 1) 0; IntoBoxed 0; Push 0 (el 2) 0; Push 0 (el 3) 0;
    Push 0 (el 4) 0; IntoVec 0; Push 0 (el 4) 0; Push 0 (el 4) 12288; Read 0] ([], h_one)) =
  Some [Obs true [] []; Obs true [] []; Obs true [] []; Obs true [] []; Obs true [] []; Obs true [] []; Obs false [] []; Obs true [] [];
        Obs false [] []; Obs true [] []; Obs true [el 1; el 2; el 3; el 4] []].
Proof. vm_compute. reflexivity. Qed.

(** A heap with nothing in it, and an element of 16 bytes. *)
Definition h_none : heap := Heap [] (fun _ => None).
Definition e16 : elem := repeat 1 16.

(** Elements aligned to 16, where the prefix is aligned to 8: the block asked from the allocator is aligned to 8 only and has
    no room for the shift; the very first element is written past its end. *)
Theorem vecmem_overaligned_refuted :
  (exists p, 32 <= p /\ array_layout p 8 16 16 1 = {| lsize := p + 16; lalign := 8 |}) /\ heap_ok h_none /\
  exists os, Forall (op_ok 16) os /\ run 16 16 32 8 os ([], h_none) = None.
Proof.
  split; [exists 32; split; [lia | vm_compute; reflexivity]|]. split; [split; constructor|].
  exists [New; Reserve 0 1 8200; Push 0 e16 0]. split; [repeat constructor; vm_compute; discriminate | vm_compute; reflexivity].
Qed.
Print Assumptions vecmem_overaligned_refuted.

(** The size of the block is computed modulo 2^64: [reserve(2^60 + 1)] of 16-byte elements succeeds, with room for one;
    [extend] from an iterator whose [size_hint] says as much (a filter over a long range) writes out of the block. *)
Theorem vecmem_overflow_refuted : types_ok 16 8 32 8 /\
  (exists tr w h, run 16 8 32 8 [New; Reserve 0 (2 ^ 60 + 1) 8192] ([], h_none) = Some (tr, (w, h)) /\
     tr = [Obs true [] []; Obs true [] []] /\ blocks h = [(8192, 48)]) /\
  run 16 8 32 8 [New; Extend 0 [e16; e16] (2 ^ 60 + 1) 8192] ([], h_none) = None.
Proof.
  split; [|split].
  - assert (forall k : N, alignment (2 ^ k)) as AL by (intros k; exists k; reflexivity).
    unfold types_ok. split; [lia|]. split; [lia|]. split; [exact (AL 3)|]. split; [exists 2; reflexivity|].
    split; [exact (AL 3)|]. split; [exists 4; reflexivity|]. repeat split; lia.
  - destruct (run 16 8 32 8 [New; Reserve 0 (2 ^ 60 + 1) 8192] ([], h_none)) as [[tr [w h]]|] eqn:E.
    + exists tr, w, h. split; [reflexivity|].
      assert (option_map (fun r => (fst r, blocks (snd (snd r)))) (run 16 8 32 8 [New; Reserve 0 (2 ^ 60 + 1) 8192] ([], h_none)) =
              Some ([Obs true [] []; Obs true [] []], [(8192, 48)])) as X by (vm_compute; reflexivity).
      rewrite E in X. cbn [option_map fst snd] in X. injection X as -> ->. auto.
    + assert (match run 16 8 32 8 [New; Reserve 0 (2 ^ 60 + 1) 8192] ([], h_none) with None => false | Some _ => true end = true) as X
        by (vm_compute; reflexivity).
      rewrite E in X. discriminate.
  - vm_compute. reflexivity.
Qed.
Print Assumptions vecmem_overflow_refuted.

(** Boxed slices made from empty vectors: one with a capacity is never freed; pushing to one without reads a prefix
    that is not there, at every address. *)
Theorem vecmem_empty_boxed_refuted :
  (exists h v b h', run 4 4 32 8 [New; Reserve 0 1 8192] ([], h_none) = Some ([Obs true [] []; Obs true [] []], ([Some (OV v)], h)) /\
     m_into_boxed 4 32 h v = Some (b, h') /\ option_map (fun r => (fst r, blocks (snd r))) (b_drop 4 32 h' b) = Some ([], [(8192, 40)])) /\
  (forall e, m_into_boxed 4 32 h_none (m_new 4) = Some (MB 4 4, h_none) /\ b_push 4 32 h_none (MB 4 4) e = None).
Proof.
  split.
  - set (r := run 4 4 32 8 [New; Reserve 0 1 8192] ([], h_none)).
    assert (match r with
            | Some (tr, ([Some (OV v)], h)) =>
                tr = [Obs true [] []; Obs true [] []] /\
                match m_into_boxed 4 32 h v with
                | Some (b, h') => option_map (fun r => (fst r, blocks (snd r))) (b_drop 4 32 h' b) = Some ([], [(8192, 40)])
                | None => False
                end
            | _ => False
            end) as X by (vm_compute; split; reflexivity).
    destruct r as [[tr [w h]]|]; [|contradiction]. destruct w as [|[[v|]|] [|]]; try contradiction. destruct X as [-> X].
    destruct (m_into_boxed 4 32 h v) as [[b h']|] eqn:E; [|contradiction]. exists h, v, b, h'. auto.
  - intros e. split; reflexivity.
Qed.
Print Assumptions vecmem_empty_boxed_refuted.
