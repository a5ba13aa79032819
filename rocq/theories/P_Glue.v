(** C105: adapters. *)
From Coq Require Import List Arith NArith Bool Lia.
From Verif Require Import M_Layout M_Result M_Enum M_Vec M_Alloc M_Glue S_Layout S_Vec S_Glue L_Glue.
Import ListNotations.
Ltac Zify.zify_post_hook ::= idtac.

(** A [write_all] is all or nothing, and a vector written to holds what the calls that succeeded wrote. Missing: lengths about the address space. *)
Theorem io_write_partial : forall calls v l, holds 1 v l -> fits 1 (N.of_nat (length l + total (map snd calls))) ->
  exists bs v', io_session calls v = Some (bs, v') /\ length bs = length calls /\ holds 1 v' (l ++ written bs (map snd calls)) /\
    (forall i ok buf, nth_error calls i = Some (ok, buf) -> nth_error bs i = Some false -> exists k, ok k = false).
Proof. exact session_spec. Qed.
Print Assumptions io_write_partial.
Example io_write_ex : exists v, io_session [(fun _ => true, [104; 105]%N); (fun _ => false, repeat 120%N 20); (fun _ => true, [33]%N)] (Vec [] 0 0%N)
  = Some ([true; false; true], v) /\ v_as_slice v = Some [104; 105; 33]%N.
Proof. eexists. split; vm_compute; reflexivity. Qed.

(** A [Cow] gives what it was made of. Missing: owned types the niches of whose fields are shared. *)
Theorem cow_partial : forall o dup f inner g, wf (TResult (TRef 8) o) -> implements (TRef 8) o dup f -> implements o (TRef 8) inner g ->
  (forall w x, decode (TRef 8) w = Some x -> exists s s' v v',
     cow_borrowed o w = Some s /\ cow_borrow o inner s = Some w /\
     cow_into_owned o dup s = Some v /\ decode o v = Some (f x) /\
     cow_to_owned o dup s = Some s' /\ cow_into_owned o dup s' = Some v' /\ decode o v' = Some (f x)) /\
  (forall w x, decode o w = Some x -> exists s s' r v v',
     cow_owned o w = Some s /\ cow_borrow o inner s = Some r /\ decode (TRef 8) r = Some (g x) /\
     cow_into_owned o dup s = Some v /\ decode o v = Some x /\
     cow_to_owned o dup s = Some s' /\ cow_into_owned o dup s' = Some v' /\ decode o v' = Some x).
Proof.
  intros o dup f inner g W D B. split; intros w x E.
  - destruct (cow_borrowed_spec o w x W E) as (s & E1 & E2).
    destruct (cow_owned_spec o (dup w) (f x) W (D w x E)) as (s' & v' & E3 & E4 & E5).
    exists s, s', (dup w), v'. unfold cow_to_owned, cow_into_owned, cow_borrow. rewrite E2, E4, E3.
    split; [exact E1|]. split; [reflexivity|]. split; [reflexivity|]. split; [exact (D w x E)|]. auto.
  - destruct (cow_owned_spec o w x W E) as (s & v & E1 & E2 & E3).
    destruct (cow_owned_spec o v x W E3) as (s' & v' & E4 & E5 & E6).
    exists s, s', (inner v), v, v'. unfold cow_to_owned, cow_into_owned, cow_borrow. rewrite E2, E4, E5.
    split; [exact E1|]. split; [reflexivity|]. split; [exact (B v x E3)|]. split; [reflexivity|]. auto.
Qed.
Print Assumptions cow_partial.
Example cow_ex : let o := TPlain 8 8 in wf (TResult (TRef 8) o) /\
  exists s s', cow_borrowed o [16; 0; 0; 0; 0; 0; 0; 1]%N = Some s /\ cow_to_owned o (fun _ => repeat 7%N 8) s = Some s' /\
    cow_into_owned o (fun _ => repeat 7%N 8) s' = Some (repeat 7%N 8) /\ enum_match (cow_variants o) s' = Some (1, repeat 7%N 8).
Proof. split; [vm_compute; reflexivity|]. do 2 eexists. split; [vm_compute; reflexivity|]. split; [vm_compute; reflexivity|]. split; vm_compute; reflexivity. Qed.
(** Owned types as in C09: the tag is written over a field of the owned value. *)
Definition shared : ty := struct_ty [TResult (struct_ty [TPlain 1 1; TPlain 1 1; TBool]) (TPlain 2 2); TPlain 1 1].
Theorem cow_refuted : exists o dup w x s, grammar (TResult (TRef 8) o) /\ decode o w = Some x /\
  cow_owned o w = Some s /\ cow_into_owned o dup s <> None /\ (forall v, cow_into_owned o dup s = Some v -> decode o v <> Some x).
Proof.
  exists (struct_ty [TPlain 8 8; shared; TPlain 4 4]), (fun r => r), [0; 0; 0; 0; 0; 0; 0; 0; 7; 8; 1; 3; 0; 0; 0; 0]%N. do 2 eexists.
  split; [vm_compute; reflexivity|]. split; [vm_compute; reflexivity|]. split; [vm_compute; reflexivity|].
  split; [vm_compute; discriminate|]. intros v. vm_compute. intros E. injection E as <-. vm_compute. discriminate.
Qed.
Print Assumptions cow_refuted.

(** Through [IMap], a map answers as a map does. Missing: values the niches of whose fields are shared. *)
Theorem imap_partial : forall t cs, wf t -> Forall (call_ok t) cs ->
  exists xs m', imap_run t cs [] = Some (xs, m') /\ Forall2 (same t) xs (run_spec (decode t) cs (fun _ => None)).
Proof. intros t cs W F. apply imap_run_spec; auto. intros k. exact I. Qed.
Print Assumptions imap_partial.
Example imap_ex : let a := [8; 0; 0; 0; 0; 0; 0; 0]%N in
  let cs := [Insert 3 [1]; Get 3 a; GetMut 3 a [0]; GetMut 4 a [1]; Get 4 a; Insert 3 [1]; Insert 3 [0]]%N in
  wf TBool /\ Forall (call_ok TBool) cs /\
  option_map fst (imap_run TBool cs []) = Some [None; Some [1]; Some [1]; None; None; Some [0]; Some [1]]%N.
Proof. cbv zeta. split; [vm_compute; reflexivity|]. split; [|vm_compute; reflexivity]. repeat (apply Forall_cons || apply Forall_nil); cbn [call_ok]; try split; vm_compute; discriminate. Qed.
(** [insert] of a value as in C09 returns another value than the one inserted before. *)
Theorem imap_refuted : exists t cs xs m', grammar t /\ Forall (call_ok t) cs /\
  imap_run t cs [] = Some (xs, m') /\ ~ Forall2 (same t) xs (run_spec (decode t) cs (fun _ => None)).
Proof.
  exists shared, [Insert 1 [7; 8; 1; 3]; Insert 1 [7; 8; 1; 2]]%N. do 2 eexists. split; [vm_compute; reflexivity|].
  split; [repeat (apply Forall_cons || apply Forall_nil); cbn [call_ok]; vm_compute; discriminate|]. split; [vm_compute; reflexivity|].
  intros F. vm_compute in F. inversion F as [|? ? ? ? _ F']; subst. inversion F' as [|? ? ? ? A _]; subst. vm_compute in A. discriminate.
Qed.
Print Assumptions imap_refuted.

(** An allocator behind any number of trait objects does what it does directly. *)
Theorem alloc_tower_exact : forall St n (A : ialloc St) cs s, acalls_run (tower n A) cs s = acalls_run A cs s.
Proof. intros. apply tower_runs. Qed.
Print Assumptions alloc_tower_exact.
(** Without [unsafe], [IAlloc] (not [IStableAlloc]) does no harm: nothing is touched, and blocks stay. Given that the system has memory (C16). *)
Theorem alloc_safe_partial : forall cs s, forallb (safe_method ViaIAlloc) cs = true ->
  length cs <= length (fst s) -> Forall (fun a => a <> 0%N) (fst s) ->
  let r := acalls_run (through ViaIAlloc the_rust_alloc) cs s in
  ~ In Fault (fst r) /\ forall b, In b (live (snd s)) -> In b (live (snd (snd r))).
Proof.
  intros cs s F L Z. cbn [through].
  refine (safe_runs the_rust_alloc (fun n s => n <= length (fst s) /\ Forall (fun a => a <> 0%N) (fst s)) (fun s s' => forall b, In b (live (snd s)) -> In b (live (snd s'))) _ _ _ cs s F (conj L Z)).
  - auto.
  - auto.
  - intros n l [ans g] [L1 Z1]. cbn [fst snd] in *. destruct ans as [|a r]; [cbn in L1; lia|]. inversion Z1; subst. cbn [length] in L1.
    cbn [the_rust_alloc al_alloc next_ans fst snd]. unfold rust_alloc. destruct (valid_lay _); [|cbn [fst snd]; repeat split; auto; [discriminate|lia]].
    destruct (N.eqb_spec a 0); [tauto|]. cbn [fst snd live]. repeat split; auto; [discriminate|lia|]. intros b B. right. auto.
Qed.
Print Assumptions alloc_safe_partial.
Example alloc_safe_ex : let s := ([4096; 8192]%N, GH [] (fun _ => None)) in
  let cs := [CAlloc (Lay 16 8); CAlloc (Lay 8 64)] in forallb (safe_method ViaIAlloc) cs = true /\
  fst (acalls_run (tower 3 the_rust_alloc) cs s) = [Ptr 4128; Ptr 8256] /\
  map fst (live (snd (snd (acalls_run (tower 3 the_rust_alloc) cs s)))) = [8192; 4096]%N.
Proof. cbv zeta. split; [reflexivity|]. split; vm_compute; reflexivity. Qed.
(** [IStableAlloc] says that its pointers must come from it, but its methods are not [unsafe]: freeing whatever one likes faults, and another owner's block goes. *)
Theorem alloc_safe_refuted :
  (exists cs s, forallb (safe_method ViaStable) cs = true /\ In Fault (fst (acalls_run (through ViaStable the_rust_alloc) cs s))) /\
  (exists cs s b, forallb (safe_method ViaStable) cs = true /\ ~ In Fault (fst (acalls_run (through ViaStable the_rust_alloc) cs s)) /\
     In b (live (snd s)) /\ ~ In b (live (snd (snd (acalls_run (through ViaStable the_rust_alloc) cs s))))).
Proof.
  split.
  - exists [CFree 8], ([], GH [] (fun _ => None)). split; [reflexivity|]. vm_compute. auto.
  - exists [CFree 4128], (snd (acalls_run the_rust_alloc [CAlloc (Lay 16 8)] ([4096]%N, GH [] (fun _ => None)))). eexists.
    split; [reflexivity|]. split; [vm_compute; intros [X|[]]; discriminate|]. split; [vm_compute; left; reflexivity|]. vm_compute. tauto.
Qed.
Print Assumptions alloc_safe_refuted.
