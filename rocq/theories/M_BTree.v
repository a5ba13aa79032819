(** Model of [ArcBTreeSet] and of its nodes (stabby-abi/src/alloc/collections/arc_btree.rs), down to the sharing of nodes
    through reference counts: a heap of nodes, addresses in their fields, clones of nodes made only when they are shared.
    Simplifications: cloning a value gives an equal value; destructors of values, allocators and allocation failures are
    left out; one call runs at a time; an address is never used again; counts do not overflow. *)
From Coq Require Import List Arith Bool.
From Verif Require Import M_Import.
Import ListNotations.

(** How a call ends: it returns, it panics, or it does something undefined.  [Fuel] only exists because Coq needs recursion to
    be bounded; the theorems show it does not occur (calls of arc_btree.rs:156-737). *)
Inductive res (A : Type) := Ret (x : A) | Panic | Fault | Fuel.
Arguments Ret {A} _. Arguments Panic {A}. Arguments Fault {A}. Arguments Fuel {A}.
(** Sequencing; no code (for arc_btree.rs:156-737). *)
Definition bind {A B} (r : res A) (f : A -> res B) : res B :=
  match r with Ret x => f x | Panic => Panic | Fault => Fault | Fuel => Fuel end.
(** The notation of [bind], for arc_btree.rs:156-737. *)
Notation "'do' x <- r ; k" := (bind r (fun x => k)) (at level 200, x pattern, r at level 100, k at level 200).

Section BTree.
(** The type of values; [cmp x y] is [x.cmp(&y)]; SPLIT_LIMIT; REPLACE_ON_INSERT (arc_btree.rs:156-161). *)
Context {T : Type} (cmp : T -> T -> comparison) (lim : nat) (repl : bool).

(** arc_btree.rs:507-515 [ArcBTreeSetEntry]: [smaller], [value]. *)
Local Notation entry := (option nat * T)%type.
(** arc_btree.rs:436-446 [ArcBTreeSetNodeInner], with the strong count of the Arc it is in.  [ents] are the initialized
    entries, whose number is the field [len]; the array has [lim] places.  There are no Weak to nodes. *)
Record node := Node { rc : nat; ents : list entry; gtr : option nat }.
(** Nodes by address.  A node is out of the heap while a mutable reference to its content exists: any other access
    to it in the meantime is a [Fault], as are accesses after release (the Arcs of arc_btree.rs:436-470). *)
Record heap := Heap { mem : nat -> option node; next : nat }.
(** No code: the heap of a new program (for arc_btree.rs:362-368). *)
Definition heap0 : heap := Heap (fun _ => None) 0.
(** Access through an Arc to a node, sync.rs:307-312. *)
Definition get_node (h : heap) (a : nat) : res node :=
  match mem h a with Some n => Ret n | None => Fault end.
(** Writing a node (arc_btree.rs:643-737). *)
Definition put_node (h : heap) (a : nat) (n : node) : heap := Heap (upd (mem h) a (Some n)) (next h).
(** Taking a node out: release, or a mutable reference (sync.rs:286-298, 239-252). *)
Definition take_node (h : heap) (a : nat) : heap := Heap (upd (mem h) a None) (next h).
(** Arc::new_in, sync.rs:171-176: the address, and the heap where it is reserved. *)
Definition fresh (h : heap) : heap * nat := (Heap (upd (mem h) (next h) None) (S (next h)), next h).
(** Arc::new_in with a content, arc_btree.rs:388-401, 719-735. *)
Definition new_node (h : heap) (n : node) : heap * nat :=
  let (h1, a) := fresh h in (put_node h1 a n, a).
(** Arc::clone, sync.rs:301-306. *)
Definition incr (h : heap) (a : nat) : res heap :=
  do n <- get_node h a ; Ret (put_node h a (Node (S (rc n)) (ents n) (gtr n))).
(** The Arcs in a node (arc_btree.rs:436-446, 507-515). *)
Definition opt_list {A} (o : option A) : list A := match o with None => [] | Some x => [x] end.
(** Likewise, arc_btree.rs:436-446. *)
Definition children (n : node) : list nat := flat_map (fun e => opt_list (fst e)) (ents n) ++ opt_list (gtr n).
(** Their clones, arc_btree.rs:486-503, 516-525. *)
Fixpoint incr_all (h : heap) (l : list nat) : res heap :=
  match l with [] => Ret h | a :: r => do h1 <- incr h a ; incr_all h1 r end.
(** Arc::drop, sync.rs:286-298, with the destructor of nodes, arc_btree.rs:478-485: entries in order, then [greater]. *)
Fixpoint drop_all (drop : heap -> nat -> res heap) (h : heap) (l : list nat) : res heap :=
  match l with [] => Ret h | c :: r => do h1 <- drop h c ; drop_all drop h1 r end.
(** Arc::drop, sync.rs:286-298, of a node. *)
Fixpoint drop_node (fuel : nat) (h : heap) (a : nat) : res heap :=
  match fuel with
  | 0 => Fuel
  | S f =>
      do n <- get_node h a ;
      if rc n =? 1 then drop_all (drop_node f) (take_node h a) (children n)
      else Ret (put_node h a (Node (pred (rc n)) (ents n) (gtr n)))
  end.
(** Arc::make_mut, sync.rs:240-251, with the Clone of nodes, arc_btree.rs:486-503 and 516-525: new address of the node, and
    the node, which is out of the heap.  A shared node has a count of at least 2, so dropping [*self] only decrements it. *)
Definition make_mut (h : heap) (a : nat) : res (heap * nat * node) :=
  do n <- get_node h a ;
  if rc n =? 1 then Ret (take_node h a, a, n)
  else
    do h1 <- incr_all h (children n) ;
    let (h2, b) := fresh h1 in
    do m <- get_node h2 a ;
    Ret (put_node h2 a (Node (pred (rc m)) (ents m) (gtr m)), b, Node 1 (ents n) (gtr n)).

(** The loops of the three functions below, over the entries of a node; [below] is the recursive call, [g] the field [greater] (arc_btree.rs:535-548). *)
Fixpoint scan (below : nat -> res (option T)) (p : T -> option comparison) (g : option nat) (es : list entry)
  : res (option T) :=
  match es with
  | [] => match g with None => Ret None | Some c => below c end
  | (s, x) :: r =>
      match p x with
      | None => Ret None
      | Some Eq => Ret (Some x)
      | Some Gt => match s with None => Ret None | Some c => below c end
      | Some Lt => scan below p g r
      end
  end.
(** Likewise, arc_btree.rs:530-534. *)
Fixpoint count (below : option nat -> res nat) (acc : nat) (es : list entry) : res nat :=
  match es with
  | [] => Ret acc
  | (s, _) :: r => do k <- below s ; count below (acc + 1 + k) r
  end.
(** Likewise, arc_btree.rs:628-638. *)
Fixpoint visit (below : option nat -> res (list T)) (es : list entry) : res (list T) :=
  match es with
  | [] => Ret []
  | (s, x) :: r => do l <- below s ; do k <- visit below r ; Ret (l ++ x :: k)
  end.
(** arc_btree.rs:535-548 [ArcBTreeSetNode::get]; [p x] is [x.partial_cmp(key)]. *)
Fixpoint node_get (fuel : nat) (h : heap) (p : T -> option comparison) (a : nat) : res (option T) :=
  match fuel with
  | 0 => Fuel
  | S f => do n <- get_node h a ; scan (node_get f h p) p (gtr n) (ents n)
  end.
(** arc_btree.rs:530-534 [ArcBTreeSetNode::len]. *)
Fixpoint node_len (fuel : nat) (h : heap) (a : nat) : res nat :=
  match fuel with
  | 0 => Fuel
  | S f =>
      do n <- get_node h a ;
      let below o := match o with None => Ret 0 | Some c => node_len f h c end in
      do k <- count below 0 (ents n) ;
      do g <- below (gtr n) ;
      Ret (k + g)
  end.
(** arc_btree.rs:628-638 [ArcBTreeSetNode::for_each]: the values in the order they are visited. *)
Fixpoint node_each (fuel : nat) (h : heap) (a : nat) : res (list T) :=
  match fuel with
  | 0 => Fuel
  | S f =>
      do n <- get_node h a ;
      let below o := match o with None => Ret [] | Some c => node_each f h c end in
      do l <- visit below (ents n) ;
      do g <- below (gtr n) ;
      Ret (l ++ g)
  end.

(** arc_btree.rs:643-677 [ArcBTreeSetNodeInner::insert] up to its call of [split]; writing past the array is undefined. *)
Definition inner_insert (n : node) (i : nat) (v : T) (right : option nat) : res node :=
  match nth_error (ents n) i with
  | Some (s, x) =>
      if length (ents n) <? lim then
        Ret (Node (rc n) (firstn i (ents n) ++ (s, v) :: (right, x) :: skipn (S i) (ents n)) (gtr n))
      else Fault
  | None => Fault
  end.
(** arc_btree.rs:678-698 [push] up to its call of [split]. *)
Definition inner_push (n : node) (v : T) (right : option nat) : res node :=
  if length (ents n) <? lim then Ret (Node (rc n) (ents n ++ [(gtr n, v)]) right) else Fault.
(** arc_btree.rs:699-737 [split] of the node at [a], which is then back in the heap.  Copying [lim / 2] entries from
    place [lim / 2 + 1] is undefined if there are fewer. *)
Definition split (h : heap) (a : nat) (n : node) : res (heap * option (nat * T)) :=
  if length (ents n) =? lim then
    match nth_error (ents n) (lim / 2) with
    | None => Fault
    | Some (smaller, pivot) =>
        if lim <? lim / 2 + 1 + lim / 2 then Fault
        else
          let (h1, b) := new_node h (Node 1 (firstn (lim / 2) (skipn (lim / 2 + 1) (ents n))) (gtr n)) in
          Ret (put_node h1 a (Node (rc n) (firstn (lim / 2) (ents n)) smaller), Some (b, pivot))
    end
  else Ret (put_node h a n, None).

(** The loop of arc_btree.rs:589-611: the first entry that is not less than [v]. *)
Inductive place := AtEq (i : nat) (x : T) | Before (i : nat) (s : option nat) | AtEnd.
(** Likewise, arc_btree.rs:589-611. *)
Fixpoint find_place (v : T) (i : nat) (es : list entry) : place :=
  match es with
  | [] => AtEnd
  | (s, x) :: r =>
      match cmp x v with Eq => AtEq i x | Gt => Before i s | Lt => find_place v (S i) r end
  end.
(** Writing one field of an entry (arc_btree.rs:593-598). *)
Definition set_value (n : node) (i : nat) (v : T) : node :=
  match nth_error (ents n) i with
  | Some (s, _) => Node (rc n) (firstn i (ents n) ++ (s, v) :: skipn (S i) (ents n)) (gtr n)
  | None => n
  end.
(** Likewise, arc_btree.rs:599-611, through [&mut entry.smaller]. *)
Definition set_smaller (n : node) (i : nat) (c : nat) : node :=
  match nth_error (ents n) i with
  | Some (_, x) => Node (rc n) (firstn i (ents n) ++ (Some c, x) :: skipn (S i) (ents n)) (gtr n)
  | None => n
  end.
(** What [insert_inner] returns: [Ok((right, pivot))] or [Err(done)] (arc_btree.rs:575-580). *)
Definition outcome : Type := (nat * T) + option T.
(** arc_btree.rs:575-626 [insert_inner], on the Arc at [a]; also returns what address that Arc has afterwards. *)
Fixpoint insert_inner (fuel : nat) (h : heap) (a : nat) (v : T) : res (heap * nat * outcome) :=
  match fuel with
  | 0 => Fuel
  | S f =>
      do (h1, b, n) <- make_mut h a ;
      let finish h n :=
        do (h2, s) <- split h b n ;
        Ret (h2, b, match s with None => inr None | Some splits => inl splits end) in
      match find_place v 0 (ents n) with
      | AtEq i x => Ret (put_node h1 b (set_value n i v), b, inr (Some x))
      | Before i (Some c) =>
          do (h2, d, o) <- insert_inner f h1 c v ;
          let n2 := set_smaller n i d in
          match o with
          | inr r => Ret (put_node h2 b n2, b, inr r)
          | inl (rgt, pivot) => do n3 <- inner_insert n2 i pivot (Some rgt) ; finish h2 n3
          end
      | Before i None => do n3 <- inner_insert n i v None ; finish h1 n3
      | AtEnd =>
          match gtr n with
          | Some c =>
              do (h2, d, o) <- insert_inner f h1 c v ;
              let n2 := Node (rc n) (ents n) (Some d) in
              match o with
              | inr r => Ret (put_node h2 b n2, b, inr r)
              | inl (rgt, pivot) => do n3 <- inner_push n2 pivot (Some rgt) ; finish h2 n3
              end
          | None => do n3 <- inner_push n v None ; finish h1 n3
          end
      end
  end.
(** arc_btree.rs:549-574 [ArcBTreeSetNode::insert].  [self.clone()] is in the new root when [self.0] is overwritten, so
    dropping the latter only undoes the increment. *)
Definition node_insert (fuel : nat) (h : heap) (a : nat) (v : T) : res (heap * nat * option T) :=
  let go :=
    do (h1, b, o) <- insert_inner fuel h a v ;
    match o with
    | inr r => Ret (h1, b, r)
    | inl (rgt, pivot) =>
        do h2 <- incr h1 b ;
        let (h3, root) := new_node h2 (Node 1 [(Some b, pivot)] (Some rgt)) in
        do h4 <- drop_node fuel h3 b ;
        Ret (h4, root, None)
    end in
  if repl then go
  else do found <- node_get fuel h (fun x => Some (cmp x v)) a ;
       match found with Some _ => Ret (h, a, Some v) | None => go end.

(** arc_btree.rs:156-166 [ArcBTreeSet]: the root.  Calls on sets follow. *)
Definition tree : Type := option nat.
(** arc_btree.rs:370-375 [get] *)
Definition set_get (h : heap) (t : tree) (p : T -> option comparison) : res (option T) :=
  match t with None => Ret None | Some a => node_get (S (next h)) h p a end.
(** arc_btree.rs:412-417 [len] *)
Definition set_len (h : heap) (t : tree) : res nat :=
  match t with None => Ret 0 | Some a => node_len (S (next h)) h a end.
(** arc_btree.rs:419-421 [is_empty] *)
Definition set_is_empty (t : tree) : bool := match t with None => true | Some _ => false end.
(** arc_btree.rs:406-410 [for_each] *)
Definition set_each (h : heap) (t : tree) : res (list T) :=
  match t with None => Ret [] | Some a => node_each (S (next h)) h a end.
(** arc_btree.rs:381-404 [insert]; a first node is made by [ArcBTreeSetNodeInner::new] (arc_btree.rs:450-469), which panics if
    given more than [lim - 1] entries. *)
Definition set_insert (h : heap) (t : tree) (v : T) : res (heap * tree * option T) :=
  match t with
  | Some a => do (h1, b, r) <- node_insert (S (next h)) h a v ; Ret (h1, Some b, r)
  | None =>
      if lim - 1 <=? 0 then Panic
      else let (h1, a) := new_node h (Node 1 [(None, v)] None) in Ret (h1, Some a, None)
  end.
(** arc_btree.rs:167-188, 471-477 [Clone] *)
Definition set_clone (h : heap) (t : tree) : res heap :=
  match t with None => Ret h | Some a => incr h a end.
(** arc_btree.rs:239-248 [Drop], then that of the root. *)
Definition set_drop (h : heap) (t : tree) : res heap :=
  match t with None => Ret h | Some a => drop_node (S (next h)) h a end.

(** A program using sets that share nodes: those existing, in order of creation ([None] once dropped) (arc_btree.rs:156-435). *)
Record world := World { hp : heap; sets : list (option tree) }.
(** The calls it makes; [i] is the number of a set. *)
Inductive call :=
| CNew                                   (* arc_btree.rs:362-368 from_alloc *)
| CClone (i : nat)
| CInsert (i : nat) (v : T)
| CGet (i : nat) (p : T -> option comparison)
| CLen (i : nat)
| CIsEmpty (i : nat)
| CEach (i : nat)
| CDrop (i : nat).
(** What they return (arc_btree.rs:156-435). *)
Inductive answer := AUnit | AOpt (o : option T) | ANat (n : nat) | ABool (b : bool) | AList (l : list T).
(** No code: replacing one element of a list (for arc_btree.rs:156-435). *)
Definition put {A} (l : list A) (i : nat) (x : A) : list A := firstn i l ++ x :: skipn (S i) l.
(** One call; naming a set that does not exist is not a program ([None]) (arc_btree.rs:156-435, see [call]). *)
Definition wstep (w : world) (c : call) : option (res (world * answer)) :=
  let on i k := match nth_error (sets w) i with Some (Some t) => Some (k t) | _ => None end in
  match c with
  | CNew => Some (Ret (World (hp w) (sets w ++ [Some None]), AUnit))
  | CClone i => on i (fun t => do h <- set_clone (hp w) t ; Ret (World h (sets w ++ [Some t]), AUnit))
  | CInsert i v => on i (fun t => do (h, t2, r) <- set_insert (hp w) t v ; Ret (World h (put (sets w) i (Some t2)), AOpt r))
  | CGet i p => on i (fun t => do r <- set_get (hp w) t p ; Ret (w, AOpt r))
  | CLen i => on i (fun t => do n <- set_len (hp w) t ; Ret (w, ANat n))
  | CIsEmpty i => on i (fun t => Ret (w, ABool (set_is_empty t)))
  | CEach i => on i (fun t => do l <- set_each (hp w) t ; Ret (w, AList l))
  | CDrop i => on i (fun t => do h <- set_drop (hp w) t ; Ret (World h (put (sets w) i None), AUnit))
  end.
(** A history of calls, with all they returned (arc_btree.rs:156-435). *)
Fixpoint wrun (w : world) (cs : list call) : option (res (world * list answer)) :=
  match cs with
  | [] => Some (Ret (w, []))
  | c :: r =>
      match wstep w c with
      | None => None
      | Some (Ret (w1, x)) =>
          match wrun w1 r with
          | Some (Ret (w2, xs)) => Some (Ret (w2, x :: xs))
          | other => other
          end
      | Some Panic => Some Panic
      | Some Fault => Some Fault
      | Some Fuel => Some Fuel
      end
  end.
(** No code: before any call (arc_btree.rs:362-368). *)
Definition world0 : world := World heap0 [].
End BTree.
Arguments node : clear implicits. Arguments heap : clear implicits. Arguments world : clear implicits.
Arguments call : clear implicits. Arguments answer : clear implicits. Arguments place : clear implicits.
Arguments outcome : clear implicits.

(** arc_btree.rs:77-109 [Entry], compared by key. *)
Definition entry_cmp {K V} (kcmp : K -> K -> comparison) (x y : K * V) : comparison := kcmp (fst x) (fst y).
(** arc_btree.rs:132-134 [ArcBTreeMap::get]: the probe given to the set (arc_btree.rs:99-103), and what is kept of its answer. *)
Definition map_probe {K V} (kcmp : K -> K -> comparison) (k : K) (x : K * V) : option comparison := Some (kcmp (fst x) k).
(** Likewise, arc_btree.rs:132-134. *)
Definition map_get {K V} (kcmp : K -> K -> comparison) (h : heap (K * V)) (t : tree) (k : K) : res (option V) :=
  do o <- set_get h t (map_probe kcmp k) ; Ret (option_map snd o).
(** arc_btree.rs:142-149 [ArcBTreeMap::insert] *)
Definition map_insert {K V} (kcmp : K -> K -> comparison) (lim : nat) (h : heap (K * V)) (t : tree) (k : K) (v : V)
  : res (heap (K * V) * tree * option V) :=
  do (h1, t1, o) <- set_insert (entry_cmp kcmp) lim true h t (k, v) ; Ret (h1, t1, option_map snd o).
