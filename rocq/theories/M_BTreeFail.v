(** Model of insertions in [ArcBTreeSet] (stabby-abi/src/alloc/collections/arc_btree.rs) that are interrupted: the user's comparison or Clone
    panics, or the allocator refuses and [Arc::new_in] panics.  What the unwinding leaves, level by level, on the heap of nodes of M_BTree.v.
    Simplifications: those of M_BTree.v except the allocation failures; cloning an allocator does not panic; destructors do not panic;
    so an insertion is interrupted at most once. *)
From Coq Require Import List Arith Bool.
From Verif Require Import M_Import M_BTree.
Import ListNotations.

(** What can interrupt: [Ord::cmp] or [PartialOrd::partial_cmp] of values (arc_btree.rs:541, 590), [Clone] of values (arc_btree.rs:521), the allocation
    of a copy of a node (sync.rs:245-248), the allocation for half of a full node or for a new root (arc_btree.rs:731, 570), and the
    first allocation of a set (arc_btree.rs:390). *)
Inductive kind := KCmp | KClone | KCopy | KSplit | KFirst.
(** No code: comparing kinds (for arc_btree.rs:381-404). *)
Definition kind_eqb (x y : kind) : bool :=
  match x, y with KCmp, KCmp | KClone, KClone | KCopy, KCopy | KSplit, KSplit | KFirst, KFirst => true | _, _ => false end.
(** When a call is interrupted, if ever: after [n] events of that kind that went well (for the calls of arc_btree.rs:381-404). *)
Definition plan : Type := option (kind * nat).
(** One event; [None] if that one is the interruption (for arc_btree.rs:381-404). *)
Definition tick (k : kind) (p : plan) : option plan :=
  match p with
  | Some (k', n) => if kind_eqb k k' then match n with 0 => None | S m => Some (Some (k', m)) end else Some p
  | None => Some None
  end.

Section Fail.
(** As in M_BTree.v: arc_btree.rs:156-161. *)
Context {T : Type} (cmp : T -> T -> comparison) (lim : nat) (repl : bool).
(** As in M_BTree.v: arc_btree.rs:507-515. *)
Local Notation entry := (option nat * T)%type.
(** As in M_BTree.v: arc_btree.rs:436-446. *)
Local Notation node := (node T).
(** As in M_BTree.v: the Arcs of arc_btree.rs:436-470. *)
Local Notation heap := (heap T).

(** The loop of arc_btree.rs:589-611, each turn being one comparison. *)
Fixpoint find_placeF (v : T) (i : nat) (es : list entry) (p : plan) : option (plan * place T) :=
  match es with
  | [] => Some (p, AtEnd)
  | (s, x) :: r =>
      match tick KCmp p with
      | None => None
      | Some p1 => match cmp x v with Eq => Some (p1, AtEq i x) | Gt => Some (p1, Before i s) | Lt => find_placeF v (S i) r p1 end
      end
  end.
(** The loop of arc_btree.rs:540-546. *)
Fixpoint scanF (below : plan -> nat -> res (option (plan * option T))) (v : T) (g : option nat) (es : list entry) (p : plan)
  : res (option (plan * option T)) :=
  match es with
  | [] => match g with None => Ret (Some (p, None)) | Some c => below p c end
  | (s, x) :: r =>
      match tick KCmp p with
      | None => Ret None
      | Some p1 => match cmp x v with
                   | Eq => Ret (Some (p1, Some x))
                   | Gt => match s with None => Ret (Some (p1, None)) | Some c => below p1 c end
                   | Lt => scanF below v g r p1
                   end
      end
  end.
(** arc_btree.rs:535-548 [ArcBTreeSetNode::get], on a value. *)
Fixpoint node_getF (fuel : nat) (h : heap) (v : T) (p : plan) (a : nat) : res (option (plan * option T)) :=
  match fuel with
  | 0 => Fuel
  | S f => do n <- get_node h a ; scanF (node_getF f h v) v (gtr n) (ents n) p
  end.
(** The loop of arc_btree.rs:494-497, with arc_btree.rs:519-524: the value of an entry is cloned before its Arc.  When that panics, the clones
    made so far are in an array of [MaybeUninit], which drops nothing. *)
Fixpoint clone_entriesF (h : heap) (es : list entry) (p : plan) : res (heap * option plan) :=
  match es with
  | [] => Ret (h, Some p)
  | (s, _) :: r =>
      match tick KClone p with
      | None => Ret (h, None)
      | Some p1 => do h1 <- incr_all h (opt_list s) ; clone_entriesF h1 r p1
      end
  end.
(** sync.rs:240-251 [Arc::make_mut]: the address of the Arc afterwards; the node, out of the heap, unless interrupted.  When the allocation
    is refused, the copy is dropped: its entries, then [greater]. *)
Definition make_mutF (fuel : nat) (h : heap) (a : nat) (p : plan) : res (heap * nat * option (plan * node)) :=
  do n <- get_node h a ;
  if rc n =? 1 then Ret (take_node h a, a, Some (p, n))
  else
    do (h1, q) <- clone_entriesF h (ents n) p ;
    match q with
    | None => Ret (h1, a, None)
    | Some p1 =>
        do h2 <- incr_all h1 (opt_list (gtr n)) ;
        match tick KCopy p1 with
        | None => do h3 <- drop_all (drop_node fuel) h2 (children n) ; Ret (h3, a, None)
        | Some p2 =>
            let (h3, b) := fresh h2 in
            do m <- get_node h3 a ;
            Ret (put_node h3 a (Node (pred (rc m)) (ents m) (gtr m)), b, Some (p2, Node 1 (ents n) (gtr n)))
        end
    end.
(** arc_btree.rs:699-737 [split].  Everything is taken out of the node before the allocation; when it is refused, the new node and the
    pivot are dropped. *)
Definition splitF (fuel : nat) (h : heap) (a : nat) (n : node) (p : plan) : res (heap * option (plan * option (nat * T))) :=
  if length (ents n) =? lim then
    match tick KSplit p with
    | Some p1 => do (h1, s) <- split lim h a n ; Ret (h1, Some (p1, s))
    | None =>
        match nth_error (ents n) (lim / 2) with
        | None => Fault
        | Some (smaller, _) =>
            if lim <? lim / 2 + 1 + lim / 2 then Fault
            else
              do h1 <- drop_all (drop_node fuel) h (children (Node 1 (firstn (lim / 2) (skipn (lim / 2 + 1) (ents n))) (gtr n))) ;
              Ret (put_node h1 a (Node (rc n) (firstn (lim / 2) (ents n)) smaller), None)
        end
    end
  else Ret (put_node h a n, Some (p, None)).
(** arc_btree.rs:575-626 [insert_inner].  When interrupted below, the nodes above are put back with the address that the Arc to the child has by then. *)
Fixpoint insert_innerF (fuel : nat) (h : heap) (a : nat) (v : T) (p : plan) : res (heap * nat * option (plan * outcome T)) :=
  match fuel with
  | 0 => Fuel
  | S f =>
      do (h1, b, q) <- make_mutF f h a p ;
      match q with
      | None => Ret (h1, b, None)
      | Some (p1, n) =>
          let finish h n p :=
            do (h2, s) <- splitF f h b n p ;
            Ret (h2, b, match s with
                        | None => None
                        | Some (p2, None) => Some (p2, inr None)
                        | Some (p2, Some splits) => Some (p2, inl splits)
                        end) in
          match find_placeF v 0 (ents n) p1 with
          | None => Ret (put_node h1 b n, b, None)
          | Some (p2, AtEq i x) => Ret (put_node h1 b (set_value n i v), b, Some (p2, inr (Some x)))
          | Some (p2, Before i (Some c)) =>
              do (h2, d, o) <- insert_innerF f h1 c v p2 ;
              let n2 := set_smaller n i d in
              match o with
              | None => Ret (put_node h2 b n2, b, None)
              | Some (p3, inr r) => Ret (put_node h2 b n2, b, Some (p3, inr r))
              | Some (p3, inl (rgt, pivot)) => do n3 <- inner_insert lim n2 i pivot (Some rgt) ; finish h2 n3 p3
              end
          | Some (p2, Before i None) => do n3 <- inner_insert lim n i v None ; finish h1 n3 p2
          | Some (p2, AtEnd) =>
              match gtr n with
              | Some c =>
                  do (h2, d, o) <- insert_innerF f h1 c v p2 ;
                  let n2 := Node (rc n) (ents n) (Some d) in
                  match o with
                  | None => Ret (put_node h2 b n2, b, None)
                  | Some (p3, inr r) => Ret (put_node h2 b n2, b, Some (p3, inr r))
                  | Some (p3, inl (rgt, pivot)) => do n3 <- inner_push lim n2 pivot (Some rgt) ; finish h2 n3 p3
                  end
              | None => do n3 <- inner_push lim n v None ; finish h1 n3 p2
              end
          end
      end
  end.
(** arc_btree.rs:549-574 [ArcBTreeSetNode::insert].  When the allocation of a new root is refused, its content is dropped: a clone of the Arc to the
    left half, the pivot, the right half. *)
Definition node_insertF (fuel : nat) (h : heap) (a : nat) (v : T) (p : plan) : res (heap * nat * option (option T)) :=
  let go p :=
    do (h1, b, q) <- insert_innerF fuel h a v p ;
    match q with
    | None => Ret (h1, b, None)
    | Some (_, inr r) => Ret (h1, b, Some r)
    | Some (p1, inl (rgt, pivot)) =>
        do h2 <- incr h1 b ;
        match tick KSplit p1 with
        | None => do h3 <- drop_all (drop_node fuel) h2 [b; rgt] ; Ret (h3, b, None)
        | Some _ =>
            let (h3, root) := new_node h2 (Node 1 [(Some b, pivot)] (Some rgt)) in
            do h4 <- drop_node fuel h3 b ;
            Ret (h4, root, Some None)
        end
    end in
  if repl then go p
  else do found <- node_getF fuel h v p a ;
       match found with
       | None => Ret (h, a, None)
       | Some (_, Some _) => Ret (h, a, Some (Some v))
       | Some (p1, None) => go p1
       end.
(** arc_btree.rs:381-404 [insert]; the last part is whether the set is left without its allocator: [self.alloc.assume_init_read()] has moved it to
    [Arc::new_in], whose panic drops it, and the root is still [None]. *)
Definition set_insertF (h : heap) (t : tree) (v : T) (p : plan) : res (heap * tree * option (option T) * bool) :=
  match t with
  | Some a => do (h1, b, r) <- node_insertF (S (next h)) h a v p ; Ret (h1, Some b, r, false)
  | None =>
      if lim - 1 <=? 0 then Panic
      else match tick KFirst p with
           | None => Ret (h, None, None, true)
           | Some _ => let (h1, a) := new_node h (Node 1 [(None, v)] None) in Ret (h1, Some a, Some None, false)
           end
  end.

(** A program whose insertions may be interrupted: its sets, and the numbers of those left without an allocator (arc_btree.rs:156-435). *)
Record fworld := FWorld { base : world T; gone : list nat }.
(** What a call gives: an answer, or a panic (arc_btree.rs:156-435). *)
Definition fanswer : Type := option (answer T).
(** No code: membership (for arc_btree.rs:156-435). *)
Definition is_gone (w : fworld) (i : nat) : bool := existsb (Nat.eqb i) (gone w).
(** One call, with its interruption if it is an insertion.  Cloning, inserting in or dropping an empty set reads its allocator
    (arc_btree.rs:180-185, 389, 243-246): undefined if that was dropped. *)
Definition fwstep (w : fworld) (c : call T) (p : plan) : option (res (fworld * fanswer)) :=
  let go := match wstep cmp lim repl (base w) c with
            | None => None
            | Some r => Some (do (w1, x) <- r ; Ret (FWorld w1 (gone w), Some x))
            end in
  match c with
  | CInsert i v =>
      match nth_error (sets (base w)) i with
      | Some (Some t) =>
          Some (if is_gone w i then Fault else
                do (h, t2, r, g) <- set_insertF (hp (base w)) t v p ;
                Ret (FWorld (World h (put (sets (base w)) i (Some t2))) (if g then i :: gone w else gone w), option_map (@AOpt T) r))
      | _ => None
      end
  | CClone i | CDrop i => if is_gone w i then Some Fault else go
  | _ => go
  end.
(** A history of calls (arc_btree.rs:156-435). *)
Fixpoint fwrun (w : fworld) (cs : list (call T * plan)) : option (res (fworld * list fanswer)) :=
  match cs with
  | [] => Some (Ret (w, []))
  | (c, p) :: r =>
      match fwstep w c p with
      | None => None
      | Some (Ret (w1, x)) =>
          match fwrun w1 r with
          | Some (Ret (w2, xs)) => Some (Ret (w2, x :: xs))
          | other => other
          end
      | Some Panic => Some Panic
      | Some Fault => Some Fault
      | Some Fuel => Some Fuel
      end
  end.
(** No code: before any call (arc_btree.rs:362-368). *)
Definition fworld0 : fworld := FWorld world0 [].
End Fail.
Arguments fworld : clear implicits. Arguments fanswer : clear implicits.
