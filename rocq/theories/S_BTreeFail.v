(** What users of [ArcBTreeSet] can still rely on when an insertion panics. *)
From Coq Require Import List Arith Bool Permutation.
From Verif Require Import M_BTree S_BTree M_BTreeFail.
Import ListNotations.

Section Fail.
Context {T : Type} (cmp : T -> T -> comparison) (lim : nat) (repl : bool).
(** What the set contains after an interrupted insertion of [v], given what it contained.  Nothing has changed if a comparison, a clone of a value or the
    copy of a node failed.  If it is the allocation for half of a full node or for a new root, the value was inserted, and then a run of consecutive values,
    at least half the limit and one, was dropped. *)
Definition survives (k : kind) (v : T) (l l' : list T) : Prop :=
  match k with
  | KCmp | KClone | KCopy => Permutation l' l
  | KSplit => find (same cmp v) l = None /\
              exists lo lost hi, increasing cmp (lo ++ lost ++ hi) /\ Permutation (lo ++ lost ++ hi) (v :: l) /\
                                 Permutation l' (lo ++ hi) /\ lim / 2 < length lost
  | KFirst => False
  end.
(** One call on independent sets: as if nothing failed, or an insertion panics, changing the set as above and no other. *)
Inductive gstep (F : list (option (list T))) : call T -> plan -> list (option (list T)) -> option (answer T) -> Prop :=
| g_done : forall c p F' x, fstep cmp repl F c = Some (F', x) -> gstep F c p F' (Some x)
| g_panic : forall i v k n l l', nth_error F i = Some (Some l) -> survives k v l l' ->
    gstep F (CInsert i v) (Some (k, n)) (put F i (Some l')) None.
Inductive grun : list (option (list T)) -> list (call T * plan) -> list (option (list T)) -> list (option (answer T)) -> Prop :=
| g_nil : forall F, grun F [] F []
| g_cons : forall F c p F1 x cs F2 xs, gstep F c p F1 x -> grun F1 cs F2 xs -> grun F ((c, p) :: cs) F2 (x :: xs).
(** Answers, a panic being only equal to itself. *)
Definition fagrees (got want : option (answer T)) : Prop :=
  match got, want with
  | Some x, Some y => agrees cmp x y
  | None, None => True
  | _, _ => False
  end.
(** A program in which the first allocation of a set is never refused; one in which no clone of a value panics. *)
Definition first_ok (cs : list (call T * plan)) : Prop := forall c n, ~ In (c, Some (KFirst, n)) cs.
Definition clones_ok (cs : list (call T * plan)) : Prop := forall c n, ~ In (c, Some (KClone, n)) cs.
End Fail.
