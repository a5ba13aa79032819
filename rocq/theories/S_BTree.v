(** What users of [ArcBTreeSet] and [ArcBTreeMap] rely on: finite sets, finite maps, and the shape of the tree. *)
From Coq Require Import List Arith Bool.
From Verif Require Import M_BTree.
Import ListNotations.

(** A total order; values that compare equal need not be the same. *)
Record total_order {T} (cmp : T -> T -> comparison) : Prop := {
  ord_eq : forall x, cmp x x = Eq;
  ord_anti : forall x y, cmp y x = CompOpp (cmp x y);
  ord_lt : forall x y z, cmp x y = Lt -> cmp y z = Lt -> cmp x z = Lt;
  ord_eq_l : forall x y z, cmp x y = Eq -> cmp x z = cmp y z
}.
(** A key that values can be compared with, consistently with that order. *)
Record probe {T} (cmp : T -> T -> comparison) (p : T -> option comparison) : Prop := {
  pr_total : forall x, p x <> None;
  pr_lt : forall x y, cmp x y = Lt -> p y <> Some Gt -> p x = Some Lt;
  pr_gt : forall x y, cmp x y = Lt -> p x <> Some Lt -> p y = Some Gt;
  pr_eq : forall x y, cmp x y = Eq -> p x = p y
}.

(** Finite sets: lists of values of which no two compare equal, in no particular order. *)
Section Sets.
Context {T : Type} (cmp : T -> T -> comparison) (repl : bool).
Definition same (x y : T) : bool := match cmp x y with Eq => true | _ => false end.
Definition is_it (p : T -> option comparison) (x : T) : bool := match p x with Some Eq => true | _ => false end.
(** Looking up. *)
Definition fget (p : T -> option comparison) (l : list T) : option T := find (is_it p) l.
(** Inserting: what was there is replaced and returned, or else (without replacement) the new value is returned. *)
Definition finsert (v : T) (l : list T) : list T * option T :=
  match find (same v) l with
  | None => (v :: l, None)
  | Some x => if repl then (v :: filter (fun y => negb (same v y)) l, Some x) else (l, Some v)
  end.
(** Programs using independent sets: no sharing, no heap. *)
Definition fstep (w : list (option (list T))) (c : call T) : option (list (option (list T)) * answer T) :=
  let on i k := match nth_error w i with Some (Some l) => k l | _ => None end in
  match c with
  | CNew => Some (w ++ [Some []], AUnit)
  | CClone i => on i (fun l => Some (w ++ [Some l], AUnit))
  | CInsert i v => on i (fun l => let (l2, r) := finsert v l in Some (put w i (Some l2), AOpt r))
  | CGet i p => on i (fun l => Some (w, AOpt (fget p l)))
  | CLen i => on i (fun l => Some (w, ANat (length l)))
  | CIsEmpty i => on i (fun l => Some (w, ABool (length l =? 0)))
  | CEach i => on i (fun l => Some (w, AList l))
  | CDrop i => on i (fun l => Some (put w i None, AUnit))
  end.
Fixpoint frun (w : list (option (list T))) (cs : list (call T)) : option (list (option (list T)) * list (answer T)) :=
  match cs with
  | [] => Some (w, [])
  | c :: r => match fstep w c with
              | None => None
              | Some (w1, x) => match frun w1 r with None => None | Some (w2, xs) => Some (w2, x :: xs) end
              end
  end.
(** All lookups of a program use consistent keys. *)
Definition probes_ok (cs : list (call T)) : Prop := forall i p, In (CGet i p) cs -> probe cmp p.
(** The elements of a list, each less than the next ones. *)
Definition increasing (l : list T) : Prop := forall i j x y, i < j -> nth_error l i = Some x -> nth_error l j = Some y -> cmp x y = Lt.
(** What a call returned against what it should return: equal, but that visiting a set does so in increasing order. *)
Definition agrees (got want : answer T) : Prop :=
  match got, want with
  | AList l, AList m => increasing l /\ length l = length m /\ forall x, In x l <-> In x m
  | x, y => x = y
  end.
End Sets.

(** The shape of trees: from [a], all leaves are [n] levels down; each node has less than [lim] entries and at least
    [low], at least [lim / 2] below the top; inner nodes have a child before each entry and one after the last. *)
Fixpoint balanced {T} (lim : nat) (h : heap T) (n : nat) (low : nat) (a : nat) : Prop :=
  exists nd, mem h a = Some nd /\ low <= length (ents nd) < lim /\
  match n with
  | 0 => (forall s x, In (s, x) (ents nd) -> s = None) /\ gtr nd = None
  | S m => (forall s x, In (s, x) (ents nd) -> exists c, s = Some c /\ balanced lim h m (lim / 2) c) /\
           exists c, gtr nd = Some c /\ balanced lim h m (lim / 2) c
  end.
(** How many nodes a lookup reads, following the same path as the code. *)
Fixpoint lookup_cost {T} (fuel : nat) (h : heap T) (p : T -> option comparison) (a : nat) : nat :=
  match fuel with
  | 0 => 0
  | S f => match mem h a with
           | None => 0
           | Some n => S ((fix go es := match es with
                                        | [] => match gtr n with None => 0 | Some c => lookup_cost f h p c end
                                        | (s, x) :: r => match p x with
                                                         | Some Lt => go r
                                                         | Some Gt => match s with None => 0 | Some c => lookup_cost f h p c end
                                                         | _ => 0
                                                         end
                                        end) (ents n))
           end
  end.

(** Finite maps, as functions. *)
Definition feq {K} (kcmp : K -> K -> comparison) (x y : K) : bool := match kcmp x y with Eq => true | _ => false end.
Definition mput {K V} (kcmp : K -> K -> comparison) (m : K -> option V) (k : K) (v : V) : K -> option V :=
  fun x => if feq kcmp k x then Some v else m x.
(** Inserting any number of entries in a map, one after the other, with the answers; and what they should be. *)
Fixpoint map_run {K V} (kcmp : K -> K -> comparison) (lim : nat) (h : heap (K * V)) (t : tree) (l : list (K * V))
  : res (heap (K * V) * tree * list (option V)) :=
  match l with
  | [] => Ret (h, t, [])
  | (k, v) :: r => do (h1, t1, o) <- map_insert kcmp lim h t k v ;
                   do (h2, t2, os) <- map_run kcmp lim h1 t1 r ; Ret (h2, t2, o :: os)
  end.
Fixpoint mrun {K V} (kcmp : K -> K -> comparison) (m : K -> option V) (l : list (K * V)) : (K -> option V) * list (option V) :=
  match l with
  | [] => (m, [])
  | (k, v) :: r => let (m', os) := mrun kcmp (mput kcmp m k v) r in (m', m k :: os)
  end.

(** The nodes that can be reached from the sets that exist. *)
Inductive reachable {T} (w : world T) : nat -> Prop :=
| r_root : forall a, In (Some (Some a)) (sets w) -> reachable w a
| r_child : forall a nd c, reachable w a -> mem (hp w) a = Some nd ->
    (gtr nd = Some c \/ exists x, In (Some c, x) (ents nd)) -> reachable w c.
(** A call that changes set [j]. *)
Definition changes {T} (j : nat) (c : call T) : Prop :=
  match c with CInsert i _ => i = j | CDrop i => i = j | _ => False end.
