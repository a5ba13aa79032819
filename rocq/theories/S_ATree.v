(** Specification of an atomic cell of trees: a sequential object, whose operations take effect in one step each. *)
From Coq Require Import List Arith Bool Relations.
From Verif Require Import M_Import M_ATree.
Import ListNotations.

Section Spec.
Context {V L : Type}.
Variable empty : V.
Variable prog : L -> call V L.

(** A thread between two calls, or in a call begun when the cell had had [n + 1] contents. *)
Inductive thread := Out (l : L) | Inside (l : L) (c : call V L) (n : nat).
(** All the contents the cell has had, and the threads. *)
Record object := Object { hist : list V; threads : list thread }.
Definition object_new (ls : list L) : object := Object [empty] (map Out ls).

(** What the documentation of [edit] says: [f] is applied to the current value, which is swapped for the result; if it changed meanwhile, the result
    is discarded and [f] is called again.  A content that the cell had at some time during the call may be given to a call of [f] whose result is discarded,
    or that makes no change, and to the function given to [get]. *)
Inductive takes (o : object) (t : nat) : object -> Prop :=
| begins l n : nth_error (threads o) t = Some (Out l) -> prog l <> Stop -> S n = length (hist o) ->
    takes o t (Object (hist o) (put (threads o) t (Inside l (prog l) n)))
| discards l held f n i v l' v' : nth_error (threads o) t = Some (Inside l (Edit held f) n) ->
    n <= i -> nth_error (hist o) i = Some v -> f l v = (l', Some v') ->
    takes o t (Object (hist o) (put (threads o) t (Inside l' (Edit held f) n)))
| keeps l held f n i v l' : nth_error (threads o) t = Some (Inside l (Edit held f) n) ->
    n <= i -> nth_error (hist o) i = Some v -> f l v = (l', None) ->
    takes o t (Object (hist o) (put (threads o) t (Out l')))
| swaps l held f n l' v' : nth_error (threads o) t = Some (Inside l (Edit held f) n) ->
    f l (last (hist o) empty) = (l', Some v') ->
    takes o t (Object (hist o ++ [v']) (put (threads o) t (Out l')))
| reads l g n i v : nth_error (threads o) t = Some (Inside l (Get g) n) ->
    n <= i -> nth_error (hist o) i = Some v ->
    takes o t (Object (hist o) (put (threads o) t (Out (g l v)))).
(** Executions of the object. *)
Inductive becomes (o : object) : object -> Prop :=
| becomes_refl : becomes o o
| becomes_step t o1 o2 : becomes o o1 -> takes o1 t o2 -> becomes o o2.

(** The variables of a thread of the cell.  What a call of [f] does to them is seen when it is known whether its result is used or discarded. *)
Definition variables (p : pc V L) : L :=
  match p with
  | Idle l | Loaded l _ _ _ | Copied l _ _ _ | Ready l _ _ _ _ _ | Release l _ | GLoaded l _ _ | GCopied l _ _ => l
  end.
(** Is it in a call (which has not yet taken effect)? *)
Definition in_call (p : pc V L) : bool := match p with Idle _ | Release _ _ => false | _ => true end.
(** A thread of the cell is where a thread of the object is. *)
Definition agree (p : pc V L) (th : thread) : Prop :=
  match th with Out l => in_call p = false /\ variables p = l | Inside l _ _ => in_call p = true /\ variables p = l end.
(** The cell behaves as the object in some execution of it. *)
Definition atomic (ls : list L) (s : cell V L) : Prop :=
  exists o, becomes (object_new ls) o /\ content empty s (ptr s) = last (hist o) empty /\ Forall2 agree (pcs s) (threads o).

(** A thread between its load of the pointer and its increment of the count; or about to write, through an argument it has not cloned. *)
Definition exposed (p : pc V L) : bool :=
  match p with Loaded _ _ _ _ | GLoaded _ _ _ => true | Copied _ held _ _ => negb held | _ => false end.
(** A thread about to compare the pointer with [a]. *)
Definition compares (a : nat) (p : pc V L) : bool :=
  match p with Ready _ _ _ (Some b) _ _ => a =? b | _ => false end.
(** The step [act]: if it replaces the content, no other thread is exposed; and if it allocates, it is not at an address another
    thread compares the pointer with. *)
Definition calm (s : cell V L) (act : nat * nat) : Prop :=
  let (t, a) := act in
  forall u q, u <> t -> nth_error (pcs s) u = Some q ->
    (ptr (step empty prog s act) <> ptr s -> exposed q = false) /\ (rc s a = 0 -> compares a q = false).
Definition calm_run (sched : list (nat * nat)) (s : cell V L) : Prop :=
  forall k act, nth_error sched k = Some act -> calm (run empty prog (firstn k sched) s) act.

(** All threads are between two calls. *)
Definition all_idle (s : cell V L) : Prop := forall p, In p (pcs s) -> exists l, p = Idle l.
(** Only the tree that the cell owns is in memory. *)
Definition no_leak (s : cell V L) : Prop := all_idle s -> forall a, 0 < rc s a -> ptr s = Some a.
End Spec.
Arguments thread : clear implicits.
Arguments object : clear implicits.

(** Registry: a call returned [r] for content [k]; [xs] are the variables of the threads. *)
Definition answered {K} (xs : list (vars K)) (k : K) (r : nat * nat) : Prop := exists x, In x xs /\ In (k, r) (answers K x).
(** At [r] is a copy of [k], which was not freed. *)
Definition points_to {K} (xs : list (vars K)) (r : nat * nat) (k : K) : Prop :=
  exists x, nth_error xs (fst r) = Some x /\ nth_error (made K x) (snd r) = Some k /\ ~ In r (freed K x).
(** The registry is right: no thread panicked, and each call returned a pointer to a copy of its content, the same for equal contents. *)
Definition interned {K} (xs : list (vars K)) : Prop :=
  (forall x, In x xs -> panicked K x = false) /\
  (forall k r, answered xs k r -> points_to xs r k) /\
  (forall k r r', answered xs k r -> answered xs k r' -> r = r').
