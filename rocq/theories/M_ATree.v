(** Model of [AtomicArcBTreeSet] (stabby-abi/src/alloc/collections/arc_btree.rs:8-74) used by any number of threads, and of the registry
    of vtables made with it (stabby-abi/src/vtable/mod.rs:158-201).
    A scheduler chooses which thread makes its next step; each atomic operation on the pointer or on a count is one step.
    The content of a tree is one value attached to its root: that the nodes below are never changed while shared, and are released with
    the root, is M_BTree's subject (C29, C31, C59).  Counts do not overflow (M_Arc), loads read the last value written. *)
From Coq Require Import List Arith Bool.
From Verif Require Import M_Import.
Import ListNotations.

Section Cell.
(** Contents of trees; what threads remember between steps. *)
Context {V L : Type}.
(** The content of a tree without root, arc_btree.rs:274-277. *)
Variable empty : V.

(** The closure given to [edit] (arc_btree.rs:35-40): it changes the thread's variables, and either gives the tree back as it got it ([None]),
    or writes a new content in it with [insert], as arc_btree.rs:581 does through [Arc::make_mut].
    Closures which give back an unrelated tree behave as [held] ones. *)
Notation edits := (L -> V -> L * option V).
(** The calls a thread makes.  [held]: the closure writes to a clone of its argument, which it keeps meanwhile (vtable/mod.rs:163).
    [Get]: arc_btree.rs:67-73. *)
Inductive call := Edit (held : bool) (f : edits) | Get (g : L -> V -> L) | Stop.

(** Points of a thread.  [cur], [new]: the variables of the same names in [edit]. *)
Inductive pc :=
| Idle (l : L)                                                            (* between two calls *)
| Loaded (l : L) (held : bool) (f : edits) (cur : option nat)             (* before arc_btree.rs:43, [copy_from_ptr] *)
| Copied (l : L) (held : bool) (f : edits) (cur : option nat)             (* before the call of [f], line 43; owns a reference to cur *)
| Ready (l : L) (held : bool) (f : edits) (cur : option nat) (l' : L) (new : option nat)   (* line 45; owns a reference to new *)
| Release (l : L) (p : nat)                                               (* before line 57; owns a reference to p *)
| GLoaded (l : L) (g : L -> V -> L) (cur : option nat)                    (* inside line 71, before the increment *)
| GCopied (l : L) (g : L -> V -> L) (cur : option nat).                   (* line 72; owns a reference to cur *)

(** arc_btree.rs:9-13: the pointer.  For each address: the strong count of the root there (0: no root there), its content.
    [fault]: the count of a released root was changed. *)
Record cell := Cell { ptr : option nat; rc : nat -> nat; val : nat -> V; pcs : list pc; fault : bool }.
(** arc_btree.rs:29-31 [new], and threads about to start. *)
Definition cell_new (ls : list L) : cell := Cell None (fun _ => 0) (fun _ => empty) (map Idle ls) false.

(** What is read through a root pointer (or null, arc_btree.rs:273-277). *)
Definition content (s : cell) (p : option nat) : V := match p with None => empty | Some a => val s a end.
(** Equality of pointers, arc_btree.rs:45, 48. *)
Definition same (x y : option nat) : bool :=
  match x, y with None, None => true | Some a, Some b => a =? b | _, _ => false end.
(** The list with its [t]th thread at another point (threads of arc_btree.rs:29-74). *)
Fixpoint put {A} (l : list A) (t : nat) (x : A) : list A :=
  match l, t with
  | [], _ => []
  | _ :: l, 0 => x :: l
  | y :: l, S t => y :: put l t x
  end.
(** Thread [t] goes to point [q] (arc_btree.rs:35-73). *)
Definition goto (t : nat) (q : pc) (s : cell) : cell := Cell (ptr s) (rc s) (val s) (put (pcs s) t q) (fault s).
(** Arc::clone, sync.rs:301-306, of a root. *)
Definition incr (p : option nat) (s : cell) : cell :=
  match p with
  | None => s
  | Some a => Cell (ptr s) (upd (rc s) a (S (rc s a))) (val s) (pcs s) (fault s || (rc s a =? 0))
  end.
(** Arc::drop, sync.rs:286-298, of a root: it is released when the count reaches 0. *)
Definition decr (p : option nat) (s : cell) : cell :=
  match p with
  | None => s
  | Some a => Cell (ptr s) (upd (rc s) a (pred (rc s a))) (val s) (pcs s) (fault s || (rc s a =? 0))
  end.
(** Arc::new_in, sync.rs:171-176, at a free address. *)
Definition alloc (a : nat) (v : V) (s : cell) : cell := Cell (ptr s) (upd (rc s) a 1) (upd (val s) a v) (pcs s) (fault s).
(** A root is changed in place (arc_btree.rs:581 through [Arc::make_mut], sync.rs:239-252). *)
Definition write (a : nat) (v : V) (s : cell) : cell := Cell (ptr s) (rc s) (upd (val s) a v) (pcs s) (fault s).
(** The pointer is replaced (arc_btree.rs:48-53). *)
Definition swap (p : option nat) (s : cell) : cell := Cell p (rc s) (val s) (pcs s) (fault s).

(** The next step of thread [t], which makes the calls that [prog] says; should it allocate, the allocator gives it address [a], if that is free
    (otherwise nothing happens). *)
Definition step (prog : L -> call) (s : cell) (act : nat * nat) : cell :=
  let (t, a) := act in
  match nth_error (pcs s) t with
  | None => s
  | Some (Idle l) =>
      match prog l with
      | Stop => s
      | Edit held f => goto t (Loaded l held f (ptr s)) s                 (* arc_btree.rs:41 *)
      | Get g => goto t (GLoaded l g (ptr s)) s                           (* arc_btree.rs:71 *)
      end
  | Some (Loaded l held f cur) => goto t (Copied l held f cur) (incr cur s)   (* arc_btree.rs:269-308 *)
  | Some (Copied l held f cur) =>                                         (* the call of [f], arc_btree.rs:43 *)
      let (l', r) := f l (content s cur) in
      match r with
      | None => goto t (Ready l held f cur l' cur) s
      | Some v =>
          match cur with
          | None => if rc s a =? 0 then goto t (Ready l held f cur l' (Some a)) (alloc a v s) else s    (* arc_btree.rs:388-401 *)
          | Some p =>                                                     (* Arc::make_mut, sync.rs:239-252, without a Weak *)
              if negb held && (rc s p =? 1) then goto t (Ready l held f cur l' cur) (write p v s)
              else if rc s a =? 0 then goto t (Ready l held f cur l' (Some a)) (decr cur (alloc a v s)) else s
          end
      end
  | Some (Ready l held f cur l' new) =>
      if same cur new then goto t (Idle l') (decr new s)                  (* arc_btree.rs:45-47, [new] is dropped *)
      else if same (ptr s) cur then                                       (* arc_btree.rs:48-58 *)
        match cur with
        | None => goto t (Idle l') (swap new s)
        | Some p => goto t (Release l' p) (swap new s)
        end
      else goto t (Loaded l' held f (ptr s)) (decr new s)                 (* arc_btree.rs:60-62, [new] is dropped *)
  | Some (Release l p) => goto t (Idle l) (decr (Some p) s)               (* arc_btree.rs:57, 310-341 *)
  | Some (GLoaded l g cur) => goto t (GCopied l g cur) (incr cur s)       (* arc_btree.rs:71, 269-308 *)
  | Some (GCopied l g cur) => goto t (Idle (g l (content s cur))) (decr cur s)   (* arc_btree.rs:72 *)
  end.
(** Any execution (arc_btree.rs:29-74 by any number of threads). *)
Definition run (prog : L -> call) (sched : list (nat * nat)) (s : cell) : cell := fold_left (step prog) sched s.
(** The cell goes out of scope: it is an [AtomicPtr] and has no [Drop] (arc_btree.rs:9-74), so nothing happens to its tree. *)
Definition cell_drop (s : cell) : cell := swap None s.
End Cell.
Arguments call : clear implicits.
Arguments pc : clear implicits.
Arguments cell : clear implicits.

Section Registry.
(** Contents of vtables: lists of words (vtable/mod.rs:52). *)
Variable K : Type.
Variable keq : forall x y : K, {x = y} + {x <> y}.
(** A registered vtable: its content and its address.  Addresses of copies of vtables are (thread, number): that of a freed copy is not used again
    here (vtable/mod.rs:160-161). *)
Notation addr := (nat * nat)%type.
(** Likewise, the entries of vtable/mod.rs:158-179. *)
Notation regs := (list (K * addr)).
(** [tree.get(&vtable)], vtable/mod.rs:164. *)
Fixpoint find (k : K) (v : regs) : option addr :=
  match v with [] => None | (k', a) :: v => if keq k' k then Some a else find k v end.

(** Variables of a thread making calls of [insert]: the vtable of the current call and those of the next calls; [edited]: the call of [edit] of the
    current one inserted something, and [ret] is still [None]; [copied]: the copy in [allocated_slice] (vtable/mod.rs:160-161); [made]: the contents of the
    copies made; [freed]: copies dropped; [answers]: what calls returned; [panicked]: the [expect] of line 185 did. *)
Record vars := Vars {
  me : nat; todo : list K; edited : bool; copied : option nat;
  made : list K; freed : list addr; answers : list (K * addr); panicked : bool
}.
(** Threads about to register the vtables of [kss]; [t] is the number of the first (vtable/mod.rs:158-201). *)
Fixpoint clients (t : nat) (kss : list (list K)) : list vars :=
  match kss with [] => [] | ks :: kss => Vars t ks false None [] [] [] false :: clients (S t) kss end.
(** [insert] returns, dropping [allocated_slice] unless it was forgotten (vtable/mod.rs:180-200). *)
Definition finish (x : vars) (k : K) (r : addr) (keep : bool) : vars :=
  Vars (me x) (tl (todo x)) false None (made x)
    (match copied x with Some n => if keep then freed x else (me x, n) :: freed x | None => freed x end)
    (answers x ++ [(k, r)]) (panicked x).
(** The closure, vtable/mod.rs:162-179. *)
Definition reg_edit (x : vars) (v : regs) : vars * option regs :=
  match todo x with
  | [] => (x, None)
  | k :: _ =>
      match find k v with
      | Some r => (finish x k r false, None)   (* [ret] is set, the tree is given back as it was, and [insert] returns, line 199 *)
      | None =>
          match copied x with
          | Some n => (Vars (me x) (todo x) true (Some n) (made x) (freed x) (answers x) (panicked x),
                       Some ((k, (me x, n)) :: v))
          | None => (Vars (me x) (todo x) true (Some (length (made x))) (made x ++ [k]) (freed x) (answers x) (panicked x),
                     Some ((k, (me x, length (made x))) :: v))
          end
      end
  end.
(** vtable/mod.rs:180-198: [ret] is none, so the tree is looked up again. *)
Definition reg_get (x : vars) (v : regs) : vars :=
  match todo x with
  | [] => x
  | k :: _ =>
      match find k v with
      | Some r => finish x k r (match copied x with Some n => (fst r =? me x) && (snd r =? n) | None => false end)
      | None => Vars (me x) [] false None (made x) (freed x) (answers x) true
      end
  end.
(** [VtBtree::insert], vtable/mod.rs:159-201, for each vtable. *)
Definition reg_prog (x : vars) : call regs vars :=
  match todo x with
  | [] => Stop
  | _ => if edited x then Get reg_get else Edit true reg_edit
  end.
End Registry.
