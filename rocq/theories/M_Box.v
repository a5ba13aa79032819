(** Model of [Box] (stabby-abi/src/alloc/boxed.rs:24-270), of [Dyn] over a [Box] where it owns it (stabby-abi/src/fatptr.rs:337-360), and of boxed [FnOnce]s
    (stabby-macros/src/gen_closures.rs:39-76).  Values and allocators are tokens.  The heap is a list of blocks, [None] when freed; addresses are not reused.
    What allocators do with blocks is M_Alloc, what is in vtables is M_Dyn. *)
From Coq Require Import List Arith Bool.
Import ListNotations.

(** A block: the allocator in its prefix (MaybeUninit, alloc/mod.rs:227-239) and the value, if they are initialised. *)
Record block := Blk { balloc : option nat; bval : option nat }.
(** What variables of the program own: a Box<T> (boxed.rs:26-28), a Box<MaybeUninit<T>>, an AllocPtr<T> from [into_raw] (boxed.rs:181-185), and a
    Dyn<Box<()>, Vt> (fatptr.rs:153-159); each is one pointer. *)
Inductive kind := KBox | KUninit | KRaw | KDyn.
(** The program and its surroundings: the heap, the variables ([None]: moved out), and what happened: values given to the caller, values destroyed, closures
    called, allocators given back to the caller, allocators destroyed, calls of [IAlloc::free] (allocator and block), and whether a panic is under way;
    see boxed.rs:115-177, 196-204, 247-256. *)
Record state := St { heap : list (option block); vars : list (option (kind * nat)); out : list nat; dropped : list nat; called : list nat;
  hout : list nat; hdropped : list nat; freed : list (nat * nat); panicked : bool }.
(** Before main: there are no boxes (boxed.rs:26-28). *)
Definition start : state := St [] [] [] [] [] [] [] [] false.

(** Reading a block through a pointer; [None]: it was freed (boxed.rs:214-224, 198-203). *)
Definition at_ (h : list (option block)) (a : nat) : option block := match nth_error h a with Some b => b | None => None end.
(** A write to the heap (boxed.rs:97, 122, 198-203). *)
Definition put {A} (h : list A) (a : nat) (b : A) : list A := firstn a h ++ b :: skipn (S a) h.
(** Updates of one component (see [state]; boxed.rs:115-204). *)
Definition set_heap (s : state) h := St h (vars s) (out s) (dropped s) (called s) (hout s) (hdropped s) (freed s) (panicked s).
(** boxed.rs:26-28, a variable changes. *)
Definition set_vars (s : state) v := St (heap s) v (out s) (dropped s) (called s) (hout s) (hdropped s) (freed s) (panicked s).
(** boxed.rs:134,176: a value is returned. *)
Definition give (s : state) v := St (heap s) (vars s) (v :: out s) (dropped s) (called s) (hout s) (hdropped s) (freed s) (panicked s).
(** boxed.rs:250: a destructor runs. *)
Definition destroy (s : state) v := St (heap s) (vars s) (out s) (v :: dropped s) (called s) (hout s) (hdropped s) (freed s) (panicked s).
(** gen_closures.rs:46: the closure is called by value. *)
Definition run_closure (s : state) v := St (heap s) (vars s) (out s) (dropped s) (v :: called s) (hout s) (hdropped s) (freed s) (panicked s).
(** boxed.rs:134: an allocator is returned. *)
Definition give_back (s : state) a := St (heap s) (vars s) (out s) (dropped s) (called s) (a :: hout s) (hdropped s) (freed s) (panicked s).
(** boxed.rs:200,157: an allocator goes out of scope. *)
Definition destroy_alloc (s : state) a := St (heap s) (vars s) (out s) (dropped s) (called s) (hout s) (a :: hdropped s) (freed s) (panicked s).
(** boxed.rs:157: unwinding starts. *)
Definition panic (s : state) := St (heap s) (vars s) (out s) (dropped s) (called s) (hout s) (hdropped s) (freed s) true.

(** boxed.rs:198-204 [free]: the allocator is read from the prefix, frees the block, and is destroyed when the function returns. *)
Definition free (s : state) (p : nat) : option state :=
  match at_ (heap s) p with
  | Some (Blk (Some a) _) =>
      Some (St (put (heap s) p None) (vars s) (out s) (dropped s) (called s) (hout s) (a :: hdropped s) ((a, p) :: freed s) (panicked s))
  | _ => None
  end.

(** The constructor given to [try_make_in] (boxed.rs:87-94): it initialises the slot with a value, declares a failure, or panics. *)
Inductive ctor := CInit (v : nat) | CErr | CPanic.
(** The result of [try_make_in] (boxed.rs:95): a box, the constructor and the allocator given back, or a panic. *)
Inductive made := MBox (k : kind) (p : nat) | MRefused | MPanic.
(** boxed.rs:87-111 [try_make_in].  [ok]: whether the allocator provides memory. *)
Definition try_make_in (s : state) (c : ctor) (a : nat) (ok : bool) : state * made :=
  if ok then
    let p := length (heap s) in
    match c with
    | CInit v => (set_heap s (heap s ++ [Some (Blk (Some a) (Some v))]), MBox KBox p)
    | CErr => (set_heap s (heap s ++ [Some (Blk (Some a) None)]), MBox KUninit p)
    | CPanic => (set_heap s (heap s ++ [Some (Blk (Some a) None)]), MPanic)
    end
  else (s, MRefused).
(** boxed.rs:115-136 [try_new_in]: the constructor reads a copy of [value], and [value] is forgotten if that happened. *)
Definition try_new_in (s : state) (v a : nat) (ok : bool) : state :=
  match try_make_in s (CInit v) a ok with
  | (s', MBox k p) => set_vars s' (vars s' ++ [Some (k, p)])
  | (s', _) => give_back (give s' v) a
  end.
(** boxed.rs:148-158 [make_in], after boxed.rs:87-111: when there is no memory it panics, and the allocator is destroyed by the unwinding. *)
Definition make_in (s : state) (c : ctor) (a : nat) (ok : bool) : state :=
  match try_make_in s c a ok with
  | (s', MBox k p) => set_vars s' (vars s' ++ [Some (k, p)])
  | (s', MRefused) => panic (destroy_alloc s' a)
  | (s', MPanic) => panic s'
  end.
(** boxed.rs:163-168 [new_in]: the constructor owns the value, which is destroyed with it when there is no memory. *)
Definition new_in (s : state) (v a : nat) (ok : bool) : state :=
  match try_make_in s (CInit v) a ok with
  | (s', MBox k p) => set_vars s' (vars s' ++ [Some (k, p)])
  | (s', _) => panic (destroy_alloc (destroy s' v) a)
  end.
(** boxed.rs:170-177 [into_inner]: the value. *)
Definition into_inner (s : state) (p : nat) : option (state * nat) :=
  match at_ (heap s) p with
  | Some (Blk _ (Some v)) => match free s p with Some s' => Some (s', v) | None => None end
  | _ => None
  end.
(** boxed.rs:247-256 [drop]; [bad]: the destructor of the value panics (it ran nevertheless). *)
Definition box_drop (s : state) (p : nat) (bad : bool) : option state :=
  match at_ (heap s) p with
  | Some (Blk _ (Some v)) => if bad then Some (panic (destroy s v)) else free (destroy s v) p
  | _ => None
  end.
(** The same for a MaybeUninit, which has no destructor (boxed.rs:247-256). *)
Definition uninit_drop (s : state) (p : nat) : option state := free s p.
(** boxed.rs:236-246 [IPtrOwned::drop], called by Drop for Dyn (fatptr.rs:354-360) with the destructor of the vtable.  It is an extern "C" function
    (vtable/mod.rs:372-374): if the destructor panics, the process ends. *)
Definition dyn_drop (s : state) (p : nat) : option state :=
  match at_ (heap s) p with
  | Some (Blk _ (Some v)) => free (destroy s v) p
  | _ => None
  end.
(** gen_closures.rs:69-75 [CallOnceDyn::call_once], then 45-47: [into_inner], and the closure is called. *)
Definition call_once (s : state) (p : nat) : option state :=
  match into_inner s p with Some (s', v) => Some (run_closure s' v) | None => None end.
(** [*b = value] (boxed.rs:220-224 DerefMut): the old value is destroyed. *)
Definition assign (s : state) (p v : nat) : option state :=
  match at_ (heap s) p with
  | Some (Blk a (Some old)) => Some (destroy (set_heap s (put (heap s) p (Some (Blk a (Some v))))) old)
  | _ => None
  end.
(** boxed.rs:206-213 [clone]: [v] is the clone of the value, [a] that of the allocator. *)
Definition clone (s : state) (p v a : nat) (ok : bool) : option state :=
  match at_ (heap s) p with
  | Some (Blk (Some _) (Some _)) => Some (new_in s v a ok)
  | _ => None
  end.

(** What a program does.  [i] is a variable; [ok]: the allocator provides memory. *)
Inductive op :=
| TryNew (v a : nat) (ok : bool)              (* boxed.rs:115 *)
| New (v a : nat) (ok : bool)                 (* boxed.rs:163 *)
| Make (c : ctor) (a : nat) (ok : bool)       (* boxed.rs:148 *)
| IntoInner (i : nat)                         (* boxed.rs:170 *)
| IntoRaw (i : nat) | FromRaw (i : nat)       (* boxed.rs:181, 189 *)
| Anonimize (i : nat)                         (* boxed.rs:257-268, fatptr.rs:337-352 *)
| Assign (i v : nat)                          (* boxed.rs:220 *)
| Clone (i v a : nat) (ok : bool)             (* boxed.rs:206 *)
| Drop (i : nat) (bad : bool)                 (* boxed.rs:247, fatptr.rs:354 *)
| CallOnce (i : nat).                         (* gen_closures.rs:69 *)
(** The pointer that variable [i] holds (boxed.rs:26-28). *)
Definition var (s : state) (i : nat) : option (kind * nat) := match nth_error (vars s) i with Some x => x | None => None end.
(** Moving out of a variable: it will not be dropped (boxed.rs:170, 181, 189, 247, fatptr.rs:354). *)
Definition moved (s : state) (i : nat) : state := set_vars s (put (vars s) i None).
(** One step; [None] is undefined behaviour.  Drop glue of an AllocPtr does nothing, as it is Copy (alloc/mod.rs:262-276). *)
Definition step (s : state) (o : op) : option state :=
  match o with
  | TryNew v a ok => Some (try_new_in s v a ok)
  | New v a ok => Some (new_in s v a ok)
  | Make c a ok => Some (make_in s c a ok)
  | IntoInner i =>
      match var s i with
      | Some (_, p) => match into_inner (moved s i) p with Some (s', v) => Some (give s' v) | None => None end
      | None => Some s
      end
  | IntoRaw i => match var s i with Some (_, p) => Some (set_vars s (put (vars s) i (Some (KRaw, p)))) | None => Some s end
  | FromRaw i => match var s i with Some (_, p) => Some (set_vars s (put (vars s) i (Some (KBox, p)))) | None => Some s end
  | Anonimize i => match var s i with Some (_, p) => Some (set_vars s (put (vars s) i (Some (KDyn, p)))) | None => Some s end
  | Assign i v => match var s i with Some (_, p) => assign s p v | None => Some s end
  | Clone i v a ok => match var s i with Some (_, p) => clone s p v a ok | None => Some s end
  | Drop i bad =>
      match var s i with
      | Some (KBox, p) => box_drop (moved s i) p bad
      | Some (KUninit, p) => uninit_drop (moved s i) p
      | Some (KDyn, p) => dyn_drop (moved s i) p
      | Some (KRaw, _) => Some (moved s i)
      | None => Some s
      end
  | CallOnce i => match var s i with Some (_, p) => call_once (moved s i) p | None => Some s end
  end.
