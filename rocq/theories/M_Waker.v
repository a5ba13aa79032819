(** Model of the ABI-stable wakers, stabby-abi/src/future.rs:50-174.
    Wakers wrap wakers to any depth.  The wakers of the executor are known by a number; what is done to them is logged.
    Each operation is one step: the counters of [Arc] are atomic (their memory orders are the matter of C25).  [None]: use of released memory.
    Not modelled: allocation failure (a panic), overflow of the counters, [will_wake], [stabby_unsafe_wakers] (future.rs:23-48). *)
From Coq Require Import List Arith Bool.
Import ListNotations.

(** What owns a share of a waker: a waker of the executor, or a [RawWaker] with the vtable of [SharedStableWaker] (future.rs:80, 102-109)
    whose data is the address of the block [n]. *)
Inductive owned := OOrig (i : nat) | OShared (n : nat).
(** A waker that can be referred to: an owned one, or one made by [with_waker] (future.rs:129-144) from a [StableWaker<_, a>] (future.rs:121-126) around [u];
    its [drop] does nothing (future.rs:140).  [a] is the allocator, 0 is [DefaultAllocator]. *)
Inductive waker := Own (o : owned) | Borrowed (a : nat) (u : waker).
(** future.rs:65-69, 80: a [StableWakerInner] in an [Arc]: its strong count, the waker it owns, the allocator used, whether it was released. *)
Record block := Block { b_strong : nat; b_inner : owned; b_alloc : nat; b_freed : bool }.
(** What happens to the wakers of the executor: [Clone], [Drop] and [wake_by_ref] of the [Waker] (future.rs:155, 146, 149). *)
Inductive event := EClone (i : nat) | EDrop (i : nat) | EWake (i : nat).
(** The [Arc] blocks (future.rs:161), and the log of what happened to the wakers of the executor (future.rs:155, 146, 149). *)
Record world := World { w_blocks : list block; w_log : list event }.

(** Update of the block [n]: the counter of future.rs:83 or 92. *)
Fixpoint upd (h : list block) (n : nat) (b : block) : list block :=
  match h, n with [], _ => [] | _ :: h, O => b :: h | c :: h, S n => c :: upd h n b end.

(** future.rs:82-85 [SharedStableWaker::clone] ([increment_strong_count], sync.rs:218-226), or the clone of the executor's waker. *)
Definition clone_owned (w : world) (o : owned) : option (world * owned) :=
  match o with
  | OOrig i => Some (World (w_blocks w) (EClone i :: w_log w), o)
  | OShared n =>
      match nth_error (w_blocks w) n with
      | Some b => if b_freed b then None else
          Some (World (upd (w_blocks w) n (Block (S (b_strong b)) (b_inner b) (b_alloc b) false)) (w_log w), o)
      | None => None
      end
  end.
(** future.rs:132-135 [clone] of [with_waker], which calls [clone_borrowed], future.rs:151-163: the wrapped waker is cloned and put in a new [Arc] of count 1. *)
Fixpoint clone (w : world) (k : waker) : option (world * owned) :=
  match k with
  | Own o => clone_owned w o
  | Borrowed a u =>
      match clone w u with
      | Some (w, o) => Some (World (w_blocks w ++ [Block 1 o a false]) (w_log w), OShared (length (w_blocks w)))
      | None => None
      end
  end.
(** future.rs:98-101 [SharedStableWaker::wake_by_ref]: calls the inner waker's, which may be another such waker.  [fuel] bounds the number of blocks gone through. *)
Fixpoint wake_owned (fuel : nat) (w : world) (o : owned) : option world :=
  match o with
  | OOrig i => Some (World (w_blocks w) (EWake i :: w_log w))
  | OShared n =>
      match fuel, nth_error (w_blocks w) n with
      | S fuel, Some b => if b_freed b then None else wake_owned fuel w (b_inner b)
      | _, _ => None
      end
  end.
(** future.rs:136-139 [wake_by_ref] of [with_waker]. *)
Fixpoint wake_by_ref (w : world) (k : waker) : option world :=
  match k with Own o => wake_owned (length (w_blocks w)) w o | Borrowed _ u => wake_by_ref w u end.
(** future.rs:86-93 [SharedStableWaker::drop]: an [Arc] with the allocator of the vtable, which is [DefaultAllocator] (the type of future.rs:133), is dropped (sync.rs:285-299);
    the last one drops [StableWakerInner] (future.rs:74-78), whose waker is dropped (future.rs:146), and releases the block with its allocator:
    undefined if the block comes from another one. *)
Fixpoint drop_owned (fuel : nat) (w : world) (o : owned) : option world :=
  match o with
  | OOrig i => Some (World (w_blocks w) (EDrop i :: w_log w))
  | OShared n =>
      match fuel, nth_error (w_blocks w) n with
      | S fuel, Some b =>
          if b_freed b then None else
          match b_strong b with
          | O => None
          | S O =>
              if Nat.eqb (b_alloc b) 0 then
                drop_owned fuel (World (upd (w_blocks w) n (Block 0 (b_inner b) (b_alloc b) true)) (w_log w)) (b_inner b)
              else None
          | S (S c) => Some (World (upd (w_blocks w) n (Block (S c) (b_inner b) (b_alloc b) false)) (w_log w))
          end
      | _, _ => None
      end
  end.
(** future.rs:94-97 [wake]: wake, then drop. *)
Definition wake (w : world) (o : owned) : option world :=
  match wake_by_ref w (Own o) with Some w => drop_owned (length (w_blocks w)) w o | None => None end.

(** A call of [with_waker] in progress (future.rs:129-144): the wrapped waker, the allocator, and the owned waker it is a reference to, if it is one;
    that one cannot be dropped or woken by value meanwhile. *)
Record frame := Frame { f_alloc : nat; f_under : waker; f_own : option owned }.
(** The world, the owned wakers and the calls of [with_waker] in progress (future.rs:129-144), innermost first. *)
Record state := State { s_world : world; s_pool : list owned; s_frames : list frame }.

(** What a reference to a waker can be: an owned waker, the one given to the closure of a call in progress (future.rs:143), or the one it wraps (future.rs:122). *)
Inductive source := SOwn (k : nat) | SFrame (j : nat) | SUnder (j : nat).
(** future.rs:122, 141-143: the waker a source is. *)
Definition source_waker (s : state) (x : source) : option waker :=
  match x with
  | SOwn k => option_map Own (nth_error (s_pool s) k)
  | SFrame j => option_map (fun f => Borrowed (f_alloc f) (f_under f)) (nth_error (s_frames s) j)
  | SUnder j => option_map f_under (nth_error (s_frames s) j)
  end.
(** What a program does with wakers: [Waker::clone], [wake_by_ref], [wake], [drop]; [From<&Waker>] followed by [with_waker] (future.rs:165-173, 129), and its end. *)
Inductive op := OpClone (x : source) | OpWakeRef (x : source) | OpWake (k : nat) | OpDrop (k : nat) | OpEnter (a : nat) (x : source) | OpExit.

(** The owned waker [k] is taken out of the pool (by value: future.rs:94, or borrowed by future.rs:129). *)
Fixpoint take {A} (k : nat) (l : list A) : list A :=
  match l, k with [], _ => [] | _ :: l, O => l | x :: l, S k => x :: take k l end.

(** One operation, future.rs:82-101 and 132-144.  Operations on wakers that do not exist do nothing. *)
Definition step (s : state) (o : op) : option state :=
  match o with
  | OpClone x =>
      match source_waker s x with
      | Some k => match clone (s_world s) k with Some (w, n) => Some (State w (n :: s_pool s) (s_frames s)) | None => None end
      | None => Some s
      end
  | OpWakeRef x =>
      match source_waker s x with
      | Some k => match wake_by_ref (s_world s) k with Some w => Some (State w (s_pool s) (s_frames s)) | None => None end
      | None => Some s
      end
  | OpWake k =>
      match nth_error (s_pool s) k with
      | Some n => match wake (s_world s) n with Some w => Some (State w (take k (s_pool s)) (s_frames s)) | None => None end
      | None => Some s
      end
  | OpDrop k =>
      match nth_error (s_pool s) k with
      | Some n => match drop_owned (length (w_blocks (s_world s))) (s_world s) n with Some w => Some (State w (take k (s_pool s)) (s_frames s)) | None => None end
      | None => Some s
      end
  | OpEnter a x =>
      match source_waker s x with
      | Some k =>
          match x with
          | SOwn j => Some (State (s_world s) (take j (s_pool s)) (Frame a k (nth_error (s_pool s) j) :: s_frames s))
          | _ => Some (State (s_world s) (s_pool s) (Frame a k None :: s_frames s))
          end
      | None => Some s
      end
  | OpExit =>
      match s_frames s with
      | [] => Some s
      | f :: fs => Some (State (s_world s) (match f_own f with Some o => o :: s_pool s | None => s_pool s end) fs)
      end
  end.
(** Histories: operations of future.rs:82-144 one after the other. *)
Fixpoint run (s : state) (l : list op) : option state :=
  match l with [] => Some s | o :: l => match step s o with Some s => run s l | None => None end end.
(** At first the executor has one waker of each of the kinds [ids], to be passed to future.rs:166. *)
Definition start (ids : list nat) : state := State (World [] (map EClone ids)) (map OOrig ids) [].
