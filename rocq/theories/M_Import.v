(** Model of stabby-abi/src/checked_import.rs: imported symbols used by any number of threads.
    A scheduler chooses which thread makes its next atomic step; a thread starts a new call
    when it is scheduled while idle.  Values of atomics are read in modification order
    (sequentially consistent values); the synchronisation that the orderings give or not is tracked by
    one bit per thread: whether the write of [result] happens before the thread's next step. *)
From Coq Require Import List Arith Bool.
Import ListNotations.

(** checked_import.rs:82-85. *)
Inductive flag := UNCHECKED | VALIDATED | INVALIDATED | LOCKED.
(** core::sync::atomic::Ordering, those used for the load of checked_import.rs:112. *)
Inductive load_order := Relaxed | Acquire.

(** Steps of checked_import.rs:110-143 [as_ref] and where a thread stands between them. *)
Inductive pc (F : Type) :=
| Idle                (* not in a call *)
| Load                (* line 111, about to load [checked] *)
| Check               (* line 112, about to call the checker *)
| Cas (f : F)         (* lines 114-123, about to compare_exchange_weak *)
| Write (f : F)       (* line 126, about to write [result] *)
| Publish             (* line 127, about to store VALIDATED *)
| TakeRef             (* lines 128 and 139, about to read [result] *)
| Refuse.             (* line 133, about to store INVALIDATED *)
Arguments Idle {F}. Arguments Load {F}. Arguments Check {F}. Arguments Cas {F}.
Arguments Write {F}. Arguments Publish {F}. Arguments TakeRef {F}. Arguments Refuse {F}.

(** What a call returned: the content of [result] (None: uninitialised) and whether its write
    happens before the read; or the mismatch (checked_import.rs:102-107,134,140). *)
Inductive outcome (F : Type) := Gave (v : option F) (ordered : bool) | Mismatch.
Arguments Gave {F}. Arguments Mismatch {F}.

(** checked_import.rs:51-59 [CheckedImport], with ghost fields: [writes] counts the writes of
    [result], [published] whether the current value of [checked] was stored with release
    ordering after that write, [knows] the bit per thread, [log] what the calls returned. *)
Record import (F : Type) := Import {
  checked : flag;
  result : option F;
  pcs : nat -> pc F;
  writes : nat;
  published : bool;
  knows : nat -> bool;
  log : list (nat * outcome F)
}.
Arguments Import {F}. Arguments checked {F}. Arguments result {F}. Arguments pcs {F}.
Arguments writes {F}. Arguments published {F}. Arguments knows {F}. Arguments log {F}.

(** checked_import.rs:89-101 [new]. *)
Definition import_new {F} : import F :=
  Import UNCHECKED None (fun _ => Idle) 0 false (fun _ => false) [].

(** The state where thread [t] is at [p] (a helper of the steps of checked_import.rs:110-143). *)
Definition upd {A} (m : nat -> A) (t : nat) (a : A) : nat -> A :=
  fun t' => if Nat.eqb t' t then a else m t'.

(** One step of thread [t] in checked_import.rs:110-143.  [answer] is what the checker returns
    for the local report (the exported function of stabby-macros functions.rs:325-330 is a
    function of the report); [spurious] whether compare_exchange_weak fails for no reason;
    [o] the ordering of the load of line 111. *)
Definition import_step {F} (o : load_order) (answer : option F) (s : import F)
    (act : nat * bool) : import F :=
  let (t, spurious) := act in
  let goto p := Import (checked s) (result s) (upd (pcs s) t p) (writes s) (published s) (knows s) (log s) in
  match pcs s t with
  | Idle => goto Load
  | Load =>
      let k := match o with Relaxed => knows s | Acquire => upd (knows s) t (knows s t || published s) end in
      let at_ p := Import (checked s) (result s) (upd (pcs s) t p) (writes s) (published s) k (log s) in
      match checked s with
      | UNCHECKED => at_ Check
      | VALIDATED => at_ TakeRef
      | INVALIDATED =>
          Import (checked s) (result s) (upd (pcs s) t Idle) (writes s) (published s) k (log s ++ [(t, Mismatch)])
      | LOCKED => at_ Load
      end
  | Check => match answer with Some f => goto (Cas f) | None => goto Refuse end
  | Cas f =>
      match checked s, spurious with
      | UNCHECKED, false =>
          Import LOCKED (result s) (upd (pcs s) t (Write f)) (writes s)
            (knows s t) (upd (knows s) t (knows s t || published s)) (log s)
      | _, _ => goto Load
      end
  | Write f =>
      Import (checked s) (Some f) (upd (pcs s) t Publish) (S (writes s)) (published s)
        (upd (fun _ => false) t true) (log s)
  | Publish =>
      Import VALIDATED (result s) (upd (pcs s) t TakeRef) (writes s) (knows s t) (knows s) (log s)
  | TakeRef =>
      Import (checked s) (result s) (upd (pcs s) t Idle) (writes s) (published s) (knows s)
        (log s ++ [(t, Gave (result s) (knows s t))])
  | Refuse =>
      Import INVALIDATED (result s) (upd (pcs s) t Idle) (writes s) false (knows s) (log s ++ [(t, Mismatch)])
  end.
(** Any execution of checked_import.rs:110-143 by any number of threads. *)
Definition import_run {F} (o : load_order) (answer : option F) (sched : list (nat * bool))
    (s : import F) : import F := fold_left (import_step o answer) sched s.

(** checked_import.rs:151-157 [Drop]: what is dropped, if anything; None if uninitialised memory
    is dropped as if it held a value. *)
Definition import_drop {F} (s : import F) : option (option F) :=
  match checked s with
  | VALIDATED => match result s with Some f => Some (Some f) | None => None end
  | _ => Some None
  end.

(** checked_import.rs:40-48 [CanariedImport::deref]: points of a call. *)
Inductive cpc := CIdle | CSwap | CCanary | CReturn.
(** checked_import.rs:21-25 [CanariedImport], with ghost fields: the number of runs of the
    canary, and for each completed dereference the thread and the runs at that time. *)
Record canaried := Canaried {
  cchecked : bool;
  cpcs : nat -> cpc;
  runs : nat;
  clog : list (nat * nat)
}.
(** checked_import.rs:32-38 [new]. *)
Definition canaried_new : canaried := Canaried false (fun _ => CIdle) 0 [].
(** One step of thread [t] in checked_import.rs:42-47. *)
Definition canaried_step (s : canaried) (t : nat) : canaried :=
  match cpcs s t with
  | CIdle => Canaried (cchecked s) (upd (cpcs s) t CSwap) (runs s) (clog s)
  | CSwap => Canaried true (upd (cpcs s) t (if cchecked s then CReturn else CCanary)) (runs s) (clog s)
  | CCanary => Canaried (cchecked s) (upd (cpcs s) t CReturn) (S (runs s)) (clog s)
  | CReturn => Canaried (cchecked s) (upd (cpcs s) t CIdle) (runs s) (clog s ++ [(t, runs s)])
  end.
(** Any execution of checked_import.rs:42-47 by any number of threads. *)
Definition canaried_run (sched : list nat) (s : canaried) : canaried := fold_left canaried_step sched s.
