(** C38, C39: imported symbols (stabby-abi/src/checked_import.rs). *)
From Coq Require Import List Arith.
From Verif Require Import M_Import S_Import L_Import.
Import ListNotations.

(** Two threads dereference together; the second fails to take the lock, spins, then succeeds. *)
Definition sched_ex : list (nat * bool) :=
  map (fun t => (t, false)) [1; 2; 1; 2; 1; 2; 1; 2; 2; 1; 2; 1; 1; 2; 2; 3; 3; 3].

(** C38: whatever the threads and the interleaving, all calls get the answer of the checker. *)
Theorem import_answers_agree : forall F (answer : option F) o sched t x,
  In (t, x) (log (import_run o answer sched import_new)) -> answers answer x.
Proof. exact (@import_agree). Qed.
Print Assumptions import_answers_agree.
Example import_answers_agree_ex :
  map fst (log (import_run Relaxed (Some 7) sched_ex import_new)) = [1; 2; 3] /\
  log (import_run Relaxed (@None nat) sched_ex import_new) <> [].
Proof. split; vm_compute; [reflexivity | discriminate]. Qed.
(** C38: the symbol is initialised at most once. *)
Theorem import_initialised_once : forall F (answer : option F) o sched,
  writes (import_run o answer sched import_new) <= 1.
Proof. exact (@import_once). Qed.
Print Assumptions import_initialised_once.
Example import_initialised_once_ex : writes (import_run Relaxed (Some 7) sched_ex import_new) = 1.
Proof. vm_compute; reflexivity. Qed.
(** C38: dropping the import never drops uninitialised memory; when no thread is initialising it, it drops what
    was written, and nothing else. *)
Theorem import_drop_exact : forall F (answer : option F) o sched,
  let s := import_run o answer sched import_new in
  import_drop s <> None /\ ((forall t, ~ initialising (pcs s t)) -> import_drop s = Some (result s)).
Proof. exact (@import_drop_ok). Qed.
Print Assumptions import_drop_exact.
Example import_drop_exact_ex : import_drop (import_run Relaxed (Some 7) sched_ex import_new) = Some (Some 7).
Proof. vm_compute; reflexivity. Qed.
(** C38: unless another thread stopped while initialising, a thread running alone completes a call
    within eight steps. *)
Theorem import_completes : forall F (answer : option F) o sched t,
  let s := import_run o answer sched import_new in
  (forall t', t' <> t -> ~ initialising (pcs s t')) ->
  exists n, n <= 8 /\
    length (log (import_run o answer (sched ++ repeat (t, false) n) import_new)) = S (length (log s)).
Proof. exact (@import_progress). Qed.
Print Assumptions import_completes.
Example import_completes_ex :
  length (log (import_run Relaxed (Some 7) (repeat (4, false) 8) import_new)) = 1.
Proof. vm_compute; reflexivity. Qed.
(** C38: the import would be free of data races with an acquire load of [checked]. *)
Theorem import_race_free_with_acquire : forall F (answer : option F) sched t v k,
  In (t, Gave v k) (log (import_run Acquire answer sched import_new)) -> k = true.
Proof. exact (@import_acquire). Qed.
Print Assumptions import_race_free_with_acquire.
Example import_race_free_with_acquire_ex :
  log (import_run Acquire (Some 7) sched_ex import_new) =
    [(1, Gave (Some 7) true); (2, Gave (Some 7) true); (3, Gave (Some 7) true)].
Proof. vm_compute; reflexivity. Qed.
(** C38, refuted: with the code's relaxed load (checked_import.rs:111), a thread is handed a
    reference to the symbol although its initialisation does not happen before. *)
Theorem import_initialised_before_read_refuted : exists sched t v,
  In (t, Gave v false) (log (import_run Relaxed (Some 7) sched import_new)).
Proof.
  exists (repeat (1, false) 7 ++ repeat (2, false) 3), 2, (Some 7). vm_compute. auto.
Qed.
Print Assumptions import_initialised_before_read_refuted.

(** C39: the canary runs at most once, and has run once the calls that started it are over. *)
Theorem canary_runs_once : forall sched, let s := canaried_run sched canaried_new in
  runs s <= 1 /\ (clog s <> [] -> (forall t, cpcs s t <> CCanary) -> runs s = 1).
Proof. exact canaried_once. Qed.
Print Assumptions canary_runs_once.
Example canary_runs_once_ex : let s := canaried_run [1; 2; 1; 2; 1; 2; 1] canaried_new in
  clog s = [(2, 1); (1, 1)] /\ cpcs s 1 = CIdle /\ runs s = 1.
Proof. vm_compute; auto. Qed.
(** C39: used by a single thread, the canary runs before any dereference completes. *)
Theorem canary_runs_before_use_partial : forall sched t0, (forall t, In t sched -> t = t0) ->
  forall t n, In (t, n) (clog (canaried_run sched canaried_new)) -> n = 1.
Proof. exact canaried_single. Qed.
Print Assumptions canary_runs_before_use_partial.
Example canary_runs_before_use_ex : clog (canaried_run [1; 1; 1; 1; 1; 1; 1] canaried_new) = [(1, 1); (1, 1)].
Proof. vm_compute; reflexivity. Qed.
(** C39, refuted: with two threads a dereference completes before the canary has run. *)
Theorem canary_runs_before_use_refuted : exists sched t,
  In (t, 0) (clog (canaried_run sched canaried_new)).
Proof. exists [1; 1; 2; 2; 2], 2. vm_compute. auto. Qed.
Print Assumptions canary_runs_before_use_refuted.
