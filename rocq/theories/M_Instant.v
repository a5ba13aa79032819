(** Model of [Instant] and [AtomicInstant] (stabby/src/time.rs:220-330), shared between threads.
    A [std::time::Instant] is a number of nanoseconds since the zeroed one (time.rs:259-262 [instant_epoch]), which is below zero if it precedes it.  The cell is
    the list of the values written to it, in modification order (steps append to it); a load may read an old one, but none older than what its thread
    read or wrote last (coherence, which holds for all [Ordering]s); a swap reads the last one. *)
From Coq Require Import List NArith ZArith Bool Arith.
From Verif Require Import M_Time.
Import ListNotations.

(** time.rs:276-280 [From<std::time::Instant>]; [duration_since] gives zero for instants before the epoch. *)
Definition inst_from_std (t : Z) : duration :=
  if Z.ltb t 0 then Dur 0 0 else dur_from_core (CDur (Z.to_N (t / 1000000000)) (Z.to_N (t mod 1000000000))).
(** time.rs:281-285 [From<Instant> for std::time::Instant]; the addition to the epoch is taken as exact. *)
Definition inst_into_std (d : duration) : option Z :=
  option_map (fun c => Z.of_N (c_secs c) * 1000000000 + Z.of_N (c_nanos c))%Z (dur_into_core d).
(** time.rs:255-257 [Instant::now]; also [instant_epoch().elapsed()] (294, 310), for a clock at [n] nanoseconds. *)
Definition inst_now (n : N) : duration := inst_from_std (Z.of_N n).

(** What threads share, and where they are (time.rs:287-330): the clock; the cell; the last value each thread knows; the time read by an [update] not yet written. *)
Record ai_state := AI { clock : N; cells : list Z; view : nat -> nat; pending : nat -> option duration }.
(** Steps of threads (time.rs:306-328); [update] is two of them: it reads the clock (309-311), then swaps. *)
Inductive ai_action :=
| Tick (n : N)
| Load (t i : nat)
| Store (t : nat) (d : duration)
| Swap (t : nat) (d : duration)
| UpdRead (t : nat)
| UpdSwap (t : nat).
(** What a step does (time.rs:306-328): it cannot be taken, it panics on overflow, or it yields a state and may return an instant to its thread. *)
Inductive ai_outcome := Blocked | Panics | Next (s : ai_state) (r : option (nat * duration)).
(** A function changed at one point (the threads of time.rs:287-330). *)
Definition upd {A} (f : nat -> A) (t : nat) (a : A) : nat -> A := fun u => if Nat.eqb u t then a else f u.
(** time.rs:156-158, 318-320: a swap of the last value. *)
Definition swap_last (s : ai_state) (t : nat) (d : duration) : ai_outcome :=
  match ai_swap (last (cells s) 0%Z) d with
  | None => Panics
  | Some (r, c) => Next (AI (clock s) (cells s ++ [c]) (upd (view s) t (length (cells s))) (upd (pending s) t None)) (Some (t, r))
  end.
(** time.rs:306-328. *)
Definition ai_step (s : ai_state) (a : ai_action) : ai_outcome :=
  match a with
  | Tick n => Next (AI (clock s + n) (cells s) (view s) (pending s)) None
  | Load t i =>
      if Nat.leb (view s t) i then
        match nth_error (cells s) i with
        | None => Blocked
        | Some c => match ai_load c with None => Panics | Some d => Next (AI (clock s) (cells s) (upd (view s) t i) (pending s)) (Some (t, d)) end
        end
      else Blocked
  | Store t d =>
      match ai_store d with
      | None => Panics
      | Some c => Next (AI (clock s) (cells s ++ [c]) (upd (view s) t (length (cells s))) (pending s)) None
      end
  | Swap t d => swap_last s t d
  | UpdRead t => Next (AI (clock s) (cells s) (view s) (upd (pending s) t (Some (inst_now (clock s))))) None
  | UpdSwap t => match pending s t with None => Blocked | Some d => swap_last s t d end
  end.
(** time.rs:290-304 [AtomicInstant::now], [epoch]: a cell made at time [n] with the instant [d]; all threads see it. *)
Definition ai_new (n : N) (d : duration) : option ai_state :=
  match ai_store d with Some c => Some (AI n [c] (fun _ => 0) (fun _ => None)) | None => None end.
(** Runs (time.rs:287-330): what was returned, with the clock then. *)
Fixpoint ai_run (s : ai_state) (l : list ai_action) : option (option (ai_state * list (nat * duration * N))) :=
  match l with
  | [] => Some (Some (s, []))
  | a :: r =>
      match ai_step s a with
      | Blocked => None
      | Panics => Some None
      | Next s' o =>
          match ai_run s' r with
          | Some (Some (s'', os)) => Some (Some (s'', match o with Some (t, d) => (t, d, clock s') :: os | None => os end))
          | x => x
          end
      end
  end.
