(** C77: shared instants, as a register of nanoseconds read to the microsecond. *)
From Coq Require Import List NArith ZArith Bool Arith.
From Verif Require Import M_Time S_Time M_Instant.
Import ListNotations.
Local Open Scope N_scope.

(** To the microsecond. *)
Definition us (n : N) : N := n / 1000 * 1000.
(** The instants written, in nanoseconds; where each thread is; the times read by updates. *)
Record reg := Reg { r_clock : N; r_written : list N; r_view : nat -> nat; r_pending : nat -> option N }.
Definition r_set {A} (f : nat -> A) (t : nat) (a : A) : nat -> A := fun u => if Nat.eqb u t then a else f u.
Definition r_swap (r : reg) (t : nat) (n : N) : reg * option (nat * N) :=
  (Reg (r_clock r) (r_written r ++ [n]) (r_set (r_view r) t (length (r_written r))) (r_set (r_pending r) t None), Some (t, us (last (r_written r) 0))).
Definition r_step (r : reg) (a : ai_action) : option (reg * option (nat * N)) :=
  match a with
  | Tick n => Some (Reg (r_clock r + n) (r_written r) (r_view r) (r_pending r), None)
  | Load t i =>
      if Nat.leb (r_view r t) i then
        match nth_error (r_written r) i with
        | Some n => Some (Reg (r_clock r) (r_written r) (r_set (r_view r) t i) (r_pending r), Some (t, us n))
        | None => None
        end
      else None
  | Store t d => Some (Reg (r_clock r) (r_written r ++ [value d]) (r_set (r_view r) t (length (r_written r))) (r_pending r), None)
  | Swap t d => Some (r_swap r t (value d))
  | UpdRead t => Some (Reg (r_clock r) (r_written r) (r_view r) (r_set (r_pending r) t (Some (r_clock r))), None)
  | UpdSwap t => match r_pending r t with Some n => Some (r_swap r t n) | None => None end
  end.
Fixpoint r_run (r : reg) (l : list ai_action) : option (reg * list (nat * N * N)) :=
  match l with
  | [] => Some (r, [])
  | a :: l =>
      match r_step r a with
      | None => None
      | Some (r', o) =>
          match r_run r' l with
          | Some (r'', os) => Some (r'', match o with Some (t, n) => (t, n, r_clock r') :: os | None => os end)
          | None => None
          end
      end
  end.
Definition r_new (n : N) (v : N) : reg := Reg n [v] (fun _ => O) (fun _ => None).

(** About 278000 years. *)
Definition LIMIT : N := 2 ^ 43 * 1000000000.
Definition fits (d : duration) : Prop := normal d /\ value d < LIMIT.
(** The instants given fit, and so does the clock to the end. *)
Fixpoint in_range (n : N) (l : list ai_action) : Prop :=
  n < LIMIT /\
  match l with
  | [] => True
  | Tick m :: l => in_range (n + m) l
  | Store _ d :: l | Swap _ d :: l => fits d /\ in_range n l
  | _ :: l => in_range n l
  end.
(** The instants given are past when they are written. *)
Fixpoint past (n : N) (l : list ai_action) : Prop :=
  match l with
  | [] => True
  | Tick m :: l => past (n + m) l
  | Store _ d :: l | Swap _ d :: l => value d <= n /\ past n l
  | _ :: l => past n l
  end.
(** Only [w] writes, the time. *)
Definition one_updater (w : nat) (a : ai_action) : Prop :=
  match a with Store _ _ | Swap _ _ => False | UpdRead t | UpdSwap t => t = w | _ => True end.
(** What each thread is given does not decrease. *)
Definition monotone (os : list (nat * N * N)) : Prop :=
  forall i j t a b ca cb, (i < j)%nat -> nth_error os i = Some (t, a, ca) -> nth_error os j = Some (t, b, cb) -> a <= b.
Definition valued (o : nat * duration * N) : nat * N * N := match o with (t, d, c) => (t, value d, c) end.
