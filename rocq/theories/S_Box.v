(** Specification of boxes: where values, allocators and blocks are. *)
From Coq Require Import List Arith Bool Permutation.
From Verif Require Import M_Box.
Import ListNotations.

(** The program compiles: the variable it uses was not moved out, and has the right type.  [from_raw] is unsafe: its argument must be owned by nobody, as is
    what [into_raw] returned.  An AllocPtr is not let go of. *)
Definition holds (s : state) (i : nat) (k : kind) : Prop := exists p, nth_error (vars s) i = Some (Some (k, p)).
Definition compiles (s : state) (o : op) : Prop :=
  match o with
  | TryNew _ _ _ | New _ _ _ | Make _ _ _ => True
  | IntoInner i | IntoRaw i | Anonimize i | Assign i _ | Clone i _ _ _ => holds s i KBox
  | FromRaw i => holds s i KRaw
  | Drop i _ => holds s i KBox \/ holds s i KUninit \/ holds s i KDyn
  | CallOnce i => holds s i KDyn
  end.
(** Reachable states, with the steps that led there; [None] is undefined behaviour. *)
Inductive runs : list op -> option state -> Prop :=
| runs_nil : runs [] (Some start)
| runs_snoc ops s o : runs ops (Some s) -> compiles s o -> runs (ops ++ [o]) (step s o).

(** The values and the allocators that a step brings in. *)
Definition new_values (o : op) : list nat :=
  match o with
  | TryNew v _ _ | New v _ _ | Assign _ v | Clone _ v _ _ => [v]
  | Make (CInit v) _ true => [v]
  | _ => []
  end.
Definition new_allocs (o : op) : list nat := match o with TryNew _ a _ | New _ a _ | Make _ a _ | Clone _ _ a _ => [a] | _ => [] end.
(** The values held by variables: a box or trait object holds one. *)
Definition value_of (s : state) (x : option (kind * nat)) : list nat :=
  match x with
  | Some (_, p) => match nth_error (heap s) p with Some (Some b) => match bval b with Some v => [v] | None => [] end | _ => [] end
  | None => []
  end.
Definition held_values (s : state) : list nat := flat_map (value_of s) (vars s).
Definition held_blocks (s : state) : list nat := flat_map (fun x => match x with Some (_, p) => [p] | None => [] end) (vars s).
(** The blocks not freed, and the allocators in them. *)
Definition live_blocks (s : state) : list nat :=
  filter (fun p => match nth_error (heap s) p with Some (Some _) => true | _ => false end) (seq 0 (length (heap s))).
Definition live_allocs (s : state) : list nat :=
  flat_map (fun x => match x with Some b => match balloc b with Some a => [a] | None => [] end | None => [] end) (heap s).
(** The allocator used for each block. *)
Definition request (o : op) : list nat := match o with TryNew _ a true | New _ a true | Make _ a true | Clone _ _ a true => [a] | _ => [] end.
Definition requests (ops : list op) : list nat := flat_map request ops.
(** No destructor and no constructor panics. *)
Definition calm (o : op) : Prop := match o with Make CPanic _ _ => False | Drop _ bad => bad = false | _ => True end.

(** Boxes as variables that hold a value themselves, with no heap: what each step does to them, the values it gives to the caller, destroys, and calls. *)
Definition owner : Type := option (kind * option nat).
Fixpoint change (m : list owner) (i : nat) (x : owner) : list owner :=
  match m, i with [], _ => [] | _ :: m, 0 => x :: m | y :: m, S i => y :: change m i x end.
Definition effect (m : list owner) (o : op) : list owner * list nat * list nat * list nat :=
  let get i := match nth i m None with Some (_, Some v) => [v] | _ => [] end in
  match o with
  | TryNew v _ true | New v _ true | Make (CInit v) _ true | Clone _ v _ true => (m ++ [Some (KBox, Some v)], [], [], [])
  | Make CErr _ true => (m ++ [Some (KUninit, None)], [], [], [])
  | TryNew v _ false => (m, [v], [], [])
  | New v _ false | Clone _ v _ false => (m, [], [v], [])
  | Make _ _ _ => (m, [], [], [])
  | IntoInner i => (change m i None, get i, [], [])
  | IntoRaw i => (change m i (option_map (fun x => (KRaw, snd x)) (nth i m None)), [], [], [])
  | FromRaw i => (change m i (option_map (fun x => (KBox, snd x)) (nth i m None)), [], [], [])
  | Anonimize i => (change m i (option_map (fun x => (KDyn, snd x)) (nth i m None)), [], [], [])
  | Assign i v => (change m i (Some (KBox, Some v)), [], get i, [])
  | Drop i _ => (change m i None, [], get i, [])
  | CallOnce i => (change m i None, [], [], get i)
  end.
(** The value that dereferencing a variable shows. *)
Definition shows (s : state) : list owner :=
  map (fun x => match x with Some (k, p) => Some (k, match nth_error (heap s) p with Some (Some b) => bval b | _ => None end) | None => None end) (vars s).
