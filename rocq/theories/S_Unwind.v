(** C75: programs over a vector whose elements, clones and iterators may panic, and what may become of the elements. *)
From Coq Require Import NArith List Bool.
From Verif Require Import M_Vec S_Vec M_Unwind.
Import ListNotations.

(** What is done with a drain after some calls to [next]. *)
Inductive ending := Dropped | StopIt | Forgotten.
(** Operations: those of C18; [extend] with an iterator that panics after [es], holding [rest]; a drain, used [k] times; [into_iter], used [k] times
    and dropped; [v = v.clone()]; dropping the vector and starting with a new one. *)
Inductive uop (E : Type) :=
| Plain (o : vop E)
| ExtendPanic (es rest : list E) (lo : N) (hi : option N)
| UDrain (b1 b2 : bound) (k : nat) (e : ending)
| UInto (k : nat)
| UClone (cl : nat -> option E)
| UDrop.
Arguments Plain {E}. Arguments ExtendPanic {E}. Arguments UDrain {E}. Arguments UInto {E}. Arguments UClone {E}. Arguments UDrop {E}.

(** What happened: the vector, the elements given back, those destroyed, was there a panic, was a block of memory lost. *)
Inductive uout (E : Type) := Goes (v : vec E) (ret destroyed : list E) (threw lost : bool) | Aborted | Broken.
Arguments Goes {E}. Arguments Aborted {E}. Arguments Broken {E}.
Definition ending_with {E} (f : fate) (v : vec E) ret destroyed lost : uout E :=
  match f with Returns => Goes v ret destroyed false lost | Unwinds => Goes v ret destroyed true lost | Aborts => Aborted end.

(** One operation of the model.  [c]: how many destructors have been called before. *)
Definition u_step {E} (bad : nat -> bool) (c : nat) (s : N) (ok : N -> bool) (o : uop E) (v : vec E) : uout E :=
  match o with
  | Plain (Truncate n) => match u_truncate bad c n v with Some (v', d, f) => ending_with f v' [] d false | None => Broken end
  | Plain o =>
      match v_run1 s ok o v with
      | Done v' a b => Goes v' a b false false
      | Panicked v' a b => ending_with (destroying bad c (length b) true) v' a b false
      | UB => Broken
      end
  | ExtendPanic es rest lo hi =>
      match u_extend s ok es rest lo hi v with
      | Some (v', d) => ending_with (destroying bad c (length d) true) v' [] d false
      | None => Broken
      end
  | UDrain b1 b2 k e =>
      match v_drain b1 b2 v with
      | None => Goes v [] [] true false
      | Some d =>
          match d_takes k d with
          | None => Broken
          | Some (ret, d') =>
              match e with
              | Dropped => match u_d_drop bad c d' with Some (v', x, f) => ending_with f v' ret x false | None => Broken end
              | StopIt => match d_stop d' with Some (v', x) => Goes v' ret x false false | None => Broken end
              | Forgotten => Goes (d_vec d') ret [] false false
              end
          end
      end
  | UInto k =>
      match ii_takes k (II v 0) with
      | Some (ret, it) => match u_ii_drop bad c it with Some (d, f, b) => ending_with f v_new ret d (negb b) | None => Broken end
      | None => Broken
      end
  | UClone cl =>
      match u_clone s ok cl v with
      | Copy v' => match u_drop bad c false v with Some (d, f, b) => ending_with f v' [] d (negb b) | None => Broken end
      | Interrupted _ => Goes v [] [] true false
      | CloneUB => Broken
      end
  | UDrop => match u_drop bad c false v with Some (d, f, b) => ending_with f v_new [] d (negb b) | None => Broken end
  end.
(** A program; panics are caught. *)
Fixpoint u_run {E} (bad : nat -> bool) (c : nat) (s : N) (h : list (uop E * (N -> bool))) (v : vec E) : uout E :=
  match h with
  | [] => Goes v [] [] false false
  | (o, ok) :: r =>
      match u_step bad c s ok o v with
      | Goes v1 a b p q =>
          match u_run bad (c + length b) s r v1 with
          | Goes v2 a' b' p' q' => Goes v2 (a ++ a') (b ++ b') (p || p') (q || q')
          | x => x
          end
      | x => x
      end
  end.

(** ** What should happen, on lists *)

(** Elements handed to an operation, and clones made by it. *)
Definition given' {E} (o : uop E) : list E :=
  match o with Plain o => given o | ExtendPanic es rest _ _ => es ++ rest | _ => [] end.
(** The operation took the list [l] to [l'], gave [ret] back, destroyed [d], leaked [lk], made the clones [mk]; did it panic? *)
Inductive ustep {E} (bad : nat -> bool) (c : nat) (ok : N -> bool) : uop E -> list E -> list E -> list E -> list E -> list E -> list E -> bool -> Prop :=
| us_plain o l l' a b p : lstep ok o l l' a b p -> ustep bad c ok (Plain o) l l' a b [] [] p
| us_extend es rest lo hi l : ustep bad c ok (ExtendPanic es rest lo hi) l (l ++ es) [] rest [] [] true
| us_extend_fail es1 es2 rest lo hi l n : ok n = false ->
    ustep bad c ok (ExtendPanic (es1 ++ es2) rest lo hi) l (l ++ es1) [] (es2 ++ rest) [] [] true
| us_drain b1 b2 k a r z : lower b1 = N.of_nat (length a) -> upper (length (a ++ r ++ z)) b2 = N.of_nat (length (a ++ r)) ->
    ustep bad c ok (UDrain b1 b2 k Dropped) (a ++ r ++ z) (a ++ z) (firstn k r) (skipn k r) [] [] false
| us_drain_panic b1 b2 k a r z : lower b1 = N.of_nat (length a) -> upper (length (a ++ r ++ z)) b2 = N.of_nat (length (a ++ r)) ->
    panics bad c (length (skipn k r)) <> 0 ->
    ustep bad c ok (UDrain b1 b2 k Dropped) (a ++ r ++ z) a (firstn k r) (skipn k r) z [] true
| us_drain_stop b1 b2 k a r z : lower b1 = N.of_nat (length a) -> upper (length (a ++ r ++ z)) b2 = N.of_nat (length (a ++ r)) ->
    ustep bad c ok (UDrain b1 b2 k StopIt) (a ++ r ++ z) (a ++ skipn k r ++ z) (firstn k r) [] [] [] false
| us_drain_forget b1 b2 k a r z : lower b1 = N.of_nat (length a) -> upper (length (a ++ r ++ z)) b2 = N.of_nat (length (a ++ r)) ->
    ustep bad c ok (UDrain b1 b2 k Forgotten) (a ++ r ++ z) a (firstn k r) [] (skipn k r ++ z) [] false
| us_drain_range b1 b2 k e l : ~ (lower b1 <= upper (length l) b2 <= N.of_nat (length l))%N ->
    ustep bad c ok (UDrain b1 b2 k e) l l [] [] [] [] true
| us_into k l : ustep bad c ok (UInto k) l [] (firstn k l) (skipn k l) [] [] false
| us_clone cl l l' : map cl (seq 0 (length l)) = map Some l' ->
    ustep bad c ok (UClone cl) l l' [] l [] l' (negb (Nat.eqb (panics bad c (length l)) 0))
| us_clone_panic cl l l' : length l' < length l -> map cl (seq 0 (length l')) = map Some l' -> cl (length l') = None ->
    ustep bad c ok (UClone cl) l l [] [] l' l' true
| us_clone_fail cl l n : ok n = false -> ustep bad c ok (UClone cl) l l [] [] [] [] true
| us_drop l : ustep bad c ok UDrop l [] [] l [] [] (negb (Nat.eqb (panics bad c (length l)) 0)).
Inductive urun {E} (bad : nat -> bool) : nat -> list (uop E * (N -> bool)) -> list E -> list E -> list E -> list E -> list E -> list E -> bool -> Prop :=
| ur_nil c l : urun bad c [] l l [] [] [] [] false
| ur_cons c o ok h l l1 l2 a b k m p a' b' k' m' p' : ustep bad c ok o l l1 a b k m p -> urun bad (c + length b) h l1 l2 a' b' k' m' p' ->
    urun bad c ((o, ok) :: h) l l2 (a ++ a') (b ++ b') (k ++ k') (m ++ m') (p || p').

(** A destructor called by [truncate], or by dropping a partly consumed [into_iter], panics. *)
Definition hazard {E} (bad : nat -> bool) (c : nat) (o : uop E) (l : list E) : Prop :=
  match o with
  | Plain (Truncate n) => panics bad c (length l - n) <> 0
  | UInto k => panics bad c (length l - k) <> 0
  | _ => False
  end.

(** As in C18 and C20: hints are right, bounds can be incremented, byte counts fit, elements are moved. *)
Definition honest' {E} (o : uop E) : Prop :=
  match o with
  | Plain o => honest o
  | ExtendPanic es rest lo hi => honest (Extend es lo hi)
  | UDrain b1 b2 _ _ => small_bound b1 /\ small_bound b2
  | _ => True
  end.
Definition moving' {E} (o : uop E) : Prop := match o with Plain o => moving o | _ => True end.
Definition weight' {E} (o : uop E) : N :=
  match o with Plain o => weight o | ExtendPanic es _ lo hi => weight (Extend es lo hi) | _ => 0%N end.
Fixpoint weights' {E} (h : list (uop E * (N -> bool))) : N :=
  match h with [] => 0%N | (o, _) :: r => (weight' o + weights' r)%N end.
Definition givens' {E} (h : list (uop E * (N -> bool))) : list E := flat_map (fun x => given' (fst x)) h.
