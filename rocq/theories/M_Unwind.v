(** Model of what stabby-abi/src/alloc/vec.rs does when the user's code panics: destructors of elements, [Clone::clone], [Iterator::next].
    Adds to M_Vec, whose operations are reused: memory, lengths and capacities are as there. *)
From Coq Require Import NArith List Bool.
From Verif Require Import M_Alloc M_Vec.
Import ListNotations.

(** How many of the [n] calls of destructors numbered from [c] panic; any call may, as the user's code decides (vec.rs:252, 542, 664, 727). *)
Fixpoint panics (bad : nat -> bool) (c n : nat) : nat :=
  match n with O => 0 | S k => (if bad c then 1 else 0) + panics bad (S c) k end.

(** How a call ends (vec.rs:247-255, 540-545, 662-667, 724-738): it returns, unwinds, or the process aborts. *)
Inductive fate := Returns | Unwinds | Aborts.

(** core [drop_in_place] of [n] consecutive elements (called at vec.rs:252, 542, 664, 727): all are destroyed, even if a destructor panics; a
    second panic aborts, as one does when a panic is already unwinding. *)
Definition destroying (bad : nat -> bool) (c n : nat) (unwinding : bool) : fate :=
  match (if unwinding then 1 else 0) + panics bad c n with O => Returns | 1 => Unwinds | _ => Aborts end.

(** vec.rs:247-255 [truncate]: the length is changed after the destructors.  Result: vector, destroyed elements, fate; [None]: undefined behaviour. *)
Definition u_truncate {E} (bad : nat -> bool) (c n : nat) (v : vec E) : option (vec E * list E * fate) :=
  if Nat.leb (vlen v) n then Some (v, [], Returns)
  else match get_slots n (vlen v - n) (slots v) with
       | Some d => match destroying bad c (length d) false with
                   | Returns => Some (v_set_len v n, d, Returns)
                   | f => Some (v, d, f)
                   end
       | None => None
       end.

(** vec.rs:540-545 [drop]: destroyed elements, fate, and whether the block is freed, if there is one. *)
Definition u_drop {E} (bad : nat -> bool) (c : nat) (unwinding : bool) (v : vec E) : option (list E * fate * bool) :=
  match v_as_slice v with
  | Some es => Some (es, destroying bad c (length es) unwinding, Nat.eqb (panics bad c (length es)) 0 || N.eqb (vcap v) 0)
  | None => None
  end.

(** vec.rs:662-667 [drop] of IntoIter; the field [vec] (vec.rs:648) is dropped next, also when unwinding, then with its length unchanged. *)
Definition u_ii_drop {E} (bad : nat -> bool) (c : nat) (it : into_iter E) : option (list E * fate * bool) :=
  match get_slots (ii_index it) (vlen (ii_vec it) - ii_index it) (slots (ii_vec it)) with
  | Some d =>
      match destroying bad c (length d) false with
      | Aborts => Some (d, Aborts, false)
      | f =>
          match u_drop bad (c + length d) (match f with Unwinds => true | _ => false end)
                  (match f with Unwinds => ii_vec it | _ => v_set_len (ii_vec it) 0 end) with
          | Some (d', f', b) => Some (d ++ d', f', b)
          | None => None
          end
      end
  | None => None
  end.

(** vec.rs:724-738 [drop] of Drain: the tail is moved after the destructors. *)
Definition u_d_drop {E} (bad : nat -> bool) (c : nat) (d : drain E) : option (vec E * list E * fate) :=
  match get_slots (d_index d) (d_to d - d_index d) (slots (d_vec d)) with
  | Some es => match destroying bad c (length es) false with
               | Returns => match d_drop d with Some (v, _) => Some (v, es, Returns) | None => None end
               | f => Some (d_vec d, es, f)
               end
  | None => None
  end.

(** What [clone] gives (vec.rs:455-462): the copy; or a panic, after which some clones are no longer held by anything; or undefined behaviour. *)
Inductive cloned (E : Type) := Copy (v : vec E) | Interrupted (made : list E) | CloneUB.
Arguments Copy {E}. Arguments Interrupted {E}. Arguments CloneUB {E}.
(** vec.rs:457-459: the loop; [cl i] is what the [i]-th call of [T::clone] does ([None]: it panics). *)
Fixpoint clone_loop {E} (cl : nat -> option E) (i n : nat) (m : list (option E)) (made : list E) : cloned E :=
  match n with
  | O => Copy (Vec m i (N.of_nat (length m)))
  | S k => match cl i with
           | Some e => match set_slot i (Some e) m with
                       | Some m' => clone_loop cl (S i) k m' (made ++ [e])
                       | None => CloneUB
                       end
           | None => Interrupted made
           end
  end.
(** vec.rs:455-462 [clone]: on a panic, [ret] is dropped with length 0, so its block is freed and the clones made are not destroyed. *)
Definition u_clone {E} (s : N) (ok : N -> bool) (cl : nat -> option E) (v : vec E) : cloned E :=
  match v_reserve s ok (N.of_nat (vlen v)) (@v_new E) with
  | Done v1 _ _ =>
      match v_as_slice v with
      | Some _ => match clone_loop cl 0 (vlen v) (slots v1) [] with
                  | Copy v2 => Copy (Vec (slots v2) (vlen v) (vcap v1))
                  | r => r
                  end
      | None => CloneUB
      end
  | Panicked _ _ _ => Interrupted []
  | UB => CloneUB
  end.

(** vec.rs:555-571 [extend] with an iterator that yields [es], then panics; it holds [rest] besides, which unwinding destroys. *)
Definition u_extend {E} (s : N) (ok : N -> bool) (es rest : list E) (lo : N) (hi : option N) (v : vec E) : option (vec E * list E) :=
  match v_extend s ok es lo hi v with
  | Done v1 _ _ => Some (v1, rest)
  | Panicked v1 _ d => Some (v1, d ++ rest)
  | UB => None
  end.
