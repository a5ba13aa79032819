(** Model of trait objects over [Arc] (stabby-abi/src/fatptr.rs, stabby-abi/src/alloc/sync.rs), the pointers that can be taken out of them included.
    One thread: each operation runs to its end.  Counters are those of M_Arc. *)
From Coq Require Import List NArith Bool Arith.
From Verif Require Import M_Arc.
Import ListNotations.
Local Open Scope N_scope.

(** How the value of an allocation ended: the destructor of the type [u] was run on it (sync.rs:295, 753), or it was moved out as a [u] (sync.rs:264).
    Types are numbers; 0 is [()], whose destructor does nothing. *)
Inductive ending := Dropped (u : nat) | Moved (u : nat).
(** An allocation (alloc/mod.rs:227-239 [AllocPrefix]): the type of its value, the counters, how its value ended, how often it was released, and whether it
    was used after that, or its value after its end. *)
Record cell := Cell { c_ty : nat; c_strong : N; c_weak : N; c_ends : list ending; c_frees : nat; c_bad : bool }.
(** An [Arc<T>] (sync.rs:31-35), or the [Dyn<Arc<()>, Vt>] made from one (fatptr.rs:153-159): the type whose destructor it would run, and the allocation.
    An [Arc<()>] taken out of a trait object is one of type 0. *)
Record handle := Handle { h_dyn : bool; h_ty : nat; h_at : nat }.
(** A [Weak<T>] or a [Dyn<Weak<()>, Vt>] (sync.rs:314-318, fatptr.rs:153-159). *)
Record whandle := WHandle { w_dyn : bool; w_ty : nat; w_at : nat }.
(** All allocations, and all the pointers that the program ever had ([None]: gone) (sync.rs:31-395). *)
Record mem := Mem { cells : list cell; hs : list (option handle); ws : list (option whandle) }.

(** Access to the prefix (alloc/mod.rs:306-322). *)
Definition touch_cell (c : cell) : cell :=
  Cell (c_ty c) (c_strong c) (c_weak c) (c_ends c) (c_frees c) (c_bad c || (0 <? c_frees c)%nat).
(** Access to the value (sync.rs:309-312, 727-731). *)
Definition use_cell (c : cell) : cell :=
  Cell (c_ty c) (c_strong c) (c_weak c) (c_ends c) (c_frees c) (c_bad c || (0 <? c_frees c)%nat || match c_ends c with [] => false | _ => true end).
(** Writes of the counters (sync.rs:289, 304, 360-368). *)
Definition with_strong (n : N) (c : cell) : cell := Cell (c_ty c) n (c_weak c) (c_ends c) (c_frees c) (c_bad c).
(** Likewise (sync.rs:338, 378, 386). *)
Definition with_weak (n : N) (c : cell) : cell := Cell (c_ty c) (c_strong c) n (c_ends c) (c_frees c) (c_bad c).
(** The value ends (sync.rs:264, 295, 753). *)
Definition end_value (e : ending) (c : cell) : cell :=
  let c := use_cell c in Cell (c_ty c) (c_strong c) (c_weak c) (e :: c_ends c) (c_frees c) (c_bad c).
(** sync.rs:391-394: the memory is released. *)
Definition release (c : cell) : cell :=
  let c := touch_cell c in Cell (c_ty c) (c_strong c) (c_weak c) (c_ends c) (S (c_frees c)) (c_bad c).

(** sync.rs:383-395 [Weak::drop]. *)
Definition drop_weak_cell (c : cell) : cell :=
  let c := touch_cell c in let c' := with_weak (dec (c_weak c)) c in if c_weak c =? 1 then release c' else c'.
(** sync.rs:285-299 [Arc::drop], and 743-757 (run by fatptr.rs:354-360): the destructor is that of the type the pointer has. *)
Definition drop_cell (u : nat) (c : cell) : cell :=
  let c := touch_cell c in let c' := with_strong (dec (c_strong c)) c in
  if c_strong c =? 1 then drop_weak_cell (end_value (Dropped u) c') else c'.
(** sync.rs:300-307 [Arc::clone]. *)
Definition clone_cell (c : cell) : cell := let c := touch_cell c in with_strong (inc (c_strong c)) c.
(** sync.rs:334-341 [Arc::downgrade], 374-381 [Weak::clone]. *)
Definition downgrade_cell (c : cell) : cell := let c := touch_cell c in with_weak (inc (c_weak c)) c.
(** sync.rs:358-372 [Weak::upgrade]: whether it succeeds, and the counter. *)
Definition upgrade_cell (c : cell) : bool * cell :=
  let c := touch_cell c in
  if (c_strong c =? 0) || (c_strong c =? top_bit) then (false, with_strong 0 c)
  else (true, with_strong (clear_top (inc (set_top (c_strong c)))) c).
(** sync.rs:254-268 [try_into_inner]: whether it succeeds, and the allocation. *)
Definition into_inner_cell (u : nat) (c : cell) : bool * cell :=
  let c := touch_cell c in
  if (c_strong c =? 1) && (c_weak c =? 1) then (true, drop_weak_cell (end_value (Moved u) c)) else (false, c).

(** Changes an allocation (the pointer is dereferenced, alloc/mod.rs:306-322). *)
Definition on (i : nat) (f : cell -> cell) (l : list cell) : list cell :=
  match nth_error l i with Some c => put l i (f c) | None => l end.
(** What the program does; numbers are those of pointers, in the order they were made.  Nothing happens if there is no such pointer. *)
Inductive step :=
| New (t : nat)          (* sync.rs:66-72 Arc::new *)
| IntoDyn (h : nat)      (* fatptr.rs:337-352 Dyn::from, sync.rs:759-769 *)
| Clone (h : nat)        (* sync.rs:300-307, fatptr.rs:201-209 *)
| Drop (h : nat)         (* sync.rs:285-299, fatptr.rs:354-360 with sync.rs:743-757 *)
| Read (h : nat)         (* sync.rs:309-312, fatptr.rs:225-232: the value is used *)
| Ptr (h : nat)          (* fatptr.rs:211-215 Dyn::ptr, and clone *)
| Downgrade (h : nat)    (* sync.rs:334-341 on an Arc *)
| PtrDowngrade (h : nat) (* fatptr.rs:211-215 Dyn::ptr, and downgrade *)
| Swap (h g : nat)       (* fatptr.rs:216-220 Dyn::ptr_mut, swapped with an Arc<()> or with the pointer of another trait object *)
| IntoInner (h : nat)    (* sync.rs:257-268 *)
| WClone (w : nat)       (* sync.rs:374-381, 787-791 *)
| WDrop (w : nat)        (* sync.rs:382-396 of a Weak; of a Dyn<Weak>: fatptr.rs:354-360 with sync.rs:771-785 *)
| Upgrade (w : nat)      (* sync.rs:358-372 of a Weak; of a Dyn<Weak>: sync.rs:816-828, which takes the Dyn by value *)
| DynDowngrade (h : nat) (* sync.rs:805-815 Dyn<Weak>::from(&Dyn<Arc>) *)
| WIntoDyn (w : nat).    (* fatptr.rs:337-352, sync.rs:793-803 *)

(** The pointers that exist (sync.rs:31-35). *)
Definition get {A} (l : list (option A)) (i : nat) : option A := match nth_error l i with Some o => o | None => None end.
(** A [Dyn<Weak>] is dropped (fatptr.rs:354-360, sync.rs:771-785): the code is that of [Arc], the strong count is decremented. *)
Definition drop_dyn_weak (w : whandle) (m : mem) : mem := Mem (on (w_at w) (drop_cell (w_ty w)) (cells m)) (hs m) (ws m).
(** One step, see [step] (fatptr.rs:155-360, sync.rs:31-828). *)
Definition exec (o : step) (m : mem) : mem :=
  match o with
  | New t => Mem (cells m ++ [Cell t 1 1 [] 0 false]) (hs m ++ [Some (Handle false t (length (cells m)))]) (ws m)
  | IntoDyn i => match get (hs m) i with
                 | Some h => Mem (cells m) (put (hs m) i (Some (Handle true (h_ty h) (h_at h)))) (ws m)
                 | None => m
                 end
  | Clone i => match get (hs m) i with
               | Some h => Mem (on (h_at h) clone_cell (cells m)) (hs m ++ [Some h]) (ws m)
               | None => m
               end
  | Drop i => match get (hs m) i with
              | Some h => Mem (on (h_at h) (drop_cell (h_ty h)) (cells m)) (put (hs m) i None) (ws m)
              | None => m
              end
  | Read i => match get (hs m) i with
              | Some h => Mem (on (h_at h) use_cell (cells m)) (hs m) (ws m)
              | None => m
              end
  | Ptr i => match get (hs m) i with
             | Some (Handle true _ a) => Mem (on a clone_cell (cells m)) (hs m ++ [Some (Handle false 0 a)]) (ws m)
             | _ => m
             end
  | Downgrade i => match get (hs m) i with
                   | Some (Handle false t a) => Mem (on a downgrade_cell (cells m)) (hs m) (ws m ++ [Some (WHandle false t a)])
                   | _ => m
                   end
  | PtrDowngrade i => match get (hs m) i with
                      | Some (Handle true _ a) => Mem (on a downgrade_cell (cells m)) (hs m) (ws m ++ [Some (WHandle false 0 a)])
                      | _ => m
                      end
  | Swap i j => match get (hs m) i, get (hs m) j with
                | Some (Handle true t a), Some (Handle d u b) =>
                    if d || (u =? 0)%nat then Mem (cells m) (put (put (hs m) i (Some (Handle true t b))) j (Some (Handle d u a))) (ws m) else m
                | _, _ => m
                end
  | IntoInner i => match get (hs m) i with
                   | Some (Handle false t a) =>
                       match nth_error (cells m) a with
                       | Some c => let '(ok, c) := into_inner_cell t c in
                                   Mem (put (cells m) a c) (if ok then put (hs m) i None else hs m) (ws m)
                       | None => m
                       end
                   | _ => m
                   end
  | WClone i => match get (ws m) i with
                | Some w => Mem (on (w_at w) downgrade_cell (cells m)) (hs m) (ws m ++ [Some w])
                | None => m
                end
  | WDrop i => match get (ws m) i with
               | Some w => let m' := Mem (cells m) (hs m) (put (ws m) i None) in
                           if w_dyn w then drop_dyn_weak w m' else Mem (on (w_at w) drop_weak_cell (cells m')) (hs m') (ws m')
               | None => m
               end
  | Upgrade i => match get (ws m) i with
                 | Some w =>
                     match nth_error (cells m) (w_at w) with
                     | Some c => let '(ok, c) := upgrade_cell c in
                                 let m' := Mem (put (cells m) (w_at w) c) (if ok then hs m ++ [Some (Handle (w_dyn w) (w_ty w) (w_at w))] else hs m) (ws m) in
                                 if w_dyn w then drop_dyn_weak w (Mem (cells m') (hs m') (put (ws m') i None)) else m'
                     | None => m
                     end
                 | None => m
                 end
  | DynDowngrade i => match get (hs m) i with
                      | Some (Handle true t a) => Mem (on a downgrade_cell (cells m)) (hs m) (ws m ++ [Some (WHandle true t a)])
                      | _ => m
                      end
  | WIntoDyn i => match get (ws m) i with
                  | Some w => Mem (cells m) (hs m) (put (ws m) i (Some (WHandle true (w_ty w) (w_at w))))
                  | None => m
                  end
  end.
(** A program, from nothing (fatptr.rs:155-360, sync.rs:31-828). *)
Definition execs (l : list step) : mem := fold_left (fun m o => exec o m) l (Mem [] [] []).
