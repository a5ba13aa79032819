(** Model of [ArcSlice] and [WeakSlice] in the memory they share with vectors and boxed slices:
    stabby-abi/src/alloc/sync.rs:400-722 on top of [M_VecMem].  One thread (interleavings are C25..C28's
    subject); the counters are the words of the prefix (alloc/mod.rs:227-239).  The value of the
    allocator that is kept in the prefix is not modelled, only where it is written. *)
From Coq Require Import NArith List Bool.
From Verif Require Import M_Alloc M_Vec M_VecMem.
Import ListNotations.
Local Open Scope N_scope.

(** sync.rs:40 [USIZE_TOP_BIT]. *)
Definition top : N := 2 ^ 63.
(** sync.rs:401-404 [ArcSlice] and sync.rs:643-647 [WeakSlice]: [AllocSlice]s (alloc/mod.rs:402-408). *)
Inductive handle := HS (b : mbox) | HW (b : mbox).

Section Mem.
  (** [s], [a]: size and alignment of [T]; [copy]: is it [Copy]; [psz], [pal]: size and alignment of
      [AllocPrefix<Alloc>]. *)
  Context (s : nat) (a psz pal : N) (copy : bool).

  (** A word of the prefix (alloc/mod.rs:227-239): [strong] at 0, [weak] at 8, [capacity] at 16
      (as [AtomicUsize::load], called at sync.rs:443-449, 553). *)
  Definition word (h : heap) (b : mbox) (off : N) : option N :=
    option_map dec (h_read h (prefix_ptr psz (bs_ b) + off) 8).
  (** Writing one (sync.rs:505-507, [AtomicUsize::store] at 656). *)
  Definition put_word (h : heap) (b : mbox) (off x : N) : option heap :=
    h_write h (prefix_ptr psz (bs_ b) + off) (map Some (enc 8 x)).
  (** [fetch_add], [fetch_sub], [fetch_or], [fetch_and] (sync.rs:479, 588, 653, 660-661, 676, 708, 715):
      the word before, and the heap after. *)
  Definition rmw (h : heap) (b : mbox) (off : N) (f : N -> N) : option (N * heap) :=
    match word h b off with
    | None => None
    | Some x => match put_word h b off (f x) with None => None | Some h' => Some (x, h') end
    end.
  (** [AtomicUsize]s wrap around (sync.rs:479). *)
  Definition inc (x : N) : N := usz (x + 1).
  (** As above (sync.rs:588). *)
  Definition decr (x : N) : N := usz (x + (2 ^ 64 - 1)).

  (** sync.rs:508, 527: [prefix_mut().alloc.write(alloc)]. *)
  Definition put_alloc (h : heap) (d : N) : option heap :=
    h_write h (prefix_ptr psz d + 32) (repeat None (N.to_nat (psz - 32))).

  (** sync.rs:500-539 [From<Vec>] for [ArcSlice] ([None] inside: the allocation fails and it panics). *)
  Definition s_of_vec (h : heap) (v : mvec) (ans : N) : option (option mbox * heap) :=
    if negb (N.eqb (m_cap s v) 0) then
      let b := MB (vs v) (ve v) in
      match put_word h b 0 1 with
      | None => None
      | Some h1 =>
          match put_word h1 b 8 1 with
          | None => None
          | Some h2 =>
              match put_word h2 b 16 (m_cap s v) with
              | None => None
              | Some h3 => match put_alloc h3 (bs_ b) with None => None | Some h4 => Some (Some b, h4) end
              end
          end
      end
    else
      match m_alloc s a psz pal h 0 ans with
      | None => None
      | Some (None, h') => Some (None, h')
      | Some (Some d, h0) =>
          let b := MB d (usz (d + m_len s v)) in
          match put_word h0 b 0 1 with
          | None => None
          | Some h1 =>
              match put_word h1 b 8 1 with
              | None => None
              | Some h2 =>
                  match put_word h2 b 16 0 with
                  | None => None
                  | Some h3 => match put_alloc h3 (vs v) with None => None | Some h4 => Some (Some b, h4) end
                  end
              end
          end
      end.

  (** sync.rs:476-483 [Clone] for [ArcSlice]. *)
  Definition s_clone (h : heap) (b : mbox) : option heap := option_map snd (rmw h b 0 inc).
  (** sync.rs:686-693, 704-711 [Clone] for [WeakSlice], [From<&ArcSlice>] for [WeakSlice]. *)
  Definition w_clone (h : heap) (b : mbox) : option heap := option_map snd (rmw h b 8 inc).
  (** sync.rs:451-453 [is_unique]. *)
  Definition s_unique (h : heap) (b : mbox) : option bool :=
    match word h b 0, word h b 8 with
    | Some x, Some y => Some (N.eqb x 1 && N.eqb y 1)
    | _, _ => None
    end.
  (** sync.rs:650-666 [upgrade]: was it, and the heap after. *)
  Definition w_upgrade (h : heap) (b : mbox) : option (bool * heap) :=
    match rmw h b 0 (fun x => N.lor x top) with
    | None => None
    | Some (count, h1) =>
        if N.eqb count 0 || N.eqb count top
        then match put_word h1 b 0 0 with None => None | Some h2 => Some (false, h2) end
        else match rmw h1 b 0 inc with
             | None => None
             | Some (_, h2) =>
                 match rmw h2 b 0 (fun x => N.land x (top - 1)) with
                 | None => None
                 | Some (_, h3) => Some (true, h3)
                 end
             end
    end.
  (** sync.rs:667-684 [force_upgrade]. *)
  Definition w_force (h : heap) (b : mbox) : option heap :=
    match rmw h b 0 inc with
    | None => None
    | Some (count, h1) =>
        if N.eqb count 0 || N.eqb count top then option_map snd (rmw h1 b 8 inc) else Some h1
    end.
  (** sync.rs:712-722 [Drop] for [WeakSlice]. *)
  Definition w_drop (h : heap) (b : mbox) : option heap :=
    match rmw h b 8 decr with
    | None => None
    | Some (count, h1) => if negb (N.eqb count 1) then Some h1 else m_free psz h1 (bs_ b)
    end.
  (** sync.rs:585-597 [Drop] for [ArcSlice]: the elements that are dropped (dropping a [Copy] value does
      nothing). *)
  Definition s_drop (h : heap) (b : mbox) : option (list elem * heap) :=
    match rmw h b 0 decr with
    | None => None
    | Some (count, h1) =>
        if negb (N.eqb count 1) then Some ([], h1)
        else match m_slice s h1 (bs_ b) (b_len s b) with
             | None => None
             | Some d => match w_drop h1 b with
                         | None => None
                         | Some h2 => Some (if copy then [] else d, h2)
                         end
             end
    end.
  (** sync.rs:540-563 [TryFrom<ArcSlice>] for [Vec] ([None] inside: it is given back). *)
  Definition s_into_vec (h : heap) (b : mbox) : option (option mvec) :=
    match s_unique h b with
    | None => None
    | Some false => Some None
    | Some true => match word h b 16 with
                   | None => None
                   | Some c => Some (Some (MV (bs_ b) (be b) (ptr_add s (bs_ b) c)))
                   end
    end.
  (** sync.rs:430-433 [as_slice_mut], an element of which is written ([false]: [None], or the index
      panics). *)
  Definition s_set (h : heap) (b : mbox) (i : N) (e : elem) : option (bool * heap) :=
    match s_unique h b with
    | None => None
    | Some u =>
        if u && (i <? b_len s b)
        then match h_write h (slot s (bs_ b) i) (map Some e) with None => None | Some h' => Some (true, h') end
        else Some (false, h)
    end.

  (** What a program does (vec.rs:75-793, boxed.rs:275-445 and sync.rs:400-722): with its vectors and
      boxed slices, or with the [j]-th handle that it made. *)
  Inductive sop :=
  | Owned (o : op)
  | Share (i : nat)
  | CloneH (j : nat)
  | Downgrade (j : nat)
  | Upgrade (j : nat)
  | ForceUpgrade (j : nat)
  | Unshare (j : nat)
  | ReadH (j : nat)
  | SetH (j : nat) (k : N) (e : elem)
  | Counts (j : nat)
  | DropH (j : nat).
  (** What it sees (as [obs] (vec.rs:75-793)), with the counts of sync.rs:443-449. *)
  Definition sobs : Type := obs * list N.
  (** Vectors and boxed slices, handles, and the heap (sync.rs:400-404, 643-647). *)
  Definition sstate : Type := list (option obj) * list (option handle) * heap.
  (** Not a program, or nothing came of it (sync.rs:561, 658). *)
  Definition no : sobs := (Obs false [] [], []).
  (** Success without a value (sync.rs:478). *)
  Definition yes : sobs := (Obs true [] [], []).

  (** An operation on the [j]-th handle, an [ArcSlice] (sync.rs:414-597). *)
  Definition step_strong (j : nat) (b : mbox) (o : sop) (w : list (option obj)) (hs : list (option handle)) (h : heap)
    : option (sobs * sstate) :=
    match o with
    | CloneH _ => match s_clone h b with None => None | Some h' => Some (yes, (w, hs ++ [Some (HS b)], h')) end
    | Downgrade _ => match w_clone h b with None => None | Some h' => Some (yes, (w, hs ++ [Some (HW b)], h')) end
    | Unshare _ => match s_into_vec h b with
                   | None => None
                   | Some None => Some (no, (w, hs, h))
                   | Some (Some v) => Some (yes, (w ++ [Some (OV v)], upd j None hs, h))
                   end
    | ReadH _ => match m_slice s h (bs_ b) (b_len s b) with
                 | None => None
                 | Some l => Some ((Obs true l [], []), (w, hs, h))
                 end
    | SetH _ k e => match s_set h b k e with
                    | None => None
                    | Some (ok, h') => Some ((Obs ok [] [], []), (w, hs, h'))
                    end
    | Counts _ => match word h b 0, word h b 8 with
                  | Some x, Some y => Some ((Obs true [] [], [x; y]), (w, hs, h))
                  | _, _ => None
                  end
    | DropH _ => match s_drop h b with
                 | None => None
                 | Some (d, h') => Some ((Obs true [] d, []), (w, upd j None hs, h'))
                 end
    | _ => Some (no, (w, hs, h))
    end.
  (** An operation on the [j]-th handle, a [WeakSlice] (sync.rs:649-722). *)
  Definition step_weak (j : nat) (b : mbox) (o : sop) (w : list (option obj)) (hs : list (option handle)) (h : heap)
    : option (sobs * sstate) :=
    match o with
    | CloneH _ => match w_clone h b with None => None | Some h' => Some (yes, (w, hs ++ [Some (HW b)], h')) end
    | Upgrade _ => match w_upgrade h b with
                   | None => None
                   | Some (false, h') => Some (no, (w, hs, h'))
                   | Some (true, h') => Some (yes, (w, hs ++ [Some (HS b)], h'))
                   end
    | ForceUpgrade _ => if copy
                        then match w_force h b with
                             | None => None
                             | Some h' => Some (yes, (w, hs ++ [Some (HS b)], h'))
                             end
                        else Some (no, (w, hs, h))
    | DropH _ => match w_drop h b with
                 | None => None
                 | Some h' => Some (yes, (w, upd j None hs, h'))
                 end
    | _ => Some (no, (w, hs, h))
    end.
  (** The handle an operation is about (sync.rs:414-722). *)
  Definition starget (o : sop) : option nat :=
    match o with
    | Owned _ | Share _ => None
    | CloneH j | Downgrade j | Upgrade j | ForceUpgrade j | Unshare j | ReadH j | SetH j _ _ | Counts j | DropH j => Some j
    end.
  (** One operation (vec.rs:75-793, boxed.rs:275-445, sync.rs:400-722); the program looks at [capacity]
      before it shares a vector. *)
  Definition sstep (o : sop) (st : sstate) : option (sobs * sstate) :=
    let '(w, hs, h) := st in
    match o with
    | Owned p => match step s a psz pal p (w, h) with
                 | None => None
                 | Some (b, (w', h')) => Some ((b, []), (w', hs, h'))
                 end
    | Share i => match nth_error w i with
                 | Some (Some (OV v)) =>
                     if N.eqb (m_cap s v) 0 then Some (no, st)
                     else match s_of_vec h v 0 with
                          | Some (Some b, h') => Some (yes, (upd i None w, hs ++ [Some (HS b)], h'))
                          | _ => None
                          end
                 | _ => Some (no, st)
                 end
    | _ => match starget o with
           | Some j => match nth_error hs j with
                       | Some (Some (HS b)) => step_strong j b o w hs h
                       | Some (Some (HW b)) => step_weak j b o w hs h
                       | _ => Some (no, st)
                       end
           | None => Some (no, st)
           end
    end.
  (** A program (calls of the functions of vec.rs, boxed.rs and sync.rs:400-722 in any order). *)
  Fixpoint srun (os : list sop) (st : sstate) : option (list sobs * sstate) :=
    match os with
    | [] => Some ([], st)
    | o :: r => match sstep o st with
                | None => None
                | Some (b, st') => match srun r st' with
                                   | None => None
                                   | Some (l, st2) => Some (b :: l, st2)
                                   end
                end
    end.
End Mem.
