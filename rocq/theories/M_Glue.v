(** Model of thin adapters: [std::io::Write] for [Vec<u8>] (stabby-abi/src/alloc/vec.rs:796-807), [Cow] (stabby/src/allocs/borrow.rs),
    [IMap] (stabby/src/map.rs), and the two bridges between [IAlloc] and [IStableAlloc] (stabby-abi/src/alloc/mod.rs:115-213). *)
From Coq Require Import List Arith NArith Bool.
From Verif Require Import M_Layout M_Result M_Enum M_Vec M_Alloc.
Import ListNotations.

(** ** Writers *)

(** The errors of a writer: vec.rs:800, and the [WriteZero] of std's [write_all] (for users of vec.rs:796). *)
Inductive ioerr := OutOfMemory | WriteZero.
(** vec.rs:797-802 [write]; [ok] says which requests the allocator serves. *)
Definition io_write (ok : N -> bool) (buf : list N) (v : vec N) : (nat + ioerr) * out N :=
  match v_try_copy_extend 1 ok buf v with
  | (true, r) => (inl (length buf), r)
  | (false, r) => (inr OutOfMemory, r)
  end.
(** vec.rs:804-806 [flush]. *)
Definition io_flush (v : vec N) : vec N := v.
(** The answer of [write_all] (provided by std, on vec.rs:797-807). *)
Inductive wrote := Wrote (v : vec N) | Failed (e : ioerr) (v : vec N) | Broken.
(** std's provided [write_all] (on vec.rs:797-807): writes until nothing is left; [fuel]: the length of the buffer is enough. *)
Fixpoint io_write_all (fuel : nat) (ok : N -> bool) (buf : list N) (v : vec N) : wrote :=
  match fuel, buf with
  | _, [] => Wrote v
  | O, _ => Broken
  | S f, _ =>
      match io_write ok buf v with
      | (inl O, Done v' [] []) => Failed WriteZero v'
      | (inl n, Done v' [] []) => io_write_all f ok (skipn n buf) v'
      | (inr e, Done v' [] []) => Failed e v'
      | _ => Broken
      end
  end.
(** A user who calls [write_all] and [flush] again and again, whatever they return: the vector at the end and, for each call, whether it succeeded (calls of vec.rs:797-807). *)
Fixpoint io_session (calls : list ((N -> bool) * list N)) (v : vec N) : option (list bool * vec N) :=
  match calls with
  | [] => Some ([], v)
  | (ok, buf) :: r =>
      let go b v' := match io_session r (io_flush v') with Some (bs, w) => Some (b :: bs, w) | None => None end in
      match io_write_all (length buf) ok buf v with Wrote v' => go true v' | Failed _ v' => go false v' | Broken => None end
  end.

(** ** [Cow] *)

(** borrow.rs:25-32: the variants [Borrowed(&B)] and [Owned(O)], in order; [o] is the type [O], references have 8 bytes. *)
Definition cow_variants (o : ty) : list ty := [TRef 8; o].
(** borrow.rs:30 the constructor [Borrowed]; the argument is the reference's bytes. *)
Definition cow_borrowed (o : ty) (r : list N) : option (list N) := enum_new (cow_variants o) 0 r.
(** borrow.rs:31 the constructor [Owned]. *)
Definition cow_owned (o : ty) (v : list N) : option (list N) := enum_new (cow_variants o) 1 v.
(** borrow.rs:39-41 [into_owned]; [dup] is [ToOwned::to_owned] of what a reference shows. *)
Definition cow_into_owned (o : ty) (dup : list N -> list N) (s : list N) : option (list N) :=
  match enum_match (cow_variants o) s with
  | Some (O, r) => Some (dup r)
  | Some (S O, v) => Some v
  | _ => None
  end.
(** borrow.rs:42-44 [to_owned]. *)
Definition cow_to_owned (o : ty) (dup : list N -> list N) (s : list N) : option (list N) :=
  match cow_into_owned o dup s with Some v => cow_owned o v | None => None end.
(** borrow.rs:51-53 [borrow]: a reference; [inner] is [Borrow::borrow] of the owned value. *)
Definition cow_borrow (o : ty) (inner : list N -> list N) (s : list N) : option (list N) :=
  match enum_match (cow_variants o) s with
  | Some (O, r) => Some r
  | Some (S O, v) => Some (inner v)
  | _ => None
  end.

(** ** [IMap] *)

(** A map of the standard library, by its entries: keys are numbers, values are bytes (implementors of map.rs:15-16, 32-33). Keys are taken to compare and hash lawfully. *)
Definition smap := list (N * list N).
(** std [get] of maps (called at map.rs:19, 36). *)
Definition std_get (k : N) (m : smap) : option (list N) := option_map snd (find (fun e => N.eqb (fst e) k) m).
(** std [insert] of maps, and writing through [get_mut] (called at map.rs:23, 27, 40, 44). *)
Definition std_put (k : N) (v : list N) (m : smap) : smap := (k, v) :: filter (fun e => negb (N.eqb (fst e) k)) m.
(** The calls of a user of [IMap] (map.rs:5-12). [a]: the bytes of the address of the value found. [GetMut] overwrites the value found with [v]. *)
Inductive mcall := Get (k : N) (a : list N) | GetMut (k : N) (a v : list N) | Insert (k : N) (v : list N).
(** option.rs:36-51 [into], called at map.rs:19, 23, 27: the bytes of the stable [Option] of [t]. *)
Definition to_stable (t : ty) (x : option (list N)) : option (list N) :=
  match layout t with
  | Some d => match provider_of d unit_d with Some p => option_from_core d p x | None => None end
  | None => None
  end.
(** option.rs:52-58: the user turns the answer back (an answer of map.rs:7-11). *)
Definition of_stable (t : ty) (s : list N) : option (option (list N)) :=
  match layout t with
  | Some d => match provider_of d unit_d with Some p => option_into_core d p s | None => None end
  | None => None
  end.
(** map.rs:18-28, 35-45: one call through [IMap]: the stable [Option] returned; the map after what the user does with it. *)
Definition imap_call (t : ty) (c : mcall) (m : smap) : option (list N) * smap :=
  match c with
  | Get k a => (to_stable (TRef 8) (option_map (fun _ => a) (std_get k m)), m)
  | GetMut k a v => (to_stable (TRef 8) (option_map (fun _ => a) (std_get k m)), match std_get k m with Some _ => std_put k v m | None => m end)
  | Insert k v => (to_stable t (std_get k m), std_put k v m)
  end.
(** What the user of map.rs:7-11 sees: for references, they read the value at the address ([None]: the address is not that of the value). *)
Definition imap_seen (t : ty) (c : mcall) (m : smap) (s : list N) : option (option (list N)) :=
  match c with
  | Get k a | GetMut k a _ =>
      match of_stable (TRef 8) s with
      | Some None => Some None
      | Some (Some r) => if list_eq_dec N.eq_dec r a then match std_get k m with Some v => Some (Some v) | None => None end else None
      | None => None
      end
  | Insert _ _ => of_stable t s
  end.
(** A history of calls through map.rs:5-12: what the user sees, call after call. *)
Fixpoint imap_run (t : ty) (cs : list mcall) (m : smap) : option (list (option (list N)) * smap) :=
  match cs with
  | [] => Some ([], m)
  | c :: r =>
      match imap_call t c m with
      | (Some s, m') =>
          match imap_seen t c m s, imap_run t r m' with
          | Some x, Some (xs, mf) => Some (x :: xs, mf)
          | _, _ => None
          end
      | (None, _) => None
      end
  end.

(** ** Allocators behind [IStableAlloc] *)

(** alloc/mod.rs:116-145 [IAlloc]: its methods, on the states [St] of the world (the answers of the system are part of the state). *)
Record ialloc (St : Type) := Alloc {
  al_alloc : lay -> St -> outcome * St;
  al_free : N -> St -> outcome * St;
  al_realloc : N -> lay -> N -> St -> outcome * St }.
Arguments Alloc {St}. Arguments al_alloc {St}. Arguments al_free {St}. Arguments al_realloc {St}.
(** alloc/mod.rs:186-201 [impl IStableAlloc for T: IAlloc]. *)
Definition stable_of {St} (A : ialloc St) : ialloc St :=
  Alloc (fun l s => al_alloc A l s) (fun p s => al_free A p s) (fun p l n s => al_realloc A p l n s).
(** alloc/mod.rs:203-213 [impl IAlloc for T: IStableAllocDynMut]: the methods of a trait object's vtable are those of [A]. *)
Definition dyn_of {St} (A : ialloc St) : ialloc St :=
  Alloc (fun l s => al_alloc A l s) (fun p s => al_free A p s) (fun p l n s => al_realloc A p l n s).
(** [n] trait objects, each holding the one before (alloc/mod.rs:186-213). *)
Fixpoint tower {St} (n : nat) (A : ialloc St) : ialloc St :=
  match n with O => A | S k => dyn_of (stable_of (tower k A)) end.
(** The calls of alloc/mod.rs:116-145. *)
Inductive acall := CAlloc (l : lay) | CFree (p : N) | CRealloc (p : N) (l : lay) (n : N).
(** One call of alloc/mod.rs:116-145. *)
Definition acall_run {St} (A : ialloc St) (c : acall) (s : St) : outcome * St :=
  match c with CAlloc l => al_alloc A l s | CFree p => al_free A p s | CRealloc p l n => al_realloc A p l n s end.
(** Calls of alloc/mod.rs:116-145, until one does what it may not. *)
Fixpoint acalls_run {St} (A : ialloc St) (cs : list acall) (s : St) : list outcome * St :=
  match cs with
  | [] => ([], s)
  | c :: r => match acall_run A c s with
              | (Fault, s') => ([Fault], s')
              | (o, s') => let '(os, sf) := acalls_run A r s' in (o :: os, sf)
              end
  end.
(** The two traits (alloc/mod.rs:116, 150). *)
Inductive iface := ViaIAlloc | ViaStable.
(** Is the method callable without [unsafe]? [IAlloc]: alloc/mod.rs:120, 125, 132; [IStableAlloc]: 154, 159, 166. *)
Definition safe_method (i : iface) (c : acall) : bool :=
  match i, c with
  | _, CAlloc _ => true
  | ViaIAlloc, _ => false
  | ViaStable, _ => true
  end.
(** The methods reached through either trait (alloc/mod.rs:116-145, 186-201). *)
Definition through {St} (i : iface) (A : ialloc St) : ialloc St := match i with ViaIAlloc => A | ViaStable => stable_of A end.
(** The next answer of the system (to rust_alloc.rs:30, 60): failure when there are no more. *)
Definition next_ans (s : list N * gheap) : N * list N := match fst s with [] => (0%N, []) | a :: r => (a, r) end.
(** rust_alloc.rs:103-124 [impl IAlloc for RustAlloc]. *)
Definition the_rust_alloc : ialloc (list N * gheap) :=
  Alloc (fun l s => let '(a, r) := next_ans s in let '(o, g) := rust_alloc l a (snd s) in (o, (r, g)))
        (fun p s => let '(o, g) := rust_free p (snd s) in (o, (fst s, g)))
        (fun p _ n s => let '(a, r) := next_ans s in let '(o, g) := rust_realloc p n a (snd s) in (o, (r, g))).
