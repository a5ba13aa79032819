(** Model of the registry of vtables in a vector, [VtVec::insert] (stabby-abi/src/vtable/mod.rs:102-155), used by any number of threads.
    It is made with [AtomicArc] (stabby-abi/src/alloc/sync.rs:830-934, see M_AtomicArc).  A scheduler chooses which thread makes its next step; each atomic
    operation on the pointer or on a count is one step.  Counts do not overflow. *)
From Coq Require Import List Arith Bool.
From Verif Require Import M_Import M_ATree.
Import ListNotations.

Section VtVec.
(** Contents of vtables: lists of words (vtable/mod.rs:52). *)
Variable K : Type.
Variable keq : forall x y : K, {x = y} + {x <> y}.
(** Addresses of copies of vtables, vtable/mod.rs:118-120. *)
Notation addr := (nat * nat)%type.
(** The vector of vtable/mod.rs:204-207. *)
Notation regs := (list (K * addr)).

(** Points of a thread: [x]: its variables (see M_ATree; [edited] is not used here), [n]: search_start, [vts]: the variable [vtables], an owned Arc. *)
Inductive vpc :=
| VIdle (x : vars K)                                        (* between two calls *)
| VFetch (x : vars K) (n : nat) (vts : option nat) (p : nat)   (* p was read (sync.rs:868, 890, 925), its count not yet incremented *)
| VHave (x : vars K) (n : nat) (vts : option nat)           (* the beginning of the loop, vtable/mod.rs:108 *)
| VCheck (x : vars K) (n : nat) (vts : option nat)          (* vtable/mod.rs:122 *)
| VCheck2 (x : vars K) (n : nat) (vts : option nat)         (* vtable/mod.rs:131 *)
| VCas (x : vars K) (n : nat) (vts : option nat)            (* vtable/mod.rs:138 *)
| VDone (x : vars K) (old vts : option nat).                (* vtable/mod.rs:144-146: the returned Arc, and [vtables], are to be dropped *)

(** The pointer; for each address the strong count (0: nothing there) and the vector there; [vfault]: a count of a released vector was changed (vtable/mod.rs:204-207, sync.rs:832-835). *)
Record vcell := VCell { vptr : option nat; vrc : nat -> nat; vval : nat -> regs; vpcs : list vpc; vfault : bool }.
(** vtable/mod.rs:207 [AtomicArc::new(None)], and threads about to register the vtables of [kss]. *)
Definition vcell_new (kss : list (list K)) : vcell := VCell None (fun _ => 0) (fun _ => []) (map VIdle (clients K 0 kss)) false.

(** The vector, or an empty slice, vtable/mod.rs:108-117. *)
Definition vecs (s : vcell) (p : option nat) : regs := match p with None => [] | Some a => vval s a end.
(** Thread [t] goes to point [q] (vtable/mod.rs:103-154). *)
Definition vgoto (t : nat) (q : vpc) (s : vcell) : vcell := VCell (vptr s) (vrc s) (vval s) (put (vpcs s) t q) (vfault s).
(** Arc::increment_strong_count, sync.rs:218-226. *)
Definition vincr (a : nat) (s : vcell) : vcell :=
  VCell (vptr s) (upd (vrc s) a (S (vrc s a))) (vval s) (vpcs s) (vfault s || (vrc s a =? 0)).
(** Arc::drop, sync.rs:286-298. *)
Definition vdecr (p : option nat) (s : vcell) : vcell :=
  match p with
  | None => s
  | Some a => VCell (vptr s) (upd (vrc s) a (pred (vrc s a))) (vval s) (vpcs s) (vfault s || (vrc s a =? 0))
  end.
(** Arc::new, sync.rs:70-72, at a free address. *)
Definition valloc (a : nat) (v : regs) (s : vcell) : vcell := VCell (vptr s) (upd (vrc s) a 1) (upd (vval s) a v) (vpcs s) (vfault s).
(** The pointer is replaced (the [compare_exchange] of vtable/mod.rs:138). *)
Definition vswap (p : option nat) (s : vcell) : vcell := VCell p (vrc s) (vval s) (vpcs s) (vfault s).
(** The content was read by a load or a failed comparison of [AtomicArc]; it will replace [vtables] once cloned (vtable/mod.rs:106, 125, 134, 150). *)
Definition vfetch (t : nat) (x : vars K) (n : nat) (vts : option nat) (s : vcell) : vcell :=
  match vptr s with
  | None => vgoto t (VHave x n None) (vdecr vts s)
  | Some p => vgoto t (VFetch x n vts p) s
  end.
(** vtable/mod.rs:118: the copy is made, unless it was. *)
Definition copy (x : vars K) (k : K) : vars K :=
  match copied K x with
  | Some _ => x
  | None => Vars K (me K x) (todo K x) false (Some (length (made K x))) (made K x ++ [k]) (freed K x) (answers K x) (panicked K x)
  end.

(** The next step of thread [t]; the allocator gives it address [a], if that is free, should it need one. *)
Definition vstep (s : vcell) (act : nat * nat) : vcell :=
  let (t, a) := act in
  match nth_error (vpcs s) t with
  | None => s
  | Some (VIdle x) => match todo K x with [] => s | _ => vfetch t x 0 None s end                   (* vtable/mod.rs:106 *)
  | Some (VFetch x n vts p) => vgoto t (VHave x n (Some p)) (vdecr vts (vincr p s))
  | Some (VHave x n vts) =>
      match todo K x with
      | [] => s
      | k :: _ =>
          let v := vecs s vts in
          if match vts with None => false | Some _ => length v <? n end                            (* vtable/mod.rs:110, the slice panics *)
          then vgoto t (VDone (Vars K (me K x) [] false None (made K x) (freed K x) (answers K x) true) None vts) s
          else
            match find K keq k (skipn n v) with
            | Some r => vgoto t (VDone (finish K x k r false) None vts) s                          (* vtable/mod.rs:111-114 *)
            | None => vgoto t (VCheck (copy x k) n vts) s                                          (* vtable/mod.rs:118-121 *)
            end
      end
  | Some (VCheck x n vts) => if same (vptr s) vts then vgoto t (VCheck2 x n vts) s else vfetch t x n vts s      (* vtable/mod.rs:122-127 *)
  | Some (VCheck2 x n vts) => if same (vptr s) vts then vgoto t (VCas x n vts) s else vfetch t x n vts s        (* vtable/mod.rs:128-136 *)
  | Some (VCas x n vts) =>
      match todo K x, copied K x with
      | k :: _, Some c =>
          if vrc s a =? 0 then
            let s1 := valloc a (vecs s vts ++ [(k, (me K x, c))]) s in                             (* vtable/mod.rs:128-130, 137 *)
            if same (vptr s) vts then
              vgoto t (VDone (finish K x k (me K x, c) true) vts vts) (vswap (Some a) s1)         (* vtable/mod.rs:144-147, sync.rs:919-924 *)
            else vfetch t x (length (vecs s vts)) vts s1       (* vtable/mod.rs:148-151; the new Arc is lost, sync.rs:917, 925-931 *)
          else s
      | _, _ => s
      end
  | Some (VDone x old vts) =>
      match old with
      | Some _ => vgoto t (VDone x None vts) (vdecr old s)
      | None => vgoto t (VIdle x) (vdecr vts s)
      end
  end.
(** Any execution (vtable/mod.rs:102-155 by any number of threads). *)
Definition vrun (sched : list (nat * nat)) (s : vcell) : vcell := fold_left vstep sched s.
End VtVec.
Arguments VIdle {K}. Arguments VFetch {K}. Arguments VHave {K}. Arguments VCheck {K}. Arguments VCheck2 {K}. Arguments VCas {K}. Arguments VDone {K}.
Arguments vptr {K}. Arguments vrc {K}. Arguments vval {K}. Arguments vpcs {K}. Arguments vfault {K}.
