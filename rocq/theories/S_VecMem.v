(** What programs see of vectors and boxed slices: lists of elements (for C89). Only the types
    of [M_VecMem] (operations, observations, heaps) are used. *)
From Coq Require Import NArith List Bool.
From Verif Require Import M_Alloc S_Alloc M_VecMem.
Import ListNotations.
Local Open Scope N_scope.

(** What Rust guarantees of the type of the elements and of [AllocPrefix<Alloc>]: sizes are
    multiples of alignments; here [T] is not of zero bytes, is aligned no more than the
    prefix, and neither is absurdly large. *)
Definition types_ok (s : nat) (a psz pal : N) : Prop :=
  (0 < s)%nat /\ N.of_nat s <= 2 ^ 60 /\ alignment a /\ (a | N.of_nat s) /\
  alignment pal /\ (pal | psz) /\ 32 <= psz /\ psz <= 2 ^ 60 /\ pal <= 2 ^ 60 /\ a <= pal.

(** A heap where live blocks are apart from each other. *)
Definition heap_ok (h : heap) : Prop :=
  ForallOrdPairs (fun b c => apart (fst b) (snd b) (fst c) (snd c)) (blocks h) /\
  Forall (fun b => 0 < snd b) (blocks h).

(** Vectors and boxed slices, as lists. *)
Inductive aobj := AV (l : list elem) | AB (l : list elem).

(** Positions counted with [N]. *)
Definition nthN (l : list elem) (k : N) : option elem :=
  if k <? N.of_nat (length l) then nth_error l (N.to_nat k) else None.
(** The first [k] elements, and those after. *)
Definition takeN (k : N) (l : list elem) : list elem := firstn (N.to_nat (N.min k (N.of_nat (length l)))) l.
(** See [takeN]. *)
Definition dropN (k : N) (l : list elem) : list elem := skipn (N.to_nat (N.min k (N.of_nat (length l)))) l.
(** [l] with [e] at [k]. *)
Definition putN (k : N) (e : elem) (l : list elem) : list elem := takeN k l ++ e :: dropN (k + 1) l.

(** An operation on the list [l], at [i] in [ls]: what is seen, and the lists afterwards. *)
Definition spec_vec (i : nat) (l : list elem) (o : op) (ls : list (option aobj)) : obs * list (option aobj) :=
  let same b := (Obs b [] [], ls) in
  let now l' := (Obs true [] [], upd i (Some (AV l')) ls) in
  match o with
  | Reserve _ _ _ => same true
  | Push _ e _ => now (l ++ [e])
  | Pop _ => match l with
             | [] => same false
             | _ => (Obs true [last l []] [], upd i (Some (AV (removelast l))) ls)
             end
  | Remove _ k => match nthN l k with
                  | None => same false
                  | Some e => (Obs true [e] [], upd i (Some (AV (takeN k l ++ dropN (k + 1) l))) ls)
                  end
  | Swap _ j k => match nthN l j, nthN l k with
                  | Some x, Some y => now (putN k x (putN j y l))
                  | _, _ => same false
                  end
  | SwapRemove _ k => match nthN l k with
                      | None => same false
                      | Some e => (Obs true [e] [], upd i (Some (AV (removelast (putN k (last l []) l)))) ls)
                      end
  | Truncate _ n => (Obs true [] (dropN n l), upd i (Some (AV (takeN n l))) ls)
  | CopyExtend _ es _ | Extend _ es _ _ => now (l ++ es)
  | CloneV _ _ => (Obs true [] [], ls ++ [Some (AV l)])
  | Get _ k => match nthN l k with None => same false | Some e => (Obs true [e] [], ls) end
  | SetAt _ k e => match nthN l k with None => same false | Some _ => now (putN k e l) end
  | Read _ => (Obs true l [], ls)
  | DrainV _ from to k =>
      if (from <=? to) && (to <=? N.of_nat (length l))
      then let r := dropN from (takeN to l) in
           (Obs true (takeN k r) (dropN k r), upd i (Some (AV (takeN from l ++ dropN to l))) ls)
      else same false
  | IntoBoxed _ => match l with [] => same false | _ => (Obs true [] [], upd i (Some (AB l)) ls) end
  | DropO _ => (Obs true [] l, upd i None ls)
  | New | IntoVec _ => same false
  end.

(** The same for a boxed slice. *)
Definition spec_box (i : nat) (l : list elem) (o : op) (ls : list (option aobj)) : obs * list (option aobj) :=
  match o with
  | Push _ e _ => (Obs true [] [], upd i (Some (AB (l ++ [e]))) ls)
  | Read _ => (Obs true l [], ls)
  | IntoVec _ => (Obs true [] [], upd i (Some (AV l)) ls)
  | DropO _ => (Obs true [] l, upd i None ls)
  | _ => (Obs false [] [], ls)
  end.

(** One operation. *)
Definition spec_step (o : op) (ls : list (option aobj)) : obs * list (option aobj) :=
  match target o with
  | None => (Obs true [] [], ls ++ [Some (AV [])])
  | Some i => match nth_error ls i with
              | Some (Some (AV l)) => spec_vec i l o ls
              | Some (Some (AB l)) => spec_box i l o ls
              | _ => (Obs false [] [], ls)
              end
  end.

(** What an operation on [l] may ask from the allocator, in elements, and its answer. *)
Definition may_ask (s : nat) (l : list elem) (o : op) : option (N * N) :=
  let n := N.of_nat (length l) in
  match o with
  | Reserve _ k ans => Some (n + k, ans)
  | Push _ _ ans => Some (if n =? 0 then N.max (1024 / N.of_nat s) 1 else n + N.max (N.div2 n) 1, ans)
  | CopyExtend _ es ans => Some (n + N.of_nat (length es), ans)
  | Extend _ _ hi ans => Some (n + hi, ans)
  | CloneV _ ans => Some (n, ans)
  | _ => None
  end.

(** A failure for want of memory: the allocator did not provide what was asked from it, no
    more than what the operation may ask. *)
Definition refused (s : nat) (psz pal : N) (h : heap) (l : list elem) (o : op) : Prop :=
  exists k ans n bs, may_ask s l o = Some (k, ans) /\ n <= psz + N.of_nat s * k + pal /\
    incl bs (blocks h) /\ grants bs n pal ans = false.

(** Operations as programs can write them: elements have the size of their type, no more than
    2^62 bytes are requested at once, iterators yield no more than they announce. *)
Definition op_ok (s : nat) (o : op) : Prop :=
  match o with
  | Reserve _ n _ => n * N.of_nat s <= 2 ^ 62
  | Push _ e _ | SetAt _ _ e => length e = s
  | CopyExtend _ es _ => Forall (fun e => length e = s) es /\ N.of_nat (length es) * N.of_nat s <= 2 ^ 62
  | Extend _ es hi _ => Forall (fun e => length e = s) es /\ N.of_nat (length es) <= hi /\ hi * N.of_nat s <= 2 ^ 62
  | _ => True
  end.

(** The history of a program: every operation does what it does to lists, except for those
    that fail for want of memory, and pushes to boxed slices that are full: these change
    nothing. [run] is the execution in memory. *)
Inductive history (s : nat) (a psz pal : N) : list op -> state -> list (option aobj) -> state -> list (option aobj) -> Prop :=
| hi_nil st ls : history s a psz pal [] st ls st ls
| hi_done o r st ls b st1 ls1 st2 ls2 :
    step s a psz pal o st = Some (b, st1) -> spec_step o ls = (b, ls1) ->
    history s a psz pal r st1 ls1 st2 ls2 -> history s a psz pal (o :: r) st ls st2 ls2
| hi_refused o r i l st ls h' w' st2 ls2 :
    target o = Some i -> nth_error ls i = Some (Some (AV l)) -> refused s psz pal (snd st) l o ->
    step s a psz pal o st = Some (Obs false [] [], (w', h')) -> w' = fst st -> h' = snd st ->
    history s a psz pal r st ls st2 ls2 -> history s a psz pal (o :: r) st ls st2 ls2
| hi_full o r i e ans l st ls st2 ls2 :
    o = Push i e ans -> nth_error ls i = Some (Some (AB l)) ->
    step s a psz pal o st = Some (Obs false [] [], st) ->
    history s a psz pal r st ls st2 ls2 -> history s a psz pal (o :: r) st ls st2 ls2.
