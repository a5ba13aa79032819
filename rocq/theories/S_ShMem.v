(** What programs see of shared slices: handles to lists (for C91). Only the types of [M_VecMem] and
    [M_ShMem] (operations, observations, heaps) are used, and the lists of [S_VecMem]. *)
From Coq Require Import NArith List Bool.
From Verif Require Import M_VecMem S_VecMem M_ShMem.
Import ListNotations.
Local Open Scope N_scope.

(** Strong and weak handles to the [c]-th shared list. *)
Inductive ahandle := AS (c : nat) | AW (c : nat).
(** Vectors and boxed slices, handles, and the lists that were shared so far. *)
Definition astate : Type := list (option aobj) * list (option ahandle) * list (list elem).

(** How many strong handles there are to the [c]-th list. *)
Fixpoint strongs (c : nat) (hs : list (option ahandle)) : N :=
  match hs with
  | [] => 0
  | Some (AS d) :: r => (if Nat.eqb d c then 1 else 0) + strongs c r
  | _ :: r => strongs c r
  end.
(** How many weak ones. *)
Fixpoint weaks (c : nat) (hs : list (option ahandle)) : N :=
  match hs with
  | [] => 0
  | Some (AW d) :: r => (if Nat.eqb d c then 1 else 0) + weaks c r
  | _ :: r => weaks c r
  end.
(** The only handle. *)
Definition alone (c : nat) (hs : list (option ahandle)) : bool := (strongs c hs =? 1) && (weaks c hs =? 0).

(** An operation on the [j]-th handle, a strong one to the [c]-th list [l]. *)
Definition spec_strong (copy : bool) (j c : nat) (l : list elem) (o : sop) (st : astate) : sobs * astate :=
  let '(ls, hs, cs) := st in
  match o with
  | CloneH _ => (yes, (ls, hs ++ [Some (AS c)], cs))
  | Downgrade _ => (yes, (ls, hs ++ [Some (AW c)], cs))
  | Unshare _ => if alone c hs then (yes, (ls ++ [Some (AV l)], upd j None hs, cs)) else (no, st)
  | ReadH _ => ((Obs true l [], []), st)
  | SetH _ k e => if alone c hs && (k <? N.of_nat (length l))
                  then (yes, (ls, hs, upd c (putN k e l) cs)) else (no, st)
  | Counts _ => ((Obs true [] [], [strongs c hs; weaks c hs + 1]), st)
  | DropH _ => ((Obs true [] (if (strongs c hs =? 1) && negb copy then l else []), []), (ls, upd j None hs, cs))
  | _ => (no, st)
  end.
(** A weak one. *)
Definition spec_weak (copy : bool) (j c : nat) (o : sop) (st : astate) : sobs * astate :=
  let '(ls, hs, cs) := st in
  match o with
  | CloneH _ => (yes, (ls, hs ++ [Some (AW c)], cs))
  | Upgrade _ => if 0 <? strongs c hs then (yes, (ls, hs ++ [Some (AS c)], cs)) else (no, st)
  | ForceUpgrade _ => if copy then (yes, (ls, hs ++ [Some (AS c)], cs)) else (no, st)
  | DropH _ => (yes, (ls, upd j None hs, cs))
  | _ => (no, st)
  end.
(** One operation. *)
Definition spec_sstep (copy : bool) (o : sop) (st : astate) : sobs * astate :=
  let '(ls, hs, cs) := st in
  match o with
  | Owned p => let '(b, ls') := spec_step p ls in ((b, []), (ls', hs, cs))
  | Share i => match nth_error ls i with
               | Some (Some (AV l)) => (yes, (upd i None ls, hs ++ [Some (AS (length cs))], cs ++ [l]))
               | _ => (no, st)
               end
  | CloneH j | Downgrade j | Upgrade j | ForceUpgrade j | Unshare j | ReadH j | SetH j _ _ | Counts j | DropH j =>
      match nth_error hs j with
      | Some (Some (AS c)) => match nth_error cs c with Some l => spec_strong copy j c l o st | None => (no, st) end
      | Some (Some (AW c)) => spec_weak copy j c o st
      | _ => (no, st)
      end
  end.

(** Operations as programs can write them, see [op_ok]. *)
Definition sop_ok (s : nat) (o : sop) : Prop :=
  match o with
  | Owned p => op_ok s p
  | SetH _ _ e => length e = s
  | _ => True
  end.

(** The history of a program: every operation does what it does to lists, except for those on vectors and
    boxed slices that fail for want of memory or room, and the sharing of an empty vector (one without
    capacity is not shared): these change nothing. *)
Inductive shistory (s : nat) (a psz pal : N) (copy : bool)
  : list sop -> sstate -> astate -> sstate -> astate -> Prop :=
| sh_nil st ls : shistory s a psz pal copy [] st ls st ls
| sh_done o r st ls b st1 ls1 st2 ls2 :
    sstep s a psz pal copy o st = Some (b, st1) -> spec_sstep copy o ls = (b, ls1) ->
    shistory s a psz pal copy r st1 ls1 st2 ls2 -> shistory s a psz pal copy (o :: r) st ls st2 ls2
| sh_refused o r i l st ls st2 ls2 :
    target o = Some i -> nth_error (fst (fst ls)) i = Some (Some (AV l)) -> refused s psz pal (snd st) l o ->
    sstep s a psz pal copy (Owned o) st = Some (no, st) ->
    shistory s a psz pal copy r st ls st2 ls2 -> shistory s a psz pal copy (Owned o :: r) st ls st2 ls2
| sh_full r i e ans l st ls st2 ls2 :
    nth_error (fst (fst ls)) i = Some (Some (AB l)) ->
    sstep s a psz pal copy (Owned (Push i e ans)) st = Some (no, st) ->
    shistory s a psz pal copy r st ls st2 ls2 -> shistory s a psz pal copy (Owned (Push i e ans) :: r) st ls st2 ls2
| sh_empty r i st ls st2 ls2 :
    nth_error (fst (fst ls)) i = Some (Some (AV [])) ->
    sstep s a psz pal copy (Share i) st = Some (no, st) ->
    shistory s a psz pal copy r st ls st2 ls2 -> shistory s a psz pal copy (Share i :: r) st ls st2 ls2.
