(** Specification for C23: the list operations of [S_Vec], on a [SingleOrVec]. *)
From Coq Require Import NArith List.
From Verif Require Import M_Layout M_Vec S_Vec M_Sov.
Import ListNotations.

Inductive sop (E : Type) :=
| OPush (e : E) | OTryPush (e : E) | OTruncate (n : nat) | OReserve (n : N) | OTryReserve (n : N) | OExtend (es : list E) (lo : N).
Arguments OPush {E}. Arguments OTryPush {E}. Arguments OTruncate {E}. Arguments OReserve {E}.
Arguments OTryReserve {E}. Arguments OExtend {E}.

(** The corresponding operation of a [Vec]. *)
Definition as_vop {E} (o : sop E) : vop E :=
  match o with
  | OPush e => Push e | OTryPush e => TryPush e | OTruncate n => Truncate n
  | OReserve n => Reserve n | OTryReserve n => TryReserve n | OExtend es lo => Extend es lo None
  end.

Definition s_run1 {E} (d : det) (s : N) (ok : N -> bool) (o : sop E) (st : sov E) : sout E :=
  match o with
  | OPush e => s_push s ok e st
  | OTryPush e => snd (s_try_push s ok e st)
  | OTruncate n => s_truncate d n st
  | OReserve n => s_reserve d s ok n st
  | OTryReserve n => snd (s_try_reserve d s ok n st)
  | OExtend es lo => s_extend d s ok es lo st
  end.

Fixpoint s_run {E} (d : det) (s : N) (h : list (sop E * (N -> bool))) (st : sov E) : option (sov E * list E * list E) :=
  match h with
  | [] => Some (st, [], [])
  | (o, ok) :: r =>
      match s_run1 d s ok o st with
      | SDone st1 a b | SPanic st1 a b =>
          match s_run d s r st1 with
          | Some (st2, x, y) => Some (st2, a ++ x, b ++ y)
          | None => None
          end
      | SUB => None
      end
  end.

Definition sholds {E} (s : N) (st : sov E) (l : list E) : Prop :=
  match st with Single e => l = [e] | Many v => holds s v l | Corrupt => False end.

Definition as_history {E} (h : list (sop E * (N -> bool))) : list (vop E * (N -> bool)) :=
  map (fun x => (as_vop (fst x), snd x)) h.

(** Operations that do not meet the defects on a single element: with a determinant that the
    guards write, no switch to a vector by [truncate] or [reserve]; and no allocation failure
    in [reserve]. *)
Definition careful {E} (d : det) (x : sop E * (N -> bool)) : Prop :=
  match fst x with
  | OPush _ | OTryPush _ => True
  | OTruncate n => reasserts d = false \/ n <> 0
  | OReserve _ | OTryReserve _ | OExtend _ _ => reasserts d = false /\ forall n, snd x n = true
  end.

(** Using an [IterMut]: calls and the positions they yield. *)
Inductive im_op := INext | INth (n : N) | INextBack | INthBack (n : N).
Definition im_run1 (o : im_op) (i : iter_mut) : option N * iter_mut :=
  match o with INext => im_next i | INth n => im_nth n i | INextBack => im_next_back i | INthBack n => im_nth_back n i end.
Fixpoint im_run (h : list im_op) (i : iter_mut) : list N * iter_mut :=
  match h with
  | [] => ([], i)
  | o :: r => let '(x, i1) := im_run1 o i in let '(xs, i2) := im_run r i1 in
              (match x with Some p => p :: xs | None => xs end, i2)
  end.
Definition im_skips (h : list im_op) : N :=
  fold_right (fun o acc => match o with INth n => n + acc | _ => acc end)%N 0%N h.
