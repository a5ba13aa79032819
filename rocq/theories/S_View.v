(** What users of views rely on: a view is as good as a copy of what it shows, whose changes are carried back when it ends; only a mutable one can be changed.  In terms of lists only: no
    addresses, no memory, and stabby's views are as core's. *)
From Coq Require Import NArith List Bool Arith.
From Verif Require Import M_String S_String M_View.
Import ListNotations.
Local Open Scope nat_scope.

(** A copy: of text or not, mutable or not, made by stabby or not (which only matters for what compiles); and the part of the original before and after it. *)
Record copy := Copy { ckind : kind; pre : list N; shown : list N; post : list N }.

(** Which conversions and borrows compile. *)
Definition converts (k k' : kind) : bool :=
  eqb (txt k) (txt k') && implb (mut k') (mut k) && (if ours k then negb (ours k') || (mut k && negb (mut k')) else ours k' || (mut k && negb (mut k'))).
Definition borrows (k : kind) (m : bool) : bool := implb m (mut k).

(** The copy below, when the copy on top ends. *)
Definition back (c d : copy) : copy := Copy (ckind d) (pre d) (pre c ++ shown c ++ post c) (post d).

(** Texts that the bytes of a string cut at [i] are. *)
Definition cut_ok (l : list N) (i n : nat) : Prop :=
  exists t u w, is_text (firstn i l) t /\ is_text (firstn n (skipn i l)) u /\ is_text (skipn (i + n) l) w.

Inductive copy_step : list copy -> act -> list copy -> seen -> Prop :=
| cs_conv c rest k : converts (ckind c) k = true -> copy_step (c :: rest) (Conv k) (Copy k (pre c) (shown c) (post c) :: rest) Nothing
| cs_conv_no c rest k : converts (ckind c) k = false -> copy_step (c :: rest) (Conv k) (c :: rest) Illegal
| cs_borrow c rest m : borrows (ckind c) m = true -> copy_step (c :: rest) (Borrow m) (Copy (Kind (txt (ckind c)) m false) [] (shown c) [] :: c :: rest) Nothing
| cs_borrow_no c rest m : borrows (ckind c) m = false -> copy_step (c :: rest) (Borrow m) (c :: rest) Illegal
| cs_end c d rest : copy_step (c :: d :: rest) End (back c d :: rest) Nothing
| cs_end_no c : copy_step [c] End [c] Illegal
| cs_count c rest : copy_step (c :: rest) Count (c :: rest) (Length (length (shown c)))
| cs_ours c rest a : ours (ckind c) = true -> match a with Conv _ | Borrow _ | End | Count => False | _ => True end -> copy_step (c :: rest) a (c :: rest) Illegal
| cs_sub c rest i n : ours (ckind c) = false -> i + n <= length (shown c) -> (txt (ckind c) = true -> cut_ok (shown c) i n) ->
    copy_step (c :: rest) (Sub i n)
      (Copy (ckind c) (pre c ++ firstn i (shown c)) (firstn n (skipn i (shown c))) (skipn (i + n) (shown c) ++ post c) :: rest) Nothing
| cs_sub_no c rest i n : ours (ckind c) = false -> length (shown c) < i + n \/ txt (ckind c) = true /\ ~ cut_ok (shown c) i n ->
    copy_step (c :: rest) (Sub i n) (c :: rest) Panicked
| cs_bytes c rest : ckind c = Kind true false false -> copy_step (c :: rest) Bytes (Copy (Kind false false false) (pre c) (shown c) (post c) :: rest) Nothing
| cs_bytes_no c rest : ours (ckind c) = false -> ckind c <> Kind true false false -> copy_step (c :: rest) Bytes (c :: rest) Illegal
| cs_utf8 c rest t m : ckind c = Kind false m false -> is_text (shown c) t ->
    copy_step (c :: rest) Utf8 (Copy (Kind true m false) (pre c) (shown c) (post c) :: rest) Nothing
| cs_utf8_failed c rest m : ckind c = Kind false m false -> (forall t, ~ is_text (shown c) t) -> copy_step (c :: rest) Utf8 (c :: rest) Failed
| cs_utf8_no c rest m : ckind c = Kind true m false -> copy_step (c :: rest) Utf8 (c :: rest) Illegal
| cs_write c rest l y w x : ckind c = Kind false true false -> shown c = l ++ y :: w ->
    copy_step (c :: rest) (Write (length l) x) (Copy (ckind c) (pre c) (l ++ x :: w) (post c) :: rest) Nothing
| cs_write_out c rest i x : ckind c = Kind false true false -> length (shown c) <= i -> copy_step (c :: rest) (Write i x) (c :: rest) Panicked
| cs_write_no c rest i x : ours (ckind c) = false -> ckind c <> Kind false true false -> copy_step (c :: rest) (Write i x) (c :: rest) Illegal
| cs_case c rest up t : ckind c = Kind true true false -> is_text (shown c) t ->
    copy_step (c :: rest) (Case up) (Copy (ckind c) (pre c) (encode (map (if up then upper else lower) t)) (post c) :: rest) Nothing
| cs_case_no c rest up : ours (ckind c) = false -> ckind c <> Kind true true false -> copy_step (c :: rest) (Case up) (c :: rest) Illegal
| cs_read c rest : ours (ckind c) = false -> copy_step (c :: rest) Read (c :: rest) (Elements (shown c)).
Inductive copy_run : list copy -> list act -> list copy -> list seen -> Prop :=
| cr_nil st : copy_run st [] st []
| cr_cons st a st1 s acts st2 l : copy_step st a st1 s -> copy_run st1 acts st2 l -> copy_run st (a :: acts) st2 (s :: l).

(** What the lowest copy shows when all borrows have ended. *)
Fixpoint settle (c : copy) (rest : list copy) : copy :=
  match rest with [] => c | d :: rest => settle (back c d) rest end.
