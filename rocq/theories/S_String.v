(** What users of strings rely on: strings are sequences of Unicode scalar values. *)
From Coq Require Import NArith List Bool.
From Verif Require Import M_Alloc M_Vec S_Vec M_Arc S_Arc M_ArcSlice S_ArcSlice M_String.
Import ListNotations.
Local Open Scope N_scope.

(** Unicode scalar values. *)
Definition scalar (c : N) : Prop := c < 55296 \/ 57344 <= c < 1114112.
(** UTF-8 (Unicode standard, table 3-6). *)
Definition utf8 (c : N) : list N :=
  if c <? 128 then [c]
  else if c <? 2048 then [192 + c / 64; 128 + c mod 64]
  else if c <? 65536 then [224 + c / 4096; 128 + c / 64 mod 64; 128 + c mod 64]
  else [240 + c / 262144; 128 + c / 4096 mod 64; 128 + c / 64 mod 64; 128 + c mod 64].
(** The bytes of a text. *)
Definition encode (t : list N) : list N := flat_map utf8 t.
(** The bytes [l] are the text [t]. *)
Definition is_text (l t : list N) : Prop := Forall scalar t /\ l = encode t.

(** Order of texts: at the first difference, that of scalar values; a prefix comes first. *)
Inductive before : list N -> list N -> Prop :=
| be_prefix b m : before [] (b :: m)
| be_diff a b l m : a < b -> before (a :: l) (b :: m)
| be_same a l m : before l m -> before (a :: l) (a :: m).

(** Changes of ASCII case, in terms of scalar values. *)
Definition upper (c : N) : N := if (97 <=? c) && (c <=? 122) then c - 32 else c.
Definition lower (c : N) : N := if (65 <=? c) && (c <=? 90) then c + 32 else c.

(** Operations. *)
Inductive sop :=
| SAdd (t : list N) | SAddAssign (t : list N) | STryConcat (t : list N) | SFrom (t : list N) | SClone | SCase (up : bool)
| SBytes (h : list (vop N * (N -> bool))) | SBoxed | SShared (ops : list (option op)).
(** The model's operations; [SBytes] is to convert to [Vec<u8>], use that in any way, and convert back. *)
Definition srun1 (zst : bool) (ok : N -> bool) (o : sop) (s : vec N) : result :=
  match o with
  | SAdd t => add ok t s
  | SAddAssign t => add_assign ok t s
  | STryConcat t => try_concat ok t s
  | SFrom t => from_str ok t s
  | SClone => clone ok s
  | SCase up => make_case up s
  | SBytes h => match v_run 1 h s with Some (v, _, _) => try_from_vec v | None => None end
  | SBoxed => boxed s
  | SShared ops => shared_str zst ops s
  end.
(** Histories: final string, and the answers. *)
Fixpoint srun (zst : bool) (h : list (sop * (N -> bool))) (s : vec N) : option (vec N * list answer) :=
  match h with
  | [] => Some (s, [])
  | (o, ok) :: h =>
      match srun1 zst ok o s with
      | Some (s1, a) => match srun zst h s1 with Some (s2, l) => Some (s2, a :: l) | None => None end
      | None => None
      end
  end.

(** What an operation does to a text.  Failures happen only if the allocator refuses memory, bytes are not a text, or the shared string was not given back. *)
Inductive tstep (ok : N -> bool) : sop -> list N -> list N -> answer -> Prop :=
| ts_add b t u : is_text b u -> tstep ok (SAdd b) t (t ++ u) Good
| ts_add_panic b t n : ok n = false -> tstep ok (SAdd b) t [] Panic
| ts_add_assign b t u : is_text b u -> tstep ok (SAddAssign b) t (t ++ u) Good
| ts_add_assign_panic b t n : ok n = false -> tstep ok (SAddAssign b) t t Panic
| ts_try b t u : is_text b u -> tstep ok (STryConcat b) t (t ++ u) Good
| ts_try_bad b t n : ok n = false -> tstep ok (STryConcat b) t t Bad
| ts_from b t u : is_text b u -> tstep ok (SFrom b) t u Good
| ts_from_panic b t n : ok n = false -> tstep ok (SFrom b) t t Panic
| ts_clone t : tstep ok SClone t t Good
| ts_clone_panic t n : ok n = false -> tstep ok SClone t t Panic
| ts_upper t : tstep ok (SCase true) t (map upper t) Good
| ts_lower t : tstep ok (SCase false) t (map lower t) Good
| ts_bytes h t l u a d : lrun h (encode t) l a d -> is_text l u -> tstep ok (SBytes h) t u Good
| ts_bytes_bad h t l a d : lrun h (encode t) l a d -> (forall u, ~ is_text l u) -> tstep ok (SBytes h) t [] Bad
| ts_boxed t : tstep ok SBoxed t t Good
| ts_shared ops t : value (copy_owners_after ops) = Given -> tstep ok (SShared ops) t t Good
| ts_shared_bad ops t : value (copy_owners_after ops) <> Given -> tstep ok (SShared ops) t [] Bad.
(** Histories of texts. *)
Inductive trun : list (sop * (N -> bool)) -> list N -> list N -> list answer -> Prop :=
| tr_nil t : trun [] t t []
| tr_cons o ok h t u w a l : tstep ok o t u a -> trun h u w l -> trun ((o, ok) :: h) t w (a :: l).

(** Arguments safe code can give: [&str] arguments are texts; iterators give right hints (C18); fewer than [2^61] handles, and the operations
    that shared slices have (C27). *)
Definition allowed (o : sop) : Prop :=
  match o with
  | SAdd b | SAddAssign b | STryConcat b | SFrom b => exists t, is_text b t
  | SBytes h => Forall (fun x => honest (fst x)) h
  | SShared ops => copy_slice_ops ops /\ N.of_nat (length ops) < 2 ^ 61
  | _ => True
  end.
(** How many bytes an operation may add. *)
Definition sweight (o : sop) : N :=
  match o with
  | SAdd b | SAddAssign b | STryConcat b | SFrom b => N.of_nat (length b)
  | SBytes h => weights h
  | _ => 0
  end.
(** The total. *)
Fixpoint sweights (h : list (sop * (N -> bool))) : N :=
  match h with [] => 0 | (o, _) :: h => sweight o + sweights h end.
