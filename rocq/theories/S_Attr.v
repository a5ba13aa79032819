(** What the compiler makes of [repr] attributes (the Rust reference, "Type layout"). *)
From Coq Require Import List Arith NArith Bool.
From Verif Require Import M_Layout M_Attr S_Layout S_Core.
Import ListNotations.

(** Everything the attributes of a type say. *)
Definition said (l : list attr) : list item := flat_map items l.
Definition power_of_two (n : nat) : Prop := exists k, n = 2 ^ k.
(** What the compiler accepts on structs and unions: no representation of integers, not both [packed] and [align]; [transparent] alone. *)
Definition legal (l : list item) : Prop :=
  (forall t, ~ In (Int t) l) /\ ~ In Stabby l /\ ~ In Other l /\
  (forall n m, In (Packed n) l -> ~ In (Align m) l) /\
  (forall n, In (Packed n) l \/ In (Align n) l -> power_of_two n) /\
  (In Transparent l -> l = [Transparent]).
(** The alignment asked for, and the bound on the alignment of fields. *)
Definition asked (l : list item) (minal : nat) : Prop :=
  (minal = 1 \/ In (Align minal) l) /\ 1 <= minal /\ forall n, In (Align n) l -> n <= minal.
Definition bounded (l : list item) (f g : nat * nat) : Prop :=
  fst g = fst f /\ snd g <= snd f /\ (snd g = snd f \/ In (Packed (snd g)) l) /\ forall n, In (Packed n) l -> snd g <= n.
(** Any placement of the fields, which is all that is known without [repr(C)]. *)
Definition placed (minal : nat) (fs : list (nat * nat)) (os : list nat) (size al : nat) : Prop :=
  al = fold_left Nat.max (map snd fs) minal /\ (exists k, size = k * al) /\
  Forall2 (fun f o => (exists k, o = k * snd f) /\ o + fst f <= size) fs os /\
  forall i j f g o p, i <> j -> nth_error fs i = Some f -> nth_error fs j = Some g -> nth_error os i = Some o -> nth_error os j = Some p ->
    o + fst f <= p \/ p + fst g <= o.
(** Offsets, size and alignment of a struct with the given attributes and fields. *)
Definition compiled_struct (l : list item) (fs : list (nat * nat)) (os : list nat) (size al : nat) : Prop :=
  legal l /\
  if existsb (fun i => match i with Transparent => true | _ => false end) l then
    (* at most one field has a size or an alignment *)
    exists before f after, fs = before ++ f :: after /\ Forall (fun g => g = (0, 1)) (before ++ after) /\
      size = fst f /\ al = snd f /\ (exists k, size = k * al) /\ length os = length fs /\ nth_error os (length before) = Some 0
  else exists minal gs, asked l minal /\ Forall2 (bounded l) fs gs /\
    if existsb (fun i => match i with C => true | _ => false end) l
    then c_struct minal gs os size al
    else placed minal gs os size al.
(** Those of a union. *)
Definition compiled_union (l : list item) (fs : list (nat * nat)) (size al : nat) : Prop :=
  legal l /\ exists minal gs, asked l minal /\ Forall2 (bounded l) fs gs /\ c_union ((0, minal) :: gs) size al.

(** The bytes of the field of type [t] at offset [o] of [s] are those of a value. *)
Definition slice_at (s : list N) (o n : nat) : list N := firstn n (skipn o s).

(** The fields that have bytes are at their C offsets. *)
Definition at_c_offsets (fs : list (nat * nat)) (os : list nat) : Prop :=
  exists os' fin, c_offsets 0 fs os' fin /\ length os = length os' /\
    forall i f o o', nth_error fs i = Some f -> 0 < fst f -> nth_error os i = Some o -> nth_error os' i = Some o' -> o = o'.

(** What the attributes of an enum ask for. *)
Inductive enum_says : list attr -> enum_repr -> Prop :=
| says_nothing : enum_says [] (EStabby true)
| says_stabby a : (forall i, In i (items a) -> i = Stabby) -> enum_says [a] (EStabby false)
| says_tag a t : (forall i, In i (items a) -> i = Int t) -> In (Int t) (items a) -> enum_says [a] (ETagged t false)
| says_c_tag a t : (forall i, In i (items a) -> i = C \/ i = Int t) -> In C (items a) -> In (Int t) (items a) -> enum_says [a] (ETagged t true)
| says_c a : (forall i, In i (items a) -> i = C) -> In C (items a) -> enum_says [a] (ETagged U8 true).
