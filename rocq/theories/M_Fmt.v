(** Model of the [Debug], [Display], [LowerHex] and [UpperHex] of stabby's types, on core's [Formatter], and of [fmt::Write] for [String].
    What is formatted is the list of the texts given to the writer, in order, one for each [write_str]: as every call is followed by [?],
    a writer that fails gets these up to the failure.  Texts are lists of bytes. *)
From Coq Require Import String.
From Coq Require Import List Arith NArith ZArith Bool.
From Verif Require Import M_Report M_Decl M_Num M_Vec M_String M_BTree.
Import ListNotations.
Local Open Scope N_scope.
Local Open Scope list_scope.

(** core [Alignment] in format strings (passed on by boxed.rs:447-477). *)
Inductive align := ALeft | ARight | ACenter.
(** The parameters of core's [Formatter] that integers and the builders look at: [#], [0], [+], width, fill, alignment,
    and [x?] / [X?].  All of stabby's impls pass theirs on (boxed.rs:447-477). *)
Record opts := Opts { alternate : bool; zero : bool; plus : bool; width : option nat; fill : N; al : option align; dhex : option bool }.

(** core: the character of a digit (num.rs:277-316); [up] is for [UpperHex]. *)
Definition digit_char (up : bool) (d : N) : N := if d <? 10 then 48 + d else if up then 55 + d else 87 + d.
(** core: digits of a number, in front of those that are there; the fuel is enough (num.rs:277-316). *)
Fixpoint digits_from (fuel : nat) (up : bool) (b n : N) (acc : list N) : list N :=
  match fuel with
  | O => acc
  | S f => let acc' := digit_char up (n mod b) :: acc in if n / b =? 0 then acc' else digits_from f up b (n / b) acc'
  end.
(** core: digits of a number (num.rs:277-316). *)
Definition digits (up : bool) (b n : N) : list N := digits_from (S (N.size_nat n)) up b n [].
(** core [Formatter::padding] (num.rs:277-316). *)
Definition padding (o : opts) (dflt : align) (n : nat) : list N * list N :=
  let (l, r) := match match al o with Some a => a | None => dflt end with
                | ALeft => (O, n) | ARight => (n, O) | ACenter => (Nat.div n 2, Nat.sub n (Nat.div n 2)) end in
  (repeat (fill o) l, repeat (fill o) r).
(** core [Formatter::pad_integral] (num.rs:277-316). *)
Definition pad_integral (o : opts) (nonneg : bool) (prefix ds : list N) : list (list N) :=
  let sign := (if nonneg then if plus o then [43] else [] else [45]) ++ (if alternate o then prefix else []) in
  let len := (List.length sign + List.length ds)%nat in
  match width o with
  | None => [sign; ds]
  | Some w =>
      if (w <=? len)%nat then [sign; ds]
      else if zero o then [sign; repeat 48 (w - len); ds]
      else let (l, r) := padding o ARight (w - len) in [l; sign; ds; r]
  end.
(** core [LowerHex], [UpperHex] of unsigned integers (num.rs:287-296). *)
Definition hex_u (up : bool) (o : opts) (n : N) : list (list N) := pad_integral o true (lit "0x") (digits up 16 n).
(** core [Display] of unsigned integers (num.rs:282-286). *)
Definition display_u (o : opts) (n : N) : list (list N) := pad_integral o true [] (digits false 10 n).
(** core [Display] of signed integers (num.rs:424-428). *)
Definition display_i (o : opts) (z : Z) : list (list N) := pad_integral o (0 <=? z)%Z [] (digits false 10 (Z.abs_N z)).
(** core [Debug] of unsigned integers (num.rs:277-281). *)
Definition debug_u (o : opts) (n : N) : list (list N) :=
  match dhex o with Some up => hex_u up o n | None => display_u o n end.
(** core [Debug] of signed integers of [w] bits (num.rs:419-423). *)
Definition debug_i (w : N) (o : opts) (z : Z) : list (list N) :=
  match dhex o with Some up => hex_u up o (Z.to_N (z mod 2 ^ Z.of_N w)) | None => display_i o z end.

(** core [PadAdapter::write_str]: texts pass through, four spaces are put in front of lines; the flag is [on_newline]
    (used by [Debug] of slices, vec.rs:590-594).  core writes line by line; here a text stays one text. *)
Fixpoint indent (nl : bool) (t : list N) : list N * bool :=
  match t with
  | [] => ([], nl)
  | c :: r => let (r', e) := indent (c =? 10) r in ((if nl then [32; 32; 32; 32] else []) ++ c :: r', e)
  end.
(** The same for all texts that are written (vec.rs:590-594). *)
Fixpoint pad (nl : bool) (ts : list (list N)) : list (list N) :=
  match ts with [] => [] | t :: r => let (t', e) := indent nl t in t' :: pad e r end.
(** core [DebugInner::entry] and its repetition: the entries of a list or a set (vec.rs:590-594, arc_btree.rs:226-236). *)
Fixpoint entries (o : opts) (first : bool) (l : list (list (list N))) : list (list N) :=
  match l with
  | [] => []
  | x :: r =>
      (if alternate o then (if first then [lit "
"] else []) ++ pad true (x ++ [lit ",
"])
       else (if first then [] else [lit ", "]) ++ x) ++ entries o false r
  end.
(** core [Formatter::debug_list] (vec.rs:590-594). *)
Definition debug_list (o : opts) (l : list (list (list N))) : list (list N) := [lit "["] ++ entries o true l ++ [lit "]"].
(** core [Formatter::debug_set] (arc_btree.rs:226-236). *)
Definition debug_set (o : opts) (l : list (list (list N))) : list (list N) := [lit "{"] ++ entries o true l ++ [lit "}"].
(** core [debug_tuple_field1_finish]: the derived [Debug] of a variant with one field (option.rs:32-34, result.rs:117-119). *)
Definition debug_tuple1 (o : opts) (name : list N) (x : list (list N)) : list (list N) :=
  [name] ++ (if alternate o then [lit "(
"] ++ pad true (x ++ [lit ",
"]) else [lit "("] ++ x) ++ [lit ")"].
(** core [debug_struct_field2_finish]: the derived [Debug] of a struct with two fields (arc_btree.rs:78). *)
Definition debug_struct2 (o : opts) (name n1 : list N) (x : list (list N)) (n2 : list N) (y : list (list N)) : list (list N) :=
  [name] ++
  (if alternate o
   then [lit " {
"] ++ pad true ([n1; lit ": "] ++ x ++ [lit ",
"]) ++ pad true ([n2; lit ": "] ++ y ++ [lit ",
"]) ++ [lit "}"]
   else [lit " { "; n1; lit ": "] ++ x ++ [lit ", "; n2; lit ": "] ++ y ++ [lit " }"]).

(** [Vec] (vec.rs:590), [BoxedSlice] (boxed.rs:447), [ArcSlice] (sync.rs:598), [Slice] (slice.rs:90), [SliceMut] (slice.rs:149). *)
Inductive seqs := QVec | QBoxed | QArc | QSlice | QSliceMut.
(** [String] (string.rs:102), [BoxedStr] (string.rs:338), [ArcStr] (string.rs:179), [Str] (str.rs:66). *)
Inductive strs := XString | XBoxed | XArc | XStr.
(** What can be formatted: integers of core, strings of core, and stabby's types over what can be formatted; [VEntry] is the entry of
    a map, arc_btree.rs:76-81, [VLike] a [StableLike], lib.rs:170-176. *)
Inductive val :=
  | VU (n : N) | VI (w : N) (z : Z) | VCore (s : list N)
  | VSeq (k : seqs) (l : list val) | VStr (k : strs) (s : list N)
  | VSome (v : val) | VNone | VOk (v : val) | VErr (v : val) | VLike (v : val) | VEntry (k v : val).

Section Fmt.
(** core's [Debug] of str, which looks at no parameter (string.rs:102-106). *)
Context (str_debug : list N -> list (list N)).

(** [Debug]: vec.rs:590-594, boxed.rs:447-451, sync.rs:598-602, slice.rs:90-97, 149-156, string.rs:102-106, 179-183, 338-342,
    str.rs:66-70, option.rs:27-35, result.rs:110-120, lib.rs:177-181, arc_btree.rs:78. *)
Fixpoint debug (o : opts) (v : val) : list (list N) :=
  match v with
  | VU n => debug_u o n
  | VI w z => debug_i w o z
  | VCore s => str_debug s
  | VSeq _ l => debug_list o (map (debug o) l)
  | VStr _ s => str_debug s
  | VSome x => debug_tuple1 o (lit "Some") (debug o x)
  | VNone => [lit "None"]
  | VOk x => debug_tuple1 o (lit "Ok") (debug o x)
  | VErr x => debug_tuple1 o (lit "Err") (debug o x)
  | VLike x => debug o x
  | VEntry k x => debug_struct2 o (lit "Entry") (lit "key") (debug o k) (lit "value") (debug o x)
  end.
(** [Debug] of [ArcBTreeSetNode], arc_btree.rs:217-237: subtrees are entries of their own, values formatted by [val]. *)
Fixpoint node_entries {T} (below : nat -> res (list (list N))) (val : T -> list (list N)) (es : list (option nat * T)) : res (list (list (list N))) :=
  match es with
  | [] => Ret []
  | (s, x) :: r =>
      do b <- match s with None => Ret [] | Some c => do t <- below c ; Ret [t] end ;
      do k <- node_entries below val r ;
      Ret (b ++ val x :: k)
  end.
(** The same function, arc_btree.rs:217-237. *)
Fixpoint node_debug {T} (fuel : nat) (o : opts) (val : T -> list (list N)) (h : heap T) (a : nat) : res (list (list N)) :=
  match fuel with
  | 0%nat => Fuel
  | S f =>
      do n <- get_node h a ;
      do l <- node_entries (node_debug f o val h) val (ents n) ;
      do g <- match gtr n with None => Ret [] | Some c => do t <- node_debug f o val h c ; Ret [t] end ;
      Ret (debug_set o (l ++ g))
  end.
(** [Debug] of [ArcBTreeSet], arc_btree.rs:202-216. *)
Definition set_debug {T} (o : opts) (val : T -> list (list N)) (h : heap T) (t : tree) : res (list (list N)) :=
  match t with
  | None => Ret [lit "ArcBTreeSet"; lit "{}"]
  | Some a => do d <- node_debug (S (next h)) o val h a ; Ret (lit "ArcBTreeSet" :: d)
  end.
End Fmt.

(** The loop of [LowerHex] and [UpperHex] of [Vec] (vec.rs:595-620), [BoxedSlice] (boxed.rs:452-477) and [ArcSlice] (sync.rs:603-628);
    [item] is that of the elements. *)
Fixpoint hex_items {A} (item : A -> list (list N)) (first : bool) (l : list A) : list (list N) :=
  match l with [] => [] | x :: r => (if first then [] else [lit ":"]) ++ item x ++ hex_items item false r end.
(** [LowerHex], [UpperHex] of sequences of unsigned integers (vec.rs:595-620, boxed.rs:452-477, sync.rs:603-628). *)
Definition hex_seq (up : bool) (o : opts) (l : list N) : list (list N) := hex_items (hex_u up o) true l.
(** The same of sequences of sequences (vec.rs:595-620, boxed.rs:452-477, sync.rs:603-628). *)
Definition hex_seq2 (up : bool) (o : opts) (l : list (list N)) : list (list N) := hex_items (hex_seq up o) true l.

(** [Display] of narrow unsigned integers: that of the field, num.rs:282-286. *)
Definition display_um (o : opts) (x : N) : list (list N) := display_u o x.
(** [Display] of narrow signed integers: that of the field, num.rs:424-428. *)
Definition display_im (o : opts) (x : Z) : list (list N) := display_i o x.

(** report.rs:82 [#[derive(Debug)]] of [TyTy] in [{tyty:?}], without parameters; the strings are names of reprs, nothing in them is escaped. *)
Definition tyty_debug (k : tyty) : list N :=
  match k with KStruct => lit "Struct" | KUnion => lit "Union" | KEnum s => lit "Enum(""" ++ s ++ lit """)" end.
(** report.rs:37-52 [Display] of [TypeReport]: [write!] has parameters of its own, those of the caller are not used.  As one text. *)
Fixpoint report_display (r : report) : list N :=
  match r with
  | Rep n m v k fs =>
      tyty_debug k ++ lit " " ++ m ++ lit " :: " ++ n ++ lit " (version" ++ digits false 10 v ++ lit ") {" ++
      flat_map (fun f => fst f ++ lit ": " ++ report_display (snd f) ++ lit ", ") fs ++ lit "}"
  end.

(** [fmt::Write for String], string.rs:349-353: what is given to [write_str] one after the other; the flag is [Ok]. *)
Fixpoint write_all (ok : N -> bool) (ts : list (list N)) (s : vec N) : option (vec N * bool) :=
  match ts with
  | [] => Some (s, true)
  | t :: r =>
      match try_concat ok t s with
      | Some (s', Good) => write_all ok r s'
      | Some (s', _) => Some (s', false)
      | None => None
      end
  end.
