(** Model of the serde implementations (feature "serde"): stabby-abi/src/str.rs:133-174, slice.rs:203-246,
    alloc/vec.rs:837-877, alloc/boxed.rs:500-541, alloc/string.rs:368-392, option.rs:183-211, result.rs:564-592.
    A format is what it does with the requests of [Deserialize]: any function from requests and documents to the call
    made to the visitor.  ArcSlice and ArcStr (alloc/sync.rs:936-975) convert the vector or string obtained here (C27). *)
From Coq Require Import NArith List Bool.
From Verif Require Import M_Vec M_String.
Import ListNotations.

(** Types: numbers; [String] and [BoxedStr]; [Str]; [Slice<u8>]; [Vec] and [BoxedSlice]; [Option]; [Result] (the lines above). *)
Inductive sty :=
| SNum
| SString (boxed : bool)              (* alloc/string.rs:382-390; alloc/boxed.rs:532-540 *)
| SStr                                (* str.rs:153-160 *)
| SBytes                              (* slice.rs:224-231 *)
| SSeq (boxed : bool) (t : sty)       (* alloc/vec.rs:851-858; alloc/boxed.rs:514-522 *)
| SOption (t : sty)                   (* option.rs:200-210 *)
| SResult (t e : sty).                (* result.rs:582-591 *)
(** Values of these types (see [sty]; str.rs:133, slice.rs:203, vec.rs:837, option.rs:183, result.rs:564). *)
Inductive sval := XNum (n : N) | XText (s : list N) | XBytes (s : list N) | XSeq (l : list sval) | XNone | XSome (v : sval) | XOk (v : sval) | XErr (v : sval).

(** What is asked from the format: [deserialize_u64], [deserialize_str] (str.rs:158), [deserialize_bytes] (slice.rs:229),
    [deserialize_seq] (vec.rs:856), [deserialize_option] (option.rs:208, by core's), [deserialize_enum] (result.rs:589, by core's). *)
Inductive request := RNum | RStr | RBytes | RSeq | ROption | REnum.
(** How a string is handed to a visitor: [visit_borrowed_str], [visit_str], [visit_string] (str.rs:164). *)
Inductive lent := Borrowed | Transient | Owned.
(** What the format answers: the call to the visitor (str.rs:164, slice.rs:235, vec.rs:865), or an error.  Items of a sequence
    are documents, or an error of [next_element] (vec.rs:870). *)
Inductive visit (doc : Type) :=
| VNum (n : N) | VStr (o : lent) (s : list N) | VBytes (o : lent) (s : list N)
| VSeq (hint : option N) (items : list (option doc))
| VUnit | VNone | VSome (d : doc)
| VEnum (ok : bool) (d : doc)
| VFail.
Arguments VNum {doc}. Arguments VStr {doc}. Arguments VBytes {doc}. Arguments VSeq {doc}. Arguments VUnit {doc}. Arguments VNone {doc}.
Arguments VSome {doc}. Arguments VEnum {doc}. Arguments VFail {doc}.

(** What [deserialize] does (str.rs:154, vec.rs:852): a value, an error, a panic (an allocation is refused), undefined behaviour. *)
Inductive outcome (A : Type) := Got (a : A) | Refused | Panics | Undefined.
Arguments Got {A}. Arguments Refused {A}. Arguments Panics {A}. Arguments Undefined {A}.

(** What became of a vector being read (vec.rs:865-875): it is returned, or destroyed with the elements it held, after an error or by a panic. *)
Inductive reading (E : Type) := Whole (v : vec E) | Stopped (dropped : list E) | Unwound (dropped : list E) | Broken.
Arguments Whole {E}. Arguments Stopped {E}. Arguments Unwound {E}. Arguments Broken {E}.
(** The end of the scope of [this] (vec.rs:869-875, 540-545). *)
Definition abandon {E} (v : vec E) (more : list E) (f : list E -> reading E) : reading E :=
  match v_drop v with Some (l, _) => f (l ++ more) | None => Broken end.
(** vec.rs:870-873: the loop. *)
Fixpoint read_loop {E} (s : N) (ok : N -> bool) (v : vec E) (l : list (outcome E)) : reading E :=
  match l with
  | [] => Whole v
  | Got e :: r =>
      match v_push s ok e v with
      | Done v' _ _ => read_loop s ok v' r
      | Panicked v' _ d => abandon v' d Unwound
      | UB => Broken
      end
  | Refused :: _ => abandon v [] Stopped
  | Panics :: _ => abandon v [] Unwound
  | Undefined :: _ => Broken
  end.
(** vec.rs:865-875 [visit_seq], with vec.rs:94-98 [with_capacity_in]. *)
Definition visit_seq {E} (s : N) (ok : N -> bool) (hint : option N) (l : list (outcome E)) : reading E :=
  match v_reserve s ok (match hint with Some h => h | None => 0%N end) v_new with
  | Done v _ _ => read_loop s ok v l
  | Panicked v _ _ => abandon v [] Unwound
  | UB => Broken
  end.

(** The value as read through [as_slice] (vec.rs:258-262), for a BoxedSlice after alloc/boxed.rs:379-398. *)
Definition elements {E} (boxed : bool) (v : vec E) : outcome (list E) :=
  match (if boxed then get_slots 0 (bs_len (bs_of_vec v)) (bs_slots (bs_of_vec v)) else v_as_slice v) with
  | Some l => Got l
  | None => Undefined
  end.
(** alloc/string.rs:140-144 [From<Str>] (with 109-131: [concat], by vec.rs:289-294). *)
Definition string_of (ok : N -> bool) (boxed : bool) (s : list N) : outcome (list N) :=
  match v_copy_extend 1 ok s v_new with
  | Done v _ _ => elements boxed v
  | Panicked _ _ _ => Panics
  | UB => Undefined
  end.
(** Sequencing of [?] and [map] (vec.rs:870, boxed.rs:520, option.rs:208, result.rs:589). *)
Definition then_ {A B} (o : outcome A) (f : A -> B) : outcome B :=
  match o with Got a => Got (f a) | Refused => Refused | Panics => Panics | Undefined => Undefined end.
(** Result of the reading of a sequence (vec.rs:865-875). *)
Definition finish (boxed : bool) (r : reading sval) : outcome sval :=
  match r with
  | Whole v => then_ (elements boxed v) XSeq
  | Stopped _ => Refused
  | Unwound _ => Panics
  | Broken => Undefined
  end.

(** Surroundings: sizes of types and the allocator (vec.rs:38, 94). *)
Record world := World { size : sty -> N; provides : N -> bool }.
(** [deserialize] of each type (the lines at [sty]; str.rs:162-173 and slice.rs:233-245 for the visitors; core's implementations for
    Option and Result, option.rs:208, result.rs:589, whose conversions are C11's). *)
Fixpoint de {doc} (w : world) (fmt : request -> doc -> visit doc) (t : sty) (d : doc) : outcome sval :=
  match t with
  | SNum => match fmt RNum d with VNum n => Got (XNum n) | _ => Refused end
  | SString b => match fmt RStr d with VStr Borrowed s => then_ (string_of (provides w) b s) XText | _ => Refused end
  | SStr => match fmt RStr d with VStr Borrowed s => Got (XText s) | _ => Refused end
  | SBytes => match fmt RBytes d with VBytes Borrowed s => Got (XBytes s) | _ => Refused end
  | SSeq b t =>
      match fmt RSeq d with
      | VSeq h items =>
          finish b (visit_seq (size w t) (provides w) h
            (map (fun i => match i with Some d => de w fmt t d | None => Refused end) items))
      | _ => Refused
      end
  | SOption t =>
      match fmt ROption d with
      | VNone | VUnit => Got XNone
      | VSome d => then_ (de w fmt t d) XSome
      | _ => Refused
      end
  | SResult t e =>
      match fmt REnum d with
      | VEnum true d => then_ (de w fmt t d) XOk
      | VEnum false d => then_ (de w fmt e d) XErr
      | _ => Refused
      end
  end.

(** The calls that [serialize] makes: [serialize_u64], [serialize_str] (str.rs:142), [serialize_seq] with its elements (slice.rs:213,
    vec.rs:848, boxed.rs:511, by core's slices), [serialize_none], [serialize_some] (option.rs:197) and [serialize_newtype_variant] (result.rs:579). *)
Inductive calls := CNum (n : N) | CStr (s : list N) | CSeq (l : list calls) | CNone | CSome (c : calls) | CVariant (ok : bool) (c : calls).
(** [serialize] (str.rs:137-144, slice.rs:207-214, alloc/vec.rs:842-850, alloc/boxed.rs:505-513, 523-531, alloc/string.rs:373-381, option.rs:187-199, result.rs:568-581). *)
Fixpoint ser (v : sval) : calls :=
  match v with
  | XNum n => CNum n
  | XText s => CStr s
  | XBytes s => CSeq (map CNum s)
  | XSeq l => CSeq (map ser l)
  | XNone => CNone
  | XSome v => CSome (ser v)
  | XOk v => CVariant true (ser v)
  | XErr v => CVariant false (ser v)
  end.
