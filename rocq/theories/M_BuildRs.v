(** Model of the build script of stabby-abi (stabby-abi/build.rs:24-143): the names of the numbers, the tuples, the default allocator. *)
From Coq Require Import String Ascii.
From Coq Require Import List NArith Bool.
From Verif Require Import M_Typenum M_Closure.
Import ListNotations.
Local Open Scope string_scope.
Local Open Scope N_scope.
Local Open Scope list_scope.

(** ** Formatting (build.rs:43-45, 50-54, 60-63) *)
(** core: the characters of digits in [Display], [UpperHex] and [Binary] (build.rs:43-45). *)
Definition digit_char (d : N) : ascii := ascii_of_N (if d <? 10 then 48 + d else 55 + d).
(** core: the digits of a number, last digit first, in front of what is there (build.rs:43-45); the fuel is enough. *)
Fixpoint fmt_loop (fuel : nat) (base n : N) (acc : string) : string :=
  match fuel with
  | O => acc
  | S f => let acc' := String (digit_char (n mod base)) acc in
           if n <? base then acc' else fmt_loop f base (n / base) acc'
  end.
(** [{n}], [{n:X}], [{n:b}] for bases 10, 16, 2 (build.rs:43-45). *)
Definition fmt (base n : N) : string := fmt_loop (S (N.size_nat n)) base n EmptyString.

(** ** Names of numbers *)
(** build.rs:32-35: the text of the type; [bits] as in [M_Typenum.build_bits] (build.rs:27-31). *)
Definition u_step (result : string) (bit : bool) : string :=
  String.append "UInt<" (String.append result (String.append ", B" (String.append (fmt 10 (if bit then 1 else 0)) ">"))).
(** build.rs:24-36 [u]. *)
Definition u_text (i : N) : string := fold_left u_step (rev (build_bits (N.to_nat (N.size i)) i)) "UTerm".

(** A line [/// doc], [pub type name = type;] (build.rs:43-45, 50-54, 60-63). *)
Record alias := Alias { a_doc : string; a_name : string; a_type : string }.
(** build.rs:39. *)
Definition SEQ_MAX : N := 1000.
(** Ranges (build.rs:41, 47, 57). *)
Definition range (n : N) : list N := map N.of_nat (seq 0 (N.to_nat n)).
(** build.rs:41-46. *)
Definition seq_aliases (i : N) : list alias :=
  let u := u_text i in
  [Alias (fmt 10 i) (String.append "U" (fmt 10 i)) u;
   Alias (fmt 10 i) (String.append "Ux" (fmt 16 i)) u;
   Alias (fmt 10 i) (String.append "Ub" (fmt 2 i)) u].
(** build.rs:47-56; [None]: [10u128.pow(i)] overflows, the script panics. *)
Definition pow10_aliases (i : N) : option (list alias) :=
  let ipow := 10 ^ i in
  if ipow <? 2 ^ 128 then
    let u := u_text ipow in
    Some (Alias (fmt 10 i) (String.append "U10pow" (fmt 10 i)) u ::
      if SEQ_MAX <? ipow then
        [Alias (fmt 10 i) (String.append "U" (fmt 10 ipow)) u;
         Alias (fmt 10 i) (String.append "Ux" (fmt 16 ipow)) u;
         Alias (fmt 10 i) (String.append "Ub" (fmt 2 ipow)) u]
      else [])
  else None.
(** build.rs:57-64; [None]: [1 << i] overflows. *)
Definition pow2_aliases (i : N) : option (list alias) :=
  if i <? 128 then
    let p := N.shiftl 1 i in
    let u := u_text p in
    Some (Alias (fmt 10 i) (String.append "U2pow" (fmt 10 i)) u ::
      if SEQ_MAX <? p then [Alias (fmt 10 i) (String.append "U" (fmt 10 p)) u] else [])
  else None.
(** The loops that may panic (build.rs:47, 57). *)
Fixpoint all {A} (f : N -> option (list A)) (is : list N) : option (list A) :=
  match is with
  | [] => Some []
  | i :: r => match f i, all f r with Some a, Some b => Some (a ++ b) | _, _ => None end
  end.
(** build.rs:38-66 [typenum_unsigned]: what is written to unsigned.rs. *)
Definition typenum_unsigned : option (list alias) :=
  match all pow10_aliases (range 39), all pow2_aliases (range 128) with
  | Some b, Some c => Some (flat_map seq_aliases (range (SEQ_MAX + 1)) ++ b ++ c)
  | _, _ => None
  end.

(** ** Tuples *)
(** The items for an arity (build.rs:72-103): [Tuple{i}], its parameters, the types of its fields; the names that the two conversions bind and give (lines 78-89). *)
Record tuple_item := TupleItem {
  t_name : string; t_generics : list string; t_fields : list string;
  t_from_pat : list string; t_from_args : list string;
  t_into_pat : list string; t_into_args : list string }.
(** build.rs:91-102: the lists; all have a comma behind each element, so those of one element are tuples as well. *)
Definition names (prefix : string) (i : N) : list string := map (fun it => String.append prefix (fmt 10 it)) (range i).
(** build.rs:72-103. *)
Definition tuple_of (i : N) : tuple_item :=
  TupleItem (String.append "Tuple" (fmt 10 i)) (names "T" i) (names "T" i) (names "field" i) (names "field" i) (names "field" i) (names "field" i).
(** build.rs:68-107 [tuples]. *)
Definition tuples (max_tuple : N) : list tuple_item := map tuple_of (range (max_tuple + 1)).
(** core: [usize::from_str] (build.rs:114), for 64 bits. *)
Fixpoint parse_digits (acc : N) (s : string) : option N :=
  match s with
  | EmptyString => Some acc
  | String c r =>
      let d := N_of_ascii c in
      if (48 <=? d) && (d <=? 57) then
        let acc' := 10 * acc + (d - 48) in
        if acc' <? 2 ^ 64 then parse_digits acc' r else None
      else None
  end.
(** core: [usize::from_str] (build.rs:114): a sign may be there, but not alone. *)
Definition parse_usize (s : string) : option N :=
  match s with
  | EmptyString => None
  | String c r => if Ascii.eqb c "+"%char then match r with EmptyString => None | _ => parse_digits 0 r end else parse_digits 0 s
  end.
(** build.rs:113-115; the variable is what [--cfg stabby_max_tuple=..] says; [None]: it is not there. *)
Definition max_tuple (env : option string) : N :=
  N.max (match env with None => 32 | Some s => match parse_usize s with Some n => n | None => 32 end end) 10.
(** build.rs:113-116. *)
Definition written_tuples (env : option string) : list tuple_item := tuples (max_tuple env).

(** [From<(..)> for Tuple{i}<..>] (build.rs:78-83): the pattern binds, the constructor takes as many as there are fields. *)
Definition from_tuple {V} (t : tuple_item) (vs : list V) : option (list V) :=
  match bind (t_from_pat t) vs with
  | Some r => if Nat.eqb (length (t_from_args t)) (length (t_fields t)) then lookups (t_from_args t) r else None
  | None => None
  end.
(** [From<Tuple{i}<..>> for (..)] (build.rs:85-90). *)
Definition into_tuple {V} (t : tuple_item) (vs : list V) : option (list V) :=
  match bind (t_into_pat t) vs with Some r => lookups (t_into_args t) r | None => None end.
(** The types of the fields, given the parameters (build.rs:77). *)
Definition field_types {T} (t : tuple_item) (ts : list T) : option (list T) :=
  match bind (t_generics t) ts with Some r => lookups (t_fields t) r | None => None end.

(** ** The default allocator *)
(** Features and target (Cargo.toml:29-34; alloc/allocators/mod.rs:1-11). *)
Record config := Config { c_alloc_rs : bool; c_libc : bool; c_wasm : bool }.
(** [RustAlloc], [LibcAlloc], [Infallible] (alloc/allocators/mod.rs:13-38). *)
Inductive allocator := RustAlloc | LibcAlloc | Disabled.
(** The values of the cfg [stabby_default_alloc]: those given to the compiler, or what the script prints (build.rs:128-136). *)
Definition default_alloc_cfg (given : option (list string)) (c : config) : list string :=
  match given with
  | Some l => l
  | None => [if c_alloc_rs c then "RustAlloc" else if c_libc c then "LibcAlloc" else "disabled"]
  end.
(** The name of an allocator in the cfg (alloc/allocators/mod.rs:13, 22, 31). *)
Definition cfg_name (a : allocator) : string := match a with RustAlloc => "RustAlloc" | LibcAlloc => "LibcAlloc" | Disabled => "disabled" end.
(** The types that are there (alloc/allocators/mod.rs:1-11; [Infallible] always is). *)
Definition type_exists (c : config) (a : allocator) : bool :=
  match a with RustAlloc => c_alloc_rs c | LibcAlloc => c_libc c && negb (c_wasm c) | Disabled => true end.
(** [DefaultAllocator] (alloc/allocators/mod.rs:13-38): it compiles if it is defined once, as a type that exists. *)
Definition default_allocator (given : option (list string)) (c : config) : option allocator :=
  match filter (fun a => if in_dec string_dec (cfg_name a) (default_alloc_cfg given c) then true else false) [RustAlloc; LibcAlloc; Disabled] with
  | [a] => if type_exists c a then Some a else None
  | _ => None
  end.
