(** The compile-time checks of layouts, stable_impls/mod.rs:137-233. *)
From Coq Require Import String.
From Coq Require Import List Arith NArith Bool.
From Verif Require Import M_Layout M_Decl.
Import ListNotations.
Local Open Scope string_scope.
Local Open Scope N_scope.
Local Open Scope list_scope.

(** stable_impls/mod.rs:40-53 [expr_to_type!]. *)
Definition expr_to_type (e : N) : N := if e =? 8 then 8 else if e =? 4 then 4 else if e =? 2 then 2 else if e =? 1 then 1 else 16.
(** The compiler: sizes and alignments of the primitive types, sizes of their [Option]s and of the [Option]s of those
    (what [size_of] and [align_of] are in stable_impls/mod.rs:137-233). *)
Record machine := Mach { c_size : prim -> N; c_align : prim -> N; c_opt : prim -> N; c_oopt : prim -> N }.

(** The macro [same_as!], stable_impls/mod.rs:19-28: which type a type takes size and alignment from; [ptr] is the size of usize, for
    [cfg(target_pointer_width)] (lines 449-457; f32 and f64 682-692; atomics 577-662). *)
Definition same_as (ptr : N) (p : prim) : prim :=
  match p with
  | PI8 | PAI8 | PAU8 => PU8 | PI16 | PAI16 | PAU16 => PU16 | PI32 | PAI32 | PAU32 | PF32 => PU32 | PI64 | PF64 => PU64 | PI128 => PU128
  | PIsize | PAIsize | PAUsize => PUsize | PABool => PBool | PAU64 => PAI64
  | PNzI8 => PNzU8 | PNzI16 => PNzU16 | PNzI32 => PNzU32 | PNzI64 => PNzU64 | PNzI128 => PNzU128
  | PNzUsize | PNzIsize => if ptr =? 8 then PNzU64 else if ptr =? 4 then PNzU32 else PNzU16
  | other => other
  end.
(** Sizes of the types that are not the same as another one, stable_impls/mod.rs:243-456, 606-616, 681-692, 986-996. *)
Definition own_size (m : machine) (p : prim) : N :=
  match p with
  | PUnit | PPhantom | PPinned | PVoid => 0
  | PU16 | PNzU16 => 2 | PU32 | PNzU32 => 4 | PU64 | PNzU64 | PAI64 => 8 | PU128 => 16
  | PNzU128 => expr_to_type (c_size m PNzU128) | PUsize => expr_to_type (c_size m PUsize)
  | _ => 1
  end.
(** Alignments of the same types, at the same lines (stable_impls/mod.rs:243-456, 606-616, 681-692, 986-996). *)
Definition own_align (m : machine) (p : prim) : N :=
  match p with
  | PU16 | PNzU16 => 2 | PU32 | PNzU32 => 4
  | PU64 | PNzU64 | PAI64 | PU128 | PNzU128 | PUsize => expr_to_type (c_align m p)
  | _ => 1
  end.
(** stabby's size of a primitive type (stable_impls/mod.rs:243-692, 986-996). *)
Definition stabby_size (m : machine) (p : prim) : N := own_size m (same_as (c_size m PUsize) p).
(** stabby's alignment of a primitive type (stable_impls/mod.rs:243-692, 986-996). *)
Definition stabby_align (m : machine) (p : prim) : N := own_align m (same_as (c_size m PUsize) p).
(** [HasExactlyOneNiche], never taken from another type (stable_impls/mod.rs:243-692, 986-996); that of Ordering is line 991. *)
Definition stabby_niche (p : prim) : sadd :=
  match p with
  | PBool | PABool => AMany
  | PNzU8 | PNzU16 | PNzU32 | PNzU64 | PNzU128 | PNzUsize | PNzI8 | PNzI16 | PNzI32 | PNzI64 | PNzI128 | PNzIsize => A1
  | _ => A0
  end.

(** What [check!] looks at: the text of the type, the name of the target, what stabby says (alignment, size, niches) and what the compiler
    says (alignment and size of the type, sizes of its [Option] and of that [Option]'s [Option]); stable_impls/mod.rs:137-233. *)
Record facts := Facts { name : list N; arch : list N; s_align : N; s_size : N; niche : sadd; r_align : N; r_size : N; o_size : N; oo_size : N }.

(** stable_impls/mod.rs:160-162 [fmt2digit], on u8; [n / 10] is at most 25, nothing overflows. *)
Definition fmt2digit (n : N) : list N := [48 + n / 10; 48 + n mod 10].
(** stable_impls/mod.rs:179-188 [fmt6digit]. *)
Definition fmt6digit (n : N) : list N :=
  [48 + (n / 100000) mod 10; 48 + (n / 10000) mod 10; 48 + (n / 1000) mod 10; 48 + (n / 100) mod 10; 48 + (n / 10) mod 10; 48 + n mod 10].
(** stable_impls/mod.rs:154, 173, 197, 206, 213: what follows the name of the type. *)
Definition issue (what : list N) : list N :=
  lit "'s " ++ what ++ lit " mis-evaluated by stabby, this is definitely a bug and may cause UB. Please create an issue using this link: https://github.com/ZettaScaleLabs/stabby/issues/new?title=".
(** The end of a message, stable_impls/mod.rs:166. *)
Definition crlf : list N := [13; 10].

(** stable_impls/mod.rs:150-167: alignments, both cut to u8. *)
Definition align_texts (f : facts) : list (list N) :=
  let stabby := s_align f mod 256 in
  let rust := r_align f mod 256 in
  if stabby =? rust then []
  else [name f; issue (lit "alignment was"); name f; lit "%20misaligned%20on%20"; arch f; lit "&body=Stabby%20says%20"; fmt2digit stabby;
        lit "%2C%20Rust%20says%20"; fmt2digit rust; crlf].
(** stable_impls/mod.rs:168-193: sizes. *)
Definition size_texts (f : facts) : list (list N) :=
  if s_size f =? r_size f then []
  else [name f; issue (lit "size was"); name f; lit "%20missized%20on%20"; arch f; lit "&body=Stabby%20says%20"; fmt6digit (s_size f);
        lit "%2C%20Rust%20says%20"; fmt6digit (r_size f); crlf].
(** A message about niches, stable_impls/mod.rs:197-201, 206-210, 213-217. *)
Definition niche_text (f : facts) (what : list N) : list (list N) := [name f; issue (lit "niches were"); name f; what; crlf].
(** stable_impls/mod.rs:194-221: niches; [rust] is the size by now. *)
Definition niche_texts (f : facts) : list (list N) :=
  match niche f with
  | A0 => if r_size f =? o_size f then niche_text f (lit "%20has%20niches%20but%20stabby%20does%20not%20find%20any") else []
  | A1 =>
      (if negb (r_size f =? o_size f) then niche_text f (lit "%20has%20no%20niches%20but%20stabby%20claims%20one%20found%20exactly") else []) ++
      (if r_size f =? oo_size f then niche_text f (lit "%20has%20multiple%20niches%20but%20stabby%20claims%20one%20found%20exactly") else [])
  | AMany => []
  end.

(** stable_impls/mod.rs:139-149 [write!]: [None] when the index is out of bounds of the 1024 bytes (itself an error of compilation).
    Nothing is read of the buffer but what was written, so it is the text so far. *)
Definition write (buffer : option (list N)) (e : list N) : option (list N) :=
  match buffer with
  | None => None
  | Some b => if (1024 <? List.length b + List.length e)%nat then None else Some (b ++ e)
  end.
(** What compiling comes to: nothing; an error with a message; another error, stable_impls/mod.rs:222-227. *)
Inductive verdict := Compiles | Error (message : list N) | OutOfBounds.
(** stable_impls/mod.rs:137-233 [check!]. *)
Definition check (f : facts) : verdict :=
  match fold_left write (align_texts f ++ size_texts f ++ niche_texts f) (Some []) with
  | Some [] => Compiles
  | Some m => Error m
  | None => OutOfBounds
  end.

(** The text of a type, [stringify!] (stable_impls/mod.rs:154): as in reports, but for u128. *)
Definition text (p : prim) : list N := match p with PU128 => lit "u128" | _ => prim_name 16 p end.
(** The check of a primitive type (stable_impls/mod.rs:137-233). *)
Definition facts_of (m : machine) (arch : list N) (p : prim) : facts :=
  Facts (text p) arch (stabby_align m p) (stabby_size m p) (stabby_niche p) (c_align m p) (c_size m p) (c_opt m p) (c_oopt m p).
(** Where [check!] is used: stable_impls/mod.rs:297, 311, 336, 361, 386, 418, 447, 459, 583, 590, 597, 604, 617, 624, 631, 638, 645, 655, 662. *)
Definition checked : list prim :=
  [PBool; PU8; PU16; PU32; PU64; PU128; PUsize; PNzUsize; PABool; PAI8; PAI16; PAI32; PAI64; PAIsize; PAU8; PAU16; PAU32; PAU64; PAUsize].
(** The crate compiles, as far as these checks go, stable_impls/mod.rs:222-227; and for pointers of 2, 4 or 8 bytes (449-457). *)
Definition compiles (m : machine) (arch : list N) : Prop :=
  In (c_size m PUsize) [2; 4; 8] /\ forall p, In p checked -> check (facts_of m arch p) = Compiles.
