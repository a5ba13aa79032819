(** Where the vtables of trait objects live: which definition of [IConstConstructor] and of the global
    set a toolchain and a choice of [--cfg] options compile (stabby-abi/src/vtable/mod.rs:18-42, 200-246),
    which items the implementations then have (stabby-abi/src/lib.rs:92-104), and what [vtable()] shows.
    The predicates of the rustversion crate and rustc's [cfg] are modelled as documented: [cfg(name)] holds
    if the name was given without a value, [cfg(name = "value")] if it was given with that value.
    Left out: versions of rustc built from source (channel "dev"); the [test] feature. *)
From Coq Require Import String.
From Coq Require Import NArith List Bool.
From Verif Require Import M_BuildRs.
Import ListNotations.
Local Open Scope string_scope.
Local Open Scope N_scope.
Local Open Scope list_scope.

(** The channels told apart by [rustversion::nightly] (vtable/mod.rs:18) and by build.rs:137. *)
Inductive channel := Stable | Beta | Nightly.
(** A toolchain 1.[t_minor].[t_patch]; [t_freeze]: does its core have [marker::Freeze] behind
    [feature(freeze)] (vtable/mod.rs:21, lib.rs:28)? *)
Record toolchain := Tool { t_chan : channel; t_minor : N; t_patch : N; t_freeze : bool }.
(** [rustversion::nightly] (vtable/mod.rs:18, 203, 209, 211, 220, 236); build.rs:137-139 sets [stabby_nightly] for the same channel. *)
Definition is_nightly (t : toolchain) : bool := match t_chan t with Nightly => true | _ => false end.
(** [rustversion::since(1.m.p)], whose negation is [before] (vtable/mod.rs:32, 203, 209, 220, 236; lib.rs:98-100). *)
Definition since (m p : N) (t : toolchain) : bool :=
  (m <? t_minor t) || ((m =? t_minor t) && (p <=? t_patch t)).

(** The values given for [stabby_vtables] with [--cfg]; [None]: the name alone (build.rs:125-127). *)
Definition vcfg := list (option string).
(** [cfg(stabby_vtables)] (vtable/mod.rs:208, 218, 234). *)
Definition cfg_bare (vt : vcfg) : bool := existsb (fun x => match x with None => true | Some _ => false end) vt.
(** [cfg(stabby_vtables = "..")] (vtable/mod.rs:202, 208, 212, 218, 234). *)
Definition cfg_is (s : string) (vt : vcfg) : bool :=
  existsb (fun x => match x with Some y => String.eqb s y | None => false end) vt.
(** [not(stabby_default_alloc = "disabled")] (vtable/mod.rs:47, 217, 233). *)
Definition alloc_on (given : option (list string)) (c : config) : bool :=
  negb (existsb (String.eqb "disabled") (default_alloc_cfg given c)).

(** The constants an implementation may define (vtable/mod.rs:23, 25, 37, 225, 241). *)
Inductive item := VTABLE | VTABLE_REF.
(** Equality of the names of items (lib.rs:97). *)
Definition item_eqb (a b : item) : bool :=
  match a, b with VTABLE, VTABLE | VTABLE_REF, VTABLE_REF => true | _, _ => false end.
(** What [vtable()] does (vtable/mod.rs:27-29, 39-41, 227-230, 243-245). *)
Inductive body := TakeRef | Intern | CompileError.
(** A definition of the trait: constants to be defined, constants with a default, whether it asks for [Freeze] (vtable/mod.rs:18-42, 215-246). *)
Record ctor := Ctor { c_needs : list item; c_defaults : list item; c_body : body; c_freeze : bool }.

(** [any(stabby_vtables = "vec", stabby_vtables = "btree", not(stabby_vtables))] (vtable/mod.rs:218, 234). *)
Definition any_store (vt : vcfg) : bool := cfg_is "vec" vt || cfg_is "btree" vt || negb (cfg_bare vt).
(** [rustversion::all(not(nightly), since(1.78.0))] (vtable/mod.rs:203, 209, 220, 236). *)
Definition gate (t : toolchain) : bool := negb (is_nightly t) && since 78 0 t.
(** The definitions of [IConstConstructor] that are compiled: vtable/mod.rs:18-30, 32-42, 216-231, 232-246. *)
Definition ctors (t : toolchain) (vt : vcfg) (on : bool) : list ctor :=
  (if is_nightly t then [Ctor [VTABLE] [VTABLE_REF] TakeRef true] else []) ++
  (if negb (since 78 0 t) then [Ctor [VTABLE_REF] [] TakeRef false] else []) ++
  (if on && any_store vt && gate t then [Ctor [VTABLE] [] Intern false] else []) ++
  (if negb (on && any_store vt) && gate t then [Ctor [VTABLE] [] CompileError false] else []).

(** The two implementations of the global set (vtable/mod.rs:75-76, 71). *)
Inductive store := VecStore | TreeStore.
(** The definitions of [VTABLES] that are compiled, in a module that is there with an allocator: vtable/mod.rs:47-48, 202-213. *)
Definition statics (t : toolchain) (vt : vcfg) (on : bool) : list store :=
  if on then
    (if cfg_is "vec" vt && gate t then [VecStore] else []) ++
    (if (cfg_is "btree" vt || negb (cfg_bare vt)) && gate t then [TreeStore] else []) ++
    (if is_nightly t && cfg_is "btree" vt then [TreeStore] else [])
  else [].

(** [impl_vtable_constructor!] (lib.rs:96-104): the constants each implementation defines. All are written with it:
    vtable/mod.rs:281-290, 294-296, 378-389, 410-413, 424-427, traits.rs:733-747, gen_closures.rs:84-97. *)
Definition impl_items (t : toolchain) : list item :=
  (if negb (since 78 0 t) then [VTABLE_REF] else []) ++ (if since 78 0 t then [VTABLE] else []).
(** An implementation compiles if it defines all that is needed, and only constants of the trait (vtable/mod.rs:276-427). *)
Definition fits (k : ctor) (items : list item) : bool :=
  forallb (fun i => existsb (item_eqb i) items) (c_needs k) &&
  forallb (fun i => existsb (item_eqb i) (c_needs k ++ c_defaults k)) items.

(** Where vtables are: in the constants of the binary, or in a global set (vtable/mod.rs:27-29, 227-230). *)
Inductive place := InPlace | InVec | InTree.
(** [Refused]: the message of vtable/mod.rs:244, and no other error; [Broken]: other errors of the compiler. *)
Inductive built := Built (p : place) | Refused | Broken.
(** Compiling stabby-abi (as far as its default allocator, alloc/allocators/mod.rs:13-38, and vtable/mod.rs:18-246 go): a name is
    defined at most once, what is used is defined. [compile_error!] is expanded with the trait, used or not. *)
Definition compile (t : toolchain) (vt : vcfg) (given : option (list string)) (c : config) : built :=
  match default_allocator given c with
  | None => Broken
  | Some _ =>
      let on := alloc_on given c in
      match ctors t vt on, statics t vt on with
      | _, _ :: _ :: _ => Broken
      | [k], ss =>
          if fits k (impl_items t) && (negb (c_freeze k) || t_freeze t) then
            match c_body k, ss with
            | TakeRef, _ => Built InPlace
            | Intern, [VecStore] => Built InVec
            | Intern, [TreeStore] => Built InTree
            | Intern, _ => Broken
            | CompileError, _ => Refused
            end
          else Broken
      | _, _ => Broken
      end
  end.

(** Vtables: the words of a struct of function pointers (traits.rs:733-747, gen_closures.rs:84-97, [VtDrop] of vtable/mod.rs:377-390),
    [()] (293-297), [VtSend] (409-414), [VtSync] (423-428), [VTable] (276-291). *)
Inductive vt := VFns (words : list N) | VUnit | VSend (v : vt) | VSync (v : vt) | VTab (head tail : vt).
(** Both parts, if they have a value, the tail first in memory (vtable/mod.rs:261-268, 282-289). *)
Definition both (a b : option (list N)) : option (list N) :=
  match a, b with Some x, Some y => Some (x ++ y) | _, _ => None end.
(** [VTABLE], after the arrow in each implementation; [None]: there is none (vtable/mod.rs:286-289, 296, 384-388, 412, 426). *)
Fixpoint const_val (t : toolchain) (v : vt) : option (list N) :=
  if existsb (item_eqb VTABLE) (impl_items t) then
    match v with
    | VFns w => Some w
    | VUnit => Some []
    | VSend v | VSync v => const_val t v
    | VTab h l => both (const_val t l) (const_val t h)
    end
  else None.
(** What [VTABLE_REF] refers to: before the arrow in each implementation, or the default of vtable/mod.rs:25
    (vtable/mod.rs:282-285, 295, 379-383, 411, 425). *)
Fixpoint const_ref (k : ctor) (t : toolchain) (v : vt) : option (list N) :=
  if existsb (item_eqb VTABLE_REF) (impl_items t) then
    match v with
    | VFns w => Some w
    | VUnit => Some []
    | VSend v | VSync v => const_ref k t v
    | VTab h l => both (const_ref k t l) (const_ref k t h)
    end
  else if existsb (item_eqb VTABLE_REF) (c_defaults k) then const_val t v else None.
(** The words behind the reference that [vtable()] answers (vtable/mod.rs:27-29, 39-41, 227-230); the set answers a copy
    with the same words (C32, vtable/mod.rs:84-101). *)
Definition vtable_shows (t : toolchain) (cf : vcfg) (given : option (list string)) (c : config) (v : vt) : option (list N) :=
  match ctors t cf (alloc_on given c) with
  | [k] => match c_body k with
           | TakeRef => const_ref k t v
           | Intern => const_val t v
           | CompileError => None
           end
  | _ => None
  end.
