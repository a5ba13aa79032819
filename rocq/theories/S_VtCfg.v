(** What is promised about where vtables live (README.md:4-15, CHANGELOG.md:119-125, stabby-abi/build.rs:125-127, vtable/mod.rs:244). *)
From Coq Require Import String.
From Coq Require Import NArith List Bool.
From Verif Require Import M_BuildRs M_VtCfg.
Import ListNotations.
Local Open Scope string_scope.
Local Open Scope N_scope.
Local Open Scope list_scope.

(** The choices the build script announces to the compiler (build.rs:125-127). *)
Inductive choice := Unset | BTree | Vector | NoAlloc.
(** How a user makes them (build.rs:126). *)
Definition options (ch : choice) : vcfg :=
  match ch with Unset => [] | BTree => [Some "btree"] | Vector => [Some "vec"] | NoAlloc => [Some "no_alloc"] end.
(** "Only non-nightly, >= 1.78 versions of Rust are affected" (README.md:6). *)
Definition affected (t : toolchain) : Prop := t_chan t <> Nightly /\ 78 <= t_minor t.
(** Any stable or beta version; nightly versions that can compile the nightly branch (vtable/mod.rs:18-21). *)
Definition supported (t : toolchain) : Prop := t_chan t = Nightly -> 78 <= t_minor t /\ t_freeze t = true.
(** In an affected toolchain vtables live in the set that was chosen, a tree by default; without allocator, or if
    none may be used, they are refused with an explanation. Otherwise they stay in the binary (CHANGELOG.md:123). *)
Definition promised (t : toolchain) (ch : choice) (enabled : bool) (b : built) : Prop :=
  (~ affected t -> b = Built InPlace) /\
  (affected t -> match ch, enabled with
                 | _, false | NoAlloc, _ => b = Refused
                 | Vector, true => b = Built InVec
                 | Unset, true | BTree, true => b = Built InTree
                 end).
(** Is there an allocator (alloc/allocators/mod.rs:31-38)? *)
Definition enabled (a : allocator) : bool := match a with Disabled => false | _ => true end.
(** The functions of a vtable, in the order of memory: the tail "comes first to allow upcasting" (vtable/mod.rs:261-268). *)
Fixpoint functions (v : vt) : list N :=
  match v with
  | VFns w => w
  | VUnit => []
  | VSend v | VSync v => functions v
  | VTab h l => functions l ++ functions h
  end.
