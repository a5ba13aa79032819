(** Model of the reports of function pointers, stabby-abi/src/stable_impls/mod.rs:812-910, and of
    how they are used to load functions. *)
From Coq Require Import Ascii String.
From Coq Require Import List Arith NArith Bool.
From Verif Require Import M_Report M_Trait.
Import ListNotations.

(** The function types that are [IStable]: [extern "C"] or [extern "C-unwind"], safe or not
    (mod.rs:849-908). *)
Record fnty := Fn { fn_unwind : bool; fn_unsafe : bool; fn_inputs : list report; fn_output : report }.

(** The name given to each of the four (mod.rs:853,859,866,873,882,888,896,903). *)
Definition fn_name (unwind unsaf : bool) : list N :=
  bytes_of (match unwind, unsaf with
            | false, false => "extern ""C"" fn"
            | false, true => "unsafe extern ""C"" fn"
            | true, false => "extern ""C-unwind"" fn"
            | true, true => "unsafe extern ""C-unwind"" fn"
            end).
(** mod.rs:812-839 [NameAggregator]. *)
Definition aggregate (l r : report) : report :=
  Rep (bytes_of "signature") (bytes_of "stabby") 0 KStruct [(bytes_of "_", l); (bytes_of "_", r)].
(** mod.rs:840-847 [union!]. *)
Fixpoint union (head : report) (tail : list report) : report :=
  match tail with
  | [] => head
  | h :: t => aggregate head (union h t)
  end.
(** mod.rs:849-910 [fnstable!], with [same_as!] (mod.rs:19-28) and [primitive_report!]
    (stabby-abi/src/lib.rs:51-65); there are implementations for up to 15 inputs (mod.rs:910). *)
Definition fn_report (f : fnty) : option report :=
  if 15 <? length (fn_inputs f) then None
  else Some (Rep (fn_name (fn_unwind f) (fn_unsafe f)) (bytes_of "stabby_abi::stable_impls") 0 KStruct
    [(bytes_of "inner", union (fn_output f) (fn_inputs f))]).

(** stabby-macros/src/functions.rs:306-350 [export_with_report] and
    stabby/src/libloading.rs:72-99 [get_stabbied]: what a library that exports [own] answers to
    one that asks for [asked]; the outer [None] is a failure to compile. *)
Definition get_stabbied {F} (own : fnty) (f : F) (asked : fnty) : option (option F) :=
  match fn_report own, fn_report asked with
  | Some o, Some a => Some (stabbied o f a)
  | _, _ => None
  end.
