(** Model of loading symbols by name: what a library exports (stabby-macros/src/functions.rs)
    and how [get_stabbied] and [get_canaried] look it up (stabby/src/libloading.rs:67-131).
    Names are lists of bytes; the environment's strings (functions.rs:252-262) are ASCII.
    The functions themselves are values of any type [F]; reports are those of [M_Report]. *)
From Coq Require Import List Arith NArith Bool String.
From Verif Require Import M_Report M_Canary M_String.
Import ListNotations.
Local Open Scope N_scope.
Local Open Scope list_scope.

(** What a library writes at its boundary: a function that is [no_mangle] without stabby, one with
    [#[stabby::export(canaries)]] (functions.rs:293-305) and one with [#[stabby::export]]
    (functions.rs:307-348; [own] is the report of its signature, functions.rs:326,335). *)
Inductive export (F : Type) :=
  | Bare (name : list N) (f : F)
  | Canaried (name : list N) (f : F)
  | Reported (name : list N) (own : report) (f : F).
Arguments Bare {F}. Arguments Canaried {F}. Arguments Reported {F}.

(** What a symbol is: the function, an empty canary (functions.rs:302), the function that checks
    the report (functions.rs:325-327) or the one that gives it (functions.rs:334-336). *)
Inductive entry (F : Type) :=
  | EFn (f : F) | ECanary | EStabbied (own : report) (f : F) | EReport (own : report).
Arguments EFn {F}. Arguments ECanary {F}. Arguments EStabbied {F}. Arguments EReport {F}.

(** functions.rs:318 [format_ident!("{ident}_stabbied_v3")]. *)
Definition stabbied_ident (ident : list N) : list N := ident ++ str "_stabbied_v3".
(** functions.rs:319 [format_ident!("{stabbied}_report")]. *)
Definition report_ident (ident : list N) : list N := stabbied_ident ident ++ str "_report".
(** functions.rs:293-348: the symbols of one export, compiled in environment [e]. *)
Definition symbols {F} (e : env) (x : export F) : list (list N * entry F) :=
  match x with
  | Bare n f => [(n, EFn f)]
  | Canaried n f =>
      (n, EFn f) :: map (fun i => (n ++ display e (N.shiftl 1 i), ECanary)) [0; 1; 2; 3; 4; 5]
  | Reported n own f =>
      [(n, EFn f); (stabbied_ident n, EStabbied own f); (report_ident n, EReport own)]
  end.
(** Whether no name occurs twice (the [no_mangle]s of functions.rs:297,301,341-345 share one
    name space; rustc refuses duplicates). *)
Fixpoint distinct (l : list (list N)) : bool :=
  match l with
  | [] => true
  | n :: l => negb (existsb (str_eqb n) l) && distinct l
  end.
(** The symbol table of a library (functions.rs:340-347), unless it is refused. *)
Definition link {F} (e : env) (xs : list (export F)) : option (list (list N * entry F)) :=
  let t := flat_map (symbols e) xs in
  if distinct (map fst t) then Some t else None.

(** External: libloading's conversion of a name to a C string (for stabby/src/libloading.rs:78,113):
    one final NUL is accepted, the empty name too, any other NUL is an error. *)
Definition cname (s : list N) : option (list N) :=
  let body := match last s 1 with 0 => removelast s | _ => s end in
  if existsb (N.eqb 0) body then None else Some body.
(** External: [libloading::Library::get] (for stabby/src/libloading.rs:78,88,113,121);
    [None] is its error, a bad name or no such symbol. *)
Definition lib_get {F} (t : list (list N * entry F)) (s : list N) : option (entry F) :=
  match cname s with
  | None => None
  | Some n => option_map snd (find (fun p => str_eqb n (fst p)) t)
  end.

(** What a lookup ends with (stabby/src/libloading.rs:33,49): something, an error, or undefined
    behaviour (a symbol called with a type that is not its own; bytes taken for a [str]). *)
Inductive outcome (A : Type) := Given (a : A) | Refused | Undefined.
Arguments Given {A}. Arguments Refused {A}. Arguments Undefined {A}.

(** stabby/src/libloading.rs:65 [STABBIED_SUFFIX]. *)
Definition STABBIED_SUFFIX : list N := str "_stabbied_v3".
(** stabby/src/libloading.rs:66 [REPORT_SUFFIX]. *)
Definition REPORT_SUFFIX : list N := str "_stabbied_v3_report".
(** stabby/src/libloading.rs:74-99 [get_stabbied]; [asked] is [T::REPORT]. *)
Definition load_stabbied {F} (t : list (list N * entry F)) (symbol : list N) (asked : report)
  : outcome F :=
  match lib_get t (symbol ++ STABBIED_SUFFIX) with
  | None => Refused
  | Some (EStabbied own f) =>
      match stabbied own f asked with
      | Some f => Given f
      | None =>
          match lib_get t (symbol ++ REPORT_SUFFIX) with
          | None => Refused
          | Some (EReport _) => Refused
          | Some _ => Undefined
          end
      end
  | Some _ => Undefined
  end.
(** stabby/src/libloading.rs:114-128: the loop over the suffixes, in its order
    ([true]: to its end). *)
Fixpoint all_canaries {F} (t : list (list N * entry F)) (symbol : list N) (suffixes : list (list N))
  : bool :=
  match suffixes with
  | [] => true
  | suffix :: l =>
      match lib_get t (symbol ++ suffix) with
      | None => false
      | Some _ => all_canaries t symbol l
      end
  end.
(** stabby/src/libloading.rs:109-130 [get_canaried]; line 124 takes the name for UTF-8. *)
Definition load_canaried {F} (e : env) (t : list (list N * entry F)) (symbol : list N)
  : outcome (entry F) :=
  match lib_get t symbol with
  | None => Refused
  | Some x =>
      if all_canaries t symbol (map (display e) [1; 2; 4; 16; 8]) then Given x
      else if from_utf8 symbol then Refused else Undefined
  end.
