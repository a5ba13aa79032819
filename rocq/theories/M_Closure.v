(** Model of closures as trait objects: the traits, vtables and calls that stabby-macros/src/gen_closures.rs:16-141 generates for stabby-abi/src/closure.rs:15-16. *)
From Coq Require Import String.
From Coq Require Import List Arith NArith Bool.
From Verif Require Import M_Report M_Trait.
Import ListNotations.
Local Open Scope string_scope.
Local Open Scope list_scope.

(** [FnOnce], [FnMut], [Fn] (gen_closures.rs:18-25). *)
Inductive kind := Once | Mut | Shared.
(** [format_ident!] on the numbers below ten (gen_closures.rs:18-27). *)
Definition digit (i : nat) : string := nth i ["0"; "1"; "2"; "3"; "4"; "5"; "6"; "7"; "8"; "9"] EmptyString.
(** gen_closures.rs:26 [argtys]. *)
Definition argtys (i : nat) : list string := map (fun j => String.append "I" (digit j)) (seq 0 i).
(** gen_closures.rs:27 [args]. *)
Definition args (i : nat) : list string := map (fun j => String.append "_" (digit j)) (seq 0 i).

(** What is generated for an arity and a kind: the trait and its method; the parameters and their types of the method that is implemented for all closures; what this gives to the closure;
    the vtable; the types of the parameters of the function in it; what the method of the trait object takes and gives to that function;
    the vtable of [dyn Fn..(..)] (gen_closures.rs:28-136). *)
Record gen := Gen {
  g_trait : string; g_method : string;
  g_params : list string; g_types : list string; g_pass : list string;
  g_vtable : string; g_entry : list string;
  g_dyn_params : list string; g_dyn_pass : list string;
  g_dyn : string }.
(** gen_closures.rs:19-21. *)
Definition trait_name (k : kind) (i : nat) : string :=
  String.append (match k with Once => "CallOnce" | Mut => "CallMut" | Shared => "Call" end) (digit i).
(** gen_closures.rs:23-25, by name; the vtables of [CallMut] and [Call] are made by [#[stabby]] (traits.rs:501-503). *)
Definition vt_name (k : kind) (i : nat) : string :=
  String.append (match k with Once => "StabbyVtableCallOnce" | Mut => "StabbyVtableCallMut" | Shared => "StabbyVtableCall" end) (digit i).
(** The method (gen_closures.rs:39-47, 105-123). *)
Definition method_name (k : kind) : string := match k with Once => "call_once" | Mut => "call_mut" | Shared => "call" end.
(** gen_closures.rs:28-136.  For [Mut] and [Shared] the function in the vtable and the method of the trait object are those of [#[stabby]] on the trait (C71, C62). *)
Definition generate (k : kind) (i : nat) : gen :=
  {| g_trait := trait_name k i; g_method := method_name k;
     g_params := args i; g_types := argtys i; g_pass := args i;
     g_vtable := match k with Once => vt_name Once i | _ => String.append "StabbyVtable" (trait_name k i) end;
     g_entry := argtys i;
     g_dyn_params := args i; g_dyn_pass := args i;
     g_dyn := vt_name k i |}.
(** gen_closures.rs:18: [(0..10)]. *)
Definition generated (k : kind) (i : nat) : option gen := if Nat.ltb i 10 then Some (generate k i) else None.

(** ** Calls *)
Section calls.
  Context {S V : Type}.
  (** A closure: the types of its inputs, and what it does to what it has captured (gen_closures.rs:44, 113, 129). *)
  Record closure := Cl { cl_types : list N; cl_run : S -> list V -> S * V }.
  (** Variables (gen_closures.rs:45-47, 70-76). *)
  Fixpoint lookup {A} (x : string) (r : list (string * A)) : option A :=
    match r with [] => None | (y, a) :: r' => if String.eqb x y then Some a else lookup x r' end.
  (** All of them, in order (gen_closures.rs:45-47, 70-76). *)
  Fixpoint lookups {A} (xs : list string) (r : list (string * A)) : option (list A) :=
    match xs with
    | [] => Some []
    | x :: xs' => match lookup x r, lookups xs' r with Some a, Some l => Some (a :: l) | _, _ => None end
    end.
  (** Parameters get arguments, as many (gen_closures.rs:45, 70). *)
  Definition bind {A} (ps : list string) (l : list A) : option (list (string * A)) :=
    if Nat.eqb (length ps) (length l) then Some (combine ps l) else None.
  (** Types are equal, all of them (gen_closures.rs:90-98). *)
  Fixpoint same_types (a b : list N) : bool :=
    match a, b with [], [] => true | x :: a', y :: b' => N.eqb x y && same_types a' b' | _, _ => false end.

  (** A trait object of [dyn Fn..(ts)] made of a closure (gen_closures.rs:81-98, 113-136): its function, given arguments, is the implementation for the closure.
      [None]: it does not compile, or the function in the vtable is not of the type that it is called with. *)
  Definition entry (k : kind) (ts : list N) (f : closure) (vs : list (N * V)) (s : S) : option (S * V) :=
    match generated k (length ts) with
    | None => None
    | Some g =>
        match bind (argtys (length ts)) ts with
        | None => None
        | Some env =>
            match lookups (g_entry g) env, lookups (g_types g) env with
            | Some et, Some pt =>
                (* the closure has these inputs; the function in the vtable is transmuted; the arguments have the types of the latter *)
                if same_types (cl_types f) ts && same_types et pt && same_types (map fst vs) et then
                  match bind (g_params g) (map snd vs) with
                  | None => None
                  | Some venv => match lookups (g_pass g) venv with
                                 | Some l => Some (cl_run f s l)
                                 | None => None
                                 end
                  end
                else None
            | _, _ => None
            end
        end
    end.
  (** The method of the trait object (gen_closures.rs:67-76; traits.rs:805, 887). *)
  Definition call (k : kind) (ts : list N) (f : closure) (vs : list (N * V)) (s : S) : option (S * V) :=
    match generated k (length ts) with
    | None => None
    | Some g =>
        match bind (g_dyn_params g) vs with
        | None => None
        | Some env => match lookups (g_dyn_pass g) env with Some l => entry k ts f l s | None => None end
        end
    end.
  (** Calls one after the other; the one call of [FnOnce] takes the object (gen_closures.rs:69 [self]; 107, 119 [&mut self]; 125 [&self]). *)
  Fixpoint calls (k : kind) (ts : list N) (f : closure) (vss : list (list (N * V))) (s : S) : option (S * list V) :=
    match vss with
    | [] => Some (s, [])
    | vs :: vss' =>
        match call k ts f vs s with
        | None => None
        | Some (s', v) =>
            match k, vss' with
            | Once, _ :: _ => None
            | _, _ => match calls k ts f vss' s' with Some (s'', l) => Some (s'', v :: l) | None => None end
            end
        end
    end.
End calls.
Arguments closure : clear implicits.

(** ** Stability and reports *)
(** A type of closures: its kind, inputs and output (gen_closures.rs:78-80, 118-120, 133-135). *)
Record fnty := Fn { f_kind : kind; f_in : list N; f_out : N }.
(** The parameters of the traits, as the macro on traits sees them: [O] is the first (gen_closures.rs:39-57, 103-128). *)
Definition param (j : nat) : ty := TPath (User (N.of_nat j)) ANil NNone.
(** The traits, and for [Once] the vtable, which is written out (gen_closures.rs:50-53). *)
Definition trait_decl (k : kind) (i : nat) : decl :=
  Decl (bytes_of (trait_name k i))
       (bytes_of (match k with Once => String.append "stabby_abi::closure::call_once_" (digit i) | _ => "stabby_abi::closure" end))
       false
       [IFn (Mk (bytes_of (method_name k)) 0 (match k with Mut => true | _ => false end) (map param (seq 1 i)) (Some (param 0)))].
(** The fields of the vtable; [call_once: StableIf<StableLike<.., &'static ()>, O>] (gen_closures.rs:50-53; traits.rs:584-606). *)
Definition fields (k : kind) (i : nat) : option (list field) :=
  match k with
  | Once => Some [Field (bytes_of "call_once") (Sig 0 false true (map param (seq 1 i)) (Some (param 0))) (Some (CTy (param 0)))]
  | _ => vtable (trait_decl k i)
  end.
(** The types that the parameters are (gen_closures.rs:78-80, 118-120, 133-135), if [st] tells which are stable. *)
Definition instance (st : N -> Prop) (t : fnty) (u : ty) : Prop :=
  match u with
  | TPath (User 0) ANil NNone => st (f_out t)
  | TPath (User n) ANil NNone => match nth_error (f_in t) (N.to_nat n - 1) with Some x => st x | None => False end
  | _ => False
  end.
(** The vtable of [dyn Fn..], hence the trait object, is [IStable] (gen_closures.rs:78-80, 118-120, 133-135). *)
Definition object_stable (st : N -> Prop) (t : fnty) : Prop :=
  match generated (f_kind t) (length (f_in t)), fields (f_kind t) (length (f_in t)) with
  | Some _, Some fs => vt_stable (instance st t) fs
  | _, _ => False
  end.
(** Its report (gen_closures.rs:78-80, 118-120, 133-135; structs.rs:124). *)
Definition object_report (t : fnty) : option report :=
  match generated (f_kind t) (length (f_in t)), fields (f_kind t) (length (f_in t)) with
  | Some _, Some fs => Some (compound_report [(trait_decl (f_kind t) (length (f_in t)), fs)])
  | _, _ => None
  end.
