(** How the standard types are formatted, by their structure, with and without [#]; how colon-separated numbers are read; and what
    names must look like for a displayed report to be readable. *)
From Coq Require Import String.
From Coq Require Import List Arith NArith ZArith Bool.
From Verif Require Import M_Report M_Decl M_Fmt M_BTree.
Import ListNotations.
Local Open Scope N_scope.
Local Open Scope list_scope.

(** What is written as is; brackets around items; a struct. *)
Inductive std := TLeaf (t : list N) | TGroup (opn cls : list N) (items : list std) | TStruct (name : list N) (fields : list (list N * std)).
Fixpoint join (sep : list N) (l : list (list N)) : list N :=
  match l with [] => [] | [x] => x | x :: r => x ++ sep ++ join sep r end.
Fixpoint spaces (depth : nat) : list N := match depth with O => [] | S d => [32; 32; 32; 32] ++ spaces d end.
(** On one line, or ([alt]) one item per line, at a depth of indentation. *)
Fixpoint show (alt : bool) (d : nat) (v : std) : list N :=
  match v with
  | TLeaf t => t
  | TGroup o c l =>
      if alt then
        match l with
        | [] => o ++ c
        | _ => o ++ [10] ++ flat_map (fun x => spaces (S d) ++ show true (S d) x ++ [44; 10]) l ++ spaces d ++ c
        end
      else o ++ join [44; 32] (map (show false d) l) ++ c
  | TStruct n l =>
      if alt then n ++ [32; 123; 10] ++ flat_map (fun f => spaces (S d) ++ fst f ++ [58; 32] ++ show true (S d) (snd f) ++ [44; 10]) l ++ spaces d ++ [125]
      else n ++ [32; 123; 32] ++ join [44; 32] (map (fun f => fst f ++ [58; 32] ++ show false d (snd f)) l) ++ [32; 125]
  end.

Section Std.
Context (str_debug : list N -> list (list N)) (o : opts).
(** The standard value that a value stands for: slices and strings whatever holds them, core's Option and Result, what a StableLike holds. *)
Fixpoint std_of (v : val) : std :=
  match v with
  | VU n => TLeaf (concat (debug_u o n))
  | VI w z => TLeaf (concat (debug_i w o z))
  | VCore s | VStr _ s => TLeaf (concat (str_debug s))
  | VSeq _ l => TGroup (lit "[") (lit "]") (map std_of l)
  | VSome x => TGroup (lit "Some(") (lit ")") [std_of x]
  | VNone => TLeaf (lit "None")
  | VOk x => TGroup (lit "Ok(") (lit ")") [std_of x]
  | VErr x => TGroup (lit "Err(") (lit ")") [std_of x]
  | VLike x => std_of x
  | VEntry k x => TStruct (lit "Entry") [(lit "key", std_of k); (lit "value", std_of x)]
  end.
End Std.

(** A tree of values, and the values in it from left to right. *)
Inductive shape (T : Type) := One (x : T) | Many (l : list (shape T)).
Arguments One {T} x. Arguments Many {T} l.
Fixpoint flatten {T} (s : shape T) : list T := match s with One x => [x] | Many l => flat_map flatten l end.
(** As sets in sets. *)
Fixpoint braces {T} (leaf : T -> std) (s : shape T) : std :=
  match s with One x => leaf x | Many l => TGroup (lit "{") (lit "}") (map (braces leaf) l) end.

(** Fill characters that are neither colons nor digits in any base up to sixteen (in hex). *)
Definition hex_digit (c : N) : bool := ((48 <=? c) && (c <=? 57)) || ((97 <=? c) && (c <=? 102)) || ((65 <=? c) && (c <=? 70)).
Definition clear_fill (o : opts) : Prop := width o = None \/ zero o = true \/ (fill o <> 58 /\ hex_digit (fill o) = false).

(** Names without blanks and quotes; names of fields without colons and braces. *)
Definition plain (t : list N) : Prop := Forall (fun c => c <> 32 /\ c <> 34) t.
Definition plain_field (t : list N) : Prop := Forall (fun c => c <> 58 /\ c <> 125) t.
Inductive readable : report -> Prop :=
  | readable_rep n m v k fs : plain n -> plain m -> match k with KEnum s => plain s | _ => True end ->
      (forall f r, In (f, r) fs -> plain_field f /\ readable r) -> readable (Rep n m v k fs).

(** The number that a text of digits (0-9, A-F, a-f) means in a base. *)
Definition text_value (b : N) (t : list N) : N :=
  fold_left (fun a c => a * b + (if c <? 58 then c - 48 else if c <? 91 then c - 55 else c - 87)) t 0.
