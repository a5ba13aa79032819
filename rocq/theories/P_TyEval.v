(** C76: [tyeval!] reads expressions as written, and makes the type of their value. *)
From Coq Require Import String Ascii List Permutation Bool NArith.
From Verif Require Import M_Typenum S_Typenum L_Typenum M_TyEval S_TyEval L_TyEval.
Import ListNotations.
Local Open Scope char_scope.
Local Open Scope list_scope.

Definition id (s : string) : tok := TIdent s.
Definition p (c : ascii) : tok := TPunct c false.
Definition sep : list tok := [TPunct ":" true; p ":"].

(** Every text of the grammar is read as the expression it writes; in particular it writes only one. *)
Theorem tyeval_reads : forall e ts, written false e ts -> parse ts = Ok e /\ forall e', written false e' ts -> e' = e.
Proof.
  assert (R : forall e ts, written false e ts -> parse ts = Ok e).
  { intros e ts W. destruct (proj2 (written_parse false e ts W)) as [f H]. exact (parse_of_loop _ _ _ H). }
  intros e ts W. split; [auto|]. intros e' W'. apply R in W, W'. congruence.
Qed.
Print Assumptions tyeval_reads.

(** Whatever is accepted, no name is lost nor made up. *)
Theorem tyeval_keeps_names : forall ts, parse ts = Panic \/ exists e, parse ts = Ok e /\ Permutation (expr_names e) (names ts).
Proof.
  intros ts. destruct (parse ts) as [e| |] eqn:P; [|left; reflexivity|].
  - right. exists e. split; [reflexivity|]. exact (loop_names _ _ _ _ P).
  - exfalso. revert P. apply loop_fuel. auto.
Qed.
Print Assumptions tyeval_keeps_names.

(** The type made is that of the value, and it exists exactly if the value does. *)
Theorem tyeval_means : forall ty e ts, written false e ts ->
  exists e', parse ts = Ok e' /\ resolve (fun t => option_map encv (ty t)) (tyeval e') = option_map encv (meaning ty e).
Proof. intros ty e ts W. exists e. split; [apply tyeval_reads; exact W|]. apply tyeval_ok. reflexivity. Qed.
Print Assumptions tyeval_means.

(** unsigned.rs:389. *)
Definition nmo_tokens : list tok :=
  [TGroup [TGroup [id "Self"; p "%"; id "T"]; TPunct "=" true; p "="; id "U0"]; p "?"; id "Self"; p ":";
   TGroup [id "Self"; p "+"; TGroup [id "T"; p "-"; TGroup [id "Self"; p "%"; id "T"]]]].
Definition nmo_expr : tyexpr :=
  let self := EType [id "Self"] in let t := EType [id "T"] in
  ETernary (EIsEqual (ERem self t) (EType [id "U0"])) self (EAdd self (ESub t (ERem self t))).
Example ident_written : forall b i, written b (EType [id i]) [id i].
Proof. intros b i. apply wr_path; [apply pt_ident, pt_nil|discriminate]. Qed.
Example nmo_written : written false nmo_expr nmo_tokens.
Proof.
  assert (R : written true (ERem (EType [id "Self"]) (EType [id "T"])) [TGroup [id "Self"; p "%"; id "T"]]).
  { apply wr_group. apply (wr_infix [p "%"] ERem _ [id "Self"] _ [id "T"]); [apply in_rem|apply ident_written..]. }
  apply (wr_ternary _ [TGroup _] _ [id "Self"] _ [TGroup _]); [|apply ident_written|].
  - apply wr_group. apply (wr_infix [TPunct "=" true; p "="] EIsEqual _ [_] _ [id "U0"]); [apply in_eq|exact R|apply ident_written].
  - apply wr_group. apply (wr_infix [p "+"] EAdd _ [id "Self"] _ [TGroup _]); [apply in_add|apply ident_written|].
    apply wr_group. apply (wr_infix [p "-"] ESub _ [id "T"] _ [_]); [apply in_sub|apply ident_written|exact R].
Qed.
Example nmo_read : parse nmo_tokens = Ok nmo_expr.
Proof. vm_compute. reflexivity. Qed.
(** The type alias is the function the rest of the model uses. *)
Definition nmo_types (u q : unum) (t : list tok) : option tval :=
  match t with
  | [TIdent i] => if String.eqb i "Self" then Some (TU u) else if String.eqb i "T" then Some (TU q) else if String.eqb i "U0" then Some (TU UTerm) else None
  | _ => None
  end.
Example nmo_is_next_multiple_of : forall u q, resolve (nmo_types u q) (tyeval nmo_expr) = option_map TU (next_multiple_of u q).
Proof. intros u q. cbn. unfold next_multiple_of. destruct (umod u q) as [r|]; [|reflexivity]. destruct (equal r UTerm); reflexivity. Qed.
(** istable.rs:566: [<T::Size as Unsigned>::NextMultipleOf<T::Align> - T::Size]. *)
Definition pad_l : list tok := [p "<"; id "T"] ++ sep ++ [id "Size"; id "as"; id "Unsigned"; p ">"] ++ sep ++ [id "NextMultipleOf"; p "<"; id "T"] ++ sep ++ [id "Align"; p ">"].
Definition pad_r : list tok := [id "T"] ++ sep ++ [id "Size"].
Example pad_read : parse (pad_l ++ [p "-"] ++ pad_r) = Ok (ESub (EType pad_l) (EType pad_r)).
Proof. vm_compute. reflexivity. Qed.
Ltac bal := repeat (apply bal_tok; [discriminate..|]); try apply bal_nil.
Example pad_written : written false (ESub (EType pad_l) (EType pad_r)) (pad_l ++ [p "-"] ++ pad_r).
Proof.
  apply wr_infix; [apply in_sub|..].
  - apply wr_path; [|discriminate].
    refine (pt_angle true false [id "T"; TPunct ":" true; p ":"; id "Size"; id "as"; id "Unsigned"] false _ _ _ _); [bal|].
    apply pt_sep, pt_ident. refine (pt_angle false false [id "T"; TPunct ":" true; p ":"; id "Align"] false _ _ _ _); [bal|]. apply pt_nil.
  - apply wr_path; [|discriminate]. apply pt_ident, pt_sep, pt_ident, pt_nil.
Qed.
Example means_ex : let ty t := match t with [TIdent "Self"] => Some (VNum 13) | [TIdent "T"] => Some (VNum 4) | [TIdent "U0"] => Some (VNum 0) | _ => None end in
  meaning ty nmo_expr = Some (VNum 16) /\ resolve (fun t => option_map encv (ty t)) (tyeval nmo_expr) = Some (TU (enc 16)).
Proof. vm_compute. auto. Qed.
(** A remainder by what is not a power of two does not compile. *)
Example rem_three : let ty t := match t with [TIdent "A"] => Some (VNum 13) | _ => Some (VNum 3) end in
  resolve (fun t => option_map encv (ty t)) (tyeval (ERem (EType [id "A"]) (EType [id "B"]))) = None.
Proof. vm_compute. reflexivity. Qed.

(** Text outside the grammar is accepted: operators after their operands, operands swapped, or a conditional without its colon. *)
Theorem tyeval_malformed_refuted : exists ts e, parse ts = Ok e /\ (forall b e', ~ written b e' ts) /\
  parse [id "A"; TGroup [id "B"]; p "+"] = Ok (EAdd (EType [id "B"]) (EType [id "A"])) /\
  parse [id "C"; p "?"; TGroup [id "A"]; TGroup [id "B"]] = Ok (ETernary (EType [id "C"]) (EType [id "A"]) (EType [id "B"])).
Proof.
  exists [TGroup [id "A"]; TGroup [id "B"]; p "+"], (EAdd (EType [id "A"]) (EType [id "B"])). split; [vm_compute; reflexivity|]. split; [|vm_compute; auto].
  intros b e' W. destruct (written_last _ _ _ W) as [_ H]. apply (H false). reflexivity.
Qed.
Print Assumptions tyeval_malformed_refuted.

(** Types that are well-formed are refused or misread: an arrow in a list of arguments counts as a closing bracket, and [!] before [<] is not an operator. *)
Theorem tyeval_types_refuted :
  parse [id "F"; p "<"; id "fn"; TGroup []; TPunct "-" true; p ">"; id "A"; p ">"; p "+"; id "B"] = Panic /\
  parse [TPunct "!" true; p "<"; id "A"; id "as"; id "Bit"; p ">"; TPunct ":" true; p ":"; id "And"] = Panic /\
  parse [p "!"; TGroup [p "<"; id "A"; id "as"; id "Bit"; p ">"; TPunct ":" true; p ":"; id "And"]] =
    Ok (ENot (EType [p "<"; id "A"; id "as"; id "Bit"; p ">"; TPunct ":" true; p ":"; id "And"])).
Proof. vm_compute. auto. Qed.
Print Assumptions tyeval_types_refuted.
