(** C111: loading a function by its name. *)
From Coq Require Import List Arith NArith Bool String.
From Verif Require Import M_Report M_Canary S_Canary L_Canary M_String M_Load S_Load L_Load.
Import ListNotations.
Local Open Scope N_scope.
Local Open Scope list_scope.

(** A library of two reported functions with different reports, a canaried one and a bare one. *)
Definition rA : report := Rep (str "fn") (str "core") 0 KStruct [].
Definition rB : report := Rep (str "fn") (str "core") 1 KStruct [].
Definition envL : env := Env (str "1") (str "81") (str "0") (str "2dbb1af80a") (str "3") false (str "8")
  (str "x86_64-unknown-linux-gnu") (str "x86_64-unknown-linux-gnu").
Definition lib : list (export N) :=
  [Reported (str "f") rA 10; Reported (str "f_report") rB 11; Canaried (str "g") 12; Bare (str "h") 13].

Example lib_unreserved : unreserved envL lib.
Proof. apply unreserved_check. vm_compute. reflexivity. Qed.
Example envL_nameable : nameable_env envL.
Proof.
  intros c C. assert (X : existsb (N.eqb 0) (display envL c) = true) by
    (apply existsb_exists; exists 0; split; [exact C | reflexivity]).
  clear C. unfold display in X. revert X.
  destruct (has c 1), (has c 2), (has c 4), (has c 8), (has c 16), (has c 32); vm_compute; discriminate.
Qed.

(** C111: [get_stabbied] gives exactly the function that is exported under that name with a
    compatible report, whatever else the library exports. *)
Theorem load_stabbied_exact_partial : forall F e (xs : list (export F)) t n asked f,
  link e xs = Some t -> nameable n -> unreserved e xs ->
  (load_stabbied t n asked = Given f <-> offered xs n asked f).
Proof. intros F. exact load_stabbied_given. Qed.
Print Assumptions load_stabbied_exact_partial.
Example load_stabbied_exact_ex : exists t, link envL lib = Some t /\
  load_stabbied t (str "f") rA = Given 10 /\ load_stabbied t (str "f") rB = Refused /\
  load_stabbied t (str "f_report") rB = Given 11 /\
  load_stabbied t (str "g") rA = Refused /\ load_stabbied t (str "h") rA = Refused.
Proof. eexists. split; [vm_compute; reflexivity|]. repeat split; vm_compute; reflexivity. Qed.

(** C111: otherwise it is an error, never a symbol called with a type that is not its own. *)
Theorem load_stabbied_refuses_partial : forall F e (xs : list (export F)) t n asked,
  link e xs = Some t -> nameable n -> unreserved e xs ->
  (load_stabbied t n asked = Refused <-> ~ exists f, offered xs n asked f).
Proof.
  intros F e xs t n asked L H U. split.
  - intros R (f & O). apply (load_stabbied_given e xs t n asked f L H U) in O. congruence.
  - intros NO. destruct (load_stabbied t n asked) as [f| |] eqn:E; [|reflexivity|].
    + exfalso. apply NO. exists f. now apply (load_stabbied_given e xs t n asked f L H U).
    + exfalso. now apply (load_stabbied_defined e xs t n asked L U H).
Qed.
Print Assumptions load_stabbied_refuses_partial.
Example load_stabbied_refuses_ex : exists t, link envL lib = Some t /\
  load_stabbied t (str "f") rB = Refused /\ load_stabbied t (str "k") rA = Refused.
Proof. eexists. split; [vm_compute; reflexivity|]. split; vm_compute; reflexivity. Qed.

(** C111: functions with names of their own, none ending with a reserved suffix, can be exported
    together, with reports or without. *)
Theorem load_links : forall F e (xs : list (export F)), NoDup (map export_name xs) ->
  Forall uncanaried xs -> unreserved e xs -> exists t, link e xs = Some t.
Proof. intros F. exact link_uncanaried. Qed.
Print Assumptions load_links.
Example load_links_ex :
  (exists t, link envL [Reported (str "f") rA 1; Reported (str "f_") rA 2; Bare (str "f_stabbied") 3] = Some t) /\
  link envL [Reported (str "f") rA 1; Bare (str "f_stabbied_v3") 2] = None.
Proof. split; [eexists|]; vm_compute; reflexivity. Qed.

(** C111, refuted for names ended by NUL, which libloading takes: the function is there, libloading
    finds it by that name, and [get_stabbied] does not. *)
Theorem load_stabbied_nul_refuted : exists (xs : list (export N)) t n asked f,
  link envL xs = Some t /\ nameable n /\ unreserved envL xs /\ offered xs n asked f /\
  lib_get t (n ++ [0]) = Some (EFn f) /\ load_stabbied t (n ++ [0]) asked = Refused.
Proof.
  exists [Reported (str "f") rA 10]. eexists. exists (str "f"), rA, 10.
  split; [vm_compute; reflexivity|]. split; [intros C; vm_compute in C; intuition discriminate|].
  split.
  - intros x s [<-|[]] [<-|[]].
    split; apply too_short; vm_compute; repeat constructor.
  - split; [exists rA; split; [now left | vm_compute; reflexivity]|].
    split; vm_compute; reflexivity.
Qed.
Print Assumptions load_stabbied_nul_refuted.

(** C111: no name with a NUL is ever found, nor is what follows the NUL ignored. *)
Theorem load_stabbied_nul : forall F (t : list (list N * entry F)) n asked,
  In 0 n -> load_stabbied t n asked = Refused.
Proof. intros F. exact stabbied_nul_refused. Qed.
Print Assumptions load_stabbied_nul.
Example load_stabbied_nul_ex : load_stabbied (flat_map (symbols envL) lib) (str "f" ++ [0]) rA = Refused.
Proof. vm_compute; reflexivity. Qed.

(** C111, refuted for names that take the suffix: a function whose own name ends with it is called
    as if it were the one that checks the report. *)
Theorem load_stabbied_reserved_refuted : exists (xs : list (export N)) t n asked,
  link envL xs = Some t /\ nameable n /\ ~ (exists f, offered xs n asked f) /\
  load_stabbied t n asked = Undefined.
Proof.
  exists [Bare (str "f_stabbied_v3") 10]. eexists. exists (str "f"), rA.
  split; [vm_compute; reflexivity|]. split; [intros C; vm_compute in C; intuition discriminate|].
  split; [intros (f & own & [C|[]] & _); discriminate | vm_compute; reflexivity].
Qed.
Print Assumptions load_stabbied_reserved_refuted.

(** C111: [get_canaried] gives the symbol of that very name, and gives it exactly when the names
    of the library's symbols pass the check of C40. *)
Theorem load_canaried_exact : forall F e e' (xs : list (export F)) t n x,
  link e xs = Some t -> nameable n -> nameable_env e' ->
  (load_canaried e' t n = Given x <-> In (n, x) t /\ get_canaried e' n (map fst t) = true).
Proof. intros F. exact load_canaried_given. Qed.
Print Assumptions load_canaried_exact.
Example load_canaried_exact_ex : exists t, link envL lib = Some t /\
  load_canaried envL t (str "g") = Given (EFn 12) /\ load_canaried envL t (str "h") = Refused /\
  load_canaried envL t (str "f") = Refused /\ load_canaried envL t (str "k") = Refused.
Proof. eexists. split; [vm_compute; reflexivity|]. repeat split; vm_compute; reflexivity. Qed.

(** C111: nor does it give anything for a name with a NUL, though the function be found. *)
Theorem load_canaried_nul : forall F e (t : list (list N * entry F)) n a,
  nameable_env e -> In 0 n -> load_canaried e t n <> Given a.
Proof. intros F. exact canaried_nul_not_given. Qed.
Print Assumptions load_canaried_nul.
Example load_canaried_nul_ex :
  lib_get (flat_map (symbols envL) lib) (str "g" ++ [0]) = Some (EFn 12) /\
  load_canaried envL (flat_map (symbols envL) lib) (str "g" ++ [0]) = Refused.
Proof. split; vm_compute; reflexivity. Qed.

(** C111: a loader of the same environment gets every function that is exported with canaries. *)
Theorem load_canaried_own : forall F e (xs : list (export F)) t n f,
  link e xs = Some t -> nameable n -> nameable_env e -> In (Canaried n f) xs ->
  load_canaried e t n = Given (EFn f).
Proof. intros F. exact load_canaried_itself. Qed.
Print Assumptions load_canaried_own.
Example load_canaried_own_ex :
  load_canaried envL (flat_map (symbols envL) [Canaried (str "a") 1; Canaried (str "b") 2]) (str "b") = Given (EFn 2).
Proof. vm_compute; reflexivity. Qed.

(** C111: a loader of another environment gets it exactly when all but the hosts agree. *)
Theorem load_canaried_between : forall F e e' n (f : F) t, good_env e -> good_env e' ->
  link e [Canaried n f] = Some t -> nameable n -> nameable_env e' ->
  (load_canaried e' t n = Given (EFn f) <-> forall c, c <> Host -> same_payload e e' c).
Proof.
  intros F e e' n f t G G' L H He. rewrite (load_canaried_given e e' _ t n _ L H He).
  destruct (link_nodup _ _ _ L) as [E _].
  assert (X : map fst t = export_canaried e n) by (rewrite E; reflexivity).
  rewrite X, (get_canaried_iff e e' n G G'). split; [intros [_ Y]; exact Y|]. intros Y. split; [|exact Y].
  rewrite E. now left.
Qed.
Print Assumptions load_canaried_between.
Example load_canaried_between_ex :
  let t := flat_map (symbols envL) [Canaried (str "a") 1] in
  let other := Env (str "1") (str "80") (str "0") (str "2dbb1af80a") (str "3") false (str "8")
    (str "x86_64-unknown-linux-gnu") (str "x86_64-unknown-linux-gnu") in
  let host := Env (str "1") (str "81") (str "0") (str "2dbb1af80a") (str "3") false (str "8")
    (str "x86_64-unknown-linux-gnu") (str "aarch64-apple-darwin") in
  load_canaried other t (str "a") = Refused /\ load_canaried host t (str "a") = Given (EFn 1).
Proof. split; vm_compute; reflexivity. Qed.

(** C111: with a name that is UTF-8 a failure is an error. *)
Theorem load_canaried_defined_partial : forall F e (t : list (list N * entry F)) n,
  from_utf8 n = true -> load_canaried e t n <> Undefined.
Proof. intros F. exact load_canaried_defined. Qed.
Print Assumptions load_canaried_defined_partial.
Example load_canaried_defined_ex : load_canaried envL [([195; 169], EFn 1)] [195; 169] = Refused.
Proof. vm_compute; reflexivity. Qed.
(** C111, refuted for other names: the message takes the name for UTF-8 unchecked. *)
Theorem load_canaried_defined_refuted : exists (xs : list (export N)) t n,
  link envL xs = Some t /\ nameable n /\ load_canaried envL t n = Undefined.
Proof.
  exists [Bare [233] 10]. eexists. exists [233].
  split; [vm_compute; reflexivity|]. split; [intros [C|[]]; discriminate | vm_compute; reflexivity].
Qed.
Print Assumptions load_canaried_defined_refuted.
