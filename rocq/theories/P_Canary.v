(** C40: canaries (stabby-macros/src/functions.rs, stabby/src/libloading.rs). *)
From Coq Require Import List Arith NArith Bool String.
From Verif Require Import M_Canary S_Canary L_Canary.
Import ListNotations.
Local Open Scope N_scope.
Local Open Scope list_scope.

(** C40: an accepted specification is a comma-separated list of documented names, with spaces
    anywhere around them, and selects exactly the canaries of these names. *)
Theorem canary_spec_sound : forall s spec, s <> [] -> from_str s = Some spec ->
  exists reqs, s = join (map padded reqs) /\ reqs <> [] /\
    Forall (fun r => exists cs, names_canaries (request_name r) cs) reqs /\
    (forall c, selects spec c <-> requested (map request_name reqs) c) /\ spec < 64.
Proof. exact from_str_sound. Qed.
Print Assumptions canary_spec_sound.
Example canary_spec_sound_ex : from_str (str " rustc ,debug,  none") = Some 5.
Proof. vm_compute; reflexivity. Qed.
(** C40: every list of documented names is accepted and selects exactly their canaries.  Missing:
    names with an underscore ([opt_level], [num_jobs]). *)
Theorem canary_spec_complete_partial : forall reqs, reqs <> [] ->
  Forall (fun r => no_underscore (request_name r) /\ exists cs, names_canaries (request_name r) cs) reqs ->
  exists spec, from_str (join (map padded reqs)) = Some spec /\
    (forall c, selects spec c <-> requested (map request_name reqs) c) /\ spec < 64.
Proof. exact from_str_complete. Qed.
Print Assumptions canary_spec_complete_partial.
Example canary_spec_complete_ex :
  join (map padded [(1%nat, str "target", 0%nat); (0%nat, str "host", 3%nat)]) = str " target,host   " /\
  from_str (str " target,host   ") = Some 48.
Proof. split; vm_compute; reflexivity. Qed.
(** C40: the empty specification selects every canary. *)
Theorem canary_spec_empty : forall c, exists spec, from_str [] = Some spec /\ selects spec c.
Proof. intros c. exists 63. split; [reflexivity|]. destruct c; vm_compute; reflexivity. Qed.
Print Assumptions canary_spec_empty.
Example canary_spec_empty_ex : from_str [] = Some 63 /\ canaries 63 = Some [1; 2; 4; 8; 16; 32].
Proof. split; vm_compute; reflexivity. Qed.
(** C40, refuted: the example of README.md:100 is refused. *)
Theorem canary_spec_complete_refuted : exists reqs, reqs <> [] /\
  Forall (fun r => exists cs, names_canaries (request_name r) cs) reqs /\
  join (map padded reqs) = str "rustc, opt_level" /\ from_str (join (map padded reqs)) = None.
Proof.
  exists [(0%nat, str "rustc", 0%nat); (1%nat, str "opt_level", 0%nat)].
  split; [discriminate|]. split; [|split; vm_compute; reflexivity].
  repeat constructor; eexists; constructor.
Qed.
Print Assumptions canary_spec_complete_refuted.

(** C40: iterating over a specification gives each selected canary once, and no other. *)
Theorem canaries_are_the_selected : forall spec, spec < 64 -> exists l, canaries spec = Some l /\ NoDup l /\
  forall k, In k l <-> exists c, selects spec c /\ k = N.shiftl 1 (bit_of c).
Proof. exact canaries_exact. Qed.
Print Assumptions canaries_are_the_selected.
Example canaries_are_the_selected_ex : canaries 41 = Some [1; 8; 32].
Proof. vm_compute; reflexivity. Qed.

(** Two environments for the examples. *)
Definition env1 : env := Env (str "1") (str "78") (str "0") (str "9b00956e56009bab2aa15d7bff10916599e3d6d6")
  (str "3") false (str "8") (str "x86_64-unknown-linux-gnu") (str "x86_64-unknown-linux-gnu").
Definition env2 : env := Env (str "1") (str "78") (str "0") (str "9b00956e56009bab2aa15d7bff10916599e3d6d6")
  (str "3") false (str "8") (str "x86_64-unknown-linux-gnu") (str "aarch64-apple-darwin").
Example good_env1 : good_env env1.
Proof. apply good_envb_ok; vm_compute; reflexivity. Qed.
Example good_env2 : good_env env2.
Proof. apply good_envb_ok; vm_compute; reflexivity. Qed.

(** C40: linking succeeds exactly when exporter and importer agree on every selected canary, for
    target triples that do not look like escaped ones. *)
Theorem canary_link_exact_partial : forall e e' ident spec req, good_env e -> good_env e' -> spec < 64 ->
  import_symbols e' ident spec = Some req ->
  (links req (export_canaried e ident) = true <-> forall c, selects spec c -> same_payload e e' c).
Proof. exact links_iff. Qed.
Print Assumptions canary_link_exact_partial.
Example canary_link_exact_ex : good_env env1 /\ good_env env2 /\
  match import_symbols env2 (str "f") 63 with
  | Some req => links req (export_canaried env1 (str "f"))
  | None => true
  end = false /\
  match import_symbols env2 (str "f") 31 with
  | Some req => links req (export_canaried env1 (str "f"))
  | None => false
  end = true.
Proof. split; [exact good_env1|]. split; [exact good_env2|]. split; vm_compute; reflexivity. Qed.
(** C40: [import] never panics on an accepted specification. *)
Theorem import_symbols_defined : forall e ident spec, spec < 64 -> exists req, import_symbols e ident spec = Some req.
Proof. exact import_symbols_some. Qed.
Print Assumptions import_symbols_defined.
Example import_symbols_defined_ex : import_symbols env1 (str "f") 3 =
  Some [str "f"; str "f_canary_rustc_1_78_0_9b00956e"; str "f_canary_optlevel3"].
Proof. vm_compute; reflexivity. Qed.
(** C40: whatever the target is called, the name of a canary goes on with characters of identifiers only, so that
    it can be the name of a function. *)
Theorem canary_names_identifiers : forall e c, id_env e -> Forall id_char (display e c).
Proof. exact display_id. Qed.
Print Assumptions canary_names_identifiers.
Example canary_names_identifiers_ex : id_env env1 /\
  display env1 16 = str "_canary_target_x86_64_2d_unknown_2d_linux_2d_gnu".
Proof.
  split; [|vm_compute; reflexivity].
  assert (D : forall l, forallb (fun c => (48 <=? c) && (c <=? 57) || (97 <=? c) && (c <=? 122)) l = true -> Forall id_char l).
  { intros l H. apply Forall_forall. intros x I. rewrite forallb_forall in H. specialize (H x I). unfold id_char.
    apply orb_prop in H. destruct H as [H|H]; apply andb_prop in H; destruct H as [A B]; apply N.leb_le in A, B; [left|right; right; right]; split; assumption. }
  unfold id_env. repeat split; apply D; vm_compute; reflexivity.
Qed.
(** C40, refuted: two different targets with the same symbol name. *)
Theorem canary_fix_injective_refuted : exists t t', t <> t' /\ fix_ t = fix_ t'.
Proof. exists (str "a-b"), (str "a_2d_b"). split; [discriminate | vm_compute; reflexivity]. Qed.
Print Assumptions canary_fix_injective_refuted.

(** C40: loading a canaried symbol succeeds exactly when all canaries but the host's agree. *)
Theorem get_canaried_exact_partial : forall e e' ident, good_env e -> good_env e' ->
  (get_canaried e' ident (export_canaried e ident) = true <-> forall c, c <> Host -> same_payload e e' c).
Proof. exact get_canaried_iff. Qed.
Print Assumptions get_canaried_exact_partial.
Example get_canaried_exact_ex :
  get_canaried env1 (str "f") (export_canaried env1 (str "g")) = false /\
  get_canaried env1 (str "f") (export_canaried (Env (str "1") (str "77") (str "0") (rustc_commit env1)
    (str "3") false (str "8") (target env1) (host env1)) (str "f")) = false.
Proof. split; vm_compute; reflexivity. Qed.
(** C40, refuted: the host canary is exported and never looked for by [get_canaried]. *)
Theorem get_canaried_all_refuted : exists e e' ident c,
  get_canaried e' ident (export_canaried e ident) = true /\ ~ same_payload e e' c.
Proof.
  exists env1, env2, (str "f"), Host. split; [vm_compute; reflexivity|]. discriminate.
Qed.
Print Assumptions get_canaried_all_refuted.
