(** Model of reports as they are in memory: fields are linked (stabby-abi/src/report.rs:18-35,93-135), built by the
    macro (stabby-macros/src/lib.rs:295-351,423-460), and read through iterators (report.rs:110-135). References are
    what they refer to. *)
From Coq Require Import List Arith NArith Bool.
From Verif Require Import M_Report.
Import ListNotations.

(** report.rs:21-35 [TypeReport]; 93-104 [FieldReport], behind the [Option<&'static FieldReport>] of 19 [NextField]. *)
Inductive trep := TRep (name module : list N) (version : N) (kind : tyty) (fields : link)
(** report.rs:19,93-104. *)
with link := LNone | LSome (name : list N) (ty : trep) (next_field : link).

(** report.rs:119 [Fields]; 112-115 [TypeReport::fields]. *)
Definition fields (r : trep) : link := match r with TRep _ _ _ _ f => f end.
(** report.rs:122-127 [Fields::next_const]: what is left, and the field. *)
Definition next_const (self : link) : link * option (list N * trep) :=
  match self with
  | LSome n t next => (next, Some (n, t))
  | LNone => (self, None)
  end.
(** core's [Option::take], used at report.rs:131. *)
Definition take (self : link) : link * link := (LNone, self).
(** report.rs:129-134 [Iterator::next] of [Fields]. *)
Definition next (self : link) : link * option (list N * trep) :=
  let '(self, field) := take self in
  match field with
  | LNone => (self, None)
  | LSome n t next_field => (next_field, Some (n, t))
  end.

(** stabby-macros/src/lib.rs:295-302,347-351 [Report], [add_field]: fields are pushed; those of variants are reports
    (262-276 [Type::Report]), here what they become. *)
Record builder := Builder { b_name : list N; b_module : list N; b_version : N; b_kind : tyty; b_fields : list (list N * trep) }.
(** lib.rs:304-346 [r#struct], [r#enum], [r#union], the module being given or the path of the module. *)
Definition new_builder (name module : list N) (version : N) (kind : tyty) : builder := Builder name module version kind [].
(** lib.rs:347-349 [add_field]. *)
Definition add_field (b : builder) (name : list N) (ty : trep) : builder :=
  Builder (b_name b) (b_module b) (b_version b) (b_kind b) (b_fields b ++ [(name, ty)]).
(** lib.rs:427-444: the expression made for the fields, in a loop. *)
Definition link_fields (fs : list (list N * trep)) : link :=
  fold_left (fun acc f => LSome (fst f) (snd f) acc) fs LNone.
(** lib.rs:423-460 [ToTokens for Report]: the constant. *)
Definition build (b : builder) : trep :=
  TRep (b_name b) (b_module b) (b_version b) (b_kind b) (link_fields (b_fields b)).

(** report.rs:65-77 [is_compatible]; [linked_all] is [zip(..).all(..)] of the iterators. *)
Fixpoint linked_compatible (a b : trep) : bool :=
  match a, b with
  | TRep n m v k fs, TRep n' m' v' k' fs' =>
      bytes_eqb n n' && bytes_eqb m m' && N.eqb v v' && tyty_eqb k k' && linked_all fs fs'
  end
(** report.rs:72-76. *)
with linked_all (f g : link) : bool :=
  match f, g with
  | LSome n t f', LSome n' t' g' => bytes_eqb n n' && linked_compatible t t' && linked_all f' g'
  | _, _ => true
  end.
(** report.rs:137-152 [hash_report]; [linked_hash_fields] is the loop of 147-150 on [next_const]. *)
Fixpoint linked_hash (h : list N) (r : trep) : list N :=
  match r with
  | TRep n m _ k fs => linked_hash_fields (h ++ m ++ n ++ tyty_bytes k) fs
  end
(** report.rs:147-150. *)
with linked_hash_fields (h : list N) (f : link) : list N :=
  match f with
  | LNone => h
  | LSome n t f' => linked_hash_fields (linked_hash (h ++ n) t) f'
  end.
(** report.rs:23,96 [derive(PartialEq)] of reports and fields: names, types, and the rest of the list. *)
Fixpoint linked_eq (a b : trep) : bool :=
  match a, b with
  | TRep n m v k fs, TRep n' m' v' k' fs' =>
      bytes_eqb n n' && bytes_eqb m m' && link_eq fs fs' && tyty_eqb k k' && N.eqb v v'
  end
(** report.rs:96. *)
with link_eq (f g : link) : bool :=
  match f, g with
  | LSome n t f', LSome n' t' g' => bytes_eqb n n' && linked_eq t t' && link_eq f' g'
  | LNone, LNone => true
  | _, _ => false
  end.
