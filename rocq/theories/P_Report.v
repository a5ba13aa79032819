(** C36, C37: layout reports and type identifiers (stabby-abi/src/report.rs). *)
From Coq Require Import List Arith NArith Bool Ascii String.
From Verif Require Import M_Layout M_Report S_Report L_Report.
Import ListNotations.
Local Open Scope string_scope.

(** ASCII strings, for the examples. *)
Definition str (s : string) : list N := map N_of_ascii (list_ascii_of_string s).
(** stabby-abi/src/lib.rs:66-76 [primitive_report!]: the report of a primitive type. *)
Definition prim (s : string) : report :=
  Rep (str s) (str "stabby_abi::stable_impls") 0 KStruct [].

(** C36: what [is_compatible] decides: same name, module, version and kind, and the same for the
    fields that both reports have. *)
Theorem compatible_exactly : forall a b, is_compatible a b = true <-> agree a b.
Proof. exact compat_agree. Qed.
Print Assumptions compatible_exactly.
Example compatible_exactly_ex : is_compatible
  (Rep (str "P") (str "m") 1 KStruct [(str "y", prim "u32"); (str "x", prim "u32")])
  (Rep (str "P") (str "m") 1 KStruct [(str "y", prim "u32"); (str "x", prim "u64")]) = false.
Proof. vm_compute; reflexivity. Qed.
(** C36: between reports with as many fields, compatibility is equality. *)
Theorem compatible_is_equality_partial : forall a b, same_arity a b ->
  is_compatible a b = true <-> a = b.
Proof. exact compat_equal. Qed.
Print Assumptions compatible_is_equality_partial.
Example compatible_is_equality_ex : same_arity
  (Rep (str "P") (str "m") 1 KStruct [(str "y", prim "u32")])
  (Rep (str "P") (str "m") 2 KStruct [(str "y", prim "u64")]).
Proof. repeat constructor. Qed.
(** C36: reflexive, symmetric. *)
Theorem compatible_reflexive : forall a, is_compatible a a = true.
Proof. exact compat_refl. Qed.
Print Assumptions compatible_reflexive.
(** C36 *)
Theorem compatible_symmetric : forall a b, is_compatible a b = is_compatible b a.
Proof. exact compat_sym. Qed.
Print Assumptions compatible_symmetric.
Example compatible_symmetric_ex : is_compatible (prim "u8") (prim "u16") = false /\
  is_compatible (prim "u16") (prim "u8") = false.
Proof. split; vm_compute; reflexivity. Qed.
(** C36, refuted: not transitive, hence not an equivalence. *)
Theorem compatible_transitive_refuted : exists a b c,
  is_compatible a b = true /\ is_compatible b c = true /\ is_compatible a c = false.
Proof.
  exists (Rep (str "P") (str "m") 1 KStruct [(str "x", prim "u32")]),
         (Rep (str "P") (str "m") 1 KStruct []),
         (Rep (str "P") (str "m") 1 KStruct [(str "y", prim "u64")]).
  repeat split; vm_compute; reflexivity.
Qed.
Print Assumptions compatible_transitive_refuted.
(** C36, refuted: two structs with the same name, module and version, of different sizes, are
    compatible, and the function taking one is handed to the caller passing the other: a field was
    added in front of the first one ([struct P { a: u8 }] and [struct P { z: u64, a: u8 }]). *)
Theorem compatible_layouts_refuted : exists declared declared' fields fields' d d' (f : nat),
  fields = map snd declared /\ fields' = map snd declared' /\
  layout (struct_ty fields) = Some d /\ layout (struct_ty fields') = Some d' /\
  dsize d = 1 /\ dsize d' = 16 /\
  (forall n t, In (n, t) (declared ++ declared') -> t = TPlain 1 1 /\ n = str "a" \/ t = TPlain 8 8 /\ n = str "z") /\
  stabbied
    (macro_report (str "P") (str "m") 0 KStruct
       (map (fun x => (fst x, match snd x with TPlain 1 1 => prim "u8" | _ => prim "u64" end)) declared))
    f
    (macro_report (str "P") (str "m") 0 KStruct
       (map (fun x => (fst x, match snd x with TPlain 1 1 => prim "u8" | _ => prim "u64" end)) declared'))
  = Some f.
Proof.
  exists [(str "a", TPlain 1 1)], [(str "z", TPlain 8 8); (str "a", TPlain 1 1)].
  do 4 eexists. exists 0.
  split; [reflexivity|]. split; [reflexivity|].
  split; [vm_compute; reflexivity|]. split; [vm_compute; reflexivity|].
  split; [vm_compute; reflexivity|]. split; [vm_compute; reflexivity|].
  split; [|vm_compute; reflexivity].
  intros n t [H|[H|[H|[]]]]; injection H as <- <-; auto.
Qed.
Print Assumptions compatible_layouts_refuted.

(** C37: among reports whose strings have the same lengths, two with the same identifier differ at
    most by their versions, or exhibit a collision of the (truncated) hash. *)
Theorem id_separates_partial : forall sha arch a b, same_lengths a b ->
  gen_id sha arch a = gen_id sha arch b ->
  same_but_version a b \/
  (hash_report [] a <> hash_report [] b /\
   from_le_bytes (firstn 8 (sha (hash_report [] a))) = from_le_bytes (firstn 8 (sha (hash_report [] b)))).
Proof. exact id_separates. Qed.
Print Assumptions id_separates_partial.
Example id_separates_ex : same_lengths
  (Rep (str "P") (str "m") 1 KStruct [(str "y", prim "u32")])
  (Rep (str "Q") (str "n") 2 KUnion [(str "y", prim "u64")]).
Proof.
  constructor; try reflexivity; cbn; auto.
  repeat constructor; reflexivity.
Qed.
(** C37: the identifiers of a report differ between architectures whose description differs. *)
Theorem id_separates_architectures : forall sha r a b, bytes a -> bytes b -> List.length a = List.length b ->
  gen_id sha a r = gen_id sha b r -> a = b.
Proof. exact id_arch. Qed.
Print Assumptions id_separates_architectures.
Example id_architectures_ex : bytes (arch_info 8 8 8 8 16 0) /\ bytes (arch_info 4 4 4 4 16 0) /\
  from_le_bytes (arch_info 8 8 8 8 16 0) <> from_le_bytes (arch_info 4 4 4 4 16 0).
Proof. repeat split; try (repeat constructor; vm_compute; reflexivity). vm_compute. discriminate. Qed.
(** C37, refuted: whatever the hash function, the version of the invariants is not part of the
    identifier. *)
Theorem id_version_refuted : exists a b, a <> b /\ is_compatible a b = false /\
  forall sha arch, gen_id sha arch a = gen_id sha arch b.
Proof.
  exists (Rep (str "P") (str "m") 1 KStruct []), (Rep (str "P") (str "m") 2 KStruct []).
  split; [discriminate|]. split; [vm_compute; reflexivity|]. intros; reflexivity.
Qed.
Print Assumptions id_version_refuted.
(** C37, refuted: names are not separated in the hashed bytes: [m::ab::c] and [m::a::bc]; nor are
    fields from their types' modules. *)
Theorem id_separator_refuted : exists a b a' b', a <> b /\ a' <> b' /\
  forall sha arch, gen_id sha arch a = gen_id sha arch b /\ gen_id sha arch a' = gen_id sha arch b'.
Proof.
  exists (Rep (str "c") (str "m::ab") 0 KStruct []), (Rep (str "bc") (str "m::a") 0 KStruct []),
    (Rep (str "P") (str "m") 0 KStruct [(str "x", Rep (str "T") (str "yz") 0 KStruct [])]),
    (Rep (str "P") (str "m") 0 KStruct [(str "xy", Rep (str "T") (str "z") 0 KStruct [])]).
  split; [discriminate|]. split; [discriminate|]. intros; split; reflexivity.
Qed.
Print Assumptions id_separator_refuted.
