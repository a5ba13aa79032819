(** C98: the arguments of [#[stabby::stabby(..)]] on types. *)
From Coq Require Import String Ascii.
From Coq Require Import List Arith NArith Bool Lia.
From Verif Require Import M_Report S_Report L_Report M_TyArgs S_TyArgs L_TyArgs.
Import ListNotations.
Local Open Scope string_scope.
Local Open Scope N_scope.
Local Open Scope list_scope.

(** Sensible settings, with commas between them, say to the macro what they are meant to say, in any number and order, exactly if versions are
    in plain decimal, there is at most one module, and it has no commas outside delimiters. *)
Theorem tyargs_exact_partial k ss trail : Forall (sensible k) ss -> (understood k ss trail <-> supported ss).
Proof. intros S. split; [apply understood_supported; exact S|apply supported_understood; exact S]. Qed.
Print Assumptions tyargs_exact_partial.

(** The example of CHANGELOG.md:86 with the one of TUTORIAL.md:189. *)
Definition doc_settings : list setting := [Version "10"; Module [Str [109; 121; 58; 58; 109]]; NoOpt].
Example tyargs_exact_ex : Forall (sensible Struct) doc_settings /\ supported doc_settings /\
  parse Struct (written_all doc_settings true) = Some (Args false 10 [Str [109; 121; 58; 58; 109]]) /\
  understood Struct doc_settings true.
Proof.
  assert (S : Forall (sensible Struct) doc_settings).
  { apply Forall_cons; [exists 10; split; vm_compute; reflexivity|]. apply Forall_cons; [exact I|]. apply Forall_cons; [reflexivity|apply Forall_nil]. }
  assert (P : supported doc_settings) by (split; [reflexivity|cbn; lia]).
  split; [exact S|]. split; [exact P|]. split; [vm_compute; reflexivity|].
  exact (proj2 (tyargs_exact_partial _ _ true S) P).
Qed.

(** A word that is no setting is refused wherever a setting is expected: at the beginning, and behind any comma. *)
Theorem tyargs_unknown k s rest xs : s <> "version" -> s <> "module" -> (s <> "no_opt" \/ k <> Struct) ->
  parse k (Id s :: rest) = None /\ parse k (xs ++ Comma :: Id s :: rest) = None.
Proof.
  intros A B C.
  assert (H : forall a, go k false a (Id s :: rest) = None).
  { intros a. cbn [go]. apply String.eqb_neq in A, B. rewrite A, B.
    destruct (String.eqb_spec s "no_opt") as [->|_]; [|reflexivity].
    destruct k; [destruct C; congruence|reflexivity..]. }
  split; [apply H|]. unfold parse. destruct xs as [|x xs]; [reflexivity|].
  destruct (go k false no_args ((x :: xs) ++ Comma :: Id s :: rest)) as [a|] eqn:G; [|reflexivity].
  assert (X : false = true \/ x :: xs <> []) by (right; discriminate).
  destruct (go_boundary k (length (x :: xs)) false (x :: xs) no_args (Id s :: rest) a (Nat.le_refl _) X G) as (b & _ & G2).
  rewrite H in G2. discriminate G2.
Qed.
Print Assumptions tyargs_unknown.
Example tyargs_unknown_ex : parse (Enum None) [Id "version"; Eq; Int "1"; Comma; Id "no_opt"] = None /\
  parse Struct [Id "version"; Eq; Int "1"; Comma; Id "verison"; Eq; Int "2"] = None /\
  parse Struct [Id "version"; Eq; Int "1"; Comma; Id "version"; Eq; Int "2"] = Some (Args true 2 []).
Proof. vm_compute. auto. Qed.

(** What they change: the declaration compiles if the module has a value and the layout is fine or asked not to be looked at; its report has the version and the
    module asked for, or zero and the path of the module; and so have the reports of the variants of an enum. *)
Theorem tyargs_report ev path d ss trail r : Forall (sensible (d_kind d)) ss -> supported ss ->
  (compile ev path d (written_all ss trail) = Some r <->
   layout_fine d (asked_no_opt ss) /\ exists v m, asked_version ss = Some v /\ module_value ev path (asked_module ss) = Some m /\
     r = Rep (d_name d) m v (kind_tyty (d_kind d))
           (rev (map (fun nf => (fst nf, match snd nf with FTy r => r | FVariant fs => Rep (fst nf) m v KStruct (rev fs) end)) (d_fields d)))).
Proof.
  intros S P. destruct (supported_understood _ _ trail S P) as (a & G & V & M & O).
  unfold compile. rewrite G, V, M, O.
  assert (E : forall m, map (field_report (version a) m) (d_fields d) =
    map (fun nf => (fst nf, match snd nf with FTy r => r | FVariant fs => Rep (fst nf) m (version a) KStruct (rev fs) end)) (d_fields d)).
  { intros m. apply map_ext. intros [n [r'|fs]]; reflexivity. }
  destruct (module_value ev path (module a)) as [m|] eqn:Em.
  - destruct (layout_ok d a) eqn:L.
    + apply layout_iff in L. split.
      * intros H. injection H as <-. split; [exact L|]. exists (version a), m. split; [reflexivity|]. split; [reflexivity|].
        unfold macro_report. rewrite E. reflexivity.
      * intros (_ & v & m' & Hv & Hm & ->). injection Hv as <-. injection Hm as <-. unfold macro_report. rewrite E. reflexivity.
    + split; [discriminate|]. intros (H & _). apply layout_iff in H. congruence.
  - split; [discriminate|]. intros (_ & v & m & _ & Hm & _). discriminate Hm.
Qed.
Print Assumptions tyargs_report.

Definition no_ev (_ : list tok) : option (list N) := None.
Definition u8r : report := Rep [117; 56] [99] 0 KStruct [].
Definition s1 : decl := Decl Struct [83] false false 6 4 [([97], FTy u8r)].
Definition e1 : decl := Decl (Enum (Some [117; 56])) [69] false false 8 8 [([65], FTy u8r); ([66], FVariant [([48], u8r); ([49], u8r)])].
Example tyargs_report_ex :
  compile no_ev [112] s1 (written_all [Version "3"] false) = None /\
  compile no_ev [112] s1 (written_all [Version "3"; NoOpt] false) = Some (Rep [83] [112] 3 KStruct [([97], u8r)]) /\
  compile no_ev [112] e1 (written_all [Version "3"; Module [Str [109]]] false)
    = Some (Rep [69] [109] 3 (KEnum [117; 56]) [([66], Rep [66] [109] 3 KStruct [([49], u8r); ([48], u8r)]); ([65], u8r)]).
Proof. vm_compute. auto. Qed.

(** So two builds of a declaration, each with its own settings, are compatible exactly if they ask for the same version and the same module. *)
Theorem tyargs_compatible ev1 ev2 path1 path2 d ss1 ss2 t1 t2 r1 r2 :
  Forall (sensible (d_kind d)) ss1 -> Forall (sensible (d_kind d)) ss2 -> supported ss1 -> supported ss2 ->
  compile ev1 path1 d (written_all ss1 t1) = Some r1 -> compile ev2 path2 d (written_all ss2 t2) = Some r2 ->
  (is_compatible r1 r2 = true <->
   asked_version ss1 = asked_version ss2 /\ module_value ev1 path1 (asked_module ss1) = module_value ev2 path2 (asked_module ss2)).
Proof.
  intros S1 S2 P1 P2 C1 C2.
  destruct (supported_understood _ _ t1 S1 P1) as (a1 & G1 & V1 & M1 & _).
  destruct (supported_understood _ _ t2 S2 P2) as (a2 & G2 & V2 & M2 & _).
  unfold compile in C1, C2. rewrite G1 in C1. rewrite G2 in C2. rewrite V1, V2, M1, M2.
  destruct (module_value ev1 path1 (module a1)) as [m1|]; [|discriminate C1].
  destruct (module_value ev2 path2 (module a2)) as [m2|]; [|discriminate C2].
  destruct (layout_ok d a1); [|discriminate C1]. destruct (layout_ok d a2); [|discriminate C2].
  injection C1 as <-. injection C2 as <-. rewrite report_compat.
  split; intros [A B]; split; congruence.
Qed.
Print Assumptions tyargs_compatible.
Example tyargs_compatible_ex :
  match compile no_ev [112] e1 (written_all [Version "3"] false), compile no_ev [113] e1 (written_all [Module [Str [112]]; Version "03"] true),
        compile no_ev [112] e1 (written_all [Version "4"] false) with
  | Some a, Some b, Some c => is_compatible a b = true /\ is_compatible a c = false
  | _, _, _ => False
  end.
Proof. vm_compute. auto. Qed.

(** Versions that are integer literals of Rust but not in plain decimal make the macro panic. *)
Theorem tyargs_literal_refuted : exists k ss1 ss2 ss3,
  ss1 = [Version "0x10"] /\ ss2 = [Version "1_000"] /\ ss3 = [Version "10u32"] /\
  Forall (sensible k) (ss1 ++ ss2 ++ ss3) /\
  (asked_version ss1 = Some 16 /\ asked_version ss2 = Some 1000 /\ asked_version ss3 = Some 10) /\
  parse k (written_all ss1 false) = None /\ parse k (written_all ss2 false) = None /\ parse k (written_all ss3 false) = None.
Proof.
  exists Struct, [Version "0x10"], [Version "1_000"], [Version "10u32"].
  split; [reflexivity|]. split; [reflexivity|]. split; [reflexivity|].
  split; [|vm_compute; auto]. cbn [app].
  apply Forall_cons; [exists 16; split; vm_compute; reflexivity|]. apply Forall_cons; [exists 1000; split; vm_compute; reflexivity|].
  apply Forall_cons; [exists 10; split; vm_compute; reflexivity|apply Forall_nil].
Qed.
Print Assumptions tyargs_literal_refuted.

(** The last version counts, but two modules are put together, which is no expression. *)
Theorem tyargs_two_modules_refuted : exists d ss, Forall (sensible (d_kind d)) ss /\ asked_module ss = [Str [98]] /\
  (forall ev path, compile ev path d (written_all ss false) = None) /\
  exists r, compile no_ev [112] d (written_all [Module [Str [98]]] false) = Some r.
Proof.
  exists e1, [Module [Str [97]]; Module [Str [98]]]. split; [apply Forall_cons; [exact I|]; apply Forall_cons; [exact I|apply Forall_nil]|]. split; [reflexivity|].
  split; [intros ev path; reflexivity|]. eexists. reflexivity.
Qed.
Print Assumptions tyargs_two_modules_refuted.

(** A comma between angle brackets ends the module: [module = f::<A, B>()] is refused. *)
Theorem tyargs_module_comma_refuted : exists k e, sensible k (Module e) /\
  e = [Id "f"; Other 58; Other 58; Other 60; Id "A"; Comma; Id "B"; Other 62; Grp []] /\
  parse k (written_all [Module e] false) = None.
Proof. exists Struct. eexists. split; [|split; [reflexivity|reflexivity]]. exact I. Qed.
Print Assumptions tyargs_module_comma_refuted.

(** The comma behind the other settings may be left out; without the one behind a module, what follows becomes part of it. *)
Example tyargs_commas_ex :
  parse Struct [Id "no_opt"; Id "version"; Eq; Int "2"; Id "module"; Eq; Str [97]] = Some (Args false 2 [Str [97]]) /\
  parse Struct [Id "module"; Eq; Str [97]; Id "version"; Eq; Int "2"] = Some (Args true 0 [Str [97]; Id "version"; Eq; Int "2"]) /\
  compile no_ev [112] s1 [Id "no_opt"; Comma; Id "module"; Eq; Str [97]; Id "version"; Eq; Int "2"] = None.
Proof. vm_compute. auto. Qed.
