(** Property C104: the checks of layouts at compile time. *)
From Coq Require Import String.
From Coq Require Import List Arith NArith Bool Lia.
From Verif Require Import M_Layout M_Decl M_Check S_Check L_Check.
Import ListNotations.
Local Open Scope string_scope.
Local Open Scope N_scope.
Local Open Scope list_scope.

(** The compiler for x86-64, and for 32-bit x86; for AVR, where everything has alignment 1. *)
Definition nz (p : prim) : bool := match stabby_niche p with A1 => true | _ => false end.
Definition int_size (ptr : N) (p : prim) : N :=
  match p with
  | PUnit | PPhantom | PPinned => 0 | PU16 | PI16 | PAI16 | PAU16 | PNzU16 | PNzI16 => 2
  | PU32 | PI32 | PF32 | PAI32 | PAU32 | PNzU32 | PNzI32 => 4 | PU64 | PI64 | PF64 | PAI64 | PAU64 | PNzU64 | PNzI64 => 8
  | PU128 | PI128 | PNzU128 | PNzI128 => 16
  | PUsize | PIsize | PAIsize | PAUsize | PNzUsize | PNzIsize => ptr
  | _ => 1
  end.
Definition machine_of (ptr : N) (align : prim -> N) : machine :=
  let opt p := match p with PBool | POrdering => 1 | _ => if nz p then int_size ptr p else int_size ptr p + align p end in
  Mach (int_size ptr) align opt (fun p => match p with PBool | POrdering => 1 | _ => int_size ptr p + align p end).
Definition x86_64 : machine := machine_of 8 (fun p => N.max 1 (int_size 8 p)).
Definition i686 : machine :=
  machine_of 4 (fun p => match p with PU64 | PI64 | PNzU64 | PNzI64 | PF64 => 4 | _ => N.max 1 (int_size 4 p) end).
Definition avr : machine := machine_of 2 (fun _ => 1).

(** A check lets through exactly the types of which stabby says what the compiler says: alignments up to a multiple of 256, sizes, and,
    unless several niches are claimed, whether there is none or one. *)
Theorem check_exact : forall f, check f = Compiles <->
  s_align f mod 256 = r_align f mod 256 /\ s_size f = r_size f /\ niches_agree (niche f) (r_size f) (o_size f) (oo_size f).
Proof. exact check_iff. Qed.
Print Assumptions check_exact.
Example check_exact_ex : check (Facts (lit "T") (lit "x86_64") 8 16 A1 8 16 16 24) = Compiles /\
  (exists m, check (Facts (lit "T") (lit "x86_64") 8 16 A1 8 16 24 24) = Error m) /\
  (exists m, check (Facts (lit "T") (lit "x86_64") 8 16 A0 4 12 16 16) = Error m).
Proof. split; [reflexivity|]. split; eexists; vm_compute; reflexivity. Qed.

(** If stabby compiles, its sizes and alignments of all integers, atomics, NonZero integers and bool are those of the compiler,
    checked or not. *)
Theorem check_layouts_partial : forall m arch p, compiles m arch -> (forall q, c_align m q < 256) -> documented m -> integer p = true ->
  stabby_size m p = c_size m p /\ stabby_align m p = c_align m p.
Proof. intros m arch p H S D I. exact (integer_agree m arch p H S D I). Qed.
Print Assumptions check_layouts_partial.
Definition all_compile (m : machine) (a : list N) : bool := forallb (fun p => match check (facts_of m a p) with Compiles => true | _ => false end) checked.
Definition all_compile_ok m a : In (c_size m PUsize) [2; 4; 8] -> all_compile m a = true -> compiles m a.
Proof.
  intros U H. split; [exact U|]. intros p I. unfold all_compile in H. rewrite forallb_forall in H. specialize (H p I).
  destruct (check (facts_of m a p)); [reflexivity|discriminate H|discriminate H].
Qed.
Example check_layouts_ex : compiles x86_64 (lit "x86_64") /\ documented x86_64 /\ (forall q, c_align x86_64 q < 256) /\
  compiles i686 (lit "x86") /\ documented i686 /\ stabby_align i686 PNzI64 = 4 /\ all_compile avr (lit "avr") = false.
Proof.
  split; [apply all_compile_ok; [cbn; tauto|vm_compute; reflexivity]|].
  split; [intros p q E; destruct p; inversion E; split; reflexivity|].
  split; [intros q; destruct q; reflexivity|].
  split; [apply all_compile_ok; [cbn; tauto|vm_compute; reflexivity]|].
  split; [intros p q E; destruct p; inversion E; split; reflexivity|].
  split; [reflexivity|vm_compute; reflexivity].
Qed.

(** The checks refuse no compiler that is as documented. *)
Theorem check_accepts : forall m arch, sane m -> compiles m arch.
Proof. exact sane_compiles. Qed.
Print Assumptions check_accepts.
Example check_accepts_ex : sane x86_64 /\ sane i686 /\ ~ sane avr.
Proof.
  assert (D : forall m, In (c_size m PUsize) [2; 4; 8] ->
    forallb (fun p => c_size m p =? bytes_of (c_size m PUsize) p) checked = true ->
    forallb (fun p => c_align m p =? bytes_of 0 p) [PBool; PABool; PU8; PAI8; PAU8; PU16; PAI16; PAU16; PU32; PAI32; PAU32] = true ->
    forallb (fun p => existsb (N.eqb (c_align m p)) [1; 2; 4; 8; 16]) [PU64; PU128; PAI64] = true ->
    c_align m PAU64 = c_align m PAI64 -> c_align m PNzU64 = c_align m PU64 ->
    c_align m PUsize = (if c_size m PUsize =? 8 then c_align m PU64 else c_size m PUsize) ->
    forallb (fun p => c_align m p =? c_align m PUsize) [PNzUsize; PAIsize; PAUsize] = true ->
    forallb (fun p => match p with PBool | PABool | PNzUsize => true | _ => negb (c_opt m p =? c_size m p) end) checked = true ->
    c_opt m PNzUsize = c_size m PNzUsize -> c_oopt m PNzUsize <> c_size m PNzUsize -> sane m).
  { intros m P Z A L AU NZ U AS O O1 O2. rewrite forallb_forall in Z, A, L, AS, O. split; try assumption.
    - intros p I. now apply N.eqb_eq, Z.
    - intros p I. now apply N.eqb_eq, A.
    - intros p I. apply L in I. apply existsb_exists in I as (x & I & E). apply N.eqb_eq in E. now rewrite E.
    - intros p I. now apply N.eqb_eq, AS.
    - intros p I K. apply O in I. intros E. rewrite E, N.eqb_refl in I. destruct p; try discriminate I; cbn [In] in K; tauto.
    - now split. }
  split; [apply D; try (vm_compute; reflexivity); [cbn; tauto|vm_compute; discriminate]|].
  split; [apply D; try (vm_compute; reflexivity); [cbn; tauto|vm_compute; discriminate]|].
  intros []. specialize (sane_small PU16). cbv in sane_small. discriminate sane_small. tauto.
Qed.

(** stabby says that exactly those integers have one niche of which the compiler makes one [Option] without growing, not two, checked or not;
    and what it says to have none has none. *)
Theorem check_niches : forall m p, documented_options m -> integer p = true ->
  (stabby_niche p = A1 <-> c_opt m p = c_size m p /\ c_oopt m p <> c_size m p) /\ (stabby_niche p = A0 -> c_opt m p <> c_size m p).
Proof.
  intros m p (N1 & N0 & B1 & B2) I. destruct (existsb (fun q => match q, p with PNzU8, PNzU8 | PNzU16, PNzU16 | PNzU32, PNzU32 | PNzU64, PNzU64
    | PNzU128, PNzU128 | PNzUsize, PNzUsize | PNzI8, PNzI8 | PNzI16, PNzI16 | PNzI32, PNzI32 | PNzI64, PNzI64 | PNzI128, PNzI128
    | PNzIsize, PNzIsize => true | _, _ => false end) non_zero) eqn:E.
  - assert (J : In p non_zero) by (destruct p; try discriminate E; cbn; tauto). destruct (N1 p J) as [A B].
    split; [split; [now split|intros _; destruct p; try discriminate E; reflexivity]|].
    intros H. destruct p; try discriminate E; discriminate H.
  - destruct p; try discriminate E; try discriminate I;
      try (split; [split; [discriminate|intros [A _]; exfalso; revert A; apply N0; [reflexivity|cbn [In non_zero]; intuition discriminate]]|
                   intros _; apply N0; [reflexivity|cbn [In non_zero]; intuition discriminate]]).
    split; [split; [discriminate|intros [_ B]; contradiction]|discriminate].
Qed.
Print Assumptions check_niches.
Example check_niches_ex : documented_options i686 /\ stabby_niche PNzI128 = A1 /\ c_opt i686 PNzI128 = 16 /\ c_oopt i686 PNzI128 = 32.
Proof.
  split; [|repeat split; reflexivity]. split; [|split; [|split; reflexivity]].
  - intros p H. cbn [In non_zero] in H. repeat (destruct H as [<-|H]; [split; [reflexivity|discriminate]|]). destruct H.
  - intros p I H. destruct p; try discriminate I; try (vm_compute; discriminate); exfalso; apply H; cbn; tauto.
Qed.

(** The texts that messages start with tell the checked types apart. *)
Theorem check_names : forall p q, In p checked -> In q checked -> text p = text q -> p = q.
Proof.
  intros p q I J E. cbn [In checked] in I, J.
  repeat (destruct I as [<-|I]; [revert E; repeat (destruct J as [<-|J]; [vm_compute; intros E; first [reflexivity|discriminate E]|]); destruct J|]).
  destruct I.
Qed.
Print Assumptions check_names.
Example check_names_ex : text PAU64 = lit "core::sync::atomic::AtomicU64" /\ text PU128 = lit "u128".
Proof. split; vm_compute; reflexivity. Qed.

(** Alignments that differ by a multiple of 256 are not told apart. *)
Theorem check_align_refuted : exists f, s_align f <> r_align f /\ check f = Compiles.
Proof. exists (Facts (lit "T") (lit "x86_64") 256 512 A0 512 512 1024 1024). split; [discriminate|vm_compute; reflexivity]. Qed.
Print Assumptions check_align_refuted.
(** Claims of several niches are not checked. *)
Theorem check_niche_refuted : exists f, niche f = AMany /\ o_size f <> r_size f /\ check f = Compiles.
Proof. exists (Facts (lit "T") (lit "x86_64") 1 1 AMany 1 1 2 2). split; [reflexivity|]. split; [discriminate|vm_compute; reflexivity]. Qed.
Print Assumptions check_niche_refuted.
(** If stabby compiles, floats have their sizes and the alignments of the integers of these sizes. *)
Theorem check_floats : forall m arch, compiles m arch -> (forall q, c_align m q < 256) -> documented m ->
  stabby_size m PF32 = 4 /\ stabby_align m PF32 = c_align m PU32 /\ stabby_size m PF64 = 8 /\ stabby_align m PF64 = c_align m PU64.
Proof.
  intros m arch H S D. destruct (integer_agree m arch PU32 H S D eq_refl) as [_ <-]. destruct (integer_agree m arch PU64 H S D eq_refl) as [_ <-].
  repeat split; reflexivity.
Qed.
Print Assumptions check_floats.
Example check_floats_ex : stabby_size i686 PF64 = 8 /\ stabby_align i686 PF64 = 4.
Proof. split; vm_compute; reflexivity. Qed.
(** Nothing checks the floats: stabby compiles even where the compiler aligns f64 otherwise than u64. *)
Theorem check_float_refuted : exists m arch, compiles m arch /\ documented m /\ (forall q, c_align m q < 256) /\
  c_size m PF64 = 8 /\ stabby_align m PF64 <> c_align m PF64.
Proof.
  exists (machine_of 8 (fun p => match p with PF64 => 4 | _ => N.max 1 (int_size 8 p) end)), (lit "x86_64").
  split; [apply all_compile_ok; [cbn; tauto|vm_compute; reflexivity]|].
  split; [intros p q E; destruct p; inversion E; split; reflexivity|].
  split; [intros q; destruct q; reflexivity|]. split; [reflexivity|vm_compute; discriminate].
Qed.
Print Assumptions check_float_refuted.
(** The checks that are not made of c_void and Ordering, though said to verify them, would fail on every compiler. *)
Theorem check_missing_refuted : forall m arch,
  ~ In PVoid checked /\ ~ In POrdering checked /\
  (c_size m PVoid = 1 -> check (facts_of m arch PVoid) <> Compiles) /\
  (c_size m POrdering = 1 -> c_opt m POrdering = 1 -> check (facts_of m arch POrdering) <> Compiles).
Proof.
  intros m a. split; [cbn; intuition discriminate|]. split; [cbn; intuition discriminate|]. split.
  - intros S E. apply check_iff in E as (_ & E & _). cbn [facts_of s_size r_size] in E. rewrite S in E. discriminate E.
  - intros S O E. apply check_iff in E as (_ & _ & E). cbn [facts_of niche stabby_niche r_size o_size niches_agree] in E. apply E. congruence.
Qed.
Print Assumptions check_missing_refuted.

(** The message names the type, and gives both sizes in decimal when they are what differs. *)
Theorem check_message_partial : forall f m, check f = Error m -> contains m (name f) /\
  (s_size f <> r_size f -> s_size f < 1000000 -> r_size f < 1000000 -> exists t t', decimal t (s_size f) /\ decimal t' (r_size f) /\
    contains m (lit "&body=Stabby%20says%20" ++ t ++ lit "%2C%20Rust%20says%20" ++ t')) /\
  (s_align f < 100 -> r_align f < 100 -> s_align f <> r_align f -> exists t t', decimal t (s_align f) /\ decimal t' (r_align f) /\
    contains m (lit "&body=Stabby%20says%20" ++ t ++ lit "%2C%20Rust%20says%20" ++ t')).
Proof.
  intros f m E. assert (M : m = concat (texts f)).
  { destruct (check_cases f) as [Q|[[_ Q]|[_ Q]]]; rewrite Q in E; try discriminate E. now injection E as <-. }
  split; [|split].
  - destruct (check_cases f) as [Q|[[_ Q]|[T Q]]]; rewrite Q in E; try discriminate E. apply (message_texts f); [rewrite Q; now rewrite M|].
    unfold texts in *. unfold align_texts, size_texts, niche_texts, niche_text in *. cbv zeta in *.
    destruct (s_align f mod 256 =? r_align f mod 256); [|now left]. destruct (s_size f =? r_size f); [|now left]. cbn [app] in *.
    destruct (niche f).
    + destruct (r_size f =? o_size f); [now left|now destruct T].
    + destruct (r_size f =? o_size f); cbn [negb app] in *; [|now left]. destruct (r_size f =? oo_size f); [now left|now destruct T].
    + now destruct T.
  - intros D L L'. exists (fmt6digit (s_size f)), (fmt6digit (r_size f)). split; [now apply decimal6|]. split; [now apply decimal6|].
    rewrite M. unfold texts, size_texts. replace (s_size f =? r_size f) with false by (symmetry; now apply N.eqb_neq).
    pose proof (contains_mid (align_texts f ++ [name f; issue (lit "size was"); name f; lit "%20missized%20on%20"; arch f])
      [lit "&body=Stabby%20says%20"; fmt6digit (s_size f); lit "%2C%20Rust%20says%20"; fmt6digit (r_size f)] (crlf :: niche_texts f)) as C.
    cbn [concat] in C. rewrite (app_nil_r (fmt6digit (r_size f))) in C. apply C. rewrite <- app_assoc. reflexivity.
  - intros L L' D. exists (fmt2digit (s_align f)), (fmt2digit (r_align f)). split; [now apply decimal2|]. split; [now apply decimal2|].
    rewrite M. unfold texts, align_texts. cbv zeta. rewrite !N.mod_small by lia. replace (s_align f =? r_align f) with false by (symmetry; now apply N.eqb_neq).
    pose proof (contains_mid [name f; issue (lit "alignment was"); name f; lit "%20misaligned%20on%20"; arch f]
      [lit "&body=Stabby%20says%20"; fmt2digit (s_align f); lit "%2C%20Rust%20says%20"; fmt2digit (r_align f)] (crlf :: size_texts f ++ niche_texts f)) as C.
    cbn [concat] in C. rewrite (app_nil_r (fmt2digit (r_align f))) in C. apply C. reflexivity.
Qed.
Print Assumptions check_message_partial.
Example check_message_ex : check (Facts (lit "u16") (lit "avr") 2 2 A0 1 2 3 3) =
  Error (lit "u16's alignment was mis-evaluated by stabby, this is definitely a bug and may cause UB. Please create an issue using this link: https://github.com/ZettaScaleLabs/stabby/issues/new?title=u16%20misaligned%20on%20avr&body=Stabby%20says%2002%2C%20Rust%20says%2001" ++ [13; 10]).
Proof. vm_compute. reflexivity. Qed.
(** It gives no number for alignments from 100 on; and there is none when the text does not fit. *)
Theorem check_message_refuted : (exists f m, check f = Error m /\ s_align f = 128 /\ r_align f = 64 /\
    contains m (lit "&body=Stabby%20says%20<8%2C%20Rust%20says%2064")) /\
  (exists f, check f = OutOfBounds /\ name f = text PNzUsize /\ arch f = lit "x86_64").
Proof.
  split.
  - exists (Facts (lit "T") (lit "x86_64") 128 128 A0 64 128 192 192). eexists. split; [vm_compute; reflexivity|]. split; [reflexivity|]. split; [reflexivity|].
    exists (firstn 212 (concat (align_texts (Facts (lit "T") (lit "x86_64") 128 128 A0 64 128 192 192)))), [13; 10]. vm_compute. reflexivity.
  - exists (Facts (text PNzUsize) (lit "x86_64") 8 8 A1 4 4 8 4). split; [vm_compute; reflexivity|]. split; reflexivity.
Qed.
Print Assumptions check_message_refuted.
(** It fits for all types that are checked but NonZeroUsize, whatever is wrong with them. *)
Theorem check_room_partial : forall m arch p, In p checked -> p <> PNzUsize -> (List.length arch <= 12)%nat -> check (facts_of m arch p) <> OutOfBounds.
Proof.
  intros m a p I N L. apply room; cbn [facts_of niche name arch].
  - destruct p; cbn [stabby_niche]; try discriminate; exfalso; cbn in I; intuition discriminate.
  - assert (T : (List.length (text p) <= 31)%nat).
    { cbn in I. repeat (destruct I as [<-|I]; [vm_compute; repeat constructor|]). destruct I. }
    lia.
Qed.
Print Assumptions check_room_partial.
Example check_room_ex : exists m, check (facts_of avr (lit "avr") PAU32) = Error m.
Proof. eexists. vm_compute. reflexivity. Qed.
