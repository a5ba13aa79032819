(** C101: what the build script of stabby-abi writes: names of numbers, tuples, the default allocator. *)
From Coq Require Import String Ascii.
From Coq Require Import List Arith NArith Bool Lia.
From Verif Require Import M_Typenum S_Typenum L_Typenum M_Closure L_Closure M_BuildRs S_BuildRs L_BuildRs.
Import ListNotations.
Local Open Scope string_scope.
Local Open Scope N_scope.
Local Open Scope list_scope.
Ltac Zify.zify_post_hook ::= idtac.

(** The script does not overflow; every name it defines spells one number, and is defined as the one type for that number. *)
Theorem alias_exact : exists l, typenum_unsigned = Some l /\ forall a, In a l ->
  exists n, n < 2 ^ 128 /\ (forall m, spelled (a_name a) m <-> m = n) /\ forall u, denotes (a_type a) u <-> u = enc n.
Proof.
  exists alias_list. split; [exact typenum_some|]. intros a H. destruct (alias_in a H) as (f & k & K & N1 & T).
  exists (stands_for f k). split; [apply expected_small, keys_expected; exact K|].
  assert (S : spelled (a_name a) (stands_for f k)) by (exists f, k; rewrite N1; split; [apply name_names|reflexivity]).
  split.
  - intros m. split; [intros M; exact (spelled_det _ _ _ M S)|intros ->; exact S].
  - intros u. rewrite T, <- build_u_enc. split; [|intros ->; apply u_text_denotes].
    intros D. exact (denotes_det _ _ D _ (u_text_denotes _)).
Qed.
Print Assumptions alias_exact.
Example alias_exact_ex :
  (exists l, typenum_unsigned = Some l /\ In (Alias "60" "Ux3C" "UInt<UInt<UInt<UInt<UInt<UInt<UTerm, B1>, B1>, B1>, B1>, B0>, B0>") l) /\
  spelled "Ux3C" 60 /\ enc 6 = UInt (UInt (UInt UTerm true) true) false.
Proof.
  split; [|split; [|reflexivity]].
  - exists alias_list. split; [exact typenum_some|]. unfold alias_list. apply in_app_iff. left. apply in_flat_map. exists 60.
    split; [apply in_range; lia|]. vm_compute. auto.
  - exists Hex, 60. split; [|reflexivity]. exists "3C". split; [reflexivity|]. split; [reflexivity|]. split; [discriminate|]. intros r H. discriminate H.
Qed.

(** No name is defined twice. *)
Theorem alias_distinct l : typenum_unsigned = Some l -> NoDup (map a_name l).
Proof. rewrite typenum_some. intros H. assert (E : alias_list = l) by congruence. rewrite <- E. exact alias_names_nodup. Qed.
Print Assumptions alias_distinct.
Example alias_distinct_ex : exists l, typenum_unsigned = Some l /\ length l = 3393%nat.
Proof. exists alias_list. split; [exact typenum_some|]. rewrite <- (map_length content), alias_content, map_length. vm_compute. reflexivity. Qed.

(** The names that are defined: up to a thousand in three bases; powers of ten in three bases; powers of two; the latter two with their exponents as well. *)
Theorem alias_present_partial l f k : typenum_unsigned = Some l -> ((exists a, In a l /\ names_it f k (a_name a)) <-> expected f k).
Proof.
  rewrite typenum_some. intros H. assert (E : alias_list = l) by congruence. rewrite <- E. rewrite <- keys_expected. split.
  - intros (a & A & M). destruct (alias_in a A) as (f' & k' & K & N1 & _). rewrite N1 in M.
    destruct (names_det _ _ _ _ _ M (name_names f' k')) as [-> ->]. exact K.
  - intros K. destruct (key_in f k K) as (a & A & N1 & _). exists a. split; [exact A|]. rewrite N1. apply name_names.
Qed.
Print Assumptions alias_present_partial.
Example alias_present_ex : expected Dec 1024 /\ expected Hex 10000 /\ expected Pow2 127 /\ ~ expected Dec 1001.
Proof.
  split; [right; right; exists 10; split; [reflexivity|reflexivity]|]. split; [right; exists 4; split; reflexivity|]. split; [reflexivity|].
  cbn [expected]. intros [H|[(i & L & H)|(i & L & H)]]; [lia| |].
  - destruct (N.le_gt_cases i 3) as [B|B]; [assert (10 ^ i <= 10 ^ 3) by (apply N.pow_le_mono_r; lia)|assert (10 ^ 4 <= 10 ^ i) by (apply N.pow_le_mono_r; lia)]; lia.
  - destruct (N.le_gt_cases i 9) as [B|B]; [assert (2 ^ i <= 2 ^ 9) by (apply N.pow_le_mono_r; lia)|assert (2 ^ 10 <= 2 ^ i) by (apply N.pow_le_mono_r; lia)]; lia.
Qed.

(** Powers of two above a thousand have no hexadecimal and no binary name, though powers of ten have: there is [U1024], but no [Ux400]. *)
Theorem alias_hex_refuted : exists l i, typenum_unsigned = Some l /\
  (exists a, In a l /\ names_it Dec (2 ^ i) (a_name a)) /\
  (forall a, In a l -> ~ names_it Hex (2 ^ i) (a_name a)) /\ (forall a, In a l -> ~ names_it Bin (2 ^ i) (a_name a)).
Proof.
  exists alias_list, 10. split; [exact typenum_some|].
  assert (X : forall i, 1024 <> 10 ^ i).
  { intros i H. destruct (N.le_gt_cases i 3) as [B|B];
      [assert (10 ^ i <= 10 ^ 3) by (apply N.pow_le_mono_r; lia)|assert (10 ^ 4 <= 10 ^ i) by (apply N.pow_le_mono_r; lia)]; lia. }
  change (2 ^ 10) with 1024.
  split; [apply (alias_present_partial _ _ _ typenum_some); cbn [expected]; right; right; exists 10; split; reflexivity|].
  split; intros a A M.
  - assert (E : expected Hex 1024) by (apply (alias_present_partial _ _ _ typenum_some); exists a; auto).
    destruct E as [E|(i & _ & E)]; [lia|exact (X i E)].
  - assert (E : expected Bin 1024) by (apply (alias_present_partial _ _ _ typenum_some); exists a; auto).
    destruct E as [E|(i & _ & E)]; [lia|exact (X i E)].
Qed.
Print Assumptions alias_hex_refuted.

(** Names that write out a number up to a thousand are documented by it. *)
Theorem alias_doc_partial l a f k : typenum_unsigned = Some l -> In a l -> names_it f k (a_name a) -> (f = Dec \/ f = Hex \/ f = Bin) -> k <= 1000 -> writes 10 (a_doc a) k.
Proof.
  rewrite typenum_some. intros H A M F L. assert (E : alias_list = l) by congruence. rewrite <- E in A. clear E H.
  unfold alias_list in A. rewrite !in_app_iff, !in_flat_map in A. destruct A as [(i & R & A)|[(i & R & A)|(i & R & A)]].
  - assert (W : k = i).
    { destruct A as [<-|[<-|[<-|[]]]]; cbn [a_name] in M;
        [destruct (names_det _ _ _ _ _ M (name_names Dec i))|destruct (names_det _ _ _ _ _ M (name_names Hex i))|destruct (names_det _ _ _ _ _ M (name_names Bin i))]; assumption. }
    subst k. destruct A as [<-|[<-|[<-|[]]]]; cbn [a_doc]; apply fmt_writes; lia.
  - exfalso. apply in_range in R. pose proof (pow10_some i R) as P. unfold pow10_aliases in P. destruct (10 ^ i <? 2 ^ 128); [|discriminate P].
    injection P as P. rewrite <- P in A. clear P. destruct A as [<-|A]; cbn [a_name] in M.
    + destruct (names_det _ _ _ _ _ M (name_names Pow10 i)) as [-> _]. destruct F as [F|[F|F]]; discriminate F.
    + destruct (SEQ_MAX <? 10 ^ i) eqn:B; [|destruct A]. apply N.ltb_lt in B. unfold SEQ_MAX in B.
      destruct A as [<-|[<-|[<-|[]]]]; cbn [a_name] in M;
        [destruct (names_det _ _ _ _ _ M (name_names Dec (10 ^ i)))|destruct (names_det _ _ _ _ _ M (name_names Hex (10 ^ i)))|destruct (names_det _ _ _ _ _ M (name_names Bin (10 ^ i)))]; lia.
  - exfalso. apply in_range in R. assert (Q : N.shiftl 1 i = 2 ^ i) by (rewrite N.shiftl_mul_pow2; lia).
    unfold g3, pow2_aliases in A. apply N.ltb_lt in R. rewrite R, Q in A. cbv beta iota zeta in A. destruct A as [<-|A]; cbn [a_name] in M.
    + destruct (names_det _ _ _ _ _ M (name_names Pow2 i)) as [-> _]. destruct F as [F|[F|F]]; discriminate F.
    + destruct (SEQ_MAX <? 2 ^ i) eqn:B; [|destruct A]. apply N.ltb_lt in B. unfold SEQ_MAX in B.
      destruct A as [<-|[]]. cbn [a_name] in M. destruct (names_det _ _ _ _ _ M (name_names Dec (2 ^ i))). lia.
Qed.
Print Assumptions alias_doc_partial.
Example alias_doc_ex : In (Alias "255" "UxFF" (u_text 255)) alias_list /\ names_it Hex 255 "UxFF" /\ writes 10 "255" 255.
Proof.
  split; [|split].
  - unfold alias_list. apply in_app_iff. left. apply in_flat_map. exists 255. split; [apply in_range; lia|]. right. left. reflexivity.
  - exact (name_names Hex 255).
  - apply (fmt_writes 10 255); lia.
Qed.

(** The others are documented by an exponent: [U10000], [Ux2710], and [U10pow4] by 4. *)
Theorem alias_doc_refuted : exists l i, typenum_unsigned = Some l /\ i = 4 /\
  (exists a, In a l /\ names_it Dec (10 ^ i) (a_name a) /\ a_doc a = "4") /\ (exists a, In a l /\ names_it Hex (10 ^ i) (a_name a) /\ a_doc a = "4") /\
  (exists a, In a l /\ names_it Pow10 i (a_name a) /\ a_doc a = "4").
Proof.
  exists alias_list, 4. split; [exact typenum_some|]. split; [reflexivity|].
  assert (I2 : forall a, In a (g2 4) -> In a alias_list).
  { intros a A. unfold alias_list. apply in_app_iff. right. apply in_app_iff. left. apply in_flat_map. exists 4. split; [apply in_range; lia|exact A]. }
  split; [|split].
  - exists (Alias "4" (name Dec 10000) (u_text 10000)). split; [apply I2; right; left; reflexivity|]. split; [apply name_names|reflexivity].
  - exists (Alias "4" (name Hex 10000) (u_text 10000)). split; [apply I2; right; right; left; reflexivity|]. split; [apply name_names|reflexivity].
  - exists (Alias "4" (name Pow10 4) (u_text 10000)). split; [apply I2; left; reflexivity|]. split; [apply name_names|reflexivity].
Qed.
Print Assumptions alias_doc_refuted.

(** Tuples have as many elements as asked for by [--cfg stabby_max_tuple], at least ten; 32 if it asks for no number. *)
Theorem tuple_present env : exists n, asked_tuple env n /\ 10 <= n /\ (forall m, asked_tuple env m -> m = n) /\
  (forall i, (exists t ds, In t (written_tuples env) /\ t_name t = String.append "Tuple" ds /\ writes 10 ds i) <-> i <= n) /\
  NoDup (map t_name (written_tuples env)).
Proof.
  exists (max_tuple env). split; [apply max_asked|]. split; [unfold max_tuple; lia|].
  split; [intros m H; exact (asked_det _ _ _ H (max_asked env))|]. unfold written_tuples, tuples. split.
  - intros i. split.
    + intros (t & ds & H & E & W). apply in_map_iff in H. destruct H as (j & <- & J). apply in_range in J. cbn [tuple_of t_name] in E.
      apply append_cancel in E. subst ds. destruct W as [V _]. destruct (fmt_writes 10 j) as [V' _]; [lia|lia|]. assert (i = j) by congruence. lia.
    + intros L. exists (tuple_of i), (fmt 10 i). split; [apply in_map, in_range; lia|]. split; [reflexivity|]. apply fmt_writes; lia.
  - rewrite map_map. apply map_nodup; [|apply range_nodup]. intros x y _ _ H. cbn [tuple_of t_name] in H. apply append_cancel in H. apply fmt_inj in H; [exact H|lia|lia].
Qed.
Print Assumptions tuple_present.
Example tuple_present_ex : asked_tuple None 32 /\ asked_tuple (Some "40") 40 /\ asked_tuple (Some "+3") 10 /\ asked_tuple (Some "40,50") 32 /\
  asked_tuple (Some "99999999999999999999") 32 /\ length (written_tuples (Some "012")) = 13%nat.
Proof.
  split; [exact (max_asked None)|]. split; [exact (max_asked (Some "40"))|]. split; [exact (max_asked (Some "+3"))|].
  split; [exact (max_asked (Some "40,50"))|]. split; [exact (max_asked (Some "99999999999999999999"))|]. reflexivity.
Qed.

(** Conversions from and to tuples of Rust keep all elements, in order; the fields have the types of the parameters, in order. *)
Theorem tuple_round_trip env t : In t (written_tuples env) -> exists i ds, t_name t = String.append "Tuple" ds /\ writes 10 ds i /\
  NoDup (t_generics t) /\
  (forall (V : Type) (vs ws : list V), from_tuple t vs = Some ws <-> ws = vs /\ length vs = N.to_nat i) /\
  (forall (V : Type) (vs ws : list V), into_tuple t vs = Some ws <-> ws = vs /\ length vs = N.to_nat i) /\
  (forall (T : Type) (ts us : list T), field_types t ts = Some us <-> us = ts /\ length ts = N.to_nat i).
Proof.
  intros H. apply in_map_iff in H. destruct H as (i & <- & _). exists i, (fmt 10 i). split; [reflexivity|]. split; [apply fmt_writes; lia|].
  split; [apply names_nodup|].
  assert (G : forall A (vs ws : list A), (if Nat.eqb (N.to_nat i) (length vs) then Some vs else None) = Some ws <-> ws = vs /\ length vs = N.to_nat i).
  { intros A vs ws. destruct (Nat.eqb_spec (N.to_nat i) (length vs)) as [E|E].
    - split; [intros Q; injection Q as <-; auto|intros [-> _]; reflexivity].
    - split; [discriminate|intros [_ Q]; congruence]. }
  split; [|split]; intros A vs ws.
  - unfold from_tuple. cbn [tuple_of t_from_pat t_from_args t_fields]. rewrite !names_length, Nat.eqb_refl. rewrite (through "field" i vs). apply G.
  - unfold into_tuple. cbn [tuple_of t_into_pat t_into_args]. rewrite (through "field" i vs). apply G.
  - unfold field_types. cbn [tuple_of t_generics t_fields]. rewrite (through "T" i vs). apply G.
Qed.
Print Assumptions tuple_round_trip.
Example tuple_round_trip_ex : In (tuple_of 3) (written_tuples (Some "0")) /\ t_name (tuple_of 3) = "Tuple3" /\
  from_tuple (tuple_of 3) [true; false; false] = Some [true; false; false] /\ into_tuple (tuple_of 12) (range 12) = Some (range 12).
Proof. split; [apply in_map, in_range; vm_compute; reflexivity|]. vm_compute. auto. Qed.

(** The default allocator, if no cfg asks for one: Rust's with [alloc-rs], else libc's with [libc], else none; except on wasm32, where libc's does not exist. *)
Theorem alloc_default_partial c : c_wasm c = false \/ c_alloc_rs c = true \/ c_libc c = false ->
  default_allocator None c = Some (if c_alloc_rs c then RustAlloc else if c_libc c then LibcAlloc else Disabled).
Proof. destruct c as [[] [] []]; cbn [c_wasm c_alloc_rs c_libc]; intros [H|[H|H]]; try discriminate H; reflexivity. Qed.
Print Assumptions alloc_default_partial.
Example alloc_default_ex : default_allocator None (Config false true false) = Some LibcAlloc /\ default_allocator None (Config false false true) = Some Disabled.
Proof. vm_compute. auto. Qed.

(** With [libc] and without [alloc-rs] on wasm32 the script asks for an allocator that does not exist: the crate does not compile. *)
Theorem alloc_wasm_refuted : exists c, c_libc c = true /\ default_allocator None c = None.
Proof. exists (Config false true true). split; reflexivity. Qed.
Print Assumptions alloc_wasm_refuted.

(** A cfg decides, if it is one of the three names and the type exists. *)
Theorem alloc_given_partial s c a : default_allocator (Some [s]) c = Some a <-> s = cfg_name a /\ type_exists c a = true.
Proof.
  unfold default_allocator, default_alloc_cfg.
  assert (D : forall b, (if in_dec string_dec (cfg_name b) [s] then true else false) = true <-> s = cfg_name b).
  { intros b. destruct (in_dec string_dec (cfg_name b) [s]) as [[E|[]]|E]; [tauto|]. split; [discriminate|]. intros ->. destruct E. left. reflexivity. }
  pose proof (D RustAlloc) as D1. pose proof (D LibcAlloc) as D2. pose proof (D Disabled) as D3. clear D. cbn [filter].
  destruct (if in_dec string_dec (cfg_name RustAlloc) [s] then true else false).
  - assert (s = cfg_name RustAlloc) by tauto. subst s. cbn. destruct (c_alloc_rs c) eqn:E.
    + split; [intros H; injection H as <-; auto|]. intros [H _]. destruct a; [reflexivity|discriminate H..].
    + split; [discriminate|]. intros [H T]. destruct a; [cbn in T; congruence|discriminate H..].
  - destruct (if in_dec string_dec (cfg_name LibcAlloc) [s] then true else false).
    + assert (s = cfg_name LibcAlloc) by tauto. subst s. cbn. destruct (c_libc c && negb (c_wasm c)) eqn:E.
      * split; [intros H; injection H as <-; auto|]. intros [H _]. destruct a; [discriminate H|reflexivity|discriminate H].
      * split; [discriminate|]. intros [H T]. destruct a; [discriminate H|cbn in T; congruence|discriminate H].
    + destruct (if in_dec string_dec (cfg_name Disabled) [s] then true else false).
      * assert (s = cfg_name Disabled) by tauto. subst s. cbn. split; [intros H; injection H as <-; auto|]. intros [H _]. destruct a; [discriminate H..|reflexivity].
      * split; [discriminate|]. intros [-> _]. exfalso. destruct a; [pose proof (proj2 D1 eq_refl) as Q|pose proof (proj2 D2 eq_refl) as Q|pose proof (proj2 D3 eq_refl) as Q]; discriminate Q.
Qed.
Print Assumptions alloc_given_partial.
Example alloc_given_ex : default_allocator (Some ["LibcAlloc"]) (Config true true false) = Some LibcAlloc /\ default_allocator (Some ["disabled"]) (Config true false false) = Some Disabled.
Proof. vm_compute. auto. Qed.

(** Not "regardless of feature flags" (alloc/mod.rs:53): without the feature the type is not there; and two values are one too many. *)
Theorem alloc_given_refuted : exists c a b, a <> b /\ c_alloc_rs c = true /\ default_allocator (Some [cfg_name b]) c = None /\
  default_allocator (Some [cfg_name a; "disabled"]) c = None.
Proof. exists (Config true false false), RustAlloc, LibcAlloc. split; [discriminate|]. vm_compute. auto. Qed.
Print Assumptions alloc_given_refuted.
