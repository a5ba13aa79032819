(** Lemmas on canaries. *)
From Coq Require Import List FinFun Arith NArith Bool String Lia ZifyBool ZifyN.
From Verif Require Import M_Canary S_Canary.
Import ListNotations.
Local Open Scope N_scope.
Local Open Scope list_scope.

Lemma str_eqb_eq : forall a b, str_eqb a b = true <-> a = b.
Proof.
  induction a as [|x a IH]; intros [|y b]; cbn; split; intros H; try discriminate; auto.
  - apply andb_true_iff in H. destruct H as [H1 H2]. apply N.eqb_eq in H1. apply IH in H2. congruence.
  - injection H as -> ->. rewrite N.eqb_refl. apply IH. reflexivity.
Qed.
Lemma exists_str : forall s l, existsb (str_eqb s) l = true <-> In s l.
Proof.
  intros s l. rewrite existsb_exists. split.
  - intros (x & H & E). apply str_eqb_eq in E. congruence.
  - intros H. exists s. split; [exact H|]. now apply str_eqb_eq.
Qed.

(** The parser. *)
Lemma join_cons : forall x y r, join (x :: y :: r) = x ++ [44] ++ join (y :: r).
Proof. reflexivity. Qed.
Lemma split_ne : forall s, split_comma s <> [].
Proof.
  intros [|c s]; cbn; [discriminate|]. destruct (N.eqb c 44); [discriminate|].
  destruct (split_comma s); discriminate.
Qed.
Lemma join_split : forall s, join (split_comma s) = s.
Proof.
  induction s as [|c s IH]; [reflexivity|]. cbn [split_comma].
  destruct (N.eqb_spec c 44) as [->|Hc].
  - pose proof (split_ne s). destruct (split_comma s) as [|p ps] eqn:E; [congruence|].
    rewrite join_cons, IH. reflexivity.
  - pose proof (split_ne s). destruct (split_comma s) as [|p ps] eqn:E; [congruence|].
    destruct ps as [|q ps].
    + cbn in *. congruence.
    + rewrite join_cons in *. cbn in *. congruence.
Qed.
Lemma split_piece : forall p, ~ In 44 p -> split_comma p = [p].
Proof.
  induction p as [|c p IH]; intros H; [reflexivity|]. cbn.
  destruct (N.eqb_spec c 44); [exfalso; apply H; now left|].
  rewrite IH; [reflexivity|]. intros K. apply H. now right.
Qed.
Lemma split_app : forall p r, ~ In 44 p -> split_comma (p ++ 44 :: r) = p :: split_comma r.
Proof.
  induction p as [|c p IH]; intros r H; [reflexivity|]. cbn.
  destruct (N.eqb_spec c 44); [exfalso; apply H; now left|].
  rewrite IH; [reflexivity|]. intros K. apply H. now right.
Qed.
Lemma split_join : forall l, l <> [] -> Forall (fun p => ~ In 44 p) l -> split_comma (join l) = l.
Proof.
  induction l as [|p l IH]; intros Hn H; [congruence|]. inversion H as [|? ? Hp Hl]; subst.
  destruct l as [|q l].
  - cbn. now apply split_piece.
  - rewrite join_cons. cbn [app]. rewrite split_app by exact Hp. rewrite IH; [reflexivity|discriminate|exact Hl].
Qed.
Lemma trim_start_spaces : forall a s, trim_start (spaces a ++ s) = trim_start s.
Proof. induction a; intros s; cbn; auto. Qed.
Lemma trim_start_dec : forall s, exists a, s = spaces a ++ trim_start s.
Proof.
  induction s as [|c s [a IH]]; [exists 0%nat; reflexivity|]. cbn.
  destruct (N.eqb_spec c 32) as [->|].
  - exists (S a). cbn. f_equal. exact IH.
  - exists 0%nat. reflexivity.
Qed.
Lemma rev_spaces : forall n, rev (spaces n) = spaces n.
Proof.
  intros n. unfold spaces. induction n; [reflexivity|]. cbn. rewrite IHn.
  clear IHn. induction n; [reflexivity|]. cbn. congruence.
Qed.
Lemma trim_dec : forall s, exists a b, s = spaces a ++ trim s ++ spaces b.
Proof.
  intros s. destruct (trim_start_dec s) as [a Ha].
  destruct (trim_start_dec (rev (trim_start s))) as [b Hb].
  exists a, b. unfold trim. rewrite Ha at 1. f_equal.
  apply (f_equal (@rev N)) in Hb. rewrite rev_involutive, rev_app_distr, rev_spaces in Hb. exact Hb.
Qed.
Lemma trim_padded : forall a n b, n <> [] -> hd 0 n <> 32 -> hd 0 (rev n) <> 32 ->
  trim (spaces a ++ n ++ spaces b) = n.
Proof.
  intros a n b Hn Hh Ht. unfold trim. rewrite trim_start_spaces.
  destruct n as [|c n]; [congruence|]. cbn in Hh.
  replace (trim_start ((c :: n) ++ spaces b)) with ((c :: n) ++ spaces b).
  2:{ cbn. destruct (N.eqb_spec c 32); congruence. }
  rewrite rev_app_distr, rev_spaces, trim_start_spaces.
  destruct (rev (c :: n)) as [|d m] eqn:E.
  - exfalso. apply (f_equal (@rev N)) in E. rewrite rev_involutive in E. discriminate.
  - cbn in Ht. cbn. destruct (N.eqb_spec d 32); [congruence|]. rewrite <- E. apply rev_involutive.
Qed.

(** The set of canaries of a list of names, as bits. *)
Definition bits (l : list canary) : N := fold_right (fun c a => N.lor (N.shiftl 1 (bit_of c)) a) 0 l.
Lemma bits_spec : forall l c, N.testbit (bits l) (bit_of c) = true <-> In c l.
Proof.
  induction l as [|d l IH]; intros c.
  - cbn [bits fold_right In]. rewrite N.bits_0. split; [discriminate|tauto].
  - cbn [bits fold_right]. fold (bits l). rewrite N.lor_spec, orb_true_iff, IH.
    assert (E : N.testbit (N.shiftl 1 (bit_of d)) (bit_of c) = true <-> d = c).
    { destruct d, c; vm_compute; split; congruence. }
    rewrite E. cbn. tauto.
Qed.
Lemma find_names : forall n spec, find_canary canary_array n = Some spec ->
  exists cs, names_canaries n cs /\ spec = bits cs.
Proof.
  intros n spec. unfold canary_array. cbn [find_canary].
  repeat match goal with
  | |- context [str_eqb ?a n] => destruct (str_eqb a n) eqn:?E
  end; intros H; try discriminate; injection H as <-;
  match goal with E : str_eqb _ n = true |- _ => apply str_eqb_eq in E; subst n end;
  eexists; (split; [constructor | vm_compute; reflexivity]).
Qed.
Lemma names_find : forall n cs, names_canaries n cs -> find_canary canary_array n = Some (bits cs).
Proof. intros n cs []; vm_compute; reflexivity. Qed.
Lemma names_fun : forall n cs cs', names_canaries n cs -> names_canaries n cs' -> cs = cs'.
Proof. intros n cs cs' [] H; inversion H; reflexivity. Qed.
Lemma names_trim : forall n cs a b, names_canaries n cs -> trim (spaces a ++ n ++ spaces b) = n.
Proof. intros n cs a b []; apply trim_padded; vm_compute; discriminate. Qed.
Lemma bits_lt : forall l, bits l < 64.
Proof.
  induction l as [|c l IH]; [reflexivity|]. cbn [bits fold_right]. fold (bits l).
  assert (K : forall a b, a < 64 -> b < 64 -> N.lor a b < 64).
  { intros a b Ha Hb. change 64 with (2 ^ 6) in *.
    destruct (N.eq_dec (N.lor a b) 0) as [->|Hne]; [reflexivity|].
    apply N.log2_lt_pow2; [lia|]. rewrite N.log2_lor.
    apply N.max_lub_lt.
    - destruct (N.eq_dec a 0) as [->|]; [reflexivity|]. apply N.log2_lt_pow2; lia.
    - destruct (N.eq_dec b 0) as [->|]; [reflexivity|]. apply N.log2_lt_pow2; lia. }
  apply K; [|exact IH]. destruct c; reflexivity.
Qed.

Lemma parse_sound : forall l this spec, parse_requests this l = Some spec ->
  (Forall (fun p => exists cs, names_canaries (trim p) cs) l) /\
  (forall c, N.testbit spec (bit_of c) = true <-> N.testbit this (bit_of c) = true \/ requested (map trim l) c) /\
  (this < 64 -> spec < 64).
Proof.
  induction l as [|p l IH]; intros this spec H; cbn [parse_requests] in H.
  - injection H as <-. split; [constructor|]. split; [|auto]. intros c. split; [auto|].
    intros [H|(n & cs & [] & _)]; exact H.
  - destruct (find_canary canary_array (trim p)) as [sp|] eqn:E; [|discriminate].
    apply find_names in E. destruct E as (cs & Hn & ->).
    apply IH in H. destruct H as (H1 & H2 & H3). split; [constructor; eauto|]. split.
    + intros c. rewrite H2, N.lor_spec, orb_true_iff, bits_spec. split.
      * intros [[A|A]|(n & cs' & I & R)]; [now left | right | right].
        -- exists (trim p), cs. split; [now left|]. auto.
        -- exists n, cs'. split; [now right|]. exact R.
      * intros [A|(n & cs' & [<-|I] & R & Q)]; [now left; left | |].
        -- left; right. rewrite (names_fun _ _ _ Hn R). exact Q.
        -- right. exists n, cs'. auto.
    + intros Ht. apply H3. pose proof (bits_lt cs).
      change 64 with (2 ^ 6) in *. destruct (N.eq_dec (N.lor this (bits cs)) 0) as [->|Hne]; [reflexivity|].
      apply N.log2_lt_pow2; [lia|]. rewrite N.log2_lor. apply N.max_lub_lt.
      * destruct (N.eq_dec this 0) as [->|]; [reflexivity|]. apply N.log2_lt_pow2; lia.
      * destruct (N.eq_dec (bits cs) 0) as [->|]; [reflexivity|]. apply N.log2_lt_pow2; lia.
Qed.
Lemma parse_complete : forall l this, Forall (fun p => exists cs, names_canaries (trim p) cs) l ->
  exists spec, parse_requests this l = Some spec.
Proof.
  induction l as [|p l IH]; intros this H; cbn [parse_requests]; [eauto|].
  inversion H as [|? ? [cs Hp] Hl]; subst. rewrite (names_find _ _ Hp). apply IH. exact Hl.
Qed.

Lemma from_str_sound : forall s spec, s <> [] -> from_str s = Some spec ->
  exists reqs, s = join (map padded reqs) /\ reqs <> [] /\
    Forall (fun r => exists cs, names_canaries (request_name r) cs) reqs /\
    (forall c, selects spec c <-> requested (map request_name reqs) c) /\ spec < 64.
Proof.
  intros s spec Hs H. unfold from_str in H. destruct s as [|c0 s0] eqn:Es; [congruence|].
  rewrite <- Es in *. clear Hs.
  destruct (existsb _ s); [discriminate|].
  apply parse_sound in H. destruct H as (H1 & H2 & H3).
  assert (G : exists reqs, split_comma s = map padded reqs /\ map request_name reqs = map trim (split_comma s)).
  { generalize (split_comma s). intros l. induction l as [|p l (reqs & A & B)]; [exists []; auto|].
    destruct (trim_dec p) as (a & b & Hp). exists ((a, trim p, b) :: reqs). split; [|cbn; now f_equal].
    cbn [map]. rewrite <- A. f_equal. exact Hp. }
  destruct G as (reqs & A & B). exists reqs.
  split; [rewrite <- A; symmetry; apply join_split|].
  split; [intros ->; apply (split_ne s); exact A|].
  split.
  { assert (F : Forall (fun n => exists cs, names_canaries n cs) (map request_name reqs)).
    { rewrite B. apply Forall_map. exact H1. }
    rewrite Forall_forall in F |- *. intros r I. apply F. now apply in_map. }
  split; [|apply H3; reflexivity].
  intros c. unfold selects. rewrite H2, B, N.bits_0. intuition discriminate.
Qed.
Lemma Forall_fst_snd : forall (l : list (nat * list N * nat)) (P : list N -> Prop),
  Forall (fun r => P (request_name r)) l -> forall n, In n (map request_name l) -> P n.
Proof. intros l P H n I. apply in_map_iff in I. destruct I as (r & <- & I). rewrite Forall_forall in H. auto. Qed.
Lemma from_str_complete : forall reqs, reqs <> [] ->
  Forall (fun r => no_underscore (request_name r) /\ exists cs, names_canaries (request_name r) cs) reqs ->
  exists spec, from_str (join (map padded reqs)) = Some spec /\
    (forall c, selects spec c <-> requested (map request_name reqs) c) /\ spec < 64.
Proof.
  intros reqs Hn H.
  assert (Hchars : forall r, In r reqs -> forall x, In x (padded r) ->
     (is_alphabetic x || N.eqb x 32) = true).
  { intros [[a n] b] I x Ix. rewrite Forall_forall in H. destruct (H _ I) as (Hu & cs & Hc). cbn in Hu, Hc, Ix.
    apply in_app_or in Ix. destruct Ix as [Ix|Ix].
    { apply repeat_spec in Ix. subst x. reflexivity. }
    apply in_app_or in Ix. destruct Ix as [Ix|Ix].
    2:{ apply repeat_spec in Ix. subst x. reflexivity. }
    assert (T : forallb (fun x => is_alphabetic x) n = true).
    { destruct Hc; try (vm_compute; reflexivity); exfalso; apply Hu; vm_compute; tauto. }
    rewrite forallb_forall in T. rewrite (T _ Ix). reflexivity. }
  assert (Hcomma : Forall (fun p => ~ In 44 p) (map padded reqs)).
  { apply Forall_map. apply Forall_forall. intros r I K. specialize (Hchars _ I _ K). vm_compute in Hchars. discriminate. }
  assert (Htrim : map trim (map padded reqs) = map request_name reqs).
  { rewrite map_map. apply map_ext_in. intros [[a n] b] I. rewrite Forall_forall in H.
    destruct (H _ I) as (_ & cs & Hc). cbn. eapply names_trim; eauto. }
  destruct (parse_complete (map padded reqs) 0) as [spec Hp].
  { apply Forall_map. apply Forall_forall. intros r I.
    rewrite Forall_forall in H. destruct (H _ I) as (_ & cs & Hc). exists cs.
    destruct r as [[a n] b]. cbn [padded request_name fst snd] in *. erewrite names_trim; eauto. }
  exists spec. split.
  - unfold from_str. destruct (join (map padded reqs)) as [|c0 s0] eqn:Es.
    + exfalso. destruct reqs as [|[[a n] b] reqs]; [congruence|].
      assert (Hp0 : padded (a, n, b) <> []).
      { inversion H as [|? ? (_ & cs & Hc) _]; subst. cbn in Hc. cbn. intros K.
        apply app_eq_nil in K. destruct K as [_ K]. apply app_eq_nil in K. destruct K as [K _]. subst n. inversion Hc. }
      destruct reqs as [|r reqs].
      * cbn [map join] in Es. congruence.
      * cbn [map] in Es. rewrite join_cons in Es. apply app_eq_nil in Es. destruct Es. congruence.
    + rewrite <- Es.
      destruct (existsb _ (join (map padded reqs))) eqn:Ex.
      * exfalso. apply existsb_exists in Ex. destruct Ex as (x & Ix & Hx).
        assert (K : x = 44 \/ exists r, In r reqs /\ In x (padded r)).
        { clear - Ix. induction reqs as [|r reqs IH]; [destruct Ix|].
          destruct reqs as [|r' reqs].
          - cbn [map join] in Ix. right. exists r. split; [now left|exact Ix].
          - cbn [map] in Ix. rewrite join_cons in Ix. apply in_app_or in Ix. destruct Ix as [Ix|[Ix|Ix]].
            + right. exists r. split; [now left|exact Ix].
            + left. auto.
            + destruct (IH Ix) as [A|(q & A & B)]; [now left|right]. exists q. split; [now right|exact B]. }
        destruct K as [->|(r & I & J)]; [discriminate|].
        rewrite (Hchars _ I _ J) in Hx. discriminate.
      * rewrite split_join; [exact Hp| |exact Hcomma]. destruct reqs; [congruence|discriminate].
  - apply parse_sound in Hp. destruct Hp as (_ & H2 & H3). split; [|apply H3; reflexivity].
    intros c. unfold selects. rewrite H2, Htrim, N.bits_0. intuition discriminate.
Qed.

(** The iterator. *)
Definition canaries_check (spec : N) : bool :=
  match canaries spec with
  | Some l => str_eqb l (map (N.shiftl 1) (filter (N.testbit spec) [0;1;2;3;4;5]))
  | None => false
  end.
Lemma canaries_all : forall spec, spec < 64 ->
  canaries spec = Some (map (N.shiftl 1) (filter (N.testbit spec) [0;1;2;3;4;5])).
Proof.
  assert (K : forallb canaries_check (map N.of_nat (seq 0 (N.to_nat 64))) = true) by (vm_compute; reflexivity).
  intros spec H. rewrite forallb_forall in K.
  assert (C : canaries_check spec = true).
  { apply K. replace spec with (N.of_nat (N.to_nat spec)) by lia. apply in_map. apply in_seq.
    lia. }
  unfold canaries_check in C. destruct (canaries spec) as [l|]; [|discriminate].
  apply str_eqb_eq in C. congruence.
Qed.
Lemma canaries_exact : forall spec, spec < 64 -> exists l, canaries spec = Some l /\ NoDup l /\
  forall k, In k l <-> exists c, selects spec c /\ k = N.shiftl 1 (bit_of c).
Proof.
  intros spec H. pose proof H as Hs.
  eexists. split; [apply canaries_all; exact Hs|]. split.
  - assert (ND : NoDup [0;1;2;3;4;5]).
    { repeat constructor; cbn; intuition discriminate. }
    assert (Inj : forall a b, N.shiftl 1 a = N.shiftl 1 b -> a = b).
    { intros a b. rewrite !N.shiftl_1_l. intros E. apply N.pow_inj_r in E; [exact E|lia]. }
    apply FinFun.Injective_map_NoDup; [exact Inj|]. apply NoDup_filter. exact ND.
  - intros k. rewrite in_map_iff. split.
    + intros (i & <- & I). apply filter_In in I. destruct I as [I T].
      assert (i < 6).
      { destruct (N.lt_ge_cases i 6) as [|Hi]; [assumption|]. exfalso.
        rewrite N.bits_above_log2 in T; [discriminate|].
        destruct (N.eq_dec spec 0) as [->|]; [cbn; lia|].
        assert (N.log2 spec < 6) by (apply N.log2_lt_pow2; [lia|exact H]). lia. }
      assert (E : exists c, bit_of c = i).
      { destruct I as [<-|[<-|[<-|[<-|[<-|[<-|I]]]]]].
        - now exists Rustc. - now exists OptLevel. - now exists Debug. - now exists NumJobs.
        - now exists Target. - now exists Host.
        - destruct I. }
      destruct E as [c <-]. exists c. auto.
    + intros (c & S & ->). exists (bit_of c). split; [reflexivity|]. apply filter_In.
      split; [|exact S]. destruct c; cbn; tauto.
Qed.

(** [fix]. *)
Definition unhex (d : N) : N := if d <? 58 then d - 48 else d - 87.
Definition hexval (l : list N) : N := fold_left (fun a d => 16 * a + unhex d) l 0.
Lemma hex_aux_app : forall fuel n acc, hex_aux fuel n acc = hex_aux fuel n [] ++ acc.
Proof.
  induction fuel as [|fuel IH]; intros n acc; [reflexivity|]. cbn [hex_aux].
  destruct (n <? 16); [reflexivity|]. rewrite IH, (IH _ [_]), <- app_assoc. reflexivity.
Qed.
Lemma unhex_digit : forall d, d < 16 -> unhex (hex_digit d) = d.
Proof. intros d H. unfold unhex, hex_digit. destruct (N.ltb_spec d 10); destruct (_ <? 58) eqn:E; lia. Qed.
Lemma hexval_aux : forall fuel n, n < 16 ^ (N.of_nat fuel) -> hexval (hex_aux fuel n []) = n.
Proof.
  induction fuel as [|fuel IH]; intros n H.
  - cbn in *. lia.
  - cbn [hex_aux]. destruct (N.ltb_spec n 16) as [Hn|Hn].
    + unfold hexval. cbn [fold_left]. rewrite unhex_digit by (apply N.mod_lt; lia).
      rewrite N.mod_small by exact Hn. lia.
    + rewrite hex_aux_app. unfold hexval. rewrite fold_left_app. fold (hexval (hex_aux fuel (n / 16) [])).
      rewrite IH.
      2:{ apply N.div_lt_upper_bound; [lia|]. rewrite Nat2N.inj_succ, N.pow_succ_r' in H. exact H. }
      cbn [fold_left]. rewrite unhex_digit by (apply N.mod_lt; lia).
      pose proof (N.div_mod n 16). lia.
Qed.
Lemma hex_inj : forall c d, c < 16 ^ 8 -> d < 16 ^ 8 -> hex c = hex d -> c = d.
Proof.
  intros c d Hc Hd H. rewrite <- (hexval_aux 8 c), <- (hexval_aux 8 d) by assumption.
  unfold hex in H. now rewrite H.
Qed.
Lemma hex_aux_alnum : forall fuel n, Forall (fun d => is_alnum d = true) (hex_aux fuel n []).
Proof.
  assert (D : forall n, is_alnum (hex_digit (n mod 16)) = true).
  { intros n. pose proof (N.mod_lt n 16). unfold hex_digit, is_alnum. destruct (N.ltb_spec (n mod 16) 10); lia. }
  induction fuel as [|fuel IH]; intros n; cbn [hex_aux]; [constructor|].
  destruct (n <? 16); [repeat constructor; apply D|].
  rewrite hex_aux_app. apply Forall_app. split; [apply IH|]. repeat constructor; apply D.
Qed.
Lemma hex_alnum : forall c, Forall (fun d => is_alnum d = true) (hex c).
Proof. intros. apply hex_aux_alnum. Qed.

Lemma fix_cons : forall c s, fix_ (c :: s) = (if escaped c then 95 :: hex c ++ [95] else [c]) ++ fix_ s.
Proof. intros. cbn [fix_]. unfold escaped. destruct (is_alnum c || N.eqb c 95); reflexivity. Qed.
Lemma fix_prefix : forall h s r, Forall (fun d => is_alnum d = true) h -> fix_ s = h ++ r ->
  exists s', s = h ++ s' /\ fix_ s' = r.
Proof.
  induction h as [|d h IH]; intros s r Hh H; [exists s; auto|].
  inversion Hh as [|? ? Hd Hh']; subst. destruct s as [|c s]; [discriminate|].
  rewrite fix_cons in H. destruct (escaped c).
  - cbn in H. injection H as Hd' _. subst d. vm_compute in Hd. discriminate.
  - cbn in H. injection H as -> H. destruct (IH _ _ Hh' H) as (s' & -> & E). exists s'. auto.
Qed.
Lemma fix_head95 : forall s r, fix_ s = 95 :: r -> exists d s', s = d :: s' /\ (d = 95 \/ escaped d = true).
Proof.
  intros [|c s] r H; [discriminate|]. exists c, s. split; [reflexivity|].
  rewrite fix_cons in H. destruct (escaped c); [now right|]. cbn in H. left. congruence.
Qed.
Lemma alnum_split : forall h h' r r', Forall (fun d => is_alnum d = true) h -> Forall (fun d => is_alnum d = true) h' ->
  h ++ 95 :: r = h' ++ 95 :: r' -> h = h' /\ r = r'.
Proof.
  induction h as [|d h IH]; intros [|d' h'] r r' H H' E.
  - injection E as ->. auto.
  - inversion H' as [|? ? K _]; subst. injection E as <- _. vm_compute in K. discriminate.
  - inversion H as [|? ? K _]; subst. injection E as -> _. vm_compute in K. discriminate.
  - inversion H; inversion H'; subst. injection E as -> E. destruct (IH _ _ _ H3 H7 E). split; congruence.
Qed.
Lemma clean_tl : forall c s, clean (c :: s) -> clean s.
Proof. intros c s H a b E. apply (H (c :: a) b). now rewrite E. Qed.
Lemma fix_inj : forall s s', clean s -> clean s' -> Forall (fun c => c < 16 ^ 8) s -> Forall (fun c => c < 16 ^ 8) s' ->
  fix_ s = fix_ s' -> s = s'.
Proof.
  assert (Mis : forall c s c' s', escaped c = true -> escaped c' = false -> c < 16 ^ 8 -> clean (c' :: s') ->
    fix_ (c :: s) = fix_ (c' :: s') -> False).
  { intros c s c' s' Hc Hc' Hlt Hcl H. rewrite !fix_cons, Hc, Hc' in H. cbn [app] in H.
    injection H as <- H. rewrite <- app_assoc in H. cbn [app] in H. symmetry in H.
    destruct (fix_prefix _ _ _ (hex_alnum c) H) as (t & -> & E).
    destruct (fix_head95 _ _ E) as (d & t' & -> & Hd).
    apply (Hcl [] (95 :: hex c ++ d :: t')); [reflexivity|]. exists c, d, t'. auto. }
  induction s as [|c s IH]; intros [|c' s'] Hc Hc' Hs Hs' H.
  - reflexivity.
  - rewrite fix_cons in H. destruct (escaped c'); discriminate.
  - rewrite fix_cons in H. destruct (escaped c); discriminate.
  - inversion Hs as [|? ? Hl Hs1]; inversion Hs' as [|? ? Hl' Hs1']; subst.
    destruct (escaped c) eqn:E, (escaped c') eqn:E'.
    + rewrite !fix_cons, E, E' in H. cbn [app] in H. injection H as H.
      rewrite <- !app_assoc in H. cbn [app] in H.
      apply alnum_split in H; try apply hex_alnum. destruct H as [Hh Hf].
      f_equal; [now apply hex_inj|]. apply IH; eauto using clean_tl.
    + exfalso. eapply Mis; eauto.
    + exfalso. symmetry in H. eapply Mis; [| |exact Hl'|exact Hc|exact H]; auto.
    + rewrite !fix_cons, E, E' in H. cbn [app] in H. injection H as -> H.
      f_equal. apply IH; eauto using clean_tl.
Qed.

(** Symbol names. *)
Definition payload (e : env) (c : canary) : list N :=
  match c with
  | Rustc => str "_rustc_" ++ rustc_major e ++ str "_" ++ rustc_minor e ++ str "_"
             ++ rustc_patch e ++ str "_" ++ firstn 8 (rustc_commit e)
  | OptLevel => str "_optlevel" ++ opt_level e
  | Debug => str "_debug" ++ (if debug e then str "1" else str "0")
  | NumJobs => str "_numjobs" ++ num_jobs e
  | Target => str "_target_" ++ fix_ (target e)
  | Host => str "_host_" ++ fix_ (host e)
  end.
Lemma display_one : forall e c, display e (N.shiftl 1 (bit_of c)) = str "_canary" ++ payload e c.
Proof. intros e c. unfold display. destruct c; cbn [bit_of N.shiftl has]; cbv [has N.shiftl N.land N.eqb negb Pos.shiftl Pos.iter Pos.land]; cbn [app]; rewrite ?app_nil_r; reflexivity. Qed.
Lemma split_under : forall a b r r', no_underscore a -> no_underscore b -> a ++ 95 :: r = b ++ 95 :: r' -> a = b /\ r = r'.
Proof.
  induction a as [|x a IH]; intros [|y b] r r' Ha Hb E.
  - injection E as ->. auto.
  - injection E as <- _. exfalso. apply Hb. now left.
  - injection E as -> _. exfalso. apply Ha. now left.
  - injection E as -> E. destruct (IH b r r') as [-> ->]; auto.
    + intros K. apply Ha. now right.
    + intros K. apply Hb. now right.
Qed.
Lemma payload_inj : forall e e' c c', good_env e -> good_env e' -> payload e c = payload e' c' ->
  c = c' /\ same_payload e e' c.
Proof.
  intros e e' c c' (M & N_ & P & CT & CH & FT & FH) (M' & N' & P' & CT' & CH' & FT' & FH') H.
  assert (W : forall l, Forall (fun c => c < 1114112) l -> Forall (fun c => c < 16 ^ 8) l).
  { intros l. apply Forall_impl. intros a Ha. change (16 ^ 8) with 4294967296. lia. }
  destruct c, c'; try discriminate H; (split; [reflexivity|]); cbn [payload same_payload] in *;
    apply app_inv_head in H.
  - change (str "_") with [95] in H. cbn [app] in H.
    apply split_under in H; auto. destruct H as [-> H].
    apply split_under in H; auto. destruct H as [-> H].
    apply split_under in H; [|assumption..]. destruct H; auto.
  - exact H.
  - destruct (debug e), (debug e'); try reflexivity; discriminate.
  - exact H.
  - apply fix_inj; auto.
  - apply fix_inj; auto.
Qed.
Lemma payload_eq : forall e e' c, same_payload e e' c -> payload e c = payload e' c.
Proof.
  intros e e' c H. destruct c; cbn [payload same_payload] in *; try (now rewrite H).
  destruct H as (-> & -> & -> & ->). reflexivity.
Qed.
Lemma exported_has : forall e e' ident c, good_env e -> good_env e' ->
  In (ident ++ display e' (N.shiftl 1 (bit_of c))) (export_canaried e ident) <-> same_payload e e' c.
Proof.
  intros e e' ident c G G'. unfold export_canaried. split.
  - intros [H|H].
    + exfalso. rewrite <- (app_nil_r ident) in H at 1. apply app_inv_head in H.
      rewrite display_one in H. discriminate.
    + apply in_map_iff in H. destruct H as (i & H & I). apply app_inv_head in H.
      assert (E : exists d, bit_of d = i).
      { destruct I as [<-|[<-|[<-|[<-|[<-|[<-|[]]]]]]].
        - now exists Rustc. - now exists OptLevel. - now exists Debug. - now exists NumJobs.
        - now exists Target. - now exists Host. }
      destruct E as [d <-]. rewrite !display_one in H. apply app_inv_head in H.
      apply payload_inj in H; auto. destruct H as [-> H]. exact H.
  - intros H. right. apply in_map_iff. exists (bit_of c). split.
    + rewrite !display_one, (payload_eq _ _ _ H). reflexivity.
    + destruct c; cbn; tauto.
Qed.
Lemma links_iff : forall e e' ident spec req, good_env e -> good_env e' -> spec < 64 ->
  import_symbols e' ident spec = Some req ->
  (links req (export_canaried e ident) = true <-> forall c, selects spec c -> same_payload e e' c).
Proof.
  intros e e' ident spec req G G' Hs H. unfold import_symbols in H.
  destruct (canaries_exact spec Hs) as (l & Hl & _ & Hin). rewrite Hl in H. injection H as <-.
  unfold links. rewrite forallb_forall. split.
  - intros H c Hc. apply (exported_has e e' ident c G G'). apply exists_str. apply H. right.
    apply in_map_iff. exists (N.shiftl 1 (bit_of c)). split; [reflexivity|]. apply Hin. eauto.
  - intros H x [<-|I].
    + apply exists_str. now left.
    + apply in_map_iff in I. destruct I as (k & <- & I). apply Hin in I. destruct I as (c & Hc & ->).
      apply exists_str. apply exported_has; auto.
Qed.
Lemma import_symbols_some : forall e ident spec, spec < 64 -> exists req, import_symbols e ident spec = Some req.
Proof.
  intros e ident spec H. destruct (canaries_exact spec H) as (l & Hl & _). unfold import_symbols. rewrite Hl. eauto.
Qed.
Lemma get_canaried_iff : forall e e' ident, good_env e -> good_env e' ->
  (get_canaried e' ident (export_canaried e ident) = true <-> forall c, c <> Host -> same_payload e e' c).
Proof.
  intros e e' ident G G'. unfold get_canaried. rewrite andb_true_iff, forallb_forall. split.
  - intros [_ H] c Hc. apply (exported_has e e' ident c G G'). apply exists_str. apply H.
    destruct c; cbn; try tauto.
  - intros H. split; [apply exists_str; now left|]. intros x I. apply exists_str.
    assert (E : exists c, c <> Host /\ N.shiftl 1 (bit_of c) = x).
    { destruct I as [<-|[<-|[<-|[<-|[<-|[]]]]]].
      - exists Rustc; split; [discriminate|reflexivity].
      - exists OptLevel; split; [discriminate|reflexivity].
      - exists Debug; split; [discriminate|reflexivity].
      - exists Target; split; [discriminate|reflexivity].
      - exists NumJobs; split; [discriminate|reflexivity]. }
    destruct E as (c & Hc & <-). apply exported_has; auto.
Qed.

(** Deciding [clean], for examples. *)
Fixpoint hexprefix (s : list N) : list N * list N :=
  match s with
  | c :: r => if (48 <=? c) && (c <=? 57) || (97 <=? c) && (c <=? 102)
              then let (h, t) := hexprefix r in (c :: h, t) else ([], s)
  | [] => ([], [])
  end.
Definition looksb (s : list N) : bool :=
  match s with
  | x :: r =>
      N.eqb x 95 &&
      (let (h, t) := hexprefix r in
       match t with
       | d :: _ => (N.eqb d 95 || escaped d) && escaped (hexval h)
       | [] => false
       end)
  | [] => false
  end.
Fixpoint cleanb (s : list N) : bool :=
  negb (looksb s) && match s with _ :: r => cleanb r | [] => true end.
Lemma hexprefix_hex : forall c d r, (d = 95 \/ escaped d = true) -> c < 16 ^ 8 -> hexprefix (hex c ++ d :: r) = (hex c, d :: r).
Proof.
  intros c d r Hd _.
  assert (Hnd : (48 <=? d) && (d <=? 57) || (97 <=? d) && (d <=? 102) = false).
  { destruct Hd as [->|Hd]; [reflexivity|]. unfold escaped, is_alnum in Hd. lia. }
  assert (Hh : Forall (fun x => (48 <=? x) && (x <=? 57) || (97 <=? x) && (x <=? 102) = true) (hex c)).
  { unfold hex. generalize 8%nat. intros fuel. revert c. induction fuel as [|fuel IH]; intros c; cbn [hex_aux]; [constructor|].
    assert (D : forall n, (48 <=? hex_digit (n mod 16)) && (hex_digit (n mod 16) <=? 57) || (97 <=? hex_digit (n mod 16)) && (hex_digit (n mod 16) <=? 102) = true).
    { intros n. pose proof (N.mod_lt n 16). unfold hex_digit. destruct (N.ltb_spec (n mod 16) 10); lia. }
    destruct (c <? 16); [repeat constructor; apply D|]. rewrite hex_aux_app. apply Forall_app. split; [apply IH|].
    repeat constructor; apply D. }
  induction (hex c) as [|x h IH]; cbn [app hexprefix].
  - rewrite Hnd. reflexivity.
  - inversion Hh as [|? ? Hx Hh']; subst. rewrite Hx, IH by exact Hh'. reflexivity.
Qed.
Lemma looksb_ok : forall s, looks_escaped s -> looksb s = true.
Proof.
  intros s (c & d & r & -> & Hc & Hl & Hd). unfold looksb. rewrite N.eqb_refl. cbn [andb].
  rewrite hexprefix_hex by auto. apply andb_true_iff. split.
  - destruct Hd as [->|Hd]; [reflexivity|]. rewrite Hd. apply orb_true_r.
  - unfold hex. rewrite hexval_aux by exact Hl. exact Hc.
Qed.
Lemma cleanb_ok : forall s, cleanb s = true -> clean s.
Proof.
  induction s as [|c s IH]; intros H a b E L.
  - symmetry in E. apply app_eq_nil in E. destruct E as [_ ->].
    destruct L as (? & ? & ? & L & _). discriminate.
  - cbn [cleanb] in H. apply andb_true_iff in H. destruct H as [H1 H2].
    destruct a as [|x a].
    + cbn in E. subst b. rewrite (looksb_ok _ L) in H1. discriminate.
    + injection E as _ E. exact (IH H2 a b E L).
Qed.
Definition good_envb (e : env) : bool :=
  forallb (fun c => negb (N.eqb c 95)) (rustc_major e ++ rustc_minor e ++ rustc_patch e) &&
  cleanb (target e) && cleanb (host e) && forallb (fun c => c <? 1114112) (target e ++ host e).
Lemma good_envb_ok : forall e, good_envb e = true -> good_env e.
Proof.
  intros e H. unfold good_envb in H. rewrite !andb_true_iff in H. destruct H as [[[U C] D] B].
  rewrite !forallb_app, !andb_true_iff in U. destruct U as (U1 & U2 & U3).
  rewrite forallb_app, andb_true_iff in B. destruct B as (B1 & B2).
  assert (K : forall l, forallb (fun c => negb (N.eqb c 95)) l = true -> no_underscore l).
  { intros l H I. rewrite forallb_forall in H. specialize (H _ I). discriminate. }
  assert (J : forall l, forallb (fun c => c <? 1114112) l = true -> Forall (fun c => c < 1114112) l).
  { intros l H. apply Forall_forall. intros c I. rewrite forallb_forall in H. apply N.ltb_lt. auto. }
  repeat split; auto using cleanb_ok.
Qed.

(** ** Names of canaries are identifiers *)
Lemma alnum_id : forall c, is_alnum c = true -> id_char c.
Proof.
  intros c. unfold is_alnum, id_char. intros H. apply orb_prop in H. destruct H as [H|H]; [apply orb_prop in H; destruct H as [H|H]|];
    apply andb_prop in H; destruct H as [A B]; apply N.leb_le in A, B; lia.
Qed.
Lemma fix_id : forall s, Forall id_char (fix_ s).
Proof.
  induction s as [|c s IH]; [constructor|]. cbn [fix_]. apply Forall_app. split; [|exact IH].
  assert (U : id_char 95) by (unfold id_char; lia).
  destruct (is_alnum c) eqn:A; cbn [orb].
  - constructor; [now apply alnum_id|constructor].
  - destruct (N.eqb_spec c 95) as [->|]; [constructor; [exact U|constructor]|].
    constructor; [exact U|]. apply Forall_app. split; [|constructor; [exact U|constructor]].
    eapply Forall_impl; [|apply hex_alnum]. intros d H. now apply alnum_id.
Qed.
Lemma display_id : forall e c, id_env e -> Forall id_char (display e c).
Proof.
  intros e c (M & m & P & K & O & J). unfold display.
  assert (U : forall l, forallb (fun c => (48 <=? c) && (c <=? 57) || (65 <=? c) && (c <=? 90) || (c =? 95) || (97 <=? c) && (c <=? 122)) l = true ->
    Forall id_char l).
  { intros l H. apply Forall_forall. intros x I. rewrite forallb_forall in H. specialize (H x I). unfold id_char.
    apply orb_prop in H. destruct H as [H|H]; [apply orb_prop in H; destruct H as [H|H]; [apply orb_prop in H; destruct H as [H|H]|]|];
      [apply andb_prop in H; destruct H as [A B]; apply N.leb_le in A, B; lia..| |];
      [apply N.eqb_eq in H; lia | apply andb_prop in H; destruct H as [A B]; apply N.leb_le in A, B; lia]. }
  assert (F8 : Forall id_char (firstn 8 (rustc_commit e))).
  { rewrite Forall_forall in K |- *. intros x I. apply K. rewrite <- (firstn_skipn 8 (rustc_commit e)). apply in_or_app. now left. }
  assert (Opt : forall (b : bool) l, Forall id_char l -> Forall id_char (if b then l else [])).
  { intros [] l H; [exact H|apply Forall_nil]. }
  apply Forall_app. split; [now apply U|].
  apply Forall_app. split.
  { apply Opt. apply Forall_app. split; [now apply U|]. apply Forall_app. split; [exact M|]. apply Forall_app. split; [now apply U|].
    apply Forall_app. split; [exact m|]. apply Forall_app. split; [now apply U|]. apply Forall_app. split; [exact P|].
    apply Forall_app. split; [now apply U|exact F8]. }
  apply Forall_app. split; [apply Opt, Forall_app; split; [now apply U|exact O]|].
  apply Forall_app. split; [apply Opt, Forall_app; split; [now apply U|destruct (debug e); now apply U]|].
  apply Forall_app. split; [apply Opt, Forall_app; split; [now apply U|exact J]|].
  apply Forall_app. split; apply Opt, Forall_app; (split; [now apply U|apply fix_id]).
Qed.
