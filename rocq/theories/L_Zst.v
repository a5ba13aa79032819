(** Lemmas for C80. *)
From Coq Require Import NArith List Bool Lia Arith.
From Verif Require Import M_Alloc M_Vec S_Vec M_Zst S_Zst.
Import ListNotations.
Local Open Scope N_scope.

Lemma units_eq (l l' : list unit) : length l = length l' -> l = l'.
Proof.
  revert l'; induction l as [|[] l IH]; destruct l' as [|[] l']; cbn; intros H; try discriminate; f_equal; auto.
Qed.
Lemma units_length n : length (units n) = N.to_nat n.
Proof. apply repeat_length. Qed.
Lemma diff_val l r : r <= l < 2 ^ 64 -> ptr_diff false l r = Val (l - r).
Proof.
  intros H. unfold ptr_diff, usz; cbn [andb]. f_equal.
  replace (l + 2 ^ 64 - r) with (l - r + 1 * 2 ^ 64) by lia. rewrite N.mod_add by lia. apply N.mod_small. lia.
Qed.
Lemma add_val p n : p + n < 2 ^ 64 -> ptr_add p n = p + n.
Proof. apply N.mod_small. Qed.

Section Step.
Variables (a : N) (v : zvec) (l : list unit).
Hypothesis (Ha : 0 < a) (Hv : zholds a v l).
Notation n := (N.of_nat (length l)).

Lemma z_len_val : z_len false v = Val n.
Proof. destruct Hv as [-> H]. unfold z_len; cbn [zend zstart]. rewrite diff_val by lia. f_equal; lia. Qed.
Lemma z_rem_val : z_remaining false v = Val (2 ^ 64 - 1 - a - n).
Proof. destruct Hv as [-> H]. unfold z_remaining; cbn [zend zcap]. rewrite diff_val by lia. f_equal; lia. Qed.
Lemma z_cap_val : z_capacity false v = Val (2 ^ 64 - 1 - a).
Proof. destruct Hv as [-> H]. unfold z_capacity; cbn [zstart zcap]. rewrite diff_val by lia. f_equal; lia. Qed.
Lemma z_reserve_val k : z_try_reserve false k v = if 2 ^ 64 - 1 - a - n <? k then Ub else Val v.
Proof.
  unfold z_try_reserve. rewrite z_rem_val; cbn [zbind]. destruct (_ <? k); [reflexivity|].
  rewrite z_cap_val. reflexivity.
Qed.
Lemma z_set_len_holds l' : (length l' <= length l)%nat -> zholds a (z_set_len v (N.of_nat (length l'))) l'.
Proof.
  destruct Hv as [-> H]. intros L. unfold z_set_len; cbn [zstart zcap]. rewrite add_val by lia.
  split; [reflexivity|lia].
Qed.
Lemma start_aligned : aligned a (zstart v) = true.
Proof. destruct Hv as [-> H]. unfold aligned; cbn [zstart]. rewrite N.mod_same by lia. reflexivity. Qed.
Lemma end_aligned : aligned a (zend v) = (n mod a =? 0).
Proof.
  destruct Hv as [-> H]. unfold aligned; cbn [zend]. f_equal.
  replace (a + n) with (n + 1 * a) by lia. apply N.mod_add. lia.
Qed.

(** The outcome of a step that is not undefined. *)
Definition good (o : zop) (r : zr zout) : Prop :=
  match r with
  | Val (v', x, y) => exists l', zspec o l l' x y false /\ zholds a v' l' /\
                                  (length l' <= length l + N.to_nat (zweight o))%nat
  | Pan => zspec o l l [] [] true
  | Ub => False
  end.

Lemma good_intro o v' x y l' : zspec o l l' x y false -> zholds a v' l' ->
  (length l' <= length l + N.to_nat (zweight o))%nat -> good o (Val (v', x, y)).
Proof. intros; cbn. exists l'; auto. Qed.

Lemma good_copy_extend k : k <> 0 -> ~ 2 ^ 64 - 1 - a - n < k -> n mod a = 0 ->
  exists v', z_copy_extend false a k v = Val (zquiet v') /\ zholds a v' (l ++ units k).
Proof.
  intros K R E. unfold z_copy_extend. destruct (N.eqb_spec k 0) as [|_]; [contradiction|].
  rewrite z_reserve_val. destruct (N.ltb_spec (2 ^ 64 - 1 - a - n) k); [contradiction|]. cbn [zbind].
  rewrite end_aligned, E, N.eqb_refl, z_len_val. cbn [zbind]. eexists; split; [reflexivity|].
  destruct Hv as [-> Hb]. unfold usz, z_set_len; cbn [zstart zcap].
  rewrite N.mod_small by lia. rewrite add_val by lia. split; rewrite app_length, units_length; [f_equal; lia|lia].
Qed.

Lemma step_good o : usable o -> ~ too_much o a n -> (touches_end o n -> n mod a = 0) ->
  exists r, zstep false a o v = Some r /\ good o r.
Proof.
  destruct Hv as [Hv' Hb].
  destruct o as [o|b1 b2 k| |k| |]; cbn [usable]; intros U R E.
  - destruct o as [e|e| |i|i j|i|m|m|m|es|es|es lo hi]; cbn [usable too_much touches_end] in *; try contradiction;
      eexists; (split; [reflexivity|]).
    + (* pop *)
      unfold z_pop. rewrite z_len_val; cbn [zbind]. destruct (N.eqb_spec n 0) as [Z0|Z0].
      * eapply good_intro; [|exact Hv|lia]. constructor.
        assert (l = []) as -> by (destruct l; [reflexivity|cbn in Z0; lia]). constructor.
      * rewrite end_aligned, E by lia. rewrite N.eqb_refl.
        assert (L : exists l0, l = l0 ++ [tt]).
        { exists (units (n - 1)). apply units_eq. rewrite app_length, units_length. cbn. lia. }
        destruct L as [l0 L]. eapply good_intro with (l' := l0).
        -- rewrite L at 1. constructor. constructor.
        -- replace (n - 1) with (N.of_nat (length l0)) by (rewrite L, app_length; cbn; lia).
           apply z_set_len_holds. rewrite L, app_length. lia.
        -- rewrite L, app_length. lia.
    + (* remove *)
      unfold z_remove. rewrite z_len_val; cbn [zbind]. destruct (N.ltb_spec (N.of_nat i) n) as [I|I].
      * rewrite start_aligned.
        assert (L : exists x y, l = x ++ tt :: y /\ length x = i).
        { exists (units (N.of_nat i)), (units (n - N.of_nat i - 1)). split.
          - apply units_eq. rewrite app_length; cbn [length]. rewrite !units_length. lia.
          - rewrite units_length. lia. }
        destruct L as (x & y & L & Lx). eapply good_intro with (l' := x ++ y).
        -- rewrite L, <- Lx. constructor. constructor.
        -- replace (n - 1) with (N.of_nat (length (x ++ y))) by (rewrite L, !app_length; cbn; lia).
           apply z_set_len_holds. rewrite L, !app_length. cbn; lia.
        -- rewrite L, !app_length. cbn; lia.
      * eapply good_intro; [|exact Hv|lia]. constructor. constructor. lia.
    + (* swap *)
      unfold z_swap. rewrite z_len_val; cbn [zbind].
      destruct (N.ltb_spec (N.of_nat i) n) as [I|I], (N.ltb_spec (N.of_nat j) n) as [J|J]; cbn [andb].
      * rewrite start_aligned. eapply good_intro; [|exact Hv|lia]. constructor. constructor; [lia|lia|].
        assert (T : forall k, (k < length l)%nat -> nth_error l k = Some tt).
        { intros k Hk. destruct (nth_error l k) as [[]|] eqn:Q; [reflexivity|].
          apply nth_error_None in Q. lia. }
        repeat split; auto; rewrite !T by lia; reflexivity.
      * cbn. constructor. constructor. lia.
      * cbn. constructor. constructor. lia.
      * cbn. constructor. constructor. lia.
    + (* swap_remove *)
      unfold z_swap_remove. rewrite z_len_val; cbn [zbind]. destruct (N.leb_spec n (N.of_nat i)) as [I|I].
      * eapply good_intro; [|exact Hv|lia]. constructor. constructor. lia.
      * unfold z_swap. rewrite z_len_val; cbn [zbind].
        destruct (N.ltb_spec (N.of_nat i) n); [|lia]. destruct (N.ltb_spec (n - 1) n); [|lia]. cbn [andb].
        rewrite start_aligned. cbn [zbind zquiet fst].
        unfold z_pop. rewrite z_len_val; cbn [zbind]. destruct (N.eqb_spec n 0) as [?|?Hn]; [lia|].
        rewrite end_aligned, E by lia. rewrite N.eqb_refl.
        assert (L : exists l', zspec (ZV (SwapRemove i)) l l' [tt] [] false /\ N.of_nat (length l') = n - 1).
        { destruct (Nat.eq_dec i (length l - 1)) as [->|Ni].
          - exists (units (n - 1)). split; [|rewrite units_length; lia]. constructor.
            replace l with (units (n - 1) ++ [tt]) at 2
              by (apply units_eq; rewrite app_length, units_length; cbn; lia).
            replace (length l - 1)%nat with (length (units (n - 1))) at 1 by (rewrite units_length; lia).
            constructor.
          - exists (units (N.of_nat i) ++ tt :: units (n - 2 - N.of_nat i)). split;
              [|rewrite app_length; cbn [length]; rewrite !units_length; lia]. constructor.
            replace l with (units (N.of_nat i) ++ tt :: units (n - 2 - N.of_nat i) ++ [tt]) at 1
              by (apply units_eq; rewrite !app_length; cbn [length]; rewrite app_length, !units_length; cbn; lia).
            replace i with (length (units (N.of_nat i))) at 1 by (rewrite units_length; lia). constructor. }
        destruct L as (l' & S & L). eapply good_intro; [exact S| |lia].
        rewrite <- L. apply z_set_len_holds. lia.
    + (* truncate *)
      unfold z_truncate. rewrite z_len_val; cbn [zbind].
      assert (S : zspec (ZV (Truncate m)) l (firstn m l) [] (skipn m l) false) by (constructor; constructor).
      destruct (N.leb_spec n (N.of_nat m)) as [I|I].
      * rewrite firstn_all2, skipn_all2 in S by lia. eapply good_intro; [exact S|exact Hv|lia].
      * eapply good_intro with (l' := firstn m l).
        -- replace (units (n - N.of_nat m)) with (skipn m l); [exact S|]. apply units_eq.
           rewrite units_length, skipn_length. lia.
        -- replace (N.of_nat m) with (N.of_nat (length (firstn m l))) by (rewrite firstn_length; lia).
           apply z_set_len_holds. rewrite firstn_length; lia.
        -- rewrite firstn_length; lia.
    + rewrite z_reserve_val. destruct (N.ltb_spec (2 ^ 64 - 1 - a - n) m); [contradiction|]. cbn [zbind].
      eapply good_intro; [|exact Hv|lia]. constructor; constructor.
    + rewrite z_reserve_val. destruct (N.ltb_spec (2 ^ 64 - 1 - a - n) m); [contradiction|]. cbn [zbind].
      eapply good_intro; [|exact Hv|lia]. constructor; constructor.
    + destruct es as [|e es].
      * cbn. exists l. split; [|split; [exact Hv|lia]]. rewrite <- (app_nil_r l) at 2. constructor. constructor.
      * destruct (good_copy_extend (N.of_nat (length (e :: es)))) as (v' & -> & H); [cbn; lia|assumption|apply E; discriminate|].
        replace (units _) with (e :: es) in H by (apply units_eq; rewrite units_length; lia).
        eapply good_intro; [|exact H|rewrite app_length; cbn [zweight weight]; lia]. constructor. constructor.
    + destruct es as [|e es].
      * cbn. exists l. split; [|split; [exact Hv|lia]]. rewrite <- (app_nil_r l) at 2. constructor. constructor.
      * destruct (good_copy_extend (N.of_nat (length (e :: es)))) as (v' & -> & H); [cbn; lia|assumption|apply E; discriminate|].
        replace (units _) with (e :: es) in H by (apply units_eq; rewrite units_length; lia).
        eapply good_intro; [|exact H|rewrite app_length; cbn [zweight weight]; lia]. constructor. constructor.
  - (* drain *)
    eexists; split; [reflexivity|]. unfold z_drain. rewrite z_len_val; cbn [zbind].
    assert (F : bound_from b1 = lower b1).
    { destruct U as [U _]. destruct b1; cbn in *; unfold usz; rewrite ?N.mod_small by lia; reflexivity. }
    assert (T : match b2 with Unbounded => n | b => bound_to 0 b end = upper (length l) b2).
    { destruct U as [_ U]. destruct b2; cbn in *; unfold usz; rewrite ?N.mod_small by lia; reflexivity. }
    rewrite F, T. set (from := lower b1). set (to := upper (length l) b2).
    destruct (N.leb_spec from to) as [I|I], (N.leb_spec to n) as [J|J]; cbn [andb].
    + rewrite start_aligned.
      assert (S : zspec (ZDrain b1 b2 k) l (firstn (N.to_nat from) l ++ skipn (N.to_nat to) l)
        (firstn (N.to_nat k) (range l (N.to_nat from) (N.to_nat to)))
        (skipn (N.to_nat k) (range l (N.to_nat from) (N.to_nat to))) false).
      { apply zs_drain; auto; lia. }
      assert (Lr : length (range l (N.to_nat from) (N.to_nat to)) = N.to_nat (to - from)).
      { unfold range. rewrite firstn_length, skipn_length. lia. }
      eapply good_intro with (l' := firstn (N.to_nat from) l ++ skipn (N.to_nat to) l).
      * replace (units (N.min k (to - from))) with (firstn (N.to_nat k) (range l (N.to_nat from) (N.to_nat to)))
          by (apply units_eq; rewrite firstn_length, units_length, Lr; lia).
        replace (units (to - from - N.min k (to - from))) with (skipn (N.to_nat k) (range l (N.to_nat from) (N.to_nat to)))
          by (apply units_eq; rewrite skipn_length, units_length, Lr; lia).
        exact S.
      * change (z_set_len (z_set_len v from) (n - to + from)) with (z_set_len v (n - to + from)).
        replace (n - to + from) with (N.of_nat (length (firstn (N.to_nat from) l ++ skipn (N.to_nat to) l)))
          by (rewrite app_length, firstn_length, skipn_length; lia).
        apply z_set_len_holds. rewrite app_length, firstn_length, skipn_length; lia.
      * rewrite app_length, firstn_length, skipn_length; lia.
    + cbn. apply zs_drain_panic. fold from to. lia.
    + cbn. apply zs_drain_panic. fold from to. lia.
    + cbn. apply zs_drain_panic. fold from to. lia.
  - (* clone *)
    eexists; split; [reflexivity|]. unfold z_clone. rewrite z_len_val; cbn [zbind].
    unfold z_try_reserve, z_remaining, z_capacity, z_new; cbn [zcap zend zstart].
    rewrite diff_val by lia. cbn [zbind]. destruct (N.ltb_spec (2 ^ 64 - 1 - a) n); [lia|]. cbn [zbind zstart].
    unfold aligned. rewrite N.mod_same by lia. cbn [N.eqb].
    eapply good_intro with (l' := l).
    + replace (units n) with l by (apply units_eq; rewrite units_length; lia). constructor.
    + unfold z_set_len; cbn [zstart zcap]. rewrite add_val by lia. split; [reflexivity|lia].
    + lia.
  - (* iter *)
    eexists; split; [reflexivity|]. unfold z_iter. rewrite z_len_val; cbn [zbind]. rewrite start_aligned.
    eapply good_intro with (l' := []); [| |cbn; lia].
    + replace (units (N.min k n)) with (firstn (N.to_nat k) l)
        by (apply units_eq; rewrite firstn_length, units_length; lia).
      replace (units (n - N.min k n)) with (skipn (N.to_nat k) l)
        by (apply units_eq; rewrite skipn_length, units_length; lia).
      constructor.
    + split; [|cbn; lia]. unfold z_new. cbn. rewrite N.add_0_r. reflexivity.
  - eexists; split; [reflexivity|]. eapply good_intro; [constructor| |lia].
    rewrite Hv'. split; [reflexivity|lia].
  - contradiction.
Qed.

Lemma step_ub o : usable o -> too_much o a n \/ touches_end o n /\ n mod a <> 0 ->
  zstep false a o v = Some Ub.
Proof.
  destruct Hv as [Hv' Hb].
  assert (CE : forall es : list unit, 2 ^ 64 - 1 - a - n < N.of_nat (length es) \/ es <> [] /\ n mod a <> 0 ->
    z_copy_extend false a (N.of_nat (length es)) v = Ub).
  { intros es [R|[T E]]; unfold z_copy_extend.
    - destruct (N.eqb_spec (N.of_nat (length es)) 0) as [?|?Hn]; [lia|]. rewrite z_reserve_val.
      destruct (N.ltb_spec (2 ^ 64 - 1 - a - n) (N.of_nat (length es))); [reflexivity|lia].
    - destruct (N.eqb_spec (N.of_nat (length es)) 0) as [Q|_]; [destruct es; [contradiction|cbn in Q; lia]|].
      rewrite z_reserve_val. destruct (_ <? _); [reflexivity|]. cbn [zbind].
      rewrite end_aligned. apply N.eqb_neq in E. rewrite E. reflexivity. }
  destruct o as [o|b1 b2 k| |k| |]; cbn [usable too_much touches_end]; try tauto.
  destruct o as [e|e| |i|i j|i|m|m|m|es|es|es lo hi]; cbn [usable too_much touches_end]; try tauto; intros _ H;
    cbn [zstep]; f_equal; auto.
  - destruct H as [[]|[H E]]. unfold z_pop. rewrite z_len_val; cbn [zbind].
    destruct (N.eqb_spec n 0) as [?|?Hn]; [lia|]. rewrite end_aligned. apply N.eqb_neq in E. rewrite E. reflexivity.
  - destruct H as [[]|[H E]]. unfold z_swap_remove. rewrite z_len_val; cbn [zbind].
    destruct (N.leb_spec n (N.of_nat i)); [lia|]. unfold z_swap. rewrite z_len_val; cbn [zbind].
    destruct (N.ltb_spec (N.of_nat i) n); [|lia]. destruct (N.ltb_spec (n - 1) n); [|lia]. cbn [andb].
    rewrite start_aligned. cbn [zbind zquiet fst]. unfold z_pop. rewrite z_len_val; cbn [zbind].
    destruct (N.eqb_spec n 0) as [?|?Hn]; [lia|]. rewrite end_aligned. apply N.eqb_neq in E. rewrite E. reflexivity.
  - destruct H as [R|[[] _]]. rewrite z_reserve_val. destruct (N.ltb_spec (2 ^ 64 - 1 - a - n) m); [reflexivity|lia].
  - destruct H as [R|[[] _]]. rewrite z_reserve_val. destruct (N.ltb_spec (2 ^ 64 - 1 - a - n) m); [reflexivity|lia].
Qed.
End Step.

Lemma run_good h v l : zholds 1 v l -> Forall usable h ->
  N.of_nat (length l) + zweights h <= 2 ^ 64 - 2 ->
  exists v' l' x y, zrun false 1 h v = Some (v', x, y) /\ zholds 1 v' l' /\ zlrun h l l' x y.
Proof.
  revert v l; induction h as [|o h IH]; intros v l Hv U W.
  - exists v, l, [], []. repeat split; try constructor; apply Hv.
  - inversion U as [|? ? Uo Uh]; subst. cbn [zweights] in W. cbn [zrun].
    destruct (step_good 1 v l eq_refl Hv o Uo) as (r & E & G).
    + destruct o as [o|b1 b2 k| |k| |]; cbn [too_much zweight] in *; try tauto.
      destruct o; cbn [too_much zweight weight] in *; try tauto; lia.
    + intros _. apply N.mod_1_r.
    + rewrite E. destruct r as [[[v1 x] y]| |]; cbn in G; [| |contradiction].
      * destruct G as (l1 & S & Hv1 & L).
        destruct (IH v1 l1 Hv1 Uh) as (v' & l' & x' & y' & R & Hv' & K); [lia|].
        exists v', l', (x ++ x'), (y ++ y'). rewrite R. split; [reflexivity|]. split; [assumption|].
        econstructor; eassumption.
      * destruct (IH v l Hv Uh) as (v' & l' & x' & y' & R & Hv' & K); [lia|].
        exists v', l', x', y'. split; [assumption|]. split; [assumption|].
        exact (zl_cons o h l l l' [] [] true x' y' G K).
Qed.
