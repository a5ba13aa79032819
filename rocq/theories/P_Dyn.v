(** Properties C33, C35 and C62: trait objects. *)
From Coq Require Import List Arith Bool Lia Permutation.
From Verif Require Import M_Dyn S_Dyn L_Dyn.
Import ListNotations.

(** A program for the examples: trait 1 has two methods, trait 2 has one, trait 3 none, trait 4 ([Any]) two; the vtables of types 5 and 6. *)
Definition pg0 : program := Prog (fun h => nth h [0; 2; 1; 0; 2] 0) (fun h t j => 100 * h + 10 * t + j) (fun t => 1000 + t).
Definition v0 : vty := vtable_macro [BTrait 1; BTrait 2; BTrait 4; BSend; BSync].
Definition contents0 : list (list nat * nat) :=
  [(vtable_const pg0 v0 5, 20); (vtable_const pg0 v0 6, 30); (vtable_const pg0 (VTable 2 (VTable 1 VtDrop)) 5, 40); (vtable_const pg0 VtDrop 5, 50)].
Definition reg0 (l : list nat) : nat := match find (fun e => if list_eq_dec Nat.eq_dec (fst e) l then true else false) contents0 with Some e => snd e | None => 0 end.
Definition mem0 (a : nat) : nat :=
  match find (fun e => (snd e <=? a) && (a <? snd e + length (fst e))) contents0 with Some e => nth (a - snd e) (fst e) 0 | None => 0 end.
Example pg0_registered : registered pg0 reg0 mem0 v0 5 /\ registered pg0 reg0 mem0 v0 6 /\ registered pg0 reg0 mem0 (VTable 2 (VTable 1 VtDrop)) 5 /\
  registered pg0 reg0 mem0 VtDrop 5.
Proof.
  assert (G : forall v t, forallb (fun i => mem0 (reg0 (vtable_const pg0 v t) + i) =? nth i (vtable_const pg0 v t) 0) (seq 0 (length (vtable_const pg0 v t))) = true ->
    registered pg0 reg0 mem0 v t).
  { intros v t H i w Hi. rewrite forallb_forall in H. assert (L : i < length (vtable_const pg0 v t)) by (apply nth_error_Some; congruence).
    specialize (H i ltac:(apply in_seq; lia)). apply Nat.eqb_eq in H. rewrite H. apply nth_error_nth with (d := 0) in Hi. exact Hi. }
  repeat split; apply G; vm_compute; reflexivity.
Qed.

(** C33: the vtable of [dyn A + B + ...] has the traits of the list. *)
Theorem vtable_macro_traits : forall bs, rev (heads (vtable_macro bs)) = traits bs.
Proof.
  intros bs. unfold vtable_macro. induction bs as [|b bs IH] using rev_ind; [reflexivity|].
  unfold traits. rewrite fold_left_app, flat_map_app. cbn [fold_left flat_map]. rewrite app_nil_r. fold (traits bs). rewrite <- IH.
  destruct b; cbn [compound heads rev]; rewrite ?app_nil_r; reflexivity.
Qed.
Print Assumptions vtable_macro_traits.
Example vtable_macro_ex : v0 = VtSync (VtSend (VTable 4 (VTable 2 (VTable 1 VtDrop)))) /\ traits [BTrait 1; BTrait 2; BTrait 4; BSend; BSync] = [1; 2; 4].
Proof. split; reflexivity. Qed.

(** C33: whatever conversions led to a trait object of type [t], each method of each of its traits is that of [t], and so is its destructor.  An
    upcast removes at most the last trait, and calls through the object before and after give the same functions. *)
Theorem upcast_methods : forall pg reg mem b o t p v,
  built pg reg mem b o t p -> super (vtype o) v ->
  answers_as pg mem o t /\ destructor_of mem o = destructor pg t /\
  answers_as pg mem (into_super o v) t /\ destructor_of mem (into_super o v) = destructor pg t /\
  exists k, k <= 1 /\ heads v = skipn k (heads (vtype o)) /\
    forall n h j, nth_error (heads v) n = Some h -> j < arity pg h ->
      option_map fst (call pg mem (into_super o v) n j) = option_map fst (call pg mem o (k + n) j).
Proof.
  intros pg reg mem b o t p v B S. pose proof (built_begins _ _ _ _ _ _ _ B) as G.
  pose proof (built_begins _ _ _ _ _ _ _ (built_super _ _ _ _ _ _ _ _ B S)) as G'.
  pose proof (begins_answers _ _ _ _ _ G) as A. pose proof (begins_answers _ _ _ _ _ G') as A'.
  repeat (split; [eauto using begins_drop|]). destruct (super_heads _ _ S) as (k & Hk & E). exists k. split; [exact Hk|]. split; [exact E|].
  intros n h j Hn Hj. rewrite (A' n h j Hn Hj). symmetry. apply A; [|exact Hj]. rewrite E in Hn. rewrite <- Hn. clear.
  revert n. generalize (heads (vtype o)). induction k as [|k IH]; intros l n; [reflexivity|]. destruct l; [destruct n; reflexivity|]. apply IH.
Qed.
Print Assumptions upcast_methods.
(** Type 5 as [dyn 1 + 2 + 4 + Send + Sync], then [dyn 1 + 2]: method 0 of trait 2 is 250. *)
Example upcast_ex :
  let o := from pg0 reg0 77 KBox v0 5 3 in let o' := into_super o (VTable 2 (VTable 1 VtDrop)) in
  built pg0 reg0 mem0 true o 5 3 /\ super (vtype o) (VTable 2 (VTable 1 VtDrop)) /\
  option_map fst (call pg0 mem0 o 1 0) = Some 250 /\ option_map fst (call pg0 mem0 o' 0 0) = Some 250 /\ destructor_of mem0 o' = 1005.
Proof. split; [apply (built_from pg0 reg0 mem0 77 KBox), pg0_registered|]. split; [constructor|]. vm_compute. auto. Qed.

(** C33: with any history of creations, upcasts and drops of [Dyn<Box<()>, _>], each value created is destroyed once by its own destructor, or is still
    owned by one variable. *)
Theorem upcast_destroyed_once : forall pg reg mem ops,
  (forall at_ v t p, In (ONew at_ v t p) ops -> registered pg reg mem v t) -> supported pg reg mem ops ->
  let st := owner_run pg reg mem ops in
  Permutation (created pg ops) (owned mem (fst st) ++ snd st).
Proof. intros pg reg mem ops R S. exact (proj2 (owner_inv pg reg mem ops R S)). Qed.
Print Assumptions upcast_destroyed_once.
Example upcast_destroyed_ex :
  let ops := [ONew 70 v0 5 3; ONew 72 v0 6 8; OSuper 0 (VTable 4 (VTable 2 (VTable 1 VtDrop))); ODrop 0; OSuper 2 (VTable 2 (VTable 1 VtDrop)); ODrop 3] in
  supported pg0 reg0 mem0 ops /\ snd (owner_run pg0 reg0 mem0 ops) = [(1005, 3)] /\
  map (fun x => match x with Some o => Some (ptr o) | None => None end) (fst (owner_run pg0 reg0 mem0 ops)) = [None; Some 8; None; None].
Proof.
  split; [|vm_compute; auto]. intros k i v o Hk. repeat (destruct k as [|k]; cbn in Hk; try discriminate).
  - injection Hk as <- <-. cbn. intros [= <-]. constructor.
  - injection Hk as <- <-. cbn. intros [= <-]. constructor.
Qed.

(** C62: methods are called on the value, for objects made from [&T], [Box<T>], [Arc<T>], and those obtained from them without [as_mut]; the
    destructor too. *)
Theorem receiver_partial : forall pg reg mem o t p, built pg reg mem true o t p ->
  receiver o = p /\
  (forall n h j, nth_error (heads (vtype o)) n = Some h -> j < arity pg h -> call pg mem o n j = Some (method pg h t j, p)) /\
  (forall c, drop_call mem o = Some c -> c = (destructor pg t, p)).
Proof.
  intros pg reg mem o t p B. destruct (built_ptr _ _ _ _ _ _ _ B eq_refl) as (P & K). pose proof (built_begins _ _ _ _ _ _ _ B) as G.
  assert (E : receiver o = p) by (unfold receiver, as_ref; destruct (dkind o); congruence).
  split; [exact E|]. split.
  - intros n h j Hn Hj. pose proof (begins_answers _ _ _ _ _ G n h j Hn Hj) as A. unfold call in *. destruct (tderef _ _ _ _) as [[h' a]|]; [|discriminate].
    cbn in A. injection A as ->. rewrite E. reflexivity.
  - intros c Hc. pose proof (begins_drop _ _ _ _ _ G) as D. unfold destructor_of in D. unfold drop_call in Hc. rewrite D, P in Hc. destruct (dkind o); congruence.
Qed.
Print Assumptions receiver_partial.
Example receiver_ex : let o := borrow (from pg0 reg0 77 KArc v0 5 3) 80 in built pg0 reg0 mem0 true o 5 3 /\ call pg0 mem0 o 2 1 = Some (151, 3).
Proof. split; [|reflexivity]. apply built_borrow; [apply (built_from pg0 reg0 mem0 77 KArc), pg0_registered|discriminate]. Qed.
(** A trait object made from [&mut T] calls its methods on its own pointer instead of the value. *)
Theorem receiver_mut_refuted : exists o t p,
  built pg0 reg0 mem0 false o t p /\ o = from pg0 reg0 77 KMut v0 t p /\ call pg0 mem0 o 2 1 = Some (151, here o) /\ here o <> p.
Proof.
  exists (from pg0 reg0 77 KMut v0 5 3), 5, 3. split; [apply (built_from pg0 reg0 mem0 77 KMut), pg0_registered|]. split; [reflexivity|].
  vm_compute. split; [reflexivity|discriminate].
Qed.
Print Assumptions receiver_mut_refuted.
(** So does the result of [as_mut] on a [Dyn<Box<()>, _>]. *)
Theorem receiver_as_mut_refuted : exists o o' t p,
  built pg0 reg0 mem0 true o t p /\ dkind o = KBox /\ borrow_mut o 90 = Some o' /\ call pg0 mem0 o' 2 1 = Some (151, 90) /\ p <> 90.
Proof.
  exists (from pg0 reg0 77 KBox v0 5 3). eexists. exists 5, 3. split; [apply (built_from pg0 reg0 mem0 77 KBox), pg0_registered|].
  split; [reflexivity|]. split; [reflexivity|]. vm_compute. split; [reflexivity|discriminate].
Qed.
Print Assumptions receiver_as_mut_refuted.

(** Safe code can exchange the pointers of two trait objects of different types, through [ptr_mut]: the methods and the destructor of type 5 are then
    called on a value of type 6, and the other way round. *)
Theorem receiver_swap_refuted : exists o o' u u',
  built pg0 reg0 mem0 true o 5 3 /\ built pg0 reg0 mem0 true o' 6 8 /\ vtype o = vtype o' /\ swap_ptr o o' = Some (u, u') /\
  call pg0 mem0 u 2 1 = Some (method pg0 1 5 1, 8) /\ drop_call mem0 u = Some (destructor pg0 5, 8) /\
  call pg0 mem0 u' 2 1 = Some (method pg0 1 6 1, 3) /\ drop_call mem0 u' = Some (destructor pg0 6, 3).
Proof.
  exists (from pg0 reg0 77 KBox v0 5 3), (from pg0 reg0 79 KBox v0 6 8). do 2 eexists.
  split; [apply (built_from pg0 reg0 mem0 77 KBox), pg0_registered|]. split; [apply (built_from pg0 reg0 mem0 79 KBox), pg0_registered|].
  split; [reflexivity|]. split; [reflexivity|]. vm_compute. auto.
Qed.
Print Assumptions receiver_swap_refuted.

(** C35: == of vtables is an equivalence: it is identity of addresses. *)
Theorem vtable_eq_equivalence : forall pg mem v,
  (forall a b, vt_eq pg mem v a b = true <-> a = b) /\
  (forall a, vt_eq pg mem v a a = true) /\ (forall a b, vt_eq pg mem v a b = true -> vt_eq pg mem v b a = true) /\
  (forall a b c, vt_eq pg mem v a b = true -> vt_eq pg mem v b c = true -> vt_eq pg mem v a c = true).
Proof.
  intros pg mem v. pose proof (vt_eq_same pg mem v) as E. split; [exact E|]. split; [intros a; apply E; reflexivity|].
  split; [intros a b H; apply E in H; apply E; auto|]. intros a b c H H'. apply E in H, H'. apply E. congruence.
Qed.
Print Assumptions vtable_eq_equivalence.
Example vtable_eq_ex : let v := VTable 2 (VTable 1 VtDrop) in let a := vt (from pg0 reg0 79 KBox v 5 3) in let b := vt (from pg0 reg0 79 KBox v 6 8) in
  vt_eq pg0 mem0 v a a = true /\ vt_eq pg0 mem0 v a b = false.
Proof. vm_compute. auto. Qed.
(** It is not the identity of methods: here are a [dyn 1 + 2] made from [dyn 1 + 2 + 4 + Send + Sync] and another made directly, with the same methods and
    destructor, whose vtables differ; and a downcast of the first to its own type fails. *)
Theorem vtable_eq_methods_refuted : exists v o o',
  v = VTable 2 (VTable 1 VtDrop) /\ built pg0 reg0 mem0 true o 5 3 /\ built pg0 reg0 mem0 true o' 5 3 /\ vtype o = v /\ vtype o' = v /\
  map (fun i => mem0 (vt o + i)) (seq 0 (size pg0 v)) = map (fun i => mem0 (vt o' + i)) (seq 0 (size pg0 v)) /\
  vt_eq pg0 mem0 v (vt o) (vt o') = false /\ downcast pg0 reg0 mem0 o 5 = None /\ downcast pg0 reg0 mem0 o' 5 = Some 3.
Proof.
  exists (VTable 2 (VTable 1 VtDrop)), (into_super (from pg0 reg0 77 KBox v0 5 3) (VTable 2 (VTable 1 VtDrop))),
    (from pg0 reg0 79 KBox (VTable 2 (VTable 1 VtDrop)) 5 3).
  split; [reflexivity|]. split; [apply built_super; [apply (built_from pg0 reg0 mem0 77 KBox), pg0_registered|constructor]|].
  split; [apply (built_from pg0 reg0 mem0 79 KBox); apply pg0_registered|]. vm_compute. auto 10.
Qed.
Print Assumptions vtable_eq_methods_refuted.
(** C35: a downcast of a Dyn over a Box or an Arc succeeds only for the type of the value, and returns the value, provided that types have different
    destructor functions.  It does succeed, if the object was not upcast. *)
Theorem downcast_partial : forall pg reg mem o t p t', built pg reg mem true o t p -> dkind o <> KRef ->
  registered pg reg mem (vtype o) t' -> (forall a b, destructor pg a = destructor pg b -> a = b) ->
  (forall q, downcast pg reg mem o t' = Some q -> t' = t /\ q = p) /\
  (forall at_, o = from pg reg at_ (dkind o) (vtype o) t p -> downcast pg reg mem o t = Some p).
Proof.
  intros pg reg mem o t p t' B NK R I. destruct (built_ptr _ _ _ _ _ _ _ B eq_refl) as (P & K). pose proof (built_begins _ _ _ _ _ _ _ B) as G.
  assert (E : as_ref (dkind o) (here o) (ptr o) = p) by (unfold as_ref; destruct (dkind o); congruence). split.
  - intros q Hq. assert (Ha : vt o = reg (vtable_const pg (vtype o) t')) by (apply (downcast_addr pg reg mem); congruence).
    unfold downcast in Hq. destruct (vt_eq _ _ _ _ _); [|discriminate]. split; [|congruence]. apply I.
    rewrite <- (begins_drop _ _ _ _ _ G). unfold destructor_of. rewrite drop_vt_id, Ha. rewrite <- (Nat.add_0_r (reg _)). symmetry. apply R.
    destruct (vtable_head pg (vtype o) t') as (r & ->). reflexivity.
  - intros at_ Eo. unfold downcast. replace (vt_eq pg mem (vtype o) (vt o) (reg (vtable_const pg (vtype o) t))) with true; [congruence|].
    symmetry. apply vt_eq_same. rewrite Eo at 1. reflexivity.
Qed.
Print Assumptions downcast_partial.
Example downcast_ex : let o := from pg0 reg0 77 KBox v0 5 3 in
  built pg0 reg0 mem0 true o 5 3 /\ downcast pg0 reg0 mem0 o 5 = Some 3 /\ downcast pg0 reg0 mem0 o 6 = None.
Proof. split; [apply (built_from pg0 reg0 mem0 77 KBox), pg0_registered|vm_compute; auto]. Qed.
(** If two types have the same functions (the compiler merged them), the downcast succeeds for the wrong type. *)
Theorem downcast_merged_refuted : exists pg reg mem o t p t', built pg reg mem true o t p /\ registered pg reg mem (vtype o) t' /\
  t' <> t /\ downcast pg reg mem o t' = Some p.
Proof.
  exists (Prog (fun _ => 1) (fun h _ j => h + j) (fun _ => 7)), (fun _ => 20), (fun a => if a =? 20 then 7 else 2), (from (Prog (fun _ => 1) (fun h _ j => h + j) (fun _ => 7)) (fun _ => 20) 77 KBox (VTable 2 VtDrop) 0 3), 0, 3, 1.
  assert (R : forall t, registered (Prog (fun _ => 1) (fun h _ j => h + j) (fun _ => 7)) (fun _ => 20) (fun a => if a =? 20 then 7 else 2) (VTable 2 VtDrop) t).
  { intros t [|[|[|i]]] w H; cbn in H; try discriminate; injection H as <-; reflexivity. }
  split; [apply (built_from _ _ _ 77 KBox), R|]. split; [apply R|]. vm_compute. split; [discriminate|reflexivity].
Qed.
Print Assumptions downcast_merged_refuted.
(** DynRef::downcast does not return the value, but the address of the pointer to it. *)
Theorem downcast_dynref_refuted : exists o, built pg0 reg0 mem0 true o 5 3 /\ dkind o = KRef /\ downcast pg0 reg0 mem0 o 5 = Some (here o) /\ here o <> 3.
Proof.
  exists (from pg0 reg0 77 KRef v0 5 3). split; [apply (built_from pg0 reg0 mem0 77 KRef), pg0_registered|]. vm_compute. split; [reflexivity|]. split; [reflexivity|discriminate].
Qed.
Print Assumptions downcast_dynref_refuted.

(** C35: stable_downcast succeeds for the type of the value, and only for types with the same report (and, but for DynRef, identifier); on a Box or an Arc it
    returns the value.  [any] is the trait [Any], at path [n] in the vtable. *)
Theorem stable_downcast_partial : forall pg reg mem any answer report id o t p n t', built pg reg mem true o t p ->
  nth_error (heads (vtype o)) n = Some any -> arity pg any = 2 ->
  answer (method pg any t 0) = report t -> answer (method pg any t 1) = id t ->
  stable_downcast pg mem answer report id o n t <> None /\
  (forall q, stable_downcast pg mem answer report id o n t' = Some q ->
     report t' = report t /\ (dkind o <> KRef -> id t' = id t /\ q = p)).
Proof.
  intros pg reg mem any answer report id o t p n t' B Hn Ha An0 An1. destruct (receiver_partial _ _ _ _ _ _ B) as (_ & C & _).
  destruct (built_ptr _ _ _ _ _ _ _ B eq_refl) as (P & K).
  unfold stable_downcast. rewrite (C n any 0 Hn), (C n any 1 Hn) by lia. rewrite An0, An1. split.
  - rewrite !Nat.eqb_refl. destruct (dkind o); discriminate.
  - intros q. destruct (_ && _) eqn:E; [|discriminate]. intros [= <-]. apply andb_prop in E. destruct E as (E1 & E2). apply Nat.eqb_eq in E2. split; [auto|].
    intros NK. unfold as_ref. destruct (dkind o); try congruence; apply Nat.eqb_eq in E1; auto.
Qed.
Print Assumptions stable_downcast_partial.
Example stable_downcast_ex : let o := from pg0 reg0 77 KArc v0 5 3 in let report u := 40 * u in let answer f := 40 * ((f - 400) / 10) + f mod 10 in
  let id u := 40 * u + 1 in
  answer (method pg0 4 5 0) = report 5 /\ answer (method pg0 4 5 1) = id 5 /\
  stable_downcast pg0 mem0 answer report id o 0 5 = Some 3 /\ stable_downcast pg0 mem0 answer report id o 0 6 = None.
Proof. vm_compute. auto. Qed.
(** On a DynRef it returns the address of the pointer. *)
Theorem stable_downcast_dynref_refuted : exists o, built pg0 reg0 mem0 true o 5 3 /\ dkind o = KRef /\
  stable_downcast pg0 mem0 (fun f => 40 * ((f - 400) / 10) + f mod 10) (fun u => 40 * u) (fun u => 40 * u + 1) o 0 5 = Some (here o) /\ here o <> 3.
Proof.
  exists (from pg0 reg0 77 KRef v0 5 3). split; [apply (built_from pg0 reg0 mem0 77 KRef), pg0_registered|]. vm_compute. split; [reflexivity|]. split; [reflexivity|discriminate].
Qed.
Print Assumptions stable_downcast_dynref_refuted.
