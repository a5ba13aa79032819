(** Property C69: views of memory (slice.rs, str.rs). *)
From Coq Require Import NArith List Bool Arith Lia.
From Verif Require Import M_String S_String M_View S_View L_View.
Import ListNotations.

(** C69: whatever a program does with a reference to [l], by converting it to stabby's views and back, borrowing, slicing, reading and writing: nothing is undefined, it sees
    what it would see with copies of lists that are carried back, and memory around [l] is not touched.
    Missing: programs that write [Slice { start, len, marker }] themselves, as the public fields allow: see [view_fields_refuted]. *)
Theorem view_history_partial : forall b l a k acts, (txt k = true -> exists t, is_text l t) ->
  exists m st s c rest, act_run (b ++ l ++ a) [(k, Fat (length b) (length l))] acts = Some (m, st, s) /\
    copy_run [Copy k [] l []] acts (c :: rest) s /\
    let e := settle c rest in m = b ++ (pre e ++ shown e ++ post e) ++ a.
Proof.
  intros b l a k acts T. assert (R : related b a (b ++ l ++ a) [(k, Fat (length b) (length l))] [Copy k [] l []]).
  { exists (Copy k [] l []), [], b, a. split; [reflexivity|]. split; [|reflexivity].
    constructor; cbn [pre post shown app]; rewrite ?app_nil_r; try reflexivity. repeat split; auto. }
  destruct (run_spec b a acts _ _ _ R) as (m & st & s & cs & E & C & c & rest & B & A & -> & I & ->).
  exists (B ++ shown c ++ A), st, s, c, rest. split; [exact E|]. split; [exact C|]. cbv zeta. rewrite (inv_settle b a _ _ _ _ _ I), <- !app_assoc. reflexivity.
Qed.
Print Assumptions view_history_partial.
(** "aéz", between two other bytes: cut at the end and put in upper case through a mutable view; then cut within a character, and around it. *)
Example view_history_ex :
  is_text [97; 195; 169; 122]%N [97; 233; 122]%N /\
  act_run [7; 97; 195; 169; 122; 9]%N [(Kind true true false, Fat 1 4)]
    [Conv (Kind true true true); Borrow true; Sub 3 1; Case true; Read; End; Conv (Kind true false true); Count; Borrow false; Sub 2 1; Sub 1 2; Bytes; Read; Write 0 1; Utf8;
     Conv (Kind true false true); End; Case true; Borrow true] =
  Some ([7; 97; 195; 169; 90; 9]%N, [(Kind true false true, Fat 1 4)],
    [Nothing; Nothing; Nothing; Nothing; Elements [90]%N; Nothing; Nothing; Length 4; Nothing; Panicked; Nothing; Nothing; Elements [195; 169]%N; Illegal; Nothing; Nothing; Nothing;
     Illegal; Illegal]).
Proof.
  split; [split; [repeat constructor; unfold scalar; lia|reflexivity]|vm_compute; reflexivity].
Qed.

(** C69: at any time each view can be read, and views of text show text.  Missing: as above. *)
Theorem view_valid_partial : forall b l a k acts m st s, (txt k = true -> exists t, is_text l t) ->
  act_run (b ++ l ++ a) [(k, Fat (length b) (length l))] acts = Some (m, st, s) ->
  Forall (fun x => exists w, read m (snd x) = Some w /\ length w = len (snd x) /\ (txt (fst x) = true -> exists t, is_text w t)) st.
Proof.
  intros b l a k acts m st s T E. assert (R : related b a (b ++ l ++ a) [(k, Fat (length b) (length l))] [Copy k [] l []]).
  { exists (Copy k [] l []), [], b, a. split; [reflexivity|]. split; [|reflexivity].
    constructor; cbn [pre post shown app]; rewrite ?app_nil_r; try reflexivity. repeat split; auto. }
  destruct (run_spec b a acts _ _ _ R) as (m1 & st1 & s1 & cs & E1 & C & c & rest & B & A & -> & I & ->). rewrite E in E1. injection E1 as -> -> _.
  pose proof (inv_reads b a _ _ _ _ _ _ I eq_refl) as F. eapply Forall_impl; [|exact F]. intros (k1, r1) (w & W). cbn [fst snd] in *. unfold read_as in W.
  destruct (read _ r1) as [w1|] eqn:RD; [|discriminate]. exists w1. split; [reflexivity|]. split.
  { unfold read in RD. destruct (_ <=? _)%nat eqn:LE; [|discriminate]. injection RD as <-. apply Nat.leb_le in LE. rewrite firstn_length, skipn_length. lia. }
  intros T1. rewrite T1 in W. destruct (from_utf8 w1) eqn:U; [|discriminate]. apply from_utf8_valid in U. exact U.
Qed.
Print Assumptions view_valid_partial.
Example view_valid_ex : exists s, act_run [0; 97; 98; 99]%N [(Kind false true false, Fat 1 3)] [Conv (Kind false true true); Borrow true; Write 1 200; Utf8; Sub 2 1; Utf8; Case true; Conv (Kind true true true)]
  = Some ([0; 97; 200; 67]%N, [(Kind true true true, Fat 3 1); (Kind false true true, Fat 1 3)], s).
Proof. eexists. vm_compute. reflexivity. Qed.

(** C69: but a safe program can make a [Slice] of its own, whose [deref] is undefined behaviour. *)
Theorem view_fields_refuted : exists m s n, act_run m (forge s n []) [Borrow false; Read] = None.
Proof. exists [1; 2; 3]%N, 0, 4. reflexivity. Qed.
Print Assumptions view_fields_refuted.
