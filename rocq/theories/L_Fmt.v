(** Lemmas on formatting. *)
From Coq Require Import String.
From Coq Require Import List Arith NArith ZArith Bool Lia.
From Verif Require Import M_Report M_Decl M_Num M_Vec M_String M_BTree M_Fmt S_Fmt S_Vec L_Vec.
Import ListNotations.
Local Open Scope N_scope.
Local Open Scope list_scope.
Ltac Zify.zify_post_hook ::= idtac.

Section StdInd.
Context (P : std -> Prop).
Context (HL : forall t, P (TLeaf t)) (HG : forall o c l, Forall P l -> P (TGroup o c l))
  (HS : forall n l, Forall (fun f => P (snd f)) l -> P (TStruct n l)).
Fixpoint std_rect' (x : std) : P x :=
  match x with
  | TLeaf t => HL t
  | TGroup o c l => HG o c l ((fix go l : Forall P l := match l with [] => Forall_nil _ | y :: r => Forall_cons _ (std_rect' y) (go r) end) l)
  | TStruct n l => HS n l ((fix go l : Forall (fun f => P (snd f)) l := match l with [] => Forall_nil _ | y :: r => Forall_cons _ (std_rect' (snd y)) (go r) end) l)
  end.
End StdInd.

Definition calm (t : list N) : Prop := ~ In 10 t.
Inductive clean : std -> Prop :=
  | clean_leaf t : calm t -> clean (TLeaf t)
  | clean_group o c l : calm o -> calm c -> c <> [] -> Forall clean l -> clean (TGroup o c l)
  | clean_struct n l : calm n -> Forall (fun f => calm (fst f) /\ clean (snd f)) l -> clean (TStruct n l).

Lemma indent_app a : forall nl b, indent nl (a ++ b) =
  (fst (indent nl a) ++ fst (indent (snd (indent nl a)) b), snd (indent (snd (indent nl a)) b)).
Proof.
  induction a as [|c a IH]; intros nl b; cbn [app indent].
  - cbn [fst snd app]. destruct (indent nl b); reflexivity.
  - rewrite IH. destruct (indent (c =? 10) a) as [a' e]. cbn [fst snd]. destruct (indent e b). cbn [fst snd]. now rewrite <- app_assoc.
Qed.
Lemma indent_true t : t <> [] -> indent true t = ([32; 32; 32; 32] ++ fst (indent false t), snd (indent false t)).
Proof. destruct t as [|c r]; [easy|]. intros _. cbn [indent]. destruct (indent (c =? 10) r). reflexivity. Qed.
Lemma indent_calm t : calm t -> indent false t = (t, false).
Proof.
  induction t as [|c r IH]; intros H; [reflexivity|]. cbn [indent]. destruct (N.eqb_spec c 10) as [->|]; [exfalso; apply H; now left|].
  rewrite IH; [reflexivity|]. intros I. apply H. now right.
Qed.
Lemma indent_calm_app t r : calm t -> indent false (t ++ r) = (t ++ fst (indent false r), snd (indent false r)).
Proof. intros H. rewrite indent_app, indent_calm by exact H. reflexivity. Qed.
Lemma concat_pad ts : forall nl, concat (pad nl ts) = fst (indent nl (concat ts)).
Proof.
  induction ts as [|t r IH]; intros nl; [reflexivity|]. cbn [pad concat]. rewrite indent_app. destruct (indent nl t) as [t' e] eqn:E.
  cbn [concat fst snd]. now rewrite IH.
Qed.
Lemma calm_spaces d : calm (spaces d).
Proof. induction d as [|d IH]; [easy|]. unfold calm. cbn [spaces app]. intros I. repeat (destruct I as [I|I]; [discriminate I|]). exact (IH I). Qed.
Lemma calm_app a b : calm a -> calm b -> calm (a ++ b).
Proof. intros A B I. apply in_app_iff in I as [I|I]; [exact (A I)|exact (B I)]. Qed.
Lemma calm_lit s : forallb (fun c => negb (c =? 10)) (lit s) = true -> calm (lit s).
Proof. intros H I. rewrite forallb_forall in H. apply H in I. discriminate I. Qed.
Lemma indent_newline r : indent false (10 :: r) = (10 :: fst (indent true r), snd (indent true r)).
Proof. cbn [indent]. destruct (indent (10 =? 10) r) as [r' e] eqn:E. change (10 =? 10) with true in E. rewrite E. reflexivity. Qed.
Lemma indent_comma r : indent false ([44; 10] ++ r) = ([44; 10] ++ fst (indent true r), snd (indent true r)).
Proof. change ([44; 10] ++ r) with ([44] ++ 10 :: r). rewrite (indent_calm_app [44] (10 :: r)) by (intros [I|[]]; discriminate I). rewrite indent_newline. reflexivity. Qed.
Lemma indent_spaces d c r : calm c -> c <> [] ->
  indent true (spaces d ++ c ++ r) = (spaces (S d) ++ c ++ fst (indent false r), snd (indent false r)).
Proof.
  intros C N. rewrite indent_true; [|destruct d; [destruct c; easy|discriminate]].
  rewrite indent_calm_app by apply calm_spaces. rewrite indent_calm_app by exact C. cbn [fst snd spaces app]. reflexivity.
Qed.

Lemma indent_show x : clean x -> forall d r,
  indent false (show true d x ++ r) = (show true (S d) x ++ fst (indent false r), snd (indent false r)).
Proof.
  induction x as [t|o c l IH|n l IH] using std_rect'; intros C d r; inversion C; subst.
  - cbn [show]. now apply indent_calm_app.
  - assert (L : forall r, indent true (flat_map (fun x => spaces (S d) ++ show true (S d) x ++ [44; 10]) l ++ spaces d ++ c ++ r) =
        (flat_map (fun x => spaces (S (S d)) ++ show true (S (S d)) x ++ [44; 10]) l ++ spaces (S d) ++ c ++ fst (indent false r), snd (indent false r))).
    { clear r C. intros r. induction l as [|x l IHl]; cbn [flat_map app].
      - now apply indent_spaces.
      - inversion IH; subst. match goal with H : Forall clean (x :: l) |- _ => inversion H; subst end. specialize (IHl ltac:(assumption) ltac:(assumption)).
        rewrite indent_true by discriminate. rewrite <- ?app_assoc. rewrite indent_calm_app by apply calm_spaces.
        match goal with H : clean x -> _ |- _ => rewrite H by assumption end.
        rewrite indent_comma. cbn [fst snd]. rewrite IHl. cbn [fst snd]. cbn [spaces app]. rewrite <- ?app_assoc. reflexivity. }
    cbn [show]. destruct l as [|x l].
    + rewrite <- ?app_assoc. rewrite indent_calm_app by assumption. rewrite indent_calm_app by assumption. cbn [fst snd]. reflexivity.
    + rewrite <- ?app_assoc. rewrite indent_calm_app by assumption. change ([10] ++ ?z) with (10 :: z). rewrite indent_newline. rewrite L. cbn [fst snd].
      rewrite <- ?app_assoc. reflexivity.
  - assert (L : forall r, indent true (flat_map (fun f => spaces (S d) ++ fst f ++ [58; 32] ++ show true (S d) (snd f) ++ [44; 10]) l ++ spaces d ++ [125] ++ r) =
        (flat_map (fun f => spaces (S (S d)) ++ fst f ++ [58; 32] ++ show true (S (S d)) (snd f) ++ [44; 10]) l ++ spaces (S d) ++ [125] ++ fst (indent false r), snd (indent false r))).
    { clear r C. intros r. induction l as [|x l IHl]; cbn [flat_map].
      - cbn [app]. apply (indent_spaces d [125] r); [intros [I|[]]; discriminate I|discriminate].
      - inversion IH; subst. match goal with H : Forall _ (x :: l) |- _ => inversion H as [|? ? [? ?] ?]; subst end.
        specialize (IHl ltac:(assumption) ltac:(assumption)).
        rewrite indent_true by discriminate. rewrite <- ?app_assoc. rewrite indent_calm_app by apply calm_spaces. rewrite indent_calm_app by assumption.
        rewrite (indent_calm_app [58; 32]) by (intros [I|[I|[]]]; discriminate I).
        match goal with H : clean _ -> _ |- _ => rewrite H by assumption end.
        rewrite indent_comma. cbn [fst snd]. rewrite IHl. cbn [fst snd]. cbn [spaces app]. rewrite <- ?app_assoc. reflexivity. }
    cbn [show]. rewrite <- ?app_assoc. rewrite indent_calm_app by assumption.
    change ([32; 123; 10] ++ ?z) with ([32; 123] ++ 10 :: z). rewrite (indent_calm_app [32; 123]) by (intros [I|[I|[]]]; discriminate I).
    rewrite indent_newline. rewrite L. cbn [fst snd]. rewrite <- ?app_assoc. reflexivity.
Qed.
(** An item on a line of its own. *)
Lemma item_line x : clean x -> fst (indent true (show true 0 x ++ [44; 10])) = spaces 1 ++ show true 1 x ++ [44; 10].
Proof.
  intros C. rewrite indent_true by (destruct (show true 0 x); discriminate). rewrite indent_show by exact C. reflexivity.
Qed.
Lemma field_line n x : calm n -> clean x ->
  fst (indent true (n ++ [58; 32] ++ show true 0 x ++ [44; 10])) = spaces 1 ++ n ++ [58; 32] ++ show true 1 x ++ [44; 10].
Proof.
  intros Cn C. rewrite indent_true by (destruct n; discriminate). rewrite indent_calm_app by exact Cn.
  rewrite (indent_calm_app [58; 32]) by (intros [I|[I|[]]]; discriminate I). rewrite indent_show by exact C. reflexivity.
Qed.

Lemma entries_show (o : opts) xs ys : Forall2 (fun x y => concat x = show (alternate o) 0 y /\ clean y) xs ys ->
  concat (entries o true xs) =
  if alternate o then match ys with [] => [] | _ => [10] ++ flat_map (fun y => spaces 1 ++ show true 1 y ++ [44; 10]) ys end
  else join [44; 32] (map (show false 0) ys).
Proof.
  intros F. destruct (alternate o) eqn:A.
  - assert (L : forall xs ys, Forall2 (fun x y => concat x = show true 0 y /\ clean y) xs ys ->
      concat (entries o false xs) = flat_map (fun y => spaces 1 ++ show true 1 y ++ [44; 10]) ys).
    { clear xs ys F. induction 1 as [|x y xs ys [E C] F IH]; [reflexivity|]. cbn [entries flat_map]. rewrite A. cbn [app]. rewrite concat_app, IH.
      f_equal. rewrite concat_pad, concat_app, E. apply item_line, C. }
    destruct F as [|x y xs ys [E C] F]; [reflexivity|]. cbn [entries flat_map]. rewrite A. cbn [app]. cbn [concat].
    rewrite concat_app, (L _ _ F). change (lit "
") with [10]. cbn [app]. f_equal. f_equal. rewrite concat_pad, concat_app, E. apply item_line, C.
  - assert (L : forall xs ys, Forall2 (fun x y => concat x = show false 0 y /\ clean y) xs ys ->
      concat (entries o false xs) = flat_map (fun y => [44; 32] ++ show false 0 y) ys).
    { clear xs ys F. induction 1 as [|x y xs ys [E C] F IH]; [reflexivity|]. cbn [entries flat_map]. rewrite A. rewrite !concat_app, IH, E. reflexivity. }
    destruct F as [|x y xs ys [E C] F]; [reflexivity|]. cbn [entries map]. rewrite A. cbn [app]. rewrite concat_app, (L _ _ F), E.
    clear. revert y. induction ys as [|z ys IH]; intros y; cbn [flat_map map join]; [now rewrite app_nil_r|].
    rewrite <- ?app_assoc. f_equal. cbn [app]. f_equal. f_equal. apply (IH z).
Qed.

Lemma group_show (o : opts) op cl xs ys : Forall2 (fun x y => concat x = show (alternate o) 0 y /\ clean y) xs ys ->
  concat ([op] ++ entries o true xs ++ [cl]) = show (alternate o) 0 (TGroup op cl ys).
Proof.
  intros F. rewrite !concat_app, (entries_show o xs ys F). cbn [concat]. rewrite !app_nil_r. cbn [show].
  destruct (alternate o); [|reflexivity]. destruct ys; [reflexivity|]. rewrite <- ?app_assoc. reflexivity.
Qed.
Lemma tuple_show (o : opts) n x y : concat x = show (alternate o) 0 y -> clean y ->
  concat (debug_tuple1 o n x) = show (alternate o) 0 (TGroup (n ++ [40]) [41] [y]).
Proof.
  intros E C. unfold debug_tuple1. cbn [show map join flat_map]. destruct (alternate o).
  - rewrite !concat_app. cbn [concat]. rewrite concat_pad, concat_app, E. cbn [concat]. rewrite !app_nil_r, <- ?app_assoc.
    change (lit ",
") with [44; 10]. rewrite item_line by exact C. rewrite <- ?app_assoc. reflexivity.
  - rewrite !concat_app. cbn [concat]. rewrite E, !app_nil_r, <- ?app_assoc. reflexivity.
Qed.
Lemma struct_show (o : opts) n n1 x1 y1 n2 x2 y2 : concat x1 = show (alternate o) 0 y1 -> clean y1 -> concat x2 = show (alternate o) 0 y2 -> clean y2 ->
  calm n1 -> calm n2 ->
  concat (debug_struct2 o n n1 x1 n2 x2) = show (alternate o) 0 (TStruct n [(n1, y1); (n2, y2)]).
Proof.
  intros E1 C1 E2 C2 K1 K2. unfold debug_struct2. cbn [show map join flat_map fst snd]. destruct (alternate o).
  - rewrite !concat_app. cbn [concat]. rewrite !concat_pad, !concat_app, E1, E2. cbn [concat]. rewrite !app_nil_r, <- ?app_assoc.
    change (lit ": ") with [58; 32]. change (lit ",
") with [44; 10]. rewrite (field_line n1 y1), (field_line n2 y2) by assumption. rewrite <- ?app_assoc. reflexivity.
  - rewrite !concat_app. cbn [concat]. rewrite E1, E2, !app_nil_r, <- ?app_assoc. reflexivity.
Qed.

(** ** Integers *)
Lemma digit_char_ge up d : 48 <= digit_char up d.
Proof. unfold digit_char. destruct (N.ltb_spec d 10); [lia|]. destruct up; lia. Qed.
Lemma digits_from_in f up b : forall n acc c, In c (digits_from f up b n acc) -> In c acc \/ exists d, c = digit_char up (d mod b).
Proof.
  induction f as [|f IH]; intros n acc c I; cbn [digits_from] in I; [now left|].
  assert (H : forall acc', In c (digit_char up (n mod b) :: acc') -> In c acc' \/ exists d, c = digit_char up (d mod b)).
  { intros acc' [E|E]; [right; exists n; now symmetry|now left]. }
  destruct (n / b =? 0); [exact (H _ I)|]. destruct (IH _ _ _ I) as [J|J]; [exact (H _ J)|now right].
Qed.
Lemma digits_in up b n c : In c (digits up b n) -> exists d, c = digit_char up (d mod b).
Proof. intros I. destruct (digits_from_in _ _ _ _ _ _ I) as [[]|J]; exact J. Qed.
Lemma calm_digits up b n : calm (digits up b n).
Proof. intros I. apply digits_in in I as [d E]. pose proof (digit_char_ge up (d mod b)). lia. Qed.
Lemma calm_repeat c n : c <> 10 -> calm (repeat c n).
Proof. intros H I. apply repeat_spec in I. now subst. Qed.
Lemma calm_pad o g p ds : fill o <> 10 -> calm p -> calm ds -> calm (concat (pad_integral o g p ds)).
Proof.
  intros F P D. unfold pad_integral.
  set (sg := (if g then if plus o then [43] else [] else [45]) ++ (if alternate o then p else [])).
  assert (K : calm sg); [|clearbody sg].
  { apply calm_app; [destruct g; [destruct (plus o)|]; intros I; repeat (destruct I as [I|I]; [discriminate I|]); exact I|destruct (alternate o); easy]. }
  destruct (width o) as [w|].
  2:{ cbn [concat]. apply calm_app; [exact K|]. apply calm_app; [exact D|easy]. }
  destruct (w <=? _)%nat; [cbn [concat]; apply calm_app; [exact K|]; apply calm_app; [exact D|easy]|]. destruct (zero o).
  - cbn [concat]. apply calm_app; [exact K|]. apply calm_app; [now apply calm_repeat|]. apply calm_app; easy.
  - unfold padding. destruct (match al o with Some a => a | None => ARight end); cbn [concat];
      (apply calm_app; [now apply calm_repeat|]; apply calm_app; [exact K|]; apply calm_app; [exact D|]; apply calm_app; [now apply calm_repeat|easy]).
Qed.
Lemma calm_u o n : fill o <> 10 -> calm (concat (debug_u o n)).
Proof.
  intros F. unfold debug_u, hex_u, display_u. destruct (dhex o); apply calm_pad; try assumption; try apply calm_digits; [apply calm_lit; reflexivity|easy].
Qed.
Lemma calm_i w o n : fill o <> 10 -> calm (concat (debug_i w o n)).
Proof.
  intros F. unfold debug_i, hex_u, display_i. destruct (dhex o); apply calm_pad; try assumption; try apply calm_digits; [apply calm_lit; reflexivity|easy].
Qed.

Section ValInd.
Context (P : val -> Prop).
Context (H1 : forall n, P (VU n)) (H2 : forall w z, P (VI w z)) (H3 : forall s, P (VCore s)) (H4 : forall k l, Forall P l -> P (VSeq k l))
  (H5 : forall k s, P (VStr k s)) (H6 : forall v, P v -> P (VSome v)) (H7 : P VNone) (H8 : forall v, P v -> P (VOk v)) (H9 : forall v, P v -> P (VErr v))
  (H10 : forall v, P v -> P (VLike v)) (H11 : forall k v, P k -> P v -> P (VEntry k v)).
Fixpoint val_rect' (x : val) : P x :=
  match x with
  | VU n => H1 n | VI w z => H2 w z | VCore s => H3 s
  | VSeq k l => H4 k l ((fix go l : Forall P l := match l with [] => Forall_nil _ | y :: r => Forall_cons _ (val_rect' y) (go r) end) l)
  | VStr k s => H5 k s | VSome v => H6 v (val_rect' v) | VNone => H7 | VOk v => H8 v (val_rect' v) | VErr v => H9 v (val_rect' v)
  | VLike v => H10 v (val_rect' v) | VEntry k v => H11 k v (val_rect' k) (val_rect' v)
  end.
End ValInd.

Section Debug.
Context (str_debug : list N -> list (list N)) (o : opts) (SD : forall s, calm (concat (str_debug s))) (FO : fill o <> 10).

Lemma debug_show v : concat (debug str_debug o v) = show (alternate o) 0 (std_of str_debug o v) /\ clean (std_of str_debug o v).
Proof.
  induction v as [n|w z|s|k l IH|k s|v [E C]| |v [E C]|v [E C]|v [E C]|k v [E1 C1] [E2 C2]] using val_rect'; cbn [debug std_of].
  - split; [reflexivity|]. constructor. now apply calm_u.
  - split; [reflexivity|]. constructor. now apply calm_i.
  - split; [reflexivity|]. constructor. apply SD.
  - split.
    + apply group_show. induction IH as [|x r Hx Hr IHr]; cbn [map]; constructor; assumption.
    + constructor; [apply calm_lit; reflexivity|apply calm_lit; reflexivity|discriminate|].
      induction IH as [|x r [_ Hx] Hr IHr]; cbn [map]; constructor; assumption.
  - split; [reflexivity|]. constructor. apply SD.
  - split; [now apply tuple_show|]. constructor; [apply calm_lit; reflexivity|apply calm_lit; reflexivity|discriminate|]. now repeat constructor.
  - split; [reflexivity|]. constructor. apply calm_lit. reflexivity.
  - split; [now apply tuple_show|]. constructor; [apply calm_lit; reflexivity|apply calm_lit; reflexivity|discriminate|]. now repeat constructor.
  - split; [now apply tuple_show|]. constructor; [apply calm_lit; reflexivity|apply calm_lit; reflexivity|discriminate|]. now repeat constructor.
  - now split.
  - split; [apply struct_show; try assumption; apply calm_lit; reflexivity|].
    constructor; [apply calm_lit; reflexivity|]. constructor; [split; [apply calm_lit; reflexivity|assumption]|].
    constructor; [split; [apply calm_lit; reflexivity|assumption]|constructor].
Qed.

(** ** Sets *)
Section Set_.
Context {T : Type} (f : T -> val).
Let leaf x := std_of str_debug o (f x).
Let item x := debug str_debug o (f x).

Lemma clean_braces s : clean (braces leaf s).
Proof.
  revert s. fix IH 1. intros [x|l]; cbn [braces].
  - apply debug_show.
  - constructor; [apply calm_lit; reflexivity|apply calm_lit; reflexivity|discriminate|]. induction l as [|s l IHl]; constructor; [apply IH|exact IHl].
Qed.
Lemma bind_ret {A B} (r : res A) (k : A -> res B) b : M_BTree.bind r k = Ret b -> exists a, r = Ret a /\ k a = Ret b.
Proof. destruct r; try discriminate. intros H. eauto. Qed.

(** What is printed of the entries, and the shapes they stand for. *)
Let stands (x : list (list N)) (s : shape T) := concat x = show (alternate o) 0 (braces leaf s) /\ clean (braces leaf s).
Lemma node_debug_ok (h : heap T) : forall n a l, node_each n h a = Ret l ->
  exists d ss, node_debug n o item h a = Ret d /\ concat d = show (alternate o) 0 (braces leaf (Many ss)) /\ flat_map flatten ss = l.
Proof.
  induction n as [|n IH]; intros a l E; [discriminate|]. cbn [node_each] in E. apply bind_ret in E as (nd & G & E). apply bind_ret in E as (l1 & V & E).
  apply bind_ret in E as (l2 & W & E). injection E as <-.
  assert (B : forall s r, match s with None => Ret [] | Some c => node_each n h c end = Ret r ->
    exists t ss, match s with None => Ret [] | Some c => M_BTree.bind (node_debug n o item h c) (fun t => Ret [t]) end = Ret t /\
      Forall2 stands t ss /\ flat_map flatten ss = r).
  { intros [c|] r Q; [|injection Q as <-; exists [], []; now repeat constructor].
    destruct (IH _ _ Q) as (d & ss & D & S1 & S2). exists [d], [Many ss]. rewrite D. split; [reflexivity|]. split.
    - constructor; [|constructor]. split; [exact S1|apply clean_braces].
    - cbn [flat_map flatten]. rewrite app_nil_r. exact S2. }
  assert (L : exists t ss, node_entries (node_debug n o item h) item (ents nd) = Ret t /\ Forall2 stands t ss /\ flat_map flatten ss = l1).
  { clear G W l2. revert l1 V. induction (ents nd) as [|[s x] es IHe]; intros l1 V; cbn [visit] in V.
    - injection V as <-. exists [], []. now repeat constructor.
    - apply bind_ret in V as (r1 & V1 & V). apply bind_ret in V as (r2 & V2 & V). injection V as <-.
      destruct (B _ _ V1) as (t1 & s1 & T1 & F1 & E1). destruct (IHe _ V2) as (t2 & s2 & T2 & F2 & E2).
      exists (t1 ++ item x :: t2), (s1 ++ One x :: s2). cbn [node_entries]. rewrite T1. cbn [M_BTree.bind]. rewrite T2. split; [reflexivity|]. split.
      + apply Forall2_app; [exact F1|]. constructor; [|exact F2]. apply debug_show.
      + rewrite flat_map_app. cbn [flat_map flatten app]. now rewrite E1, E2. }
  destruct L as (t & ss & T1 & F1 & E1). destruct (B _ _ W) as (t2 & s2 & T2 & F2 & E2).
  exists (debug_set o (t ++ t2)), (ss ++ s2). cbn [node_debug]. rewrite G. cbn [M_BTree.bind]. rewrite T1. cbn [M_BTree.bind]. rewrite T2. split; [reflexivity|]. split.
  - cbn [braces]. apply group_show. assert (F : Forall2 stands (t ++ t2) (ss ++ s2)) by now apply Forall2_app.
    clear - F. induction F; cbn [map]; constructor; assumption.
  - rewrite flat_map_app. now rewrite E1, E2.
Qed.
End Set_.
End Debug.

(** ** Texts that end where a character stands *)
Lemma cut (c : N) a : forall b r r', ~ In c a -> ~ In c b -> a ++ c :: r = b ++ c :: r' -> a = b /\ r = r'.
Proof.
  induction a as [|x a IH]; intros [|y b] r r' A B E; cbn [app] in E.
  - injection E as ->. now split.
  - injection E as -> _. exfalso. apply B. now left.
  - injection E as -> _. exfalso. apply A. now left.
  - injection E as -> E. destruct (IH b r r') as [-> ->]; [intros I; apply A; now right|intros I; apply B; now right|exact E|now split].
Qed.
Lemma cut_end (c : N) a : forall b r r', ~ In c a -> ~ In c b -> (r = [] \/ exists q, r = c :: q) -> (r' = [] \/ exists q, r' = c :: q) ->
  a ++ r = b ++ r' -> a = b /\ r = r'.
Proof.
  induction a as [|x a IH]; intros [|y b] r r' A B R R' E; cbn [app] in E.
  - now split.
  - exfalso. destruct R as [->|[q ->]]; [discriminate E|]. injection E as -> _. apply B. now left.
  - exfalso. destruct R' as [->|[q ->]]; [discriminate E|]. injection E as -> _. apply A. now left.
  - injection E as -> E. destruct (IH b r r') as [-> ->]; try assumption; [intros I; apply A; now right|intros I; apply B; now right|now split].
Qed.

(** ** Digits are read back *)
Definition digit_val (c : N) : N := if c <? 58 then c - 48 else if c <? 91 then c - 55 else c - 87.
Definition read (b : N) (t : list N) (a : N) : N := fold_left (fun a c => a * b + digit_val c) t a.
Lemma digit_val_char up d : d < 16 -> digit_val (digit_char up d) = d.
Proof.
  intros H. unfold digit_val, digit_char. destruct (N.ltb_spec d 10).
  - destruct (N.ltb_spec (48 + d) 58); lia.
  - destruct up.
    + destruct (N.ltb_spec (55 + d) 58); [lia|]. destruct (N.ltb_spec (55 + d) 91); lia.
    + destruct (N.ltb_spec (87 + d) 58); [lia|]. destruct (N.ltb_spec (87 + d) 91); lia.
Qed.
Lemma read_digits_from up b : 2 <= b <= 16 -> forall f n acc, n < 2 ^ N.of_nat f -> read b (digits_from f up b n acc) 0 = read b acc n.
Proof.
  intros Hb. induction f as [|f IH]; intros n acc H; cbn [digits_from].
  - change (N.of_nat 0) with 0 in H. rewrite N.pow_0_r in H. replace n with 0 by lia. reflexivity.
  - assert (M : n = b * (n / b) + n mod b) by (apply N.div_mod; lia). assert (M2 : n mod b < b) by (apply N.mod_lt; lia).
    assert (S1 : forall q, q * b + digit_val (digit_char up (n mod b)) = b * q + n mod b) by (intros q; rewrite digit_val_char by lia; lia).
    destruct (N.eqb_spec (n / b) 0) as [Z|Z].
    + unfold read. cbn [fold_left]. rewrite S1. f_equal. rewrite Z in M. lia.
    + rewrite IH.
      * unfold read. cbn [fold_left]. rewrite S1. f_equal. lia.
      * apply N.div_lt_upper_bound; [lia|]. rewrite Nat2N.inj_succ, N.pow_succ_r' in H. nia.
Qed.
Lemma size_nat_gt n : n < 2 ^ N.of_nat (S (N.size_nat n)).
Proof.
  destruct n as [|p]; [now vm_compute|]. cbn [N.size_nat]. rewrite Nat2N.inj_succ, N.pow_succ_r'.
  assert (H : N.pos p < 2 ^ N.of_nat (Pos.size_nat p)); [|lia].
  induction p as [p IH|p IH|]; cbn [Pos.size_nat]; rewrite ?Nat2N.inj_succ, ?N.pow_succ_r'; [| |now vm_compute]; lia.
Qed.
Lemma read_digits up b n : 2 <= b <= 16 -> read b (digits up b n) 0 = n.
Proof. intros H. unfold digits. rewrite read_digits_from; [reflexivity|exact H|apply size_nat_gt]. Qed.
Lemma digits_inj up b n n' : 2 <= b <= 16 -> digits up b n = digits up b n' -> n = n'.
Proof. intros H E. rewrite <- (read_digits up b n H), <- (read_digits up b n' H), E. reflexivity. Qed.

(** ** Numbers in hex, separated by colons *)
Lemma hex_digit_char up d : d < 16 -> hex_digit (digit_char up d) = true /\ digit_char up d <> 58.
Proof.
  intros H. unfold hex_digit, digit_char. destruct (N.ltb_spec d 10).
  - replace (48 <=? 48 + d) with true by (symmetry; apply N.leb_le; lia). replace (48 + d <=? 57) with true by (symmetry; apply N.leb_le; lia). split; [reflexivity|lia].
  - destruct up.
    + replace (65 <=? 55 + d) with true by (symmetry; apply N.leb_le; lia). replace (55 + d <=? 70) with true by (symmetry; apply N.leb_le; lia).
      rewrite !orb_true_r. split; [reflexivity|lia].
    + replace (97 <=? 87 + d) with true by (symmetry; apply N.leb_le; lia). replace (87 + d <=? 102) with true by (symmetry; apply N.leb_le; lia).
      rewrite orb_true_r. split; [reflexivity|lia].
Qed.
Lemma filter_all' {A} (f : A -> bool) l : (forall x, In x l -> f x = true) -> filter f l = l.
Proof. induction l as [|x l IH]; intros H; [reflexivity|]. cbn [filter]. rewrite (H x) by now left. f_equal. apply IH. intros y I. apply H. now right. Qed.
Lemma filter_none {A} (f : A -> bool) l : (forall x, In x l -> f x = false) -> filter f l = [].
Proof. induction l as [|x l IH]; intros H; [reflexivity|]. cbn [filter]. rewrite (H x) by now left. apply IH. intros y I. apply H. now right. Qed.
Lemma filter_digits up n : filter hex_digit (digits up 16 n) = digits up 16 n.
Proof. apply filter_all'. intros c I. apply digits_in in I as [d ->]. apply hex_digit_char. now apply N.mod_lt. Qed.
Lemma read_zeros k t : read 16 (repeat 48 k ++ t) 0 = read 16 t 0.
Proof. induction k as [|k IH]; [reflexivity|]. exact IH. Qed.
Lemma in_digits_colon up n : ~ In 58 (digits up 16 n).
Proof. intros I. apply digits_in in I as [d E]. destruct (hex_digit_char up (d mod 16)) as [_ H]; [now apply N.mod_lt|]. now apply H. Qed.
Lemma digits_from_nonnil up b f : forall m c l, digits_from f up b m (c :: l) <> [].
Proof. induction f as [|f IH]; intros m c l; cbn [digits_from]; [discriminate|]. destruct (m / b =? 0); [discriminate|apply IH]. Qed.
Lemma digits_nonnil up b n : digits up b n <> [].
Proof. unfold digits. cbn [digits_from]. destruct (n / b =? 0); [discriminate|apply digits_from_nonnil]. Qed.
Definition sign_of (o : opts) : list N := (if plus o then [43] else []) ++ (if alternate o then lit "0x" else []).
Lemma hex_u_text up o n : clear_fill o -> exists a k b,
  concat (hex_u up o n) = a ++ sign_of o ++ repeat 48 k ++ digits up 16 n ++ b /\
  (forall c, In c (a ++ b) -> c <> 58 /\ hex_digit c = false).
Proof.
  intros F. unfold hex_u, pad_integral. fold (sign_of o).
  assert (Z : concat [sign_of o; digits up 16 n] = [] ++ sign_of o ++ repeat 48 0 ++ digits up 16 n ++ []).
  { cbn [concat repeat app]. reflexivity. }
  destruct (width o) as [w|] eqn:W; [|exists [], O, []; split; [exact Z|intros c []]].
  destruct (w <=? _)%nat; [exists [], O, []; split; [exact Z|intros c []]|].
  destruct (zero o) eqn:ZO.
  - exists [], (w - (List.length (sign_of o) + List.length (digits up 16 n)))%nat, []. split; [reflexivity|intros c []].
  - destruct F as [F|[F|[F1 F2]]]; [rewrite W in F; discriminate|congruence|].
    destruct (padding o ARight (w - (List.length (sign_of o) + List.length (digits up 16 n)))) as [l r] eqn:P.
    exists l, O, r. split; [cbn [concat repeat app]; now rewrite app_nil_r|].
    assert (Q : forall c, In c (l ++ r) -> c = fill o).
    { intros c I. unfold padding in P. apply in_app_iff in I.
      destruct (match al o with Some a => a | None => ARight end); injection P as <- <-; destruct I as [I|I]; first [now apply repeat_spec in I|now apply (repeat_spec 0) in I|destruct I]. }
    intros c I. rewrite (Q c I). now split.
Qed.
Lemma hex_u_read up o n : clear_fill o -> let e := concat (hex_u up o n) in ~ In 58 e /\ read 16 (filter hex_digit e) 0 = n /\ e <> [].
Proof.
  intros F. destruct (hex_u_text up o n F) as (a & k & b & E & Q). cbn zeta. rewrite E.
  assert (SG : ~ In 58 (sign_of o) /\ exists j, filter hex_digit (sign_of o) = repeat 48 j).
  { unfold sign_of. destruct (plus o), (alternate o); (split; [intros I; cbn in I; repeat (destruct I as [I|I]; [discriminate I|]); exact I|]); [exists 1%nat|exists 0%nat|exists 1%nat|exists 0%nat]; reflexivity. }
  destruct SG as [S1 [j S2]]. split; [|split].
  - intros I. rewrite !in_app_iff in I. destruct I as [I|[I|[I|[I|I]]]].
    + apply (Q 58); [apply in_app_iff; now left|reflexivity].
    + exact (S1 I).
    + apply repeat_spec in I. discriminate I.
    + exact (in_digits_colon _ _ I).
    + apply (Q 58); [apply in_app_iff; now right|reflexivity].
  - rewrite !filter_app. rewrite (filter_none hex_digit a) by (intros c I; apply Q, in_app_iff; now left).
    rewrite (filter_none hex_digit b) by (intros c I; apply Q, in_app_iff; now right). rewrite S2, filter_digits, app_nil_r.
    rewrite (filter_all' hex_digit (repeat 48 k)) by (intros c I; apply repeat_spec in I; now subst). cbn [app].
    rewrite !read_zeros. apply read_digits. lia.
  - intros N. apply app_eq_nil in N as [_ N]. apply app_eq_nil in N as [_ N]. apply app_eq_nil in N as [_ N]. apply app_eq_nil in N as [N _]. now apply digits_nonnil in N.
Qed.
Lemma hex_tail {A} (item : A -> list (list N)) l : concat (hex_items item false l) = [] /\ l = [] \/ exists x r, l = x :: r /\
  concat (hex_items item false l) = 58 :: concat (item x) ++ concat (hex_items item false r).
Proof.
  destruct l as [|x r]; [now left|right]. exists x, r. split; [reflexivity|]. cbn [hex_items]. rewrite !concat_app. reflexivity.
Qed.
Lemma hex_inj up o : clear_fill o -> forall l l' : list N, concat (hex_seq up o l) = concat (hex_seq up o l') -> l = l'.
Proof.
  intros F. assert (T : forall l l', concat (hex_items (hex_u up o) false l) = concat (hex_items (hex_u up o) false l') -> l = l').
  { induction l as [|x r IH]; intros l' E; destruct (hex_tail (hex_u up o) l') as [[E' ->]|(y & r' & -> & E')].
    - reflexivity.
    - rewrite E' in E. discriminate E.
    - destruct (hex_tail (hex_u up o) (x :: r)) as [[_ Q]|(? & ? & Q & E2)]; [discriminate Q|]. rewrite E2, E' in E. discriminate E.
    - destruct (hex_tail (hex_u up o) (x :: r)) as [[_ Q]|(x0 & r0 & Q & E2)]; [discriminate Q|]. injection Q as <- <-. rewrite E2, E' in E.
      injection E as E. destruct (hex_u_read up o x F) as (A1 & A2 & _). destruct (hex_u_read up o y F) as (B1 & B2 & _).
      apply (cut_end 58) in E as [E E3]; [|exact A1|exact B1| |].
      + rewrite <- A2, <- B2, E. f_equal. apply IH, E3.
      + destruct (hex_tail (hex_u up o) r) as [[Q _]|(? & ? & _ & Q)]; [now left|right; eauto].
      + destruct (hex_tail (hex_u up o) r') as [[Q _]|(? & ? & _ & Q)]; [now left|right; eauto]. }
  intros [|x r] [|y r'] E; unfold hex_seq in E; cbn [hex_items app] in E; rewrite ?concat_app in E.
  - reflexivity.
  - symmetry in E. apply app_eq_nil in E as [E _]. now apply (hex_u_read up o y F) in E.
  - apply app_eq_nil in E as [E _]. now apply (hex_u_read up o x F) in E.
  - destruct (hex_u_read up o x F) as (A1 & A2 & _). destruct (hex_u_read up o y F) as (B1 & B2 & _).
    apply (cut_end 58) in E as [E E3]; [|exact A1|exact B1| |].
    + rewrite <- A2, <- B2, E. f_equal. apply T, E3.
    + destruct (hex_tail (hex_u up o) r) as [[Q _]|(? & ? & _ & Q)]; [now left|right; eauto].
    + destruct (hex_tail (hex_u up o) r') as [[Q _]|(? & ? & _ & Q)]; [now left|right; eauto].
Qed.

(** ** Reports *)
Section RepInd.
Context (P : report -> Prop) (H : forall n m v k fs, Forall (fun f => P (snd f)) fs -> P (Rep n m v k fs)).
Fixpoint rep_rect' (r : report) : P r :=
  match r with
  | Rep n m v k fs => H n m v k fs ((fix go l : Forall (fun f => P (snd f)) l := match l with [] => Forall_nil _ | y :: q => Forall_cons _ (rep_rect' (snd y)) (go q) end) fs)
  end.
End RepInd.
Lemma plain_space t : plain t -> ~ In 32 t /\ ~ In 34 t.
Proof. unfold plain. rewrite Forall_forall. intros H. split; intros I; apply H in I; now destruct I. Qed.
Lemma tyty_space k : match k with KEnum s => plain s | _ => True end -> ~ In 32 (tyty_debug k).
Proof.
  destruct k as [|s|]; cbn [tyty_debug]; intros H I; try (cbn in I; repeat (destruct I as [I|I]; [discriminate I|]); exact I).
  apply in_app_iff in I as [I|I]; [cbn in I; repeat (destruct I as [I|I]; [discriminate I|]); exact I|]. apply in_app_iff in I as [I|I]; [now apply plain_space in H|].
  cbn in I; repeat (destruct I as [I|I]; [discriminate I|]); exact I.
Qed.
Lemma tyty_inj k k' : match k with KEnum s => plain s | _ => True end -> match k' with KEnum s => plain s | _ => True end -> tyty_debug k = tyty_debug k' -> k = k'.
Proof.
  destruct k as [|s|], k' as [|s'|]; intros H H' E; cbn [tyty_debug] in E; try reflexivity; try discriminate E.
  apply app_inv_head in E. change (lit """)") with (34 :: [41]) in E. apply cut in E as [-> _]; [reflexivity|now apply plain_space|now apply plain_space].
Qed.
Lemma digits_paren n : ~ In 41 (digits false 10 n).
Proof. intros I. apply digits_in in I as [d E]. pose proof (digit_char_ge false (d mod 10)). lia. Qed.
Lemma readable_inv n m v k fs : readable (Rep n m v k fs) -> plain n /\ plain m /\ match k with KEnum s => plain s | _ => True end /\
  Forall (fun f => plain_field (fst f) /\ readable (snd f)) fs.
Proof.
  intros R. inversion R as [? ? ? ? ? A B C D]; subst. split; [exact A|]. split; [exact B|]. split; [exact C|]. rewrite Forall_forall. intros [f r] I. exact (D f r I).
Qed.
Lemma report_prefix r : readable r -> forall r' q q', readable r' -> report_display r ++ q = report_display r' ++ q' -> r = r' /\ q = q'.
Proof.
  induction r as [n m v k fs IH] using rep_rect'. intros R [n' m' v' k' fs'] q q' R' E.
  apply readable_inv in R as (Rn & Rm & Rk & Rf). apply readable_inv in R' as (Rn' & Rm' & Rk' & Rf').
  cbn [report_display] in E. rewrite <- !app_assoc in E.
  change (lit " " ++ ?z) with (32 :: z) in E. apply cut in E as [E1 E]; [|now apply tyty_space|now apply tyty_space]. apply tyty_inj in E1; [|assumption|assumption]. subst k'.
  change (lit " :: " ++ ?z) with (32 :: [58; 58; 32] ++ z) in E. apply cut in E as [-> E]; [|now apply plain_space|now apply plain_space]. apply app_inv_head in E.
  change (lit " (version" ++ ?z) with (32 :: [40; 118; 101; 114; 115; 105; 111; 110] ++ z) in E. apply cut in E as [-> E]; [|now apply plain_space|now apply plain_space]. apply app_inv_head in E.
  change (lit ") {" ++ ?z) with (41 :: [32; 123] ++ z) in E. apply cut in E as [E1 E]; [|apply digits_paren|apply digits_paren]. apply app_inv_head in E.
  apply digits_inj in E1; [|lia]. subst v'.
  assert (L : fs = fs' /\ q = q'); [|destruct L as [-> ->]; now split].
  clear - IH Rf Rf' E. revert fs' Rf' E. induction fs as [|[f r] fs IHl]; intros [|[f' r'] fs'] Rf' E; cbn [flat_map app] in E.
  - split; [reflexivity|]. now apply app_inv_head in E.
  - exfalso. inversion Rf' as [|? ? [A _] _]; subst. cbn [fst snd] in *. unfold plain_field in A. rewrite Forall_forall in A.
    apply (f_equal (hd 0)) in E. destruct f' as [|c f']; [assert (Q : 125 = 58) by exact E; discriminate Q|]. assert (Q0 : 125 = c) by exact E. subst c. destruct (A 125) as [_ Q]; [now left|]. now apply Q.
  - exfalso. inversion Rf as [|? ? [A _] _]; subst. cbn [fst snd] in *. unfold plain_field in A. rewrite Forall_forall in A.
    apply (f_equal (hd 0)) in E. destruct f as [|c f]; [assert (Q : 58 = 125) by exact E; discriminate Q|]. assert (Q0 : c = 125) by exact E. subst c. destruct (A 125) as [_ Q]; [now left|]. now apply Q.
  - inversion IH as [|? ? IH1 IH2]; subst. inversion Rf as [|? ? [A1 A2] A3]; subst. inversion Rf' as [|? ? [B1 B2] B3]; subst. cbn [fst snd] in *.
    rewrite <- !app_assoc in E. change (lit ": " ++ ?z) with (58 :: [32] ++ z) in E.
    assert (C1 : ~ In 58 f) by (unfold plain_field in A1; rewrite Forall_forall in A1; intros I; apply A1 in I; now destruct I).
    assert (C2 : ~ In 58 f') by (unfold plain_field in B1; rewrite Forall_forall in B1; intros I; apply B1 in I; now destruct I).
    apply cut in E as [-> E]; [|exact C1|exact C2]. apply app_inv_head in E. apply (IH1 A2) in E as [-> E]; [|exact B2]. apply app_inv_head in E.
    apply (IHl IH2 A3) in E as [-> ->]; [now split|exact B3].
Qed.

(** ** Writing to strings *)
Lemma write_ok ok ts : forall s l, holds 1 s l -> fits 1 (N.of_nat (List.length l + List.length (concat ts))) ->
  (exists s', write_all ok ts s = Some (s', true) /\ holds 1 s' (l ++ concat ts)) \/
  (exists s' k, write_all ok ts s = Some (s', false) /\ (k < List.length ts)%nat /\ holds 1 s' (l ++ concat (firstn k ts)) /\ exists n, ok n = false).
Proof.
  induction ts as [|t r IH]; intros s l H F; cbn [write_all concat].
  - left. exists s. rewrite app_nil_r. now split.
  - cbn [concat] in F. rewrite app_length in F. unfold try_concat.
    destruct (v_try_copy_extend_spec 1 ok s l t ltac:(discriminate) H) as [(s1 & E & H1)|[[n K] E]].
    + eapply fits_le; [|exact F]. lia.
    + rewrite E. cbn [of_out]. destruct (IH s1 (l ++ t) H1) as [(s' & E' & H')|(s' & k & E' & Q & H' & K')].
      * rewrite app_length. eapply fits_le; [|exact F]. lia.
      * left. exists s'. now rewrite app_assoc.
      * right. exists s', (S k). split; [exact E'|]. split; [cbn [List.length]; lia|]. split; [cbn [firstn concat]; now rewrite app_assoc|exact K'].
    + rewrite E. cbn [of_out]. right. exists s, O. split; [reflexivity|]. split; [cbn [List.length]; lia|]. cbn [firstn concat]. rewrite app_nil_r. split; [exact H|eauto].
Qed.
