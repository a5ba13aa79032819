(** Model of stabby-macros/src/traits.rs: the vtable generated for a trait.
    Identifiers, lifetimes, lengths and the parts of a signature that are copied unchanged
    (generics, abi, unsafety, traits.rs:472-497) are numbers.  Bounds of associated types
    (traits.rs:354-383), attributes and documentation are not modelled. *)
From Coq Require Import Ascii String.
From Coq Require Import List Arith NArith Bool.
From Verif Require Import M_Report.
Import ListNotations.

(** Identifiers: those of the source, and [_stabby_unselfed_n] (traits.rs:141-143). *)
Inductive ident := User (n : N) | Gen (n : nat).
(** traits.rs:896-938 [Ty], with its arguments (traits.rs:1023-1034; bindings and constraints,
    which types do not have, left out), also used for the inputs of a bare fn, and the rest of a
    path.  The prefix of [Arbitrary] is a number. *)
Inductive ty :=
| TNever | TUnit
| TArb (prefix : N) (next : ty)
| TSelf (t : ty)
| TRef (lifetime : option N) (mutable : bool) (t : ty)
| TPtr (mutable : bool) (t : ty)
| TArr (t : ty) (len : N)
| TFn (copied : N) (inputs : args) (output : ty)
| TPath (segment : ident) (arguments : args) (next : onext)
| TColon (next : ty)
| TQual (target as_trait next : ty)
(** See above, for arguments (traits.rs:896-938). *)
with args := ANil | ALt (l : N) (r : args) | ATy (t : ty) (r : args) | AConst (c : N) (r : args)
(** See above, for the rest of a path (traits.rs:896-938). *)
with onext := NNone | NSome (t : ty).

(** Equality of identifiers (proc_macro2; traits.rs:997). *)
Definition ident_eqb (a b : ident) : bool :=
  match a, b with
  | User n, User m => N.eqb n m
  | Gen n, Gen m => Nat.eqb n m
  | _, _ => false
  end.
(** Equality of optional lifetimes (traits.rs:964). *)
Definition lt_eqb (a b : option N) : bool :=
  match a, b with Some n, Some m => N.eqb n m | None, None => true | _, _ => false end.

(** traits.rs:45-48: equality of the printed tokens (traits.rs:1054-1101), taken to be equality
    of the trees: see [trait_types_same] in [P_TraitTy]. *)
Fixpoint same (a b : ty) : bool :=
  match a, b with
  | TNever, TNever | TUnit, TUnit => true
  | TArb p t, TArb q u => N.eqb p q && same t u
  | TSelf t, TSelf u => same t u
  | TRef l m t, TRef l' m' u => lt_eqb l l' && Bool.eqb m m' && same t u
  | TPtr m t, TPtr m' u => Bool.eqb m m' && same t u
  | TArr t n, TArr u n' => N.eqb n n' && same t u
  | TFn c i o, TFn c' i' o' => N.eqb c c' && same_args i i' && same o o'
  | TPath s a n, TPath s' a' n' => ident_eqb s s' && same_args a a' && same_next n n'
  | TColon t, TColon u => same t u
  | TQual a b c, TQual a' b' c' => same a a' && same b b' && same c c'
  | _, _ => false
  end
(** See above, for arguments (traits.rs:45-48). *)
with same_args (a b : args) : bool :=
  match a, b with
  | ANil, ANil => true
  | ALt l r, ALt l' r' => N.eqb l l' && same_args r r'
  | ATy t r, ATy u r' => same t u && same_args r r'
  | AConst c r, AConst c' r' => N.eqb c c' && same_args r r'
  | _, _ => false
  end
(** See above, for the rest of a path (traits.rs:45-48). *)
with same_next (a b : onext) : bool :=
  match a, b with
  | NNone, NNone => true
  | NSome t, NSome u => same t u
  | _, _ => false
  end.

(** traits.rs:45-48 [find] ([position]). *)
Fixpoint find (sdts : list ty) (t : ty) : option nat :=
  match sdts with
  | [] => None
  | u :: r => if same u t then Some 0 else option_map S (find r t)
  end.
(** traits.rs:32-39 [push]. *)
Definition push (sdts : list ty) (t : ty) : list ty :=
  match find sdts t with None => sdts ++ [t] | Some _ => sdts end.
(** traits.rs:40-44 [extend]. *)
Definition extend (sdts ts : list ty) : list ty := fold_left push ts sdts.

(** Sequencing of panics (traits.rs:55). *)
Definition bind {A B} (o : option A) (f : A -> option B) : option B :=
  match o with Some a => f a | None => None end.
(** traits.rs:49-137 [unselfed]; [None] is the panic of line 55. *)
Fixpoint unselfed (sdts : list ty) (t : ty) : option ty :=
  match t with
  | TNever => Some TNever
  | TUnit => Some TUnit
  | TSelf t => option_map (fun n => TPath (Gen n) ANil NNone) (find sdts t)
  | TArb p t => option_map (TArb p) (unselfed sdts t)
  | TRef l m t => option_map (TRef l m) (unselfed sdts t)
  | TPtr m t => option_map (TPtr m) (unselfed sdts t)
  | TArr t n => option_map (fun t => TArr t n) (unselfed sdts t)
  | TFn c i o => bind (unselfed_args sdts i) (fun i => option_map (TFn c i) (unselfed sdts o))
  | TPath s a n => bind (unselfed_args sdts a) (fun a => option_map (TPath s a) (unselfed_next sdts n))
  | TColon t => option_map TColon (unselfed sdts t)
  | TQual a b c =>
      bind (unselfed sdts a) (fun a => bind (unselfed sdts b) (fun b => option_map (TQual a b) (unselfed sdts c)))
  end
(** See above, for arguments (traits.rs:49-137). *)
with unselfed_args (sdts : list ty) (a : args) : option args :=
  match a with
  | ANil => Some ANil
  | ALt l r => option_map (ALt l) (unselfed_args sdts r)
  | ATy t r => bind (unselfed sdts t) (fun t => option_map (ATy t) (unselfed_args sdts r))
  | AConst c r => option_map (AConst c) (unselfed_args sdts r)
  end
(** See above, for the rest of a path (traits.rs:49-137). *)
with unselfed_next (sdts : list ty) (n : onext) : option onext :=
  match n with
  | NNone => Some NNone
  | NSome t => option_map NSome (unselfed sdts t)
  end.

(** traits.rs:1177-1221 [rec_self_dependent_types]: what is pushed, in order. *)
Fixpoint self_types (t : ty) : list ty :=
  match t with
  | TSelf t => [t]
  | TNever | TUnit => []
  | TColon t | TArb _ t | TRef _ _ t | TPtr _ t | TArr t _ => self_types t
  | TFn _ i o => self_types o ++ self_types_args i
  | TPath _ a n => self_types_args a ++ self_types_next n
  | TQual a b c => self_types a ++ self_types b ++ self_types c
  end
(** See above, for arguments (traits.rs:1177-1221). *)
with self_types_args (a : args) : list ty :=
  match a with
  | ANil => []
  | ALt _ r | AConst _ r => self_types_args r
  | ATy t r => self_types t ++ self_types_args r
  end
(** See above, for the rest of a path (traits.rs:1177-1221). *)
with self_types_next (n : onext) : list ty :=
  match n with NNone => [] | NSome t => self_types t end.

(** traits.rs:1322-1404 [replace_self]. *)
Fixpoint replace_self (w : N) (t : ty) : ty :=
  match t with
  | TNever => TNever
  | TUnit => TUnit
  | TArb p t => TArb p (replace_self w t)
  | TSelf t => TArb w t
  | TRef l m t => TRef l m (replace_self w t)
  | TPtr m t => TPtr m (replace_self w t)
  | TArr t n => TArr (replace_self w t) n
  | TFn c i o => TFn c (replace_self_args w i) (replace_self w o)
  | TPath s a n => TPath s (replace_self_args w a) (replace_self_next w n)
  | TColon t => TColon (replace_self w t)
  | TQual a b c => TQual (replace_self w a) (replace_self w b) (replace_self w c)
  end
(** See above, for arguments (traits.rs:1322-1404). *)
with replace_self_args (w : N) (a : args) : args :=
  match a with
  | ANil => ANil
  | ALt l r => ALt l (replace_self_args w r)
  | ATy t r => ATy (replace_self w t) (replace_self_args w r)
  | AConst c r => AConst c (replace_self_args w r)
  end
(** See above, for the rest of a path (traits.rs:1322-1404). *)
with replace_self_next (w : N) (n : onext) : onext :=
  match n with NNone => NNone | NSome t => NSome (replace_self w t) end.

(** traits.rs:939-1017 [PartialEq for Ty]: arrays and bare fns are equal to nothing, the
    arguments of paths are not compared. *)
Fixpoint ty_eq (a b : ty) : bool :=
  match a, b with
  | TArb p t, TArb q u => N.eqb p q && ty_eq t u
  | TSelf t, TSelf u => ty_eq t u
  | TRef l m t, TRef l' m' u => lt_eqb l l' && Bool.eqb m m' && ty_eq t u
  | TPtr m t, TPtr m' u => Bool.eqb m m' && ty_eq t u
  | TArr _ _, _ | TFn _ _ _, _ => false
  | TPath s _ n, TPath s' _ n' =>
      ident_eqb s s' && match n, n' with
                        | NNone, NNone => true
                        | NSome t, NSome u => ty_eq t u
                        | _, _ => false
                        end
  | TColon t, TColon u => ty_eq t u
  | TQual a b c, TQual a' b' c' => ty_eq a a' && ty_eq b b' && ty_eq c c'
  | TNever, TNever | TUnit, TUnit => true
  | _, _ => false
  end.

(** The lifetime ['static] (traits.rs:1108). *)
Definition static : N := 0%N.
(** traits.rs:1103-1146 [elide_lifetime]. *)
Fixpoint elide (t : ty) : ty :=
  match t with
  | TNever => TNever
  | TUnit => TUnit
  | TRef l m t => TRef (option_map (fun _ => static) l) m (elide t)
  | TArr t n => TArr (elide t) n
  | TPtr m t => TPtr m (elide t)
  | TColon t => TColon (elide t)
  | TArb p t => TArb p (elide t)
  | TSelf t => TSelf (elide t)
  | TFn c i o => TFn c i o
  | TPath s a n => TPath s (elide_args a) (elide_next n)
  | TQual a b c => TQual (elide a) (elide b) (elide c)
  end
(** See above, for arguments (traits.rs:1103-1146). *)
with elide_args (a : args) : args :=
  match a with
  | ANil => ANil
  | ALt _ r => ALt static (elide_args r)
  | ATy t r => ATy (elide t) (elide_args r)
  | AConst c r => AConst c (elide_args r)
  end
(** See above, for the rest of a path (traits.rs:1103-1146). *)
with elide_next (n : onext) : onext :=
  match n with NNone => NNone | NSome t => NSome (elide t) end.

(** traits.rs:167-175 [DynTraitFn]; [m_copied] stands for generics, abi, unsafety and the
    receiver's lifetime. *)
Record method := Mk {
  m_name : list N;
  m_copied : N;
  m_mut : bool;
  m_inputs : list ty;
  m_output : option ty }.
(** What a trait is declared with: its path, its associated types and its methods, in order, and
    whether it is [checked] (traits.rs:1410-1414). *)
Inductive item := IFn (m : method) | IType (name : N).
(** See [item]; traits.rs:1406-1422. *)
Record decl := Decl {
  d_name : list N;
  d_module : list N;
  d_checked : bool;
  d_items : list item }.

(** traits.rs:151-161 [DynTraitDescription]. *)
Record description := Desc {
  functions : list method;
  mut_functions : list method;
  sdts : list ty }.
(** traits.rs:411-420 [self_dependent_types]. *)
Definition fn_self_types (m : method) : list ty :=
  match m_output m with Some t => self_types t | None => [] end ++ flat_map self_types (m_inputs m).
(** traits.rs:245-397: one item. *)
Definition describe_item (d : description) (i : item) : description :=
  match i with
  | IFn m => if m_mut m then Desc (functions d) (mut_functions d ++ [m]) (sdts d)
             else Desc (functions d ++ [m]) (mut_functions d) (sdts d)
  | IType n => Desc (functions d) (mut_functions d) (push (sdts d) (TPath (User n) ANil NNone))
  end.
(** traits.rs:208-408 [From for DynTraitDescription]. *)
Definition describe (d : decl) : description :=
  let b := fold_left describe_item (d_items d) (Desc [] [] []) in
  Desc (functions b) (mut_functions b)
       (extend (sdts b) (flat_map fn_self_types (functions b ++ mut_functions b))).

(** The types of a function pointer (traits.rs:446,497): the receiver's mutability, whether it is [&()] rather than
    a reference to [StabbyArbitraryType], the inputs, the output. *)
Record sig := Sig {
  s_copied : N;
  s_mut : bool;
  s_unit : bool;
  s_inputs : list ty;
  s_output : option ty }.
(** [map] with panics (traits.rs:445,490). *)
Fixpoint mapM {A B} (f : A -> option B) (l : list A) : option (list B) :=
  match l with
  | [] => Some []
  | a :: r => bind (f a) (fun b => option_map (cons b) (mapM f r))
  end.
(** An optional type, with panics (traits.rs:441-444,491-494). *)
Definition optM {A B} (f : A -> option B) (o : option A) : option (option B) :=
  match o with None => Some None | Some a => option_map Some (f a) end.
(** traits.rs:472-498 [field_signature]. *)
Definition field_signature (sdts : list ty) (m : method) : option sig :=
  bind (mapM (unselfed sdts) (m_inputs m)) (fun ins =>
  option_map (Sig (m_copied m) (m_mut m) true ins) (optM (unselfed sdts) (m_output m))).
(** traits.rs:421-447 [ptr_signature]; the prefix is [<StabbyArbitraryType as Trait>]
    (traits.rs:667). *)
Definition ptr_signature (w : N) (m : method) : sig :=
  Sig (m_copied m) (m_mut m) false (map (replace_self w) (m_inputs m))
      (option_map (replace_self w) (m_output m)).

(** A condition of stability (traits.rs:451-468): [()], a type, or [Union<cond, type>]. *)
Inductive cond := CUnit | CTy (t : ty) | CUnion (c : cond) (t : ty).
(** traits.rs:451-462: the condition for the output. *)
Definition cond_output (sdts : list ty) (o : option ty) : option cond :=
  match o with
  | Some t => bind (unselfed sdts t) (fun u => Some (if ty_eq u t then CTy (elide u) else CUnit))
  | None => Some CUnit
  end.
(** traits.rs:463-469: the loop over inputs. *)
Fixpoint cond_inputs (sdts : list ty) (c : cond) (l : list ty) : option cond :=
  match l with
  | [] => Some c
  | t :: r =>
      bind (unselfed sdts t) (fun u =>
      cond_inputs sdts (if ty_eq u t then CUnion c (elide u) else c) r)
  end.
(** traits.rs:448-471 [stability_cond]. *)
Definition stability_cond (sdts : list ty) (m : method) : option cond :=
  bind (cond_output sdts (m_output m)) (fun c => cond_inputs sdts c (m_inputs m)).

(** traits.rs:584-606,678-687: the fields of the vtable, in order: a name and
    [StableLike<sig, &'static ()>], under [StableIf] if the trait is checked. *)
Record field := Field { f_name : list N; f_sig : sig; f_if : option cond }.
(** See [field], traits.rs:584-606. *)
Definition vt_field (checked : bool) (sdts : list ty) (m : method) : option field :=
  bind (field_signature sdts m) (fun s =>
  bind (stability_cond sdts m) (fun c =>
  Some (Field (m_name m) s (if checked then Some c else None)))).
(** traits.rs:533-687: the fields of the generated struct. *)
Definition vtable (d : decl) : option (list field) :=
  let s := describe d in
  mapM (vt_field (d_checked d) (sdts s)) (functions s ++ mut_functions s).

(** Whether a condition is [IStable] (istable.rs:527 for [Union], stable_impls/mod.rs:244 for [()]),
    when [S] tells which types are. *)
Fixpoint cond_stable (S : ty -> Prop) (c : cond) : Prop :=
  match c with
  | CUnit => True
  | CTy t => S t
  | CUnion c t => cond_stable S c /\ S t
  end.
(** stabby-abi/src/lib.rs:262-274,349-360: [StableLike<_, &'static ()>] is always stable,
    [StableIf] under its condition. *)
Definition field_stable (S : ty -> Prop) (f : field) : Prop :=
  match f_if f with None => True | Some c => cond_stable S c end.
(** A [#[stabby]] struct is [IStable] if its fields are (structs.rs:232-241, istable.rs:385,561). *)
Definition vt_stable (S : ty -> Prop) (fs : list field) : Prop := Forall (field_stable S) fs.

(** The bytes of a name, as [Str::new] holds them (stabby-abi/src/lib.rs:54). *)
Definition bytes_of (s : string) : list N := map (fun a => N_of_ascii a) (list_ascii_of_string s).
(** stabby-abi/src/lib.rs:51-65, stable_impls/mod.rs:664-665: the report of a reference. *)
Definition ref_report (r : report) : report :=
  Rep (bytes_of "&") (bytes_of "stabby_abi::stable_impls") 0 KStruct [(bytes_of "inner", r)].
(** stabby-abi/src/lib.rs:66-75: the report of a type without fields; [()] has it
    (stable_impls/mod.rs:244-254). *)
Definition unit_report : report := Rep (bytes_of "()") (bytes_of "stabby_abi::stable_impls") 0 KStruct [].
(** stabby-abi/src/lib.rs:262-274,349-360: the report of a vtable's field is that of [&'static ()]. *)
Definition field_report (f : field) : list N * report := (f_name f, ref_report unit_report).
(** traits.rs:501-503,692 and structs.rs:124: the generated struct [StabbyVtable..] is a
    [#[stabby]] struct. *)
Definition vt_report (d : decl) (fs : list field) : report :=
  macro_report (bytes_of "StabbyVtable" ++ d_name d) (d_module d) 0 KStruct (map field_report fs).
(** vtable/mod.rs:259-268 [VTable]. *)
Definition pair_report (tail head : report) : report :=
  macro_report (bytes_of "VTable") (bytes_of "stabby_abi::vtable") 0 KStruct
    [(bytes_of "tail", tail); (bytes_of "head", head)].
(** fatptr.rs:96-103 [DynRef]. *)
Definition dynref_report (vt : report) : report :=
  macro_report (bytes_of "DynRef") (bytes_of "stabby_abi::fatptr") 0 KStruct
    [(bytes_of "ptr", ref_report unit_report); (bytes_of "vtable", ref_report vt);
     (bytes_of "unsend", Rep (bytes_of "core::marker::PhantomData") (bytes_of "stabby_abi::stable_impls") 0 KStruct [])].
(** vtable/mod.rs:347-353 [VtDrop]: its field is [StableLike<fn, NonZeroUsize>]. *)
Definition drop_report : report :=
  macro_report (bytes_of "VtDrop") (bytes_of "stabby_abi::vtable") 0 KStruct
    [(bytes_of "drop", Rep (bytes_of "core::num::NonZeroUsize") (bytes_of "stabby_abi::stable_impls") 0 KStruct [])].
(** The vtable of [dyn A + B + ..] (stabby-macros/src/lib.rs:117-123,227-230). *)
Definition compound_report (l : list (decl * list field)) : report :=
  fold_left (fun vt x => pair_report vt (vt_report (fst x) (snd x))) l drop_report.
