(** Model of the padding types (stabby-abi/src/typenum2/unsigned.rs:35-56,455-513) and of [NoNiches]
    (stabby-abi/src/lib.rs:274-306) as types of their own. *)
From Coq Require Import String Ascii.
From Coq Require Import List Arith NArith Bool.
From Verif Require Import M_Typenum M_Layout M_Report.
Import ListNotations.
Local Open Scope string_scope.
Local Open Scope list_scope.

(** unsigned.rs:38 [PadByte], :491 [PaddingHelper<Double, Bit>], :459-462 [OneMoreByte<L>], mod.rs:244 [()].
    The parameters [Double] and [L] are any type of alignment 1: [POf] is one with the given description. *)
Inductive pad :=
| PUnit
| PByte
| PHelper (double : pad) (b : bool)
| PMore (l : pad)
| POf (d : desc).

(** unsigned.rs:386,410,437,534 [IUnsigned::Padding]. *)
Fixpoint padding_of (u : unum) : pad :=
  match u with
  | UTerm | Saturator => PUnit
  | UInt m b => PHelper (padding_of m) b
  end.

(** istable.rs:30-53: what [IStable] tells of a padding type, other than its alignment. *)
Record told := Told { tsize : unum; tfv : fv; tub : mask; tniche : sadd; tind : bool }.

(** build.rs:24-36 [U2]. *)
Definition U2 : unum := UInt U1 false.
(** unsigned.rs:397,422,515: the number a type stands for ([M_Layout] has sizes and offsets as numbers), without the
    bound of [u128]. *)
Fixpoint digits (u : unum) : nat :=
  match u with
  | UTerm | Saturator => 0
  | UInt m b => 2 * digits m + (if b then 1 else 0)
  end.
(** The claims of a type as a layout descriptor, of alignment 1 (unsigned.rs:46,469,505), to be put in a tuple
    (unsigned.rs:509 [Tuple3]). Sizes are numbers there, see [typenum_add] for the arithmetic. *)
Definition as_desc (t : told) : desc :=
  {| dsize := digits (tsize t); dalign := 1; dfv := tfv t; dub := tub t;
     dniche := tniche t; dind := tind t |}.
(** mod.rs:244-254 [()], unsigned.rs:41-56 [PadByte], :464-483 [OneMoreByte], :502-513 [PaddingHelper], with
    [Bit::_Padding] of unsigned.rs:114,136. *)
Fixpoint tell (p : pad) : told :=
  match p with
  | PUnit => Told UTerm FEnd [] A0 false
  | PByte => Told U1 FEnd [(0, 255%N)] A0 false
  | PHelper d b =>
      let td := tell d in
      let tb := if b then Told U1 FEnd [(0, 255%N)] A0 false else Told UTerm FEnd [] A0 false in
      Told (add (mul U2 (tsize td)) (if b then U1 else UTerm)) FEnd
           (dub (struct_ (field_pair (field_pair (as_desc td) (as_desc td)) (as_desc tb)))) A0 false
  | PMore l =>
      let tl := tell l in
      Told (increment (tsize tl)) (tfv tl)
           (bit_or (tub tl) [(dsize (as_desc tl), 255%N)]) (tniche tl) (tind tl)
  | POf d => Told (build_u (N.of_nat (dsize d))) (dfv d) (dub d) (dniche d) (dind d)
  end.

(** What [rustc] makes of these [repr(C)] types (unsigned.rs:37,457,490), [Bit::_Padding] being [()] or [PadByte]
    (unsigned.rs:114,136): all the fields have alignment 1, they follow
    each other. *)
Fixpoint rust_size (p : pad) : nat :=
  match p with
  | PUnit => 0
  | PByte => 1
  | PHelper d b => rust_size d + rust_size d + (if b then 1 else 0)
  | PMore l => rust_size l + 1
  | POf d => dsize d
  end.

(** [core::module_path!()] where these reports are made (lib.rs:55,71). *)
Definition bytes_of (s : string) : list N := map N_of_ascii (list_ascii_of_string s).
(** lib.rs:66-75 [primitive_report!] of a name. *)
Definition primitive_report (name module : string) : report :=
  Rep (bytes_of name) (bytes_of module) 0 KStruct [].
(** mod.rs:253 [()], unsigned.rs:55,482,512. [None]: the report of the given type. *)
Definition pad_report (p : pad) : option report :=
  match p with
  | PUnit => Some (primitive_report "()" "stabby_abi::stable_impls")
  | PByte => Some (primitive_report "PadByte" "stabby_abi::typenum2::unsigned")
  | PHelper _ _ => Some (primitive_report "Padding" "stabby_abi::typenum2::unsigned")
  | PMore _ => Some (primitive_report "OneMoreByte" "stabby_abi::typenum2::unsigned")
  | POf _ => None
  end.

(** lib.rs:280-288 [NoNiches<Size, Align, HasExactlyOneNiche, ContainsIndirections>]. *)
Record nn := NN { nn_size : unum; nn_align : nat; nn_niche : sadd; nn_ind : bool }.
(** lib.rs:290-302: what it tells, and [Align] (lib.rs:298). *)
Definition nn_told (x : nn) : told * nat :=
  (Told (nn_size x) FEnd [] (nn_niche x) (nn_ind x), nn_align x).
(** lib.rs:286-287: its only field that takes room is [Size::Padding], of alignment 1: what [rustc] makes of it. *)
Definition nn_rust (x : nn) : nat * nat := (rust_size (padding_of (nn_size x)), 1).
(** lib.rs:305. *)
Definition nn_report (x : nn) : report := primitive_report "NoNiches" "stabby_abi".
