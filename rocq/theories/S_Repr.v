(** The algorithm published in repr-stabby.md (lines 53-110), transcribed from its
    Python pseudo-code.  Masks are lists with one byte per byte of the type. *)
From Coq Require Import List Arith NArith Bool.
From Verif Require Import M_Layout.
Import ListNotations.

(** repr-stabby.md:7: a forbidden value is an array of (byte_offset, value). *)
Definition doc_fv := list (nat * N).
(** repr-stabby.md:53-76 class [Unbits]. *)
Definition doc_pad (m : list N) (target : nat) : list N := m ++ repeat 255%N (target - length m).
(** repr-stabby.md:62-66. *)
Definition doc_shift (m : list N) (by_ : nat) : list N := repeat 255%N by_ ++ m.
(** repr-stabby.md:67-68, for every byte of the forbidden value. *)
Definition doc_can_contain (m : list N) (f : doc_fv) : bool :=
  forallb (fun e => N.eqb (nth (fst e) m 0%N) 255) f.
(** repr-stabby.md:84 the operator [&]. *)
Fixpoint doc_and (a b : list N) : list N :=
  match a, b with
  | x :: a', y :: b' => N.land x y :: doc_and a' b'
  | _, _ => []
  end.
(** Position of the lowest bit set of a byte. *)
Definition lowest_bit (v : N) : N :=
  match find (N.testbit v) [0; 1; 2; 3; 4; 5; 6; 7]%N with Some i => i | None => 8%N end.
(** repr-stabby.md:69-76 [extract_bit]: first non-zero byte, lowest bit in it. *)
Fixpoint doc_extract_bit (m : list N) : option ((nat * N) * list N) :=
  match m with
  | [] => None
  | v :: r =>
      if N.eqb v 0 then
        match doc_extract_bit r with
        | Some ((o, i), r') => Some ((S o, i), v :: r')
        | None => None
        end
      else Some ((0, lowest_bit v), N.lxor v (2 ^ lowest_bit v) :: r)
  end.

(** What the algorithm needs to know of a type. *)
Record doc_ty := DocTy { t_size : nat; t_align : nat; t_fvs : list doc_fv; t_unbits : list N }.

Inductive doc_det :=
| DocBit
| DocValueIsErr (f : doc_fv)
| DocBitIsErr (byte : nat) (bit : N)
| DocNot (d : doc_det).
Record doc_result := DocResult { r_det : doc_det; r_ok_shift : nat; r_err_shift : nat; r_unbits : list N }.

(** Smallest multiple of [p] above [a]. *)
Definition doc_next_multiple (a p : nat) : nat := (a + p - 1) / p * p.
(** repr-stabby.md:81. *)
Definition doc_union_size (ok err : doc_ty) : nat :=
  Nat.max (doc_next_multiple (t_size ok) (t_align err)) (doc_next_multiple (t_size err) (t_align ok)).

Definition move_fv (by_ : nat) (f : doc_fv) : doc_fv := map (fun e => (fst e + by_, snd e)) f.

(** repr-stabby.md:84-101, the loop body from iteration [i], [n] iterations left.
    [errata] = false: as published.  [errata] = true: with the two corrections
    without which the text is meaningless: the forbidden values of [Err] are
    those of [Err] at its shifted position, and the value that [Err] cannot take
    (resp. [Ok]) marks [Ok] (resp. [Err]). *)
Fixpoint doc_loop (errata : bool) (ok err : doc_ty) (n i : nat) : doc_result :=
  let usize := doc_union_size ok err in
  let bitdet := DocResult DocBit 0 0 (repeat 0%N usize) in
  match n with
  | O => bitdet
  | S n' =>
      let shift := i * t_align err in
      let ok_unbits := doc_pad (t_unbits ok) usize in
      let err_unbits := doc_pad (doc_shift (t_unbits err) shift) usize in
      let unbits := doc_and ok_unbits err_unbits in
      let efvs := if errata then map (move_fv shift) (t_fvs err) else t_fvs err in
      match find (doc_can_contain ok_unbits) efvs with
      | Some f => DocResult (if errata then DocNot (DocValueIsErr f) else DocValueIsErr f) 0 shift unbits
      | None =>
          match find (doc_can_contain err_unbits) (t_fvs ok) with
          | Some f => DocResult (if errata then DocValueIsErr f else DocNot (DocValueIsErr f)) 0 shift unbits
          | None =>
              match doc_extract_bit unbits with
              | Some ((o, b), unbits') => DocResult (DocBitIsErr o b) 0 shift unbits'
              | None =>
                  if Nat.ltb usize (t_size err + shift + t_align err) then bitdet
                  else doc_loop errata ok err n' (S i)
              end
          end
      end
  end.
(** repr-stabby.md:77-103. *)
Definition doc_determinant (errata : bool) (ok err : doc_ty) : doc_result :=
  if Nat.ltb (t_size ok) (t_size err) then
    let r := doc_loop errata err ok 8 0 in
    DocResult (DocNot (r_det r)) (r_err_shift r) (r_ok_shift r) (r_unbits r)
  else doc_loop errata ok err 8 0.

(** ** Reading stabby's layouts in the document's terms *)

(** The forbidden values in order. *)
Fixpoint chain_of (f : fv) : doc_fv :=
  match f with FArr o v r => (o, v) :: chain_of r | _ => [] end.
Fixpoint fvs_of (f : fv) : list doc_fv :=
  match f with
  | FEnd => []
  | FArr _ _ _ => [chain_of f]
  | FOr a b => fvs_of a ++ fvs_of b
  | FRange lo hi o => map (fun i => [(o, (lo + N.of_nat i)%N)]) (seq 0 (N.to_nat (hi + 1 - lo)))
  end.
(** A mask as one byte per byte of the type. *)
Definition unbits_of (m : mask) (n : nat) : list N := map (byte_at m) (seq 0 n).
Definition doc_of (d : desc) : doc_ty :=
  DocTy (dsize d) (dalign d) (fvs_of (dfv d)) (unbits_of (dub d) (dsize d)).
Fixpoint value_det (c : doc_fv) : det :=
  match c with [] => DEnd | (o, v) :: r => DVal o v (value_det r) end.
Fixpoint det_of_doc (d : doc_det) : det :=
  match d with
  | DocBit => DBit
  | DocValueIsErr c => value_det c
  | DocBitIsErr o b => DBitErr o (2 ^ b)
  | DocNot d => DNot (det_of_doc d)
  end.
(** stabby's choice [p] is the document's [r] for a union of [n] bytes. *)
Definition same_choice (n : nat) (p : fprovider) (r : doc_result) : Prop :=
  fp_det p = det_of_doc (r_det r) /\ fp_ok_shift p = r_ok_shift r /\ fp_err_shift p = r_err_shift r /\
  unbits_of (fp_ub p) n = r_unbits r.
(** [SelectOne] sees a forbidden value whenever there is one. *)
Definition visible_fv (d : desc) : Prop := select_one (dfv d) = SEnd -> fvs_of (dfv d) = [].
