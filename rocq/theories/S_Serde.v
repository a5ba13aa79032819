(** Specification of serde implementations: what those of core, alloc and serde do for the types of the standard library that stabby's
    stand for ([String], [&str], [&[u8]], [Vec], [Option], [Result]). *)
From Coq Require Import NArith List Bool.
From Verif Require Import M_String M_Serde.
Import ListNotations.

(** All of a list, or nothing. *)
Fixpoint all {A} (l : list (option A)) : option (list A) :=
  match l with
  | [] => Some []
  | Some a :: r => match all r with Some r => Some (a :: r) | None => None end
  | None :: _ => None
  end.

(** serde's implementations for the standard library.  [None]: an error. *)
Fixpoint std_de {doc} (fmt : request -> doc -> visit doc) (t : sty) (d : doc) : option sval :=
  match t with
  | SNum => match fmt RNum d with VNum n => Some (XNum n) | _ => None end
  | SString _ =>
      match fmt RStr d with
      | VStr _ s => Some (XText s)
      | VBytes _ s => if from_utf8 s then Some (XText s) else None
      | _ => None
      end
  | SStr =>
      match fmt RStr d with
      | VStr Borrowed s => Some (XText s)
      | VBytes Borrowed s => if from_utf8 s then Some (XText s) else None
      | _ => None
      end
  | SBytes => match fmt RBytes d with VBytes Borrowed s | VStr Borrowed s => Some (XBytes s) | _ => None end
  | SSeq _ t =>
      match fmt RSeq d with
      | VSeq _ items =>
          option_map XSeq (all (map (fun i => match i with Some d => std_de fmt t d | None => None end) items))
      | _ => None
      end
  | SOption t =>
      match fmt ROption d with
      | VNone | VUnit => Some XNone
      | VSome d => option_map XSome (std_de fmt t d)
      | _ => None
      end
  | SResult t e =>
      match fmt REnum d with
      | VEnum true d => option_map XOk (std_de fmt t d)
      | VEnum false d => option_map XErr (std_de fmt e d)
      | _ => None
      end
  end.
(** The calls of the standard library's implementations: a text is a string, bytes and vectors are sequences, an option is one, a
    result is one of two variants. *)
Inductive std_ser : sval -> calls -> Prop :=
| ss_num n : std_ser (XNum n) (CNum n)
| ss_text s : std_ser (XText s) (CStr s)
| ss_bytes s l : Forall2 (fun b c => c = CNum b) s l -> std_ser (XBytes s) (CSeq l)
| ss_seq vs l : Forall2 std_ser vs l -> std_ser (XSeq vs) (CSeq l)
| ss_none : std_ser XNone CNone
| ss_some v c : std_ser v c -> std_ser (XSome v) (CSome c)
| ss_ok v c : std_ser v c -> std_ser (XOk v) (CVariant true c)
| ss_err v c : std_ser v c -> std_ser (XErr v) (CVariant false c).

(** The format lends all strings and bytes, and does not give one for the other. *)
Definition lending {doc} (fmt : request -> doc -> visit doc) : Prop :=
  (forall d o s, fmt RStr d = VStr o s -> o = Borrowed) /\ (forall d o s, fmt RStr d <> VBytes o s) /\
  (forall d o s, fmt RBytes d <> VStr o s).
(** The lengths that the format announces are such that byte counts fit in usize; so do texts. *)
Definition sober {doc} (w : world) (fmt : request -> doc -> visit doc) : Prop :=
  (forall t d h l, fmt RSeq d = VSeq h l ->
     (size w t * (2 * (match h with Some h => h | None => 0 end + N.of_nat (length l)) + 8) < 2 ^ 64)%N) /\
  (forall d o s, fmt RStr d = VStr o s -> (2 * N.of_nat (length s) + 8 < 2 ^ 64)%N).
(** Types have a size. *)
Definition sized (w : world) : Prop := forall t, size w t <> 0%N.
