(** Model of the writes made through shared references to the payload of a [Result] (stabby-abi/src/result.rs:266-282). *)
From Coq Require Import List Arith NArith Bool.
From Verif Require Import M_Layout M_Result.
Import ListNotations.

(** result.rs:266-282 [as_ref], [match_ref] give a [&Ok]; a payload with interior mutability ([UnsafeCell], stable_impls/mod.rs:547)
    is overwritten through it with the bytes [v].  There is no guard, so the determinant is not written
    again (compare result.rs:509-519). *)
Definition ok_shared_write (ok err : desc) (p : fprovider) (s v : list N) : option (list N) :=
  blit s (ok_offset ok err p) v.
(** Same for a [&Err], result.rs:266-282. *)
Definition err_shared_write (ok err : desc) (p : fprovider) (s v : list N) : option (list N) :=
  blit s (err_offset ok err p) v.
