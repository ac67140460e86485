(** Model of vec.h functions whose array argument lies in the vec itself. *)
From Verif Require Import Base Slots Vec_Model.

Section VecAlias.
Context {A : Type}.
Implicit Types (v : vec A).

(** vec.h 113-114 _put_n(self, self->data + a, n): *raw is read through the old data pointer,
    so from a freed buffer once the capacity [c0] has changed. *)
Fixpoint put_n_own (n : nat) v (c0 a : Z) : res (vec A) :=
  match n with
  | O => Ok v
  | S n' =>
    if negb (capacity v =? c0) then Err UseAfterFree else
    let* x := rd (buf v) a in
    let* r := push v x in
    put_n_own n' (fst r) c0 (a + 1)
  end.
(** vec.h 185-191 _insert_n(self, idx, self->data + a, n): room is made first (187), then the
    array is copied with memcpy (189), whose arguments must not overlap. *)
Definition insert_n_own v (idx a n : Z) : res (vec A * option Z) :=
  let* r := insert_uninit v idx n in
  match snd r with
  | None => Ok r
  | Some i =>
    if negb (capacity (fst r) =? capacity v) then Err UseAfterFree else
    if (a <? i + n) && (i <? a + n) then Err Overlap else
    let* xs := rds (buf (fst r)) a n in
    let* s := wrs (buf (fst r)) i xs in Ok (mkvec s (size (fst r)), Some i)
  end.
End VecAlias.
