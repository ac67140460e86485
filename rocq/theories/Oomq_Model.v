(** Model of priv/queue_prv.h and deque.h when memory may run out: as Deque_Model.v, with the
    outcome [a] of the one i_realloc an operation may ask for (false: NULL). *)
From Verif Require Import Base Slots Pow2 Deque_Model.

Section OomDeque.
Context {A : Type}.
Implicit Types (d : deque A).

(** queue_prv.h 186-188: whether _reserve asks for memory. *)
Definition asks d (cap : Z) : bool := negb (pow2_ceil (cap + 1) <=? capmask d + 1).
(** queue_prv.h 185-207 _reserve: nothing is changed if realloc fails (191-192). *)
Definition reserve_f (a : bool) d (cap : Z) : res (deque A * bool) :=
  if asks d cap && negb a then Ok (d, false) else reserve d cap.

(** queue_prv.h 209-221 _push: the deque, and whether the result is not NULL. *)
Definition push_back_f (a : bool) d (x : A) : res (deque A * bool) :=
  let e := Z.land (dend d + 1) (capmask d) in
  let* r := if e =? start d then
              let* r := reserve_f a d (capmask d + 3) in
              Ok (r, Z.land (dend (fst r) + 1) (capmask (fst r)))
            else Ok ((d, true), e) in
  let d1 := fst (fst r) in
  if negb (snd (fst r)) then Ok (d1, false) else
  let* b := wr (cbuf d1) (dend d1) x in
  Ok (mkdq b (start d1) (snd r) (capmask d1), true).

(** deque.h 131-143 _push_front. *)
Definition push_front_f (a : bool) d (x : A) : res (deque A * bool) :=
  let s := Z.land (start d - 1) (capmask d) in
  let* r := if s =? dend d then
              let* r := reserve_f a d (capmask d + 3) in
              Ok (r, Z.land (start (fst r) - 1) (capmask (fst r)))
            else Ok ((d, true), s) in
  let d1 := fst (fst r) in
  if negb (snd (fst r)) then Ok (d1, false) else
  let* b := wr (cbuf d1) (snd r) x in
  Ok (mkdq b (snd r) (dend d1) (capmask d1), true).

(** deque.h 156-172 _insert_uninit: a null iterator if realloc fails. *)
Definition insert_uninit_f (a : bool) d (idx n : Z) : res (deque A * iter) :=
  let len := size d in
  if (len + n >=? capmask d) && asks d (len + n) && negb a then Ok (d, mkit None 0)
  else insert_uninit d idx n.
(** deque.h 174-181 _insert_n: fills without looking at the iterator. *)
Definition insert_n_f (a : bool) d (idx : Z) (xs : list A) : res (deque A * iter) :=
  let* r := insert_uninit_f a d idx (zlen xs) in
  let* d1 := fill (fst r) idx xs in
  Ok (d1, snd r).

(** queue_prv.h 44-45 _put_n, 53-54 _emplace for each: the outcomes of the reallocs are [al].
    Result: the deque and the elements that were made by i_keyfrom. *)
Fixpoint put_n_f (al : list bool) d (raws : list A) : res (deque A * list A) :=
  match raws with
  | [] => Ok (d, [])
  | x :: rest =>
    let* r := push_back_f (hd true al) d x in
    let* q := put_n_f (tl al) (fst r) rest in
    Ok (fst q, x :: snd q)
  end.

(** queue_prv.h 223-236 _shrink_to_fit. *)
Definition shrink_f (a : bool) d : res (deque A) :=
  let sz := size d in
  if sz >? capmask d / 2 then Ok d else
  let* r := reserve_f a init sz in
  let out := fst r in
  if is_null out then Ok d else
  let* xs := each d in
  let* b := wrs (cbuf out) 0 xs in
  Ok (mkdq b (start out) sz (capmask out)).

(** queue_prv.h 239-252 _clone. *)
Definition clone_f (a : bool) d : res (deque A) :=
  let sz := size d in
  let* r := reserve_f a init sz in
  let tmp := fst r in
  let* b := if negb (is_null tmp) then let* xs := each d in wrs (cbuf tmp) 0 xs else Ok (cbuf tmp) in
  Ok (mkdq b 0 sz (capmask tmp)).

(** One operation: new deque, elements destroyed, elements returned, and whether the C result
    says success (not NULL, true). *)
Definition step_f (a : bool) d (o : op A) : res (deque A * (list A * list A) * bool) :=
  match o with
  | PushBack x => let* r := push_back_f a d x in Ok (fst r, ([], []), snd r)
  | PushFront x => let* r := push_front_f a d x in Ok (fst r, ([], []), snd r)
  | InsertN idx xs => let* r := insert_n_f a d idx xs in
      Ok (fst r, ([], []), match ref (snd r) with Some _ => true | None => false end)
  | Reserve cap => let* r := reserve_f a d cap in Ok (fst r, ([], []), snd r)
  | ShrinkToFit => let* r := shrink_f a d in Ok (r, ([], []), true)
  | _ => let* r := step d o in Ok (fst r, snd r, true)
  end.
Fixpoint run_f d (ops : list (bool * op A)) : res (deque A * list (list A * list A * bool)) :=
  match ops with
  | [] => Ok (d, [])
  | (a, o) :: rest =>
    let* r := step_f a d o in
    let* q := run_f (fst (fst r)) rest in
    Ok (fst q, (snd (fst r), snd r) :: snd q)
  end.
End OomDeque.
