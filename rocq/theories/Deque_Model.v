(** Model of priv/queue_prv.h and deque.h: a ring buffer with a power-of-two size. *)
From Verif Require Import Base Slots Pow2.

Section DequeModel.
Context {A : Type}.

(** types.h 113-120: cbuf/start/end/capmask.  cbuf = NULL is the empty slot list
    (capmask is then 0). *)
Record deque : Type := mkdq { cbuf : slots A; start : Z; dend : Z; capmask : Z }.

(** queue_prv.h 42 _init. *)
Definition init : deque := mkdq [] 0 0 0.

(** queue_prv.h 38-39 _cbuf_toidx, _cbuf_topos; [&] on isize is two's complement. *)
Definition toidx (d : deque) (pos : Z) : Z := Z.land (pos - start d) (capmask d).
Definition topos (d : deque) (idx : Z) : Z := Z.land (start d + idx) (capmask d).

(** queue_prv.h 72-77 _size, _capacity, _is_empty. *)
Definition size (d : deque) : Z := toidx d (dend d).
Definition capacity (d : deque) : Z := capmask d.
Definition is_empty (d : deque) : bool := start d =? dend d.
Definition is_null (d : deque) : bool := zlen (cbuf d) =? 0.

(** queue_prv.h 185-207 _reserve.  c_next_pow2 is the least power of two (C62);
    allocation succeeds.  memcpy is a checked move inside the new buffer. *)
Definition reserve (d : deque) (cap : Z) : res (deque * bool) :=
  let oldp := capmask d + 1 in
  let newp := pow2_ceil (cap + 1) in
  if newp <=? oldp then Ok (d, negb (is_null d)) else
  let b := realloc (cbuf d) newp in
  let head := oldp - start d in
  if start d <=? dend d then Ok (mkdq b (start d) (dend d) (newp - 1), true)
  else if head <? dend d then
    let* b1 := amove b (start d) (newp - head) head in
    Ok (mkdq b1 (newp - head) (dend d) (newp - 1), true)
  else
    let* b1 := amove b 0 oldp (dend d) in
    Ok (mkdq b1 (start d) (dend d + oldp) (newp - 1), true).

(** queue_prv.h 209-221 _push (push_back). *)
Definition push_back (d : deque) (x : A) : res deque :=
  let e := Z.land (dend d + 1) (capmask d) in
  let* r := if e =? start d then
              let* r := reserve d (capmask d + 3) in
              Ok (fst r, Z.land (dend (fst r) + 1) (capmask (fst r)))
            else Ok (d, e) in
  let d1 := fst r in
  let* b := wr (cbuf d1) (dend d1) x in
  Ok (mkdq b (start d1) (snd r) (capmask d1)).

(** deque.h 131-143 _push_front. *)
Definition push_front (d : deque) (x : A) : res deque :=
  let s := Z.land (start d - 1) (capmask d) in
  let* r := if s =? dend d then
              let* r := reserve d (capmask d + 3) in
              Ok (fst r, Z.land (start (fst r) - 1) (capmask (fst r)))
            else Ok (d, s) in
  let d1 := fst r in
  let* b := wr (cbuf d1) (snd r) x in
  Ok (mkdq b (snd r) (dend d1) (capmask d1)).

(** queue_prv.h 103-114 _pop / _pull (front): new deque and the element. *)
Definition pop_front (d : deque) : res (deque * A) :=
  if is_empty d then Err AssertFail else
  let* x := rd (cbuf d) (start d) in
  Ok (mkdq (cbuf d) (Z.land (start d + 1) (capmask d)) (dend d) (capmask d), x).

(** deque.h 62-73 _pop_back / _pull_back. *)
Definition pop_back (d : deque) : res (deque * A) :=
  if is_empty d then Err AssertFail else
  let e := Z.land (dend d - 1) (capmask d) in
  let* x := rd (cbuf d) e in
  Ok (mkdq (cbuf d) (start d) e (capmask d), x).

(** deque.h 48-56 _at / _at_mut: read or write through the returned pointer. *)
Definition at_ (d : deque) (i : Z) : res A :=
  if (0 <=? i) && (i <? size d) then rd (cbuf d) (topos d i) else Err AssertFail.
Definition put_at (d : deque) (i : Z) (x : A) : res deque :=
  if (0 <=? i) && (i <? size d) then
    let* b := wr (cbuf d) (topos d i) x in Ok (mkdq b (start d) (dend d) (capmask d))
  else Err AssertFail.

(** queue_prv.h 81-91 _front, _back. *)
Definition front (d : deque) : res A := rd (cbuf d) (start d).
Definition back (d : deque) : res A := rd (cbuf d) (Z.land (dend d - 1) (capmask d)).

(** deque.h 149-150: drop elements from [idx+n-1] down to [idx]. *)
Fixpoint drop_down (k : nat) (d : deque) (idx : Z) : res (list A) :=
  match k with
  | O => Ok []
  | S k' => let* x := at_ d (idx + Z.of_nat k') in let* r := drop_down k' d idx in Ok (x :: r)
  end.
(** deque.h 151-152: copy element j to i, both counting up, while j < len. *)
Fixpoint shift_down (fuel : nat) (d : deque) (i j len : Z) : res deque :=
  match fuel with
  | O => Err OutOfFuel
  | S fuel' =>
    if j <? len then
      let* x := at_ d j in
      let* d1 := put_at d i x in
      shift_down fuel' d1 (i + 1) (j + 1) len
    else Ok d
  end.
(** deque.h 145-154 _erase_n: new deque, dropped elements. *)
Definition erase_n (d : deque) (idx n : Z) : res (deque * list A) :=
  let len := size d in
  if negb (idx + n <=? len) then Err AssertFail else
  let* dr := drop_down (Z.to_nat n) d idx in
  let* d1 := shift_down (S (Z.to_nat (len - idx - n))) d idx (idx + n) len in
  Ok (mkdq (cbuf d1) (start d1) (Z.land (dend d1 - n) (capmask d1)) (capmask d1), dr).

(** deque.h 169-170: copy element i to j, both counting down, while i >= idx. *)
Fixpoint shift_up (fuel : nat) (d : deque) (i j idx : Z) : res deque :=
  match fuel with
  | O => Err OutOfFuel
  | S fuel' =>
    if i >=? idx then
      let* x := at_ d i in
      let* d1 := put_at d j x in
      shift_up fuel' d1 (i - 1) (j - 1) idx
    else Ok d
  end.

Record iter : Type := mkit { ref : option Z; pos : Z }.

(** deque.h 156-172 _insert_uninit. *)
Definition insert_uninit (d : deque) (idx n : Z) : res (deque * iter) :=
  let len := size d in
  let* r := if len + n >=? capmask d then reserve d (len + n) else Ok (d, true) in
  let d1 := fst r in
  if snd r then
    let p := topos d1 idx in
    let e := Z.land (dend d1 + n) (capmask d1) in
    let d2 := mkdq (cbuf d1) (start d1) e (capmask d1) in
    if p <? e then
      let* b := amove (cbuf d2) p (p + n) (len - idx) in
      Ok (mkdq b (start d2) e (capmask d2), mkit (Some p) p)
    else
      let* d3 := shift_up (S (Z.to_nat (len - idx))) d2 (len - 1) (len - 1 + n) idx in
      Ok (d3, mkit (Some p) p)
  else Ok (d1, mkit None 0).

(** deque.h 177-179 (and 187-189, with i_keyfrom applied by the caller). *)
Fixpoint fill (d : deque) (i : Z) (xs : list A) : res deque :=
  match xs with
  | [] => Ok d
  | x :: r => let* d1 := put_at d i x in fill d1 (i + 1) r
  end.
(** deque.h 174-181 _insert_n. *)
Definition insert_n (d : deque) (idx : Z) (xs : list A) : res (deque * iter) :=
  let* r := insert_uninit d idx (zlen xs) in
  let* d1 := fill (fst r) idx xs in
  Ok (d1, snd r).

(** queue_prv.h 116-120 _begin, 122-127 _rbegin, 129-132 _end, 134-144 _next, _rnext. *)
Definition begin (d : deque) : iter :=
  mkit (if is_empty d then None else Some (start d)) (start d).
Definition rbegin (d : deque) : iter :=
  let p := Z.land (dend d - 1) (capmask d) in
  mkit (if is_empty d then None else Some p) p.
Definition end_ : iter := mkit None 0.
Definition next (d : deque) (it : iter) : iter :=
  let '(r, p) := if negb (pos it =? capmask d)
                 then (match ref it with Some a => Some (a + 1) | None => None end, pos it + 1)
                 else (match ref it with Some a => Some (a - pos it) | None => None end, 0) in
  if p =? dend d then mkit None p else mkit r p.
Definition rnext (d : deque) (it : iter) : iter :=
  if pos it =? start d then mkit None (pos it)
  else if negb (pos it =? 0) then mkit (match ref it with Some a => Some (a - 1) | None => None end) (pos it - 1)
  else mkit (match ref it with Some a => Some (a + capmask d) | None => None end) (capmask d).

(** common.h 164-165 c_each_3 over a deque: the elements visited. *)
Fixpoint each_loop (nx : iter -> iter) (fuel : nat) (b : slots A) (it : iter) : res (list A) :=
  match fuel with
  | O => Err OutOfFuel
  | S fuel' =>
    match ref it with
    | None => Ok []
    | Some r => let* x := rd b r in let* l := each_loop nx fuel' b (nx it) in Ok (x :: l)
    end
  end.
Definition each (d : deque) : res (list A) :=
  each_loop (next d) (S (Z.to_nat (capmask d + 1))) (cbuf d) (begin d).
Definition each_reverse (d : deque) : res (list A) :=
  each_loop (rnext d) (S (Z.to_nat (capmask d + 1))) (cbuf d) (rbegin d).

(** queue_prv.h 155-162 _advance. *)
Definition advance (d : deque) (it : iter) (n : Z) : iter :=
  let len := size d in
  let idx := toidx d (pos it) in
  let p := Z.land (pos it + n) (capmask d) in
  mkit (if (0 <=? idx + n) && (idx + n <? len)
        then match ref it with Some a => Some (a + (p - pos it)) | None => None end else None) p.

(** queue_prv.h 164-169 _clear: drops front to back. *)
Definition clear (d : deque) : res (deque * list A) :=
  let* dr := each d in Ok (mkdq (cbuf d) 0 0 (capmask d), dr).

(** queue_prv.h 223-236 _shrink_to_fit; [out] is filled in order. *)
Definition shrink_to_fit (d : deque) : res deque :=
  let sz := size d in
  if sz >? capmask d / 2 then Ok d else
  let* r := reserve init sz in
  let out := fst r in
  if is_null out then Ok d else
  let* xs := each d in
  let* b := wrs (cbuf out) 0 xs in
  Ok (mkdq b (start out) sz (capmask out)).

(** queue_prv.h 239-252 _clone. *)
Definition clone (d : deque) : res deque :=
  let sz := size d in
  let* r := reserve init sz in
  let tmp := fst r in
  let* b := if negb (is_null tmp) then let* xs := each d in wrs (cbuf tmp) 0 xs else Ok (cbuf tmp) in
  Ok (mkdq b 0 sz (capmask tmp)).

(** queue_prv.h 255-267 _eq. *)
Fixpoint eq_loop (eqb : A -> A -> bool) (fuel : nat) (d1 d2 : deque) (i j : iter) : res bool :=
  match fuel with
  | O => Err OutOfFuel
  | S fuel' =>
    match ref i with
    | None => Ok true
    | Some a =>
      let* x := rd (cbuf d1) a in
      match ref j with
      | None => Err NullDeref
      | Some b =>
        let* y := rd (cbuf d2) b in
        if negb (eqb x y) then Ok false else eq_loop eqb fuel' d1 d2 (next d1 i) (next d2 j)
      end
    end
  end.
Definition eq (eqb : A -> A -> bool) (d1 d2 : deque) : res bool :=
  if negb (size d1 =? size d2) then Ok false
  else eq_loop eqb (S (Z.to_nat (size d1))) d1 d2 (begin d1) (begin d2).

(** deque.h 75-79 _insert_at, 81-86 _erase_at, 88-95 _erase_range. *)
Definition insert_at (d : deque) (it : iter) (x : A) : res (deque * iter) :=
  insert_n d (toidx d (pos it)) [x].
Definition erase_at (d : deque) (it : iter) : res (deque * list A * iter) :=
  let* r := erase_n d (toidx d (pos it)) 1 in
  Ok (fst r, snd r, if pos it =? dend (fst r) then mkit None (pos it) else it).
Definition erase_range (d : deque) (it1 it2 : iter) : res (deque * list A * iter) :=
  let i1 := toidx d (pos it1) in
  let i2 := toidx d (pos it2) in
  let* r := erase_n d i1 (i2 - i1) in
  Ok (fst r, snd r, if pos it1 =? dend (fst r) then mkit None (pos it1) else it1).

(** deque.h 193-204 _find_in. *)
Definition oeqb (x y : option Z) : bool :=
  match x, y with Some a, Some b => a =? b | None, None => true | _, _ => false end.
Fixpoint find_loop (eqb : A -> A -> bool) (fuel : nat) (d : deque) (i1 i2 : iter) (raw : A) : res iter :=
  match fuel with
  | O => Err OutOfFuel
  | S fuel' =>
    if oeqb (ref i1) (ref i2) then Ok i1 else
    match ref i1 with
    | None => Err NullDeref
    | Some a => let* x := rd (cbuf d) a in
                if eqb raw x then Ok i1 else find_loop eqb fuel' d (next d i1) i2 raw
    end
  end.
Definition find (eqb : A -> A -> bool) (d : deque) (raw : A) : res iter :=
  find_loop eqb (S (Z.to_nat (size d))) d (begin d) end_ raw.

Inductive op : Type :=
| PushBack (x : A) | PushFront (x : A) | PopBack | PopFront | PullBack | PullFront
| InsertN (idx : Z) (xs : list A) | EraseN (idx n : Z)
| Reserve (cap : Z) | ShrinkToFit | Clear.

(** One operation: new deque, elements destroyed, elements returned. *)
Definition step (d : deque) (o : op) : res (deque * (list A * list A)) :=
  match o with
  | PushBack x => let* r := push_back d x in Ok (r, ([], []))
  | PushFront x => let* r := push_front d x in Ok (r, ([], []))
  | PopBack => let* r := pop_back d in Ok (fst r, ([snd r], []))
  | PopFront => let* r := pop_front d in Ok (fst r, ([snd r], []))
  | PullBack => let* r := pop_back d in Ok (fst r, ([], [snd r]))
  | PullFront => let* r := pop_front d in Ok (fst r, ([], [snd r]))
  | InsertN idx xs => let* r := insert_n d idx xs in Ok (fst r, ([], []))
  | EraseN idx n => let* r := erase_n d idx n in Ok (fst r, (snd r, []))
  | Reserve cap => let* r := reserve d cap in Ok (fst r, ([], []))
  | ShrinkToFit => let* r := shrink_to_fit d in Ok (r, ([], []))
  | Clear => let* r := clear d in Ok (fst r, (snd r, []))
  end.

Fixpoint run (d : deque) (ops : list op) : res (deque * list (list A * list A)) :=
  match ops with
  | [] => Ok (d, [])
  | o :: rest =>
    let* r := step d o in
    let* r2 := run (fst r) rest in
    Ok (fst r2, snd r :: snd r2)
  end.
End DequeModel.
Arguments deque : clear implicits.
Arguments op : clear implicits.
