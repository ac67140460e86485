(** Model of vec.h: a growable array. *)
From Verif Require Import Base Slots.

Section VecModel.
Context {A : Type}.

(** types.h 202-205 _c_vec_types: data/size/capacity.  The capacity is the length of
    [buf].  [data] is NULL exactly when the capacity is 0: [_reserve] (the only function
    that allocates) never reallocates to 0 slots. *)
Record vec : Type := mkvec { buf : slots A; size : Z }.

Definition capacity (v : vec) : Z := zlen (buf v).
Definition is_null (v : vec) : bool := capacity v =? 0.

(** vec.h 90 _init. *)
Definition init : vec := mkvec [] 0.

(** vec.h 289-300 _reserve; allocation succeeds.  The bool is the C result. *)
Definition reserve (v : vec) (cap : Z) : vec * bool :=
  let v1 := if (cap >? capacity v) || (negb (cap =? 0) && (cap =? size v))
            then mkvec (realloc (buf v) cap) (size v) else v in
  (v1, negb (is_null v1)).

(** vec.h 181-183 _shrink_to_fit. *)
Definition shrink_to_fit (v : vec) : vec := fst (reserve v (size v)).

(** vec.h 104-111 _push; the Z is the index of the returned pointer, [None] is NULL. *)
Definition push (v : vec) (x : A) : res (vec * option Z) :=
  let '(v1, ok) := if size v =? capacity v then reserve v (size v * 2 + 4) else (v, true) in
  if ok then
    let* s := wr (buf v1) (size v1) x in
    Ok (mkvec s (size v1 + 1), Some (size v1))
  else Ok (v1, None).

(** vec.h 161-162 _pop: the element is handed to i_keydrop. *)
Definition pop (v : vec) : res (vec * A) :=
  if size v =? 0 then Err AssertFail else
  let* x := rd (buf v) (size v - 1) in Ok (mkvec (buf v) (size v - 1), x).

(** vec.h 163-164 _pull: the element is returned. *)
Definition pull (v : vec) : res (vec * A) :=
  if size v =? 0 then Err AssertFail else
  let* x := rd (buf v) (size v - 1) in Ok (mkvec (buf v) (size v - 1), x).

(** vec.h 315-325 _insert_uninit.  [None] is the end iterator (failed reserve). *)
Definition insert_uninit (v : vec) (idx n : Z) : res (vec * option Z) :=
  let '(v1, ok) := if size v + n >=? capacity v then reserve v (size v * 3 / 2 + n) else (v, true) in
  if ok then
    let* s := amove (buf v1) idx (idx + n) (size v1 - idx) in
    Ok (mkvec s (size v1 + n), Some idx)
  else Ok (v1, None).

(** vec.h 185-191 _insert_n; also 339-348 _copy_n and 351-359 _emplace_n, whose element
    conversion (i_keyclone / i_keyfrom) is applied by the caller of the model.  The source
    array does not overlap the vec. *)
Definition insert_n (v : vec) (idx : Z) (xs : list A) : res (vec * option Z) :=
  let* r := insert_uninit v idx (zlen xs) in
  match snd r with
  | Some i => let* s := wrs (buf (fst r)) i xs in Ok (mkvec s (size (fst r)), Some i)
  | None => Ok r
  end.

(** vec.h 327-336 _erase_n: new vec, dropped elements in order, returned iterator
    (ref = [None] when it is the end). *)
Definition erase_n (v : vec) (idx len : Z) : res (vec * list A * option Z) :=
  if negb (idx + len <=? size v) then Err AssertFail else
  let* d := rds (buf v) idx len in
  let* s := amove (buf v) (idx + len) idx (size v - (idx + len)) in
  Ok (mkvec s (size v - len), d, if idx + len =? size v then None else Some idx).

(** vec.h 302-313 _resize: new vec, dropped elements, result. *)
Definition resize (v : vec) (len : Z) (null : A) : res (vec * list A * bool) :=
  let '(v1, ok) := reserve v len in
  if ok then
    let n := size v1 in
    let* d := if len <? n then rds (buf v1) len (n - len) else Ok [] in
    let* s := if n <? len then wrs (buf v1) n (repeat null (Z.to_nat (len - n))) else Ok (buf v1) in
    Ok (mkvec s len, d, true)
  else Ok (v1, [], false).

(** vec.h 272-278 _clear: drops from last to first. *)
Fixpoint clear_loop (i : nat) (s : slots A) : res (list A) :=
  match i with
  | O => Ok []
  | S i' => let* x := rd s (Z.of_nat i') in let* r := clear_loop i' s in Ok (x :: r)
  end.
Definition clear (v : vec) : res (vec * list A) :=
  let* d := clear_loop (Z.to_nat (size v)) (buf v) in Ok (mkvec (buf v) 0, d).

(** vec.h 280-287 _drop: the dropped elements (the buffer is then freed). *)
Definition drop (v : vec) : res (list A) :=
  if capacity v =? 0 then Ok [] else
  let* r := clear v in Ok (snd r).

(** vec.h 144-149 _clone: [copy_n] of the source slots into an empty vec. *)
Definition clone (v : vec) : res vec :=
  let* xs := rds (buf v) 0 (size v) in
  let* r := insert_n init 0 xs in Ok (fst r).

(** vec.h 138-142 _copy (distinct vecs): new vec and dropped elements. *)
Definition copy (v other : vec) : res (vec * list A) :=
  let* r := clear v in
  let* xs := rds (buf other) 0 (size other) in
  let* r2 := insert_n (fst r) 0 xs in Ok (fst r2, snd r).

(** vec.h 205-208 _at. *)
Definition at_ (v : vec) (idx : Z) : res A :=
  if (0 <=? idx) && (idx <? size v) then rd (buf v) idx else Err AssertFail.
(** vec.h 156-159 _front, _back. *)
Definition front (v : vec) : res A := rd (buf v) 0.
Definition back (v : vec) : res A := rd (buf v) (size v - 1).

(** vec.h 255-262 _eq, over an equality [i_eq] on raw elements. *)
Fixpoint eq_loop (eqb : A -> A -> bool) (fuel : nat) (s t : slots A) (i n : Z) : res bool :=
  match fuel with
  | O => Err OutOfFuel
  | S fuel' =>
    if i <? n then
      let* x := rd s i in
      let* y := rd t i in
      if negb (eqb x y) then Ok false else eq_loop eqb fuel' s t (i + 1) n
    else Ok true
  end.
Definition eq (eqb : A -> A -> bool) (v w : vec) : res bool :=
  if negb (size v =? size w) then Ok false
  else eq_loop eqb (S (Z.to_nat (size v))) (buf v) (buf w) 0 (size v).

(** Iterators: [ref] and [end] as offsets from [data]; [None] is NULL. *)
Record iter : Type := mkiter { ref : option Z; iend : option Z }.

(** vec.h 215-219 _begin. *)
Definition begin (v : vec) : iter :=
  if is_null v then mkiter None None else mkiter (Some 0) (Some (size v)).
(** vec.h 221-225 _rbegin. *)
Definition rbegin (v : vec) : iter :=
  if is_null v then mkiter None None else mkiter (Some (size v - 1)) (Some (-1)).
(** vec.h 227-231 _end, _rend. *)
Definition end_ : iter := mkiter None None.

Definition oeqb (x y : option Z) : bool :=
  match x, y with Some a, Some b => a =? b | None, None => true | _, _ => false end.

(** vec.h 233-234 _next (it->ref is not NULL). *)
Definition next (it : iter) : iter :=
  match ref it with
  | Some r => if oeqb (Some (r + 1)) (iend it) then mkiter None (iend it) else mkiter (Some (r + 1)) (iend it)
  | None => it
  end.
(** vec.h 236-237 _rnext. *)
Definition rnext (it : iter) : iter :=
  match ref it with
  | Some r => if oeqb (Some (r - 1)) (iend it) then mkiter None (iend it) else mkiter (Some (r - 1)) (iend it)
  | None => it
  end.

(** common.h 164-165 c_each_3: run the body (here: read the element) while [it.ref]. *)
Fixpoint each_loop (nx : iter -> iter) (fuel : nat) (s : slots A) (it : iter) : res (list A) :=
  match fuel with
  | O => Err OutOfFuel
  | S fuel' =>
    match ref it with
    | None => Ok []
    | Some r => let* x := rd s r in let* l := each_loop nx fuel' s (nx it) in Ok (x :: l)
    end
  end.
(** The loop is given more fuel than there are slots: a loop that exhausts it has run
    past the buffer and would already have failed. *)
Definition each (v : vec) : res (list A) := each_loop next (S (S (Z.to_nat (capacity v)))) (buf v) (begin v).
(** common.h 174-175 c_each_reverse_3. *)
Definition each_reverse (v : vec) : res (list A) :=
  each_loop rnext (S (S (Z.to_nat (capacity v)))) (buf v) (rbegin v).

(** vec.h 239-242 _advance. *)
Definition advance (it : iter) (n : Z) : res iter :=
  match ref it, iend it with
  | Some r, Some e => Ok (if r + n >=? e then mkiter None (iend it) else mkiter (Some (r + n)) (iend it))
  | _, _ => Err NullDeref
  end.

(** vec.h 68-69 _it2_ptr, _it_ptr. *)
Definition it2_ptr (i1 i2 : iter) : option Z :=
  match ref i1, ref i2 with Some _, None => iend i1 | _, r => r end.
Definition it_ptr (it : iter) : option Z :=
  match ref it with Some r => Some r | None => iend it end.

(** vec.h 362-370 _find_in, with the loop reading each element; fuel as for [each]. *)
Fixpoint find_loop (eqb : A -> A -> bool) (fuel : nat) (s : slots A) (r p2 : option Z) (raw : A) : res (option Z) :=
  match fuel with
  | O => Err OutOfFuel
  | S fuel' =>
    if oeqb r p2 then Ok None else
    match r with
    | None => Err NullDeref
    | Some i =>
      let* x := rd s i in
      if eqb raw x then Ok (Some i) else find_loop eqb fuel' s (Some (i + 1)) p2 raw
    end
  end.
Definition find_in (eqb : A -> A -> bool) (v : vec) (i1 i2 : iter) (raw : A) : res (option Z) :=
  find_loop eqb (S (S (Z.to_nat (capacity v)))) (buf v) (ref i1) (it2_ptr i1 i2) raw.
(** vec.h 251-253 _find. *)
Definition find (eqb : A -> A -> bool) (v : vec) (raw : A) : res (option Z) :=
  find_in eqb v (begin v) end_ raw.

(** vec.h 193-195 _insert_at: pointer difference; undefined when one pointer is NULL. *)
Definition insert_at (v : vec) (it : iter) (x : A) : res (vec * option Z) :=
  match it_ptr it with
  | Some i => insert_n v i [x]
  | None => if is_null v then insert_n v 0 [x] else Err NullDeref
  end.
(** vec.h 201-203 _erase_range. *)
Definition erase_range (v : vec) (i1 i2 : iter) : res (vec * list A * option Z) :=
  match ref i1, it2_ptr i1 i2 with
  | Some a, Some b => erase_n v a (b - a)
  | _, _ => Err NullDeref
  end.
(** vec.h 197-199 _erase_at. *)
Definition erase_at (v : vec) (it : iter) : res (vec * list A * option Z) :=
  match ref it with Some a => erase_n v a 1 | None => Err NullDeref end.

(** Operation histories. *)
Inductive op : Type :=
| Push (x : A)
| Pop
| Pull
| InsertN (idx : Z) (xs : list A)
| EraseN (idx n : Z)
| Resize (len : Z) (null : A)
| Reserve (cap : Z)
| ShrinkToFit
| Clear.

(** One operation: new vec, elements handed to the destructor, elements handed to the caller. *)
Definition step (v : vec) (o : op) : res (vec * (list A * list A)) :=
  match o with
  | Push x => let* r := push v x in Ok (fst r, ([], []))
  | Pop => let* r := pop v in Ok (fst r, ([snd r], []))
  | Pull => let* r := pull v in Ok (fst r, ([], [snd r]))
  | InsertN idx xs => let* r := insert_n v idx xs in Ok (fst r, ([], []))
  | EraseN idx n => let* r := erase_n v idx n in Ok (fst (fst r), (snd (fst r), []))
  | Resize len null => let* r := resize v len null in Ok (fst (fst r), (snd (fst r), []))
  | Reserve cap => Ok (fst (reserve v cap), ([], []))
  | ShrinkToFit => Ok (shrink_to_fit v, ([], []))
  | Clear => let* r := clear v in Ok (fst r, (snd r, []))
  end.

Fixpoint run (v : vec) (ops : list op) : res (vec * list (list A * list A)) :=
  match ops with
  | [] => Ok (v, [])
  | o :: rest =>
    let* r := step v o in
    let* r2 := run (fst r) rest in
    Ok (fst r2, snd r :: snd r2)
  end.
End VecModel.
Arguments vec : clear implicits.
Arguments op : clear implicits.
