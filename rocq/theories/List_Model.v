(** Model of list.h: a circular singly-linked list of heap nodes, reached from its last node. *)
From Verif Require Import Base Sort_Model.

Section ListModel.
Context {A : Type}.

(** The heap: live nodes by address (value and next pointer), and the next fresh address.
    Address 0 is NULL.  An address is never handed out twice (simplification: malloc may
    reuse a freed address; no modelled function compares a freed address after allocating). *)
Record heap : Type := mkheap { node : Z -> option (A * Z); brk : Z }.

Definition load (h : heap) (p : Z) : res (A * Z) :=
  if p =? 0 then Err NullDeref
  else match node h p with Some c => Ok c | None => Err UseAfterFree end.
Definition setn (h : heap) (p : Z) (c : option (A * Z)) : heap :=
  mkheap (fun q => if q =? p then c else node h q) (brk h).
Definition store (h : heap) (p : Z) (c : A * Z) : res heap :=
  let* _ := load h p in Ok (setn h p (Some c)).
(** i_malloc of one node *)
Definition alloc (h : heap) (c : A * Z) : heap * Z :=
  (mkheap (fun q => if q =? brk h then Some c else node h q) (brk h + 1), brk h).
(** i_free: freeing a node that is not live is an error *)
Definition free (h : heap) (p : Z) : res heap :=
  let* _ := load h p in Ok (setn h p None).
Definition next_of (h : heap) (p : Z) : res Z := let* c := load h p in Ok (snd c).
Definition val_of (h : heap) (p : Z) : res A := let* c := load h p in Ok (fst c).
Definition set_next (h : heap) (p q : Z) : res heap :=
  let* c := load h p in store h p (fst c, q).
Definition set_val (h : heap) (p : Z) (x : A) : res heap :=
  let* c := load h p in store h p (x, snd c).

(** list.h 76-83: _c_list_insert_entry_after, _c_list_insert_after_node. *)
Definition insert_entry_after (h : heap) (ref : Z) (x : A) : res (heap * Z) :=
  if ref =? 0 then Ok (mkheap (fun q => if q =? brk h then Some (x, brk h) else node h q) (brk h + 1), brk h)
  else
    let* nx := next_of h ref in
    let '(h1, e) := alloc h (x, nx) in
    let* h2 := set_next h1 ref e in
    Ok (h2, e).
Definition insert_after_node_ (h : heap) (ref e : Z) : res heap :=
  if ref =? 0 then set_next h e e
  else
    let* nx := next_of h ref in
    let* h1 := set_next h e nx in
    set_next h1 ref e.

(** list.h 243-248 _push_back and 250-256 _push_front; the list is its [last] pointer. *)
Definition push_back (h : heap) (last : Z) (x : A) : res (heap * Z) :=
  insert_entry_after h last x.
Definition push_front (h : heap) (last : Z) (x : A) : res (heap * Z) :=
  let* r := insert_entry_after h last x in
  Ok (fst r, if last =? 0 then snd r else last).

(** list.h 265-271 _insert_after_node (public, takes an unlinked node). *)
Definition insert_after_node (h : heap) (last ref e : Z) : res (heap * Z) :=
  let* h1 := insert_after_node_ h ref e in
  Ok (h1, if last =? 0 then e else last).
(** list.h 258-263 _push_back_node. *)
Definition push_back_node (h : heap) (last e : Z) : res (heap * Z) :=
  let* h1 := insert_after_node_ h last e in Ok (h1, e).

(** list.h 311-320 _unlink_after_node: heap, last, unlinked node. *)
Definition unlink_after_node (h : heap) (last ref : Z) : res (heap * Z * Z) :=
  let* nd := next_of h ref in
  let* nx := next_of h nd in
  let* h1 := set_next h ref nx in
  Ok (h1, if nd =? nx then 0 else if nd =? last then ref else last, nd).
(** list.h 304-309 _erase_after_node: heap, last, destroyed value. *)
Definition erase_after_node (h : heap) (last ref : Z) : res (heap * Z * A) :=
  let* r := unlink_after_node h last ref in
  let '(h1, last1, nd) := r in
  let* x := val_of h1 nd in
  let* h2 := free h1 nd in
  Ok (h2, last1, x).

(** list.h 151-152 _pop_front. *)
Definition pop_front (h : heap) (last : Z) : res (heap * Z * A) :=
  if last =? 0 then Err AssertFail else erase_after_node h last last.

(** list.h 237-241 _drop (and _clear): values in order of destruction. *)
Fixpoint drop_loop (fuel : nat) (h : heap) (last : Z) : res (heap * list A) :=
  match fuel with
  | O => Err OutOfFuel
  | S fuel' =>
    if last =? 0 then Ok (h, []) else
    let* r := erase_after_node h last last in
    let '(h1, last1, x) := r in
    let* r2 := drop_loop fuel' h1 last1 in
    Ok (fst r2, x :: snd r2)
  end.
Definition fuel_of (h : heap) : nat := S (S (Z.to_nat (brk h))).
Definition drop (h : heap) (last : Z) : res (heap * list A) := drop_loop (fuel_of h) h last.

(** list.h 153-156 _front, _back. *)
Definition front (h : heap) (last : Z) : res A := let* p := next_of h last in val_of h p.
Definition back (h : heap) (last : Z) : res A := val_of h last.

(** list.h 171-177 _count. *)
Fixpoint count_loop (fuel : nat) (h : heap) (last nd n : Z) : res Z :=
  match fuel with
  | O => Err OutOfFuel
  | S fuel' =>
    let* nd1 := next_of h nd in
    if nd1 =? last then Ok n else count_loop fuel' h last nd1 (n + 1)
  end.
Definition count (h : heap) (last : Z) : res Z :=
  if last =? 0 then Ok 0 else count_loop (fuel_of h) h last last 1.

(** types.h _c_list_types iterator: ref, prev and whether the pointer to the list's [last]
    field is set.  [next] reads the current [last] through that pointer. *)
Record iter : Type := mkit { ref : Z; prev : Z; haslast : bool }.
(** list.h 179-183 _begin. *)
Definition begin (h : heap) (last : Z) : res iter :=
  if last =? 0 then Ok (mkit 0 last true)
  else let* p := next_of h last in Ok (mkit p last true).
(** list.h 185-187 _end. *)
Definition end_ : iter := mkit 0 0 false.
(** list.h 189-193 _next. *)
Definition next (h : heap) (last : Z) (it : iter) : res iter :=
  if negb (haslast it) then Err NullDeref else
  if ref it =? last then Ok (mkit 0 (ref it) true)
  else let* p := next_of h (ref it) in Ok (mkit p (ref it) true).
(** list.h 195-199 _advance. *)
Fixpoint advance (h : heap) (last : Z) (it : iter) (n : nat) : res iter :=
  match n with
  | O => Ok it
  | S n' => if ref it =? 0 then Ok it else let* it1 := next h last it in advance h last it1 n'
  end.

(** common.h 164-165 c_each_3 over a list: the values visited. *)
Fixpoint each_loop (fuel : nat) (h : heap) (last : Z) (it : iter) : res (list A) :=
  match fuel with
  | O => Err OutOfFuel
  | S fuel' =>
    if ref it =? 0 then Ok [] else
    let* x := val_of h (ref it) in
    let* it1 := next h last it in
    let* r := each_loop fuel' h last it1 in
    Ok (x :: r)
  end.
Definition each (h : heap) (last : Z) : res (list A) :=
  let* it := begin h last in each_loop (fuel_of h) h last it.

(** list.h 273-284 _insert_at: heap, last, returned iterator. *)
Definition insert_at (h : heap) (last : Z) (it : iter) (x : A) : res (heap * Z * iter) :=
  let nd := if ref it =? 0 then last else prev it in
  let* r := insert_entry_after h nd x in
  let '(h1, e) := r in
  if (last =? 0) || (ref it =? 0)
  then Ok (h1, e, mkit e (if last =? 0 then e else last) (haslast it))
  else Ok (h1, last, mkit e (prev it) (haslast it)).

(** list.h 286-292 _erase_at. *)
Definition erase_at (h : heap) (last : Z) (it : iter) : res (heap * Z * A * iter) :=
  let* c := load h (ref it) in
  let rf := if ref it =? last then 0 else snd c in
  let* r := erase_after_node h last (prev it) in
  let '(h1, last1, x) := r in
  Ok (h1, last1, x, mkit rf (prev it) (haslast it)).

(** list.h 294-302 _erase_range. *)
Fixpoint erase_loop (fuel : nat) (h : heap) (last p e : Z) : res (heap * Z * list A) :=
  match fuel with
  | O => Err OutOfFuel
  | S fuel' =>
    let* r := erase_after_node h last p in
    let '(h1, last1, x) := r in
    if last1 =? 0 then Ok (h1, last1, [x]) else
    let* nx := next_of h1 p in
    if nx =? e then Ok (h1, last1, [x])
    else let* r2 := erase_loop fuel' h1 last1 p e in
         let '(h2, last2, xs) := r2 in Ok (h2, last2, x :: xs)
  end.
Definition erase_range (h : heap) (last : Z) (it1 it2 : iter) : res (heap * Z * list A * iter) :=
  let* e := if ref it2 =? 0 then next_of h last else Ok (ref it2) in
  if ref it1 =? ref it2 then Ok (h, last, [], it2)
  else let* r := erase_loop (fuel_of h) h last (prev it1) e in
       let '(h1, last1, xs) := r in Ok (h1, last1, xs, it2).

(** list.h 322-330 _reverse. *)
Fixpoint reverse_loop (fuel : nat) (h : heap) (last rlast : Z) : res (heap * Z) :=
  match fuel with
  | O => Err OutOfFuel
  | S fuel' =>
    if last =? 0 then Ok (h, rlast) else
    let* r := unlink_after_node h last last in
    let '(h1, last1, nd) := r in
    let* r2 := insert_after_node h1 rlast rlast nd in
    reverse_loop fuel' (fst r2) last1 (snd r2)
  end.
Definition reverse (h : heap) (last : Z) : res (heap * Z) := reverse_loop (fuel_of h) h last 0.

(** list.h 332-345 _splice: heap, self->last, other->last, iterator. *)
Definition splice (h : heap) (last : Z) (it : iter) (olast : Z) : res (heap * Z * Z * iter) :=
  if last =? 0 then Ok (h, olast, 0, it)
  else if olast =? 0 then Ok (h, last, 0, it)
  else
    let p := if ref it =? 0 then last else prev it in
    let* nx := next_of h p in
    let* ofirst := next_of h olast in
    let* h1 := set_next h p ofirst in
    let* h2 := set_next h1 olast nx in
    Ok (h2, if ref it =? 0 then olast else last, 0, mkit (ref it) olast (haslast it)).

(** list.h 347-360 _split_off: heap, self->last, last of the returned list. *)
Definition split_off (h : heap) (last : Z) (it1 it2 : iter) : res (heap * Z * Z) :=
  if ref it1 =? ref it2 then Ok (h, last, 0) else
  let p1 := prev it1 in
  let p2 := if ref it2 =? 0 then last else prev it2 in
  let* n2 := next_of h p2 in
  let* h1 := set_next h p1 n2 in
  let* h2 := set_next h1 p2 (ref it1) in
  Ok (h2, if last =? p2 then (if p1 =? p2 then 0 else p1) else last, p2).

(** list.h 201-206 _splice_range: other's heap is the same heap; returns also other->last. *)
Definition splice_range (h : heap) (last : Z) (it : iter) (olast : Z) (it1 it2 : iter) : res (heap * Z * Z * iter) :=
  let* r := split_off h olast it1 it2 in
  let '(h1, olast1, tmp) := r in
  let* r2 := splice h1 last it tmp in
  let '(h2, last2, _, it') := r2 in
  Ok (h2, last2, olast1, it').

(** list.h 227-235 _clone (the element clone is the identity on model values). *)
Fixpoint push_all (h : heap) (last : Z) (xs : list A) : res (heap * Z) :=
  match xs with
  | [] => Ok (h, last)
  | x :: r => let* r1 := push_back h last x in push_all (fst r1) (snd r1) r
  end.
Definition clone (h : heap) (last : Z) : res (heap * Z) :=
  let* xs := each h last in push_all h 0 xs.

Variable eqb : A -> A -> bool.
(** list.h 214-221 _eq. *)
Fixpoint eq_loop (fuel : nat) (h : heap) (l1 l2 : Z) (i j : iter) : res bool :=
  match fuel with
  | O => Err OutOfFuel
  | S fuel' =>
    if negb (ref i =? 0) && negb (ref j =? 0) then
      let* x := val_of h (ref i) in
      let* y := val_of h (ref j) in
      if negb (eqb x y) then Ok false else
      let* i1 := next h l1 i in
      let* j1 := next h l2 j in
      eq_loop fuel' h l1 l2 i1 j1
    else Ok (negb (negb (ref i =? 0) || negb (ref j =? 0)))
  end.
Definition eq (h : heap) (l1 l2 : Z) : res bool :=
  let* i := begin h l1 in let* j := begin h l2 in eq_loop (fuel_of h) h l1 l2 i j.

(** list.h 362-372 _find_in over the whole list (209-212 _find). *)
Fixpoint find_loop (fuel : nat) (h : heap) (last : Z) (it : iter) (raw : A) : res iter :=
  match fuel with
  | O => Err OutOfFuel
  | S fuel' =>
    if ref it =? 0 then Ok end_ else
    let* x := val_of h (ref it) in
    if eqb x raw then Ok it else
    let* it1 := next h last it in find_loop fuel' h last it1 raw
  end.
Definition find (h : heap) (last : Z) (raw : A) : res iter :=
  let* it := begin h last in find_loop (fuel_of h) h last it raw.

(** list.h 374-389 _remove: heap, last, destroyed values, count. *)
Fixpoint remove_loop (fuel : nat) (h : heap) (last p : Z) (raw : A) (n : Z) : res (heap * Z * list A * Z) :=
  match fuel with
  | O => Err OutOfFuel
  | S fuel' =>
    let* nd := next_of h p in
    let* x := val_of h nd in
    if eqb x raw then
      let* r := erase_after_node h last p in
      let '(h1, last1, y) := r in
      if last1 =? 0 then Ok (h1, last1, [y], n + 1)
      else if nd =? last1 then Ok (h1, last1, [y], n + 1)
      else let* r2 := remove_loop fuel' h1 last1 p raw (n + 1) in
           let '(h2, last2, ys, m) := r2 in Ok (h2, last2, y :: ys, m)
    else if nd =? last then Ok (h, last, [], n)
    else remove_loop fuel' h last nd raw n
  end.
Definition remove (h : heap) (last : Z) (raw : A) : res (heap * Z * list A * Z) :=
  if last =? 0 then Ok (h, last, [], 0)
  else remove_loop (fuel_of h + fuel_of h) h last last raw 0.

(** list.h 394-418 _sort: values are copied to an array, sorted by sort_prv.h with raw
    keys that are copies, and copied back in order (the array growth succeeds). *)
Variable less : A -> A -> bool.
Fixpoint write_loop (fuel : nat) (h : heap) (last : Z) (it : iter) (xs : list A) : res heap :=
  match fuel with
  | O => Err OutOfFuel
  | S fuel' =>
    if ref it =? 0 then Ok h else
    match xs with
    | [] => Err OOB
    | x :: r =>
      let* h1 := set_val h (ref it) x in
      let* it1 := next h1 last it in
      write_loop fuel' h1 last it1 r
    end
  end.
Definition sort (h : heap) (last : Z) : res (heap * bool) :=
  let* xs := each h last in
  let* ys := Sort_Model.sort_by_value less xs in
  let* it := begin h last in
  let* h1 := write_loop (fuel_of h) h last it ys in
  Ok (h1, negb (last =? 0)).

(** Histories on one list.  Positions are given by an index: the iterator is obtained by
    advancing [begin] that many steps (the end iterator when the index is the length). *)
Inductive op : Type :=
| PushBack (x : A) | PushFront (x : A) | InsertAt (i : nat) (x : A) | EraseAt (i : nat)
| EraseRange (i j : nat) | PopFront | Clear | Reverse | Remove (raw : A).

Definition at_index (h : heap) (last : Z) (i : nat) : res iter :=
  let* b := begin h last in advance h last b i.

(** One operation: heap, last, values destroyed. *)
Definition step (h : heap) (last : Z) (o : op) : res (heap * Z * list A) :=
  match o with
  | PushBack x => let* r := push_back h last x in Ok (fst r, snd r, [])
  | PushFront x => let* r := push_front h last x in Ok (fst r, snd r, [])
  | InsertAt i x =>
    let* it := at_index h last i in
    let* r := insert_at h last it x in let '(h1, l1, _) := r in Ok (h1, l1, [])
  | EraseAt i =>
    let* it := at_index h last i in
    let* r := erase_at h last it in let '(h1, l1, y, _) := r in Ok (h1, l1, [y])
  | EraseRange i j =>
    let* it1 := at_index h last i in
    let* it2 := at_index h last j in
    let* r := erase_range h last it1 it2 in let '(h1, l1, ys, _) := r in Ok (h1, l1, ys)
  | PopFront => let* r := pop_front h last in let '(h1, l1, y) := r in Ok (h1, l1, [y])
  | Clear => let* r := drop h last in Ok (fst r, 0, snd r)
  | Reverse => let* r := reverse h last in Ok (fst r, snd r, [])
  | Remove raw => let* r := remove h last raw in let '(h1, l1, ys, _) := r in Ok (h1, l1, ys)
  end.

Fixpoint run (h : heap) (last : Z) (ops : list op) : res (heap * Z * list (list A)) :=
  match ops with
  | [] => Ok (h, last, [])
  | o :: rest =>
    let* r := step h last o in
    let '(h1, l1, d) := r in
    let* r2 := run h1 l1 rest in
    let '(h2, l2, ds) := r2 in
    Ok (h2, l2, d :: ds)
  end.

(** The heap with no live node. *)
Definition empty_heap : heap := mkheap (fun _ => None) 1.
End ListModel.
Arguments heap : clear implicits.
Arguments op : clear implicits.
