(** Model of pqueue.h: a binary max-heap in a growable array. *)
From Verif Require Import Base Slots.

Section PqueueModel.
Context {A : Type}.
(** [i_less] (template parameter). *)
Variable less : A -> A -> bool.

(** types.h declare_pqueue: data/size/capacity.  The capacity is the length of [buf]. *)
Record pqueue : Type := mkpq { buf : slots A; size : Z }.

Definition capacity (q : pqueue) : Z := zlen (buf q).

(** pqueue.h 46 _init. *)
Definition init : pqueue := mkpq [] 0.

(** pqueue.h 55-59 _reserve.  Allocation always succeeds; realloc to 0 slots yields
    an empty buffer. *)
Definition reserve (q : pqueue) (cap : Z) : pqueue :=
  if negb (cap =? size q) && (cap <=? capacity q) then q
  else mkpq (realloc (buf q) cap) (size q).

(** pqueue.h 61. *)
Definition shrink_to_fit (q : pqueue) : pqueue := reserve q (size q).

(** pqueue.h 135-143 _sift_down_, base-1 indices ([arr = data - 1]), loop over [r], [c]. *)
Fixpoint sift_loop (fuel : nat) (s : slots A) (r c n : Z) : res (slots A) :=
  match fuel with
  | O => Err OutOfFuel
  | S fuel' =>
    if c <=? n then
      let* x := rd s (c - 1) in
      let* y := rd s (c + (if c <? n then 1 else 0) - 1) in
      let c1 := c + (if less x y then 1 else 0) in
      let* ar := rd s (r - 1) in
      let* ac := rd s (c1 - 1) in
      if negb (less ar ac) then Ok s
      else
        let* s1 := wr s (r - 1) ac in
        let* s2 := wr s1 (c1 - 1) ar in
        sift_loop fuel' s2 c1 (c1 * 2) n
    else Ok s
  end.

Definition sift_down (s : slots A) (idx n : Z) : res (slots A) :=
  sift_loop (S (Z.to_nat n)) s idx (idx * 2) n.

(** pqueue.h 145-150 _make_heap: [k] runs from n/2 down to 1. *)
Fixpoint make_heap_loop (k : nat) (s : slots A) (n : Z) : res (slots A) :=
  match k with
  | O => Ok s
  | S k' => let* s1 := sift_down s (Z.of_nat k) n in make_heap_loop k' s1 n
  end.

Definition make_heap (q : pqueue) : res pqueue :=
  let* s := make_heap_loop (Z.to_nat (size q / 2)) (buf q) (size q) in
  Ok (mkpq s (size q)).

(** pqueue.h 163-169 _erase_at; also returns the element passed to i_keydrop. *)
Definition erase_at (q : pqueue) (idx : Z) : res (pqueue * A) :=
  let* d := rd (buf q) idx in
  let n := size q - 1 in
  let* x := rd (buf q) n in
  let* s1 := wr (buf q) idx x in
  let* s2 := sift_down s1 (idx + 1) n in
  Ok (mkpq s2 n, d).

(** pqueue.h 106-107 _top: the slot [data[0]]; NULL or dead when empty. *)
Definition top (q : pqueue) : res A := rd (buf q) 0.

(** pqueue.h 109-110 _pop. *)
Definition pop (q : pqueue) : res (pqueue * A) :=
  if size q =? 0 then Err AssertFail else erase_at q 0.

(** pqueue.h 112-113 _pull: result value, new queue, element passed to i_keydrop. *)
Definition pull (q : pqueue) : res (A * pqueue * A) :=
  let* v := rd (buf q) 0 in
  let* r := erase_at q 0 in
  Ok (v, fst r, snd r).

(** pqueue.h 177-178: move parents down while they are less than [value]. *)
Fixpoint sift_up_loop (fuel : nat) (s : slots A) (value : A) (c : Z) : res (slots A * Z) :=
  match fuel with
  | O => Err OutOfFuel
  | S fuel' =>
    if 1 <? c then
      let* p := rd s (c / 2 - 1) in
      if less p value then
        let* s1 := wr s (c - 1) p in
        sift_up_loop fuel' s1 value (c / 2)
      else Ok (s, c)
    else Ok (s, c)
  end.

(** pqueue.h 171-181 _push. *)
Definition push (q : pqueue) (value : A) : res pqueue :=
  let q1 := if size q =? capacity q then reserve q (size q * 3 / 2 + 4) else q in
  let c := size q1 + 1 in
  let* r := sift_up_loop (S (Z.to_nat c)) (buf q1) value c in
  let* s := wr (fst r) (snd r - 1) value in
  Ok (mkpq s c).

(** pqueue.h 75-78 _clear: drops elements from last to first. *)
Fixpoint clear_loop (i : nat) (s : slots A) : res (list A) :=
  match i with
  | O => Ok []
  | S i' => let* x := rd s (Z.of_nat i') in let* r := clear_loop i' s in Ok (x :: r)
  end.
Definition clear (q : pqueue) : res (pqueue * list A) :=
  let* d := clear_loop (Z.to_nat (size q)) (buf q) in
  Ok (mkpq (buf q) 0, d).

(** Operation histories. *)
Inductive op : Type :=
| Push (x : A)
| Pop
| Clear
| Reserve (cap : Z)
| ShrinkToFit
| MakeHeap.

(** One operation: new queue and the elements handed to the destructor. *)
Definition step (q : pqueue) (o : op) : res (pqueue * list A) :=
  match o with
  | Push x => let* q1 := push q x in Ok (q1, [])
  | Pop => let* r := pop q in Ok (fst r, [snd r])
  | Clear => clear q
  | Reserve cap => Ok (reserve q cap, [])
  | ShrinkToFit => Ok (shrink_to_fit q, [])
  | MakeHeap => let* q1 := make_heap q in Ok (q1, [])
  end.

Fixpoint run (q : pqueue) (ops : list op) : res (pqueue * list (list A)) :=
  match ops with
  | [] => Ok (q, [])
  | o :: rest =>
    let* r := step q o in
    let* r2 := run (fst r) rest in
    Ok (fst r2, snd r :: snd r2)
  end.
End PqueueModel.
Arguments pqueue : clear implicits.
Arguments op : clear implicits.
