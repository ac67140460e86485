(** Model of priv/sort_prv.h: in-place quicksort with insertion sort for short
    ranges, and the two binary searches.

    [i_at(self, k)] is a checked array access ([Err OOB] when the C code would run
    into its [c_assert] or outside the buffer).  [less] stands for [i_less] on raw keys. *)
From Verif Require Import Base.

Section SortModel.
Context {A : Type}.
(** [i_less] (template parameter, see priv/template.h). *)
Variable less : A -> A -> bool.
(** [byref x]: the raw form of key [x] is a pointer into the slot that stores [x] (true for a cstr held
    in the in-place buffer: cstr_toraw returns the address of its characters).
    For plain keys it is constantly [false]: the raw form is a copy of the value. *)
Variable byref : A -> bool.

(** The pivot of sort_prv.h line 86 is a raw key: either a copy of a value, or a
    reference to the slot it was taken from. *)
Inductive pivot : Type :=
| PVal (v : A)
| PSlot (p : Z).

(** sort_prv.h 86: [i_keytoraw(i_at(self, p))]. *)
Definition take_pivot (l : list A) (p : Z) : res pivot :=
  let* v := aget l p in
  Ok (if byref v then PSlot p else PVal v).

(** Reading the pivot when it is compared (lines 89, 90). *)
Definition pivot_val (l : list A) (pv : pivot) : res A :=
  match pv with
  | PVal v => Ok v
  | PSlot p => aget l p
  end.

(** sort_prv.h 73-78: shift elements greater than [x] up; returns the array and the final [j]. *)
Fixpoint ins_shift (fuel : nat) (l : list A) (x : A) (j : Z) : res (list A * Z) :=
  match fuel with
  | O => Err OutOfFuel
  | S fuel' =>
    if 0 <=? j then
      let* y := aget l j in
      if less x y then
        let* l1 := aset l (j + 1) y in
        ins_shift fuel' l1 x (j - 1)
      else Ok (l, j)
    else Ok (l, j)
  end.

(** sort_prv.h 69-81 _insertsort_lowhigh, loop over [i]; [j] always starts at [i-1]. *)
Fixpoint insertsort (fuel : nat) (l : list A) (i hi : Z) : res (list A) :=
  match fuel with
  | O => Err OutOfFuel
  | S fuel' =>
    if i <=? hi then
      let* x := aget l i in
      let* r := ins_shift (S (length l)) l x (i - 1) in
      let* l2 := aset (fst r) (snd r + 1) x in
      insertsort fuel' l2 (i + 1) hi
    else Ok l
  end.

(** sort_prv.h 69: entry, [j = lo, i = lo + 1]. *)
Definition insertsort_lowhigh (l : list A) (lo hi : Z) : res (list A) :=
  insertsort (S (length l)) l (lo + 1) hi.

(** sort_prv.h 89: [do { rx = at(i) } while (less(rx, pivot) && ++i)].
    [++i] is never 0 because [i >= 0]. *)
Fixpoint scan_up (fuel : nat) (l : list A) (pv : pivot) (i : Z) : res Z :=
  match fuel with
  | O => Err OutOfFuel
  | S fuel' =>
    let* x := aget l i in
    let* v := pivot_val l pv in
    if less x v then
      if i + 1 =? 0 then Ok (i + 1) else scan_up fuel' l pv (i + 1)
    else Ok i
  end.

(** sort_prv.h 90: [do { rx = at(j) } while (less(pivot, rx) && --j)].
    The loop also stops as soon as [--j] is 0, without looking at element 0. *)
Fixpoint scan_down (fuel : nat) (l : list A) (pv : pivot) (j : Z) : res Z :=
  match fuel with
  | O => Err OutOfFuel
  | S fuel' =>
    let* x := aget l j in
    let* v := pivot_val l pv in
    if less v x then
      if j - 1 =? 0 then Ok (j - 1) else scan_down fuel' l pv (j - 1)
    else Ok j
  end.

(** sort_prv.h 88-94: Hoare partition; returns the array and final [i], [j]. *)
Fixpoint partition (fuel : nat) (l : list A) (pv : pivot) (i j : Z) : res (list A * Z * Z) :=
  match fuel with
  | O => Err OutOfFuel
  | S fuel' =>
    let* i1 := scan_up (S (length l)) l pv i in
    let* j1 := scan_down (S (length l)) l pv j in
    if j1 <? i1 then Ok (l, i1, j1)
    else
      let* l1 := aswap l i1 j1 in
      let i2 := i1 + 1 in
      let j2 := j1 - 1 in
      if i2 <=? j2 then partition fuel' l1 pv i2 j2 else Ok (l1, i2, j2)
  end.

(** sort_prv.h 83-104 _sort_lowhigh.  The [while] loop is the second recursive call: at
    the loop head [i == lo] always holds (line 84 and 102).  [(hi-lo)*7LL/16] has
    non-negative operands, so Z division is C division. *)
Fixpoint sort_lowhigh (fuel : nat) (l : list A) (lo hi : Z) : res (list A) :=
  match fuel with
  | O => Err OutOfFuel
  | S fuel' =>
    if lo <? hi then
      let* pv := take_pivot l (lo + (hi - lo) * 7 / 16) in
      let* r := partition (S (length l)) l pv lo hi in
      let '(l1, i, j) := r in
      let '(lo1, i1, hi1, j1) :=
        if hi - i <? j - lo then (i, lo, j, hi) else (lo, i, hi, j) in
      let* l2 :=
        (if 64 <? j1 - lo1 then sort_lowhigh fuel' l1 lo1 j1
         else if lo1 <? j1 then insertsort_lowhigh l1 lo1 j1
         else Ok l1) in
      sort_lowhigh fuel' l2 i1 hi1
    else Ok l
  end.

(** Fuel large enough for any range of the array. *)
Definition sort_fuel (l : list A) : nat := S (length l).

(** sort_prv.h 54: X_sort(self). *)
Definition sort (l : list A) : res (list A) :=
  sort_lowhigh (sort_fuel l) l 0 (zlen l - 1).

(** sort_prv.h 108-122 _lower_bound_range; [None] is c_NPOS.  All divisions have
    non-negative operands. *)
Fixpoint lower_bound_loop (fuel : nat) (l : list A) (raw : A) (start count step : Z) : res Z :=
  match fuel with
  | O => Err OutOfFuel
  | S fuel' =>
    if 0 <? count then
      let* rx := aget l (start + step) in
      if less rx raw then
        let start' := start + step + 1 in
        let count' := count - (step + 1) in
        lower_bound_loop fuel' l raw start' count' (count' * 7 / 8)
      else lower_bound_loop fuel' l raw start step (step / 8)
    else Ok start
  end.

Definition lower_bound_range (l : list A) (raw : A) (start end_ : Z) : res (option Z) :=
  let count := end_ - start in
  let* s := lower_bound_loop (S (Z.to_nat count)) l raw start count (count / 2) in
  Ok (if s =? end_ then None else Some s).

(** sort_prv.h 125-132 _binary_search_range. *)
Definition binary_search_range (l : list A) (raw : A) (start end_ : Z) : res (option Z) :=
  let* r := lower_bound_range l raw start end_ in
  match r with
  | None => Ok None
  | Some k =>
    let* rx := aget l k in
    Ok (if less raw rx then None else Some k)
  end.

(** sort_prv.h 57-63. *)
Definition lower_bound (l : list A) (raw : A) : res (option Z) := lower_bound_range l raw 0 (zlen l).
Definition binary_search (l : list A) (raw : A) : res (option Z) := binary_search_range l raw 0 (zlen l).

End SortModel.

(** sort_prv.h 54 for keys whose raw form is a copy (numbers, pointers, structs). *)
Definition sort_by_value {A} (less : A -> A -> bool) (l : list A) : res (list A) :=
  sort less (fun _ => false) l.
