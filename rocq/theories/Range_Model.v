(** Model of the range loops of include/stc/common.h and of include/stc/sys/crange.h.
    [w] is the number of value bits of the integer type: 63 for isize (crange), 31 for int32_t
    (crange32, c_range32).  A result outside of the type is [Err Overflow]. *)
From Verif Require Import Base.

Definition chk (w x : Z) : res Z := if (- 2 ^ w <=? x) && (x <? 2 ^ w) then Ok x else Err Overflow.
Definition b2z (b : bool) : Z := if b then 1 else 0.

(** common.h 204-205 c_range_t_4 (also c_range_1, _2, _3): the values of i. *)
Fixpoint loop4 (fuel : nat) (w i e : Z) : res (list Z) :=
  match fuel with
  | O => Err OutOfFuel
  | S f =>
      if i <? e then let* j := chk w (i + 1) in let* l := loop4 f w j e in Ok (i :: l)
      else Ok []
  end.
Definition c_range3 (fuel : nat) (w start stop : Z) : res (list Z) := loop4 fuel w start stop.

(** common.h 206-208 c_range_t_5 (c_range_4). *)
Fixpoint loop5 (fuel : nat) (w i inc e : Z) : res (list Z) :=
  match fuel with
  | O => Err OutOfFuel
  | S f =>
      if Bool.eqb (0 <? inc) (i <=? e) then let* j := chk w (i + inc) in let* l := loop5 f w j inc e in Ok (i :: l)
      else Ok []
  end.
Definition c_range4 (fuel : nat) (w start stop step : Z) : res (list Z) :=
  let* e := chk w (stop - b2z (0 <? step)) in loop5 fuel w start step e.

(** crange.h 52-53 (90-91) the structs; [ref] of the iterator always points to the member
    [value] of the range, so it is a flag here. *)
Record crange := mkr { start : Z; end_ : Z; step : Z; value : Z }.
Record iter := mkit { ref : bool; iend : Z; istep : Z }.
(** crange.h 55-56 (93-94) crange_make_3; c_iota_3 is the same. *)
Definition make (w st stop sp : Z) : res crange :=
  let* e := chk w (stop - b2z (0 <? sp)) in Ok (mkr st e sp 0).
(** crange.h 62-66 crange_begin. *)
Definition begin (r : crange) : crange * iter :=
  (mkr (start r) (end_ r) (step r) (start r), mkit true (end_ r) (step r)).
(** crange.h 68-71 crange_next. *)
Definition next (w : Z) (r : crange) (it : iter) : res (crange * iter) :=
  if ref it then
    let* v := chk w (value r + istep it) in
    Ok (mkr (start r) (end_ r) (step r) v, mkit (negb (Bool.eqb (0 <? istep it) (iend it <? v))) (iend it) (istep it))
  else Err NullDeref.
(** crange.h 73-77 crange_advance; (isize)n is [n] itself for n < 2^w. *)
Definition advance (w : Z) (r : crange) (it : iter) (n : Z) : res (crange * iter) :=
  if ref it then
    let* d := chk w (istep it * n) in
    let* v := chk w (value r + d) in
    Ok (mkr (start r) (end_ r) (step r) v, mkit (negb (Bool.eqb (0 <? istep it) (iend it <? v))) (iend it) (istep it))
  else Err NullDeref.
(** common.h 164-165 c_each(it, crange, r). *)
Fixpoint each_loop (fuel : nat) (w : Z) (r : crange) (it : iter) : res (list Z) :=
  match fuel with
  | O => Err OutOfFuel
  | S f =>
      if ref it then
        let* q := next w r it in
        let* l := each_loop f w (fst q) (snd q) in Ok (value r :: l)
      else Ok []
  end.
Definition each (fuel : nat) (w : Z) (r : crange) : res (list Z) :=
  let '(r1, it) := begin r in each_loop fuel w r1 it.
(** common.h 169-171 c_each_n(it, crange, r, n). *)
Fixpoint each_n_loop (fuel : nat) (w : Z) (r : crange) (it : iter) (idx n : Z) : res (list Z) :=
  match fuel with
  | O => Err OutOfFuel
  | S f =>
      if ref it && (idx <? n) then
        let* q := next w r it in
        let* l := each_n_loop f w (fst q) (snd q) (idx + 1) n in Ok (value r :: l)
      else Ok []
  end.
Definition each_n (fuel : nat) (w : Z) (r : crange) (n : Z) : res (list Z) :=
  let '(r1, it) := begin r in each_n_loop fuel w r1 it 0 n.
