(** Model of include/stc/sys/filter.h: c_filter, c_ffilter (c_forfilter), c_filter_zip, c_filter_pairwise.

    The source is the list of values its iterator yields (C03 says when that is the content).  A
    predicate argument is a conjunction [stage1 && stage2 && ...], evaluated with short circuit;
    it ends with the action (an expression in c_filter, the loop body in c_ffilter), which is
    modelled by logging the current value and c_flt_getcount(). *)
From Verif Require Import Base.

Section Filter.
Context {A : Type}.
(** filter.h 52-58: the conjuncts.  c_flt_map changes [value] for the conjuncts after it. *)
Inductive stage :=
| Pred (p : A -> bool)
| Counter
| Skip (n : Z)
| Take (n : Z)
| SkipWhile (p : A -> bool)
| TakeWhile (p : A -> bool)
| Map (f : A -> A).

(** filter.h 163-171 struct _flt_base with c_NFILTERS = 20. *)
Record base := mkb { sn_top : Z; sb_top : Z; done : bool; sb : list bool; sn : list Z }.
Definition init : base := mkb 0 0 false (repeat false 20) (repeat 0 20).
(** filter.h 56 c_flt_counter: ++sn[++sn_top] (uint8_t top, uint32_t counters). *)
Definition counter (b : base) : res (base * Z) :=
  let t := (sn_top b + 1) mod 256 in
  let* c := aget (sn b) t in
  let k := (c + 1) mod 4294967296 in
  let* s := aset (sn b) t k in
  Ok (mkb t (sb_top b) (done b) (sb b) s, k).
(** filter.h 57 c_flt_getcount. *)
Definition getcount (b : base) : res Z := aget (sn b) (sn_top b).
(** filter.h 173-177 _flt_take. *)
Definition flt_take (b : base) (n : Z) : res (base * bool) :=
  let* q := counter b in
  let '(b1, k) := q in
  Ok (mkb (sn_top b1) (sb_top b1) (done b1 || (n <=? k)) (sb b1) (sn b1), 0 <? n).
(** filter.h 55 c_flt_skipwhile: sb[sb_top++] |= !(pred). *)
Definition flag (b : base) (notp : bool) : res (base * bool) :=
  let* f := aget (sb b) (sb_top b) in
  let* s := aset (sb b) (sb_top b) (f || notp) in
  Ok (mkb (sn_top b) ((sb_top b + 1) mod 256) (done b) s (sn b), f || notp).
(** filter.h 179-183 _flt_takewhile. *)
Definition flt_takewhile (b : base) (p : bool) : res (base * bool) :=
  let* q := flag b (negb p) in
  let '(b1, skip) := q in
  Ok (mkb (sn_top b1) (sb_top b1) (done b1 || skip) (sb b1) (sn b1), negb skip).

(** The conjunction, from [value] = v: new base, and the entry logged by the action if reached. *)
Fixpoint eval (sts : list stage) (b : base) (v : A) : res (base * option (A * Z)) :=
  match sts with
  | [] => let* c := getcount b in Ok (b, Some (v, c))
  | Pred p :: t => if p v then eval t b v else Ok (b, None)
  | Counter :: t => let* q := counter b in if snd q =? 0 then Ok (fst q, None) else eval t (fst q) v
  | Skip n :: t => let* q := counter b in if n <? snd q then eval t (fst q) v else Ok (fst q, None)
  | Take n :: t => let* q := flt_take b n in if snd q then eval t (fst q) v else Ok (fst q, None)
  | SkipWhile p :: t => let* q := flag b (negb (p v)) in if snd q then eval t (fst q) v else Ok (fst q, None)
  | TakeWhile p :: t => let* q := flt_takewhile b (p v) in if snd q then eval t (fst q) v else Ok (fst q, None)
  | Map f :: t => eval t b (f v)
  end.
Definition reset (b : base) : base := mkb 0 0 (done b) (sb b) (sn b).
Definition olist {B} (o : option B) : list B := match o with Some x => [x] | None => [] end.
(** filter.h 73-80 _c_filter, 156-160 _c_ffilter: the loop; the tops are reset after each value. *)
Fixpoint loop (sts : list stage) (b : base) (l : list A) : res (list (A * Z)) :=
  match l with
  | [] => Ok []
  | v :: l' =>
      if done b then Ok [] else
      let* q := eval sts b v in
      let* r := loop sts (reset (fst q)) l' in Ok (olist (snd q) ++ r)
  end.
Definition c_filter (sts : list stage) (l : list A) : res (list (A * Z)) := loop sts init l.
End Filter.
Arguments stage : clear implicits.

(** filter.h 103-114 _c_filter_zip: [value1] and [value2] as a pair. *)
Section Zip.
Context {A B : Type}.
Fixpoint loop2 (sts : list (stage (A * B))) (b : base) (l1 : list A) (l2 : list B) : res (list (A * B * Z)) :=
  match l1, l2 with
  | v1 :: l1', v2 :: l2' =>
      if done b then Ok [] else
      let* q := eval sts b (v1, v2) in
      let* r := loop2 sts (reset (fst q)) l1' l2' in Ok (olist (snd q) ++ r)
  | _, _ => Ok []
  end.
Definition c_filter_zip (sts : list (stage (A * B))) (l1 : list A) (l2 : list B) : res (list (A * B * Z)) := loop2 sts init l1 l2.
End Zip.
(** filter.h 95-96 c_filter_pairwise: the second iterator is the first one advanced by 1. *)
Definition c_filter_pairwise {A} (sts : list (stage (A * A))) (l : list A) : res (list (A * A * Z)) := c_filter_zip sts l (tl l).
