(** Model of include/stc/cspan.h: multi-dimensional views over a C array.

    A span is {data, shape[RANK], stride[RANK]}.  [data] is the position of the first element in
    the underlying array, so pointer arithmetic on T* is Z addition; an element is accessed with
    [aget]/[aset], which fail outside of the array.  RANK is the length of [shape] and [stride].
    [_istride] is int32_t: casts to it wrap ([wrap32]) and an overflowing product of two of them
    is [Err Overflow].  Simplification: isize (64 bit) sums and products are unbounded. *)
From Verif Require Import Base.

Definition max32 : Z := 2147483647.
(** (int32_t)x. *)
Definition wrap32 (x : Z) : Z := (x + 2147483648) mod 4294967296 - 2147483648.
Definition mul32 (x y : Z) : res Z :=
  if (- 2147483648 <=? x * y) && (x * y <=? max32) then Ok (x * y) else Err Overflow.
(** common.h:127 c_uless(a, b): comparison as size_t. *)
Definition uless (a b : Z) : bool := a mod 18446744073709551616 <? b mod 18446744073709551616.

(** cspan.h:89-93 the struct. *)
Record span := mk { data : Z; shape : list Z; stride : list Z }.
Definition rank (s : span) : nat := length (shape s).

(** cspan.h:154-157 cspan_from_n (also cspan_from_array, cspan_from_vec, cspan_make). *)
Definition from_n (d n : Z) : span := mk d [wrap32 n] [1].

(** cspan.h:309-313 _cspan_size: shape[0] times shape[rank-1], ..., shape[1]. *)
Fixpoint size_loop (sh : list Z) (r : nat) (acc : Z) : res Z :=
  match r with
  | O => Ok acc
  | S r' => let* n := aget sh (Z.of_nat r) in size_loop sh r' (acc * n)
  end.
Definition size (s : span) : res Z :=
  let* n := aget (shape s) 0 in size_loop (shape s) (rank s - 1) n.

(** cspan.h:329-338 _cspan_index: while (rank--) { assert; off += args[rank]*stride[rank]; }. *)
Fixpoint index_loop (sh st args : list Z) (r : nat) (off : Z) : res Z :=
  match r with
  | O => Ok off
  | S r' =>
      let* a := aget args (Z.of_nat r') in
      let* n := aget sh (Z.of_nat r') in
      if uless a n then let* t := aget st (Z.of_nat r') in index_loop sh st args r' (off + a * t)
      else Err AssertFail
  end.
(** cspan.h:189-191 cspan_index (the number of arguments is checked at compile time). *)
Definition index (s : span) (args : list Z) : res Z :=
  if (length args =? rank s)%nat then index_loop (shape s) (stride s) args (rank s) 0 else Err AssertFail.
(** cspan.h:186 cspan_at: the address of an element. *)
Definition at_ (s : span) (args : list Z) : res Z := let* o := index s args in Ok (data s + o).
(** cspan.h:188 cspan_back: data + size - 1. *)
Definition back (s : span) : res Z := let* n := size s in Ok (data s + n - 1).

Inductive layout := RowMajor | ColMajor.
(** cspan.h:407-412 the loop of _cspan_shape2stride, over the array it overwrites. *)
Fixpoint stride_loop (inc : Z) (r : nat) (arr : list Z) (i k s1 : Z) : res (list Z) :=
  match r with
  | O => Ok arr
  | S r' =>
      let i1 := i + inc in
      let* s2 := aget arr i1 in
      let* k1 := mul32 k s1 in
      let* arr1 := aset arr i1 k1 in
      stride_loop inc r' arr1 i1 k1 s2
  end.
(** cspan.h:400-414 _cspan_shape2stride. *)
Definition shape2stride (ly : layout) (sh : list Z) : res (list Z) :=
  let i := match ly with ColMajor => 0 | RowMajor => zlen sh - 1 end in
  let inc := match ly with ColMajor => 1 | RowMajor => -1 end in
  let* s1 := aget sh i in
  let* arr := aset sh i 1 in
  stride_loop inc (length sh - 1) arr i 1 s1.
(** cspan.h:212-216 cspan_md_layout. *)
Definition md (ly : layout) (d : Z) (sh : list Z) : res span :=
  let* st := shape2stride ly sh in Ok (mk d sh st).
(** cspan.h:364-369 _cspan_is_layout (tmpshape has room for rank 8). *)
Definition is_layout (ly : layout) (s : span) : res bool :=
  if (8 <? rank s)%nat then Err OOB else
  let* st := shape2stride ly (shape s) in Ok (if list_eq_dec Z.eq_dec (stride s) st then true else false).

(** cspan.h:315-320 _cspan_swap_axes. *)
Definition swap_axes (s : span) (i j : Z) : res span :=
  if uless i (zlen (shape s)) && uless j (zlen (shape s)) then
    let* sh := aswap (shape s) i j in
    let* st := aswap (stride s) i j in
    Ok (mk (data s) sh st)
  else Err AssertFail.

(** cspan.h:322-327 _cspan_transpose: for (i = 0; i < --rank; ++i) swap i and rank. *)
Fixpoint transpose_loop (fuel : nat) (sh st : list Z) (i r : Z) : res (list Z * list Z) :=
  match fuel with
  | O => Err OutOfFuel
  | S f =>
      let r1 := r - 1 in
      if i <? r1 then
        let* sh1 := aswap sh i r1 in
        let* st1 := aswap st i r1 in
        transpose_loop f sh1 st1 (i + 1) r1
      else Ok (sh, st)
  end.
Definition transpose (s : span) : res span :=
  let* q := transpose_loop (S (rank s)) (shape s) (stride s) 0 (zlen (shape s)) in
  Ok (mk (data s) (fst q) (snd q)).

(** cspan.h:234 c_END. *)
Definition c_END : Z := 2147483647.
(** cspan.h:422-437 one iteration of the loop of _cspan_slice: the address contribution, and the
    output dimension if there is one. *)
Definition slice_dim (n t : Z) (a : Z * Z * Z) : res (Z * option (Z * Z)) :=
  let '(a0, a1, a2) := a in
  let off := a0 * t in
  if a1 =? 0 then (if uless a0 n then Ok (off, None) else Err AssertFail) else
  let e := if a1 =? c_END then n else a1 in
  let osh := wrap32 (e - a0) in
  if (0 <? osh) && negb (uless n e) then
    if 0 <? a2 then
      let st := wrap32 a2 in
      let* ot := mul32 t st in
      if st =? 0 then Err DivZero else Ok (off, Some (Z.quot (osh - 1) st + 1, ot))
    else Ok (off, Some (osh, t))
  else Err AssertFail.
(** cspan.h:416-440 _cspan_slice.  Arrays are read in step, front to back; the output arrays have
    RANK entries, [room] is what is left of them (writing past them is [Err OOB]). *)
Fixpoint slice_loop (room : nat) (sh st : list Z) (args : list (Z * Z * Z)) : res (Z * (list Z * list Z)) :=
  match sh, st, args with
  | [], [], [] => Ok (0, ([], []))
  | n :: sh', t :: st', a :: args' =>
      let* q := slice_dim n t a in
      match snd q with
      | None => let* r := slice_loop room sh' st' args' in Ok (fst q + fst r, snd r)
      | Some (on, ot) =>
          match room with
          | O => Err OOB
          | S room' =>
              let* r := slice_loop room' sh' st' args' in
              Ok (fst q + fst r, (on :: fst (snd r), ot :: snd (snd r)))
          end
      end
  | _, _, _ => Err OOB
  end.
(** cspan.h:101-107 Self_slice_, cspan.h:237-240 cspan_slice: [r] is the rank of Outspan. *)
Definition slice (s : span) (r : nat) (args : list (Z * Z * Z)) : res span :=
  let* q := slice_loop r (shape s) (stride s) args in
  if (length (fst (snd q)) =? r)%nat then Ok (mk (data s + fst q) (fst (snd q)) (snd (snd q))) else Err AssertFail.

(** cspan.h:249-276 cspan_submd2, submd3, submd4: the first [length xs] indices fixed. *)
Definition submd (s : span) (xs : list Z) : res span :=
  let* a := at_ s (xs ++ repeat 0 (rank s - length xs)) in
  Ok (mk a (skipn (length xs) (shape s)) (skipn (length xs) (stride s))).
(** cspan.h:177-180 cspan_subspan (rank 1). *)
Definition subspan (s : span) (off cnt : Z) : res span :=
  let* a := at_ s [off] in Ok (mk a [wrap32 cnt] (stride s)).

(** cspan.h:95-99 the iterator; [ref = None] is NULL. *)
Record iter := It { ref : option Z; pos : list Z }.
(** cspan.h:108-110 Self_begin. *)
Definition begin_ (s : span) : iter := It (Some (data s)) (repeat 0 (rank s)).
(** cspan.h:392-395 the loop of _cspan_next2 ([r] is the C variable rank). *)
Fixpoint next_loop (sh st ps : list Z) (r : nat) (off : Z) : res (list Z * nat * Z) :=
  match r with
  | O => Ok (ps, O, off)
  | S r' =>
      let* p := aget ps (Z.of_nat r) in
      let* n := aget sh (Z.of_nat r) in
      if p =? n then
        let* ps1 := aset ps (Z.of_nat r) 0 in
        let* q := aget ps1 (Z.of_nat r') in
        let* ps2 := aset ps1 (Z.of_nat r') (q + 1) in
        let* t' := aget st (Z.of_nat r') in
        let* t := aget st (Z.of_nat r) in
        next_loop sh st ps2 r' (off + (t' - n * t))
      else Ok (ps, r, off)
  end.
(** cspan.h:387-398 _cspan_next2: new position, pointer increment, done. *)
Definition next2 (sh st ps : list Z) : res (list Z * Z * bool) :=
  let r := (length sh - 1)%nat in
  let* off := aget st (Z.of_nat r) in
  let* p := aget ps (Z.of_nat r) in
  let* ps1 := aset ps (Z.of_nat r) (p + 1) in
  let* q := next_loop sh st ps1 r off in
  let '(ps2, r2, off2) := q in
  let* p2 := aget ps2 (Z.of_nat r2) in
  let* n2 := aget sh (Z.of_nat r2) in
  Ok (ps2, off2, p2 =? n2).
(** cspan.h:345 _cspan_next1. *)
Definition next1 (sh st ps : list Z) : res (list Z * Z * bool) :=
  let* p := aget ps 0 in
  let* ps1 := aset ps 0 (p + 1) in
  let* n := aget sh 0 in
  let* t := aget st 0 in
  Ok (ps1, t, p + 1 =? n).
(** cspan.h:115-119 Self_next. *)
Definition next (s : span) (it : iter) : res iter :=
  match ref it with
  | None => Err NullDeref
  | Some p =>
      let* q := (if (rank s =? 1)%nat then next1 else next2) (shape s) (stride s) (pos it) in
      let '(ps, off, done) := q in
      Ok (It (if done then None else Some (p + off)) ps)
  end.

Section Mem.
Context {A : Type}.
(** common.h:164-165 c_each(it, C, cnt): position and value of each element visited. *)
Fixpoint each_loop (fuel : nat) (mem : list A) (s : span) (it : iter) : res (list (list Z * A)) :=
  match fuel with
  | O => Err OutOfFuel
  | S f =>
      match ref it with
      | None => Ok []
      | Some p =>
          let* x := aget mem p in
          let* it1 := next s it in
          let* l := each_loop f mem s it1 in
          Ok ((pos it, x) :: l)
      end
  end.
Definition each (fuel : nat) (mem : list A) (s : span) : res (list (list Z * A)) := each_loop fuel mem s (begin_ s).

(** cspan.h:227-230 cspan_set_all: the array after the assignments. *)
Fixpoint set_loop (fuel : nat) (mem : list A) (s : span) (v : A) (it : iter) : res (list A) :=
  match fuel with
  | O => Err OutOfFuel
  | S f =>
      match ref it with
      | None => Ok mem
      | Some p =>
          let* m1 := aset mem p v in
          let* it1 := next s it in
          set_loop f m1 s v it1
      end
  end.
Definition set_all (fuel : nat) (mem : list A) (s : span) (v : A) : res (list A) := set_loop fuel mem s v (begin_ s).

(** cspan.h:128-135 Self_eq; [eqb] is i_eq. *)
Fixpoint eq_loop (fuel : nat) (eqb : A -> A -> bool) (m1 m2 : list A) (s1 s2 : span) (i j : iter) : res bool :=
  match fuel with
  | O => Err OutOfFuel
  | S f =>
      match ref i with
      | None => Ok true
      | Some p =>
          match ref j with
          | None => Err NullDeref
          | Some q =>
              let* x := aget m1 p in
              let* y := aget m2 q in
              if eqb x y then
                let* i1 := next s1 i in
                let* j1 := next s2 j in
                eq_loop f eqb m1 m2 s1 s2 i1 j1
              else Ok false
          end
      end
  end.
Definition eq (fuel : nat) (eqb : A -> A -> bool) (m1 m2 : list A) (s1 s2 : span) : res bool :=
  if list_eq_dec Z.eq_dec (shape s1) (shape s2)
  then eq_loop fuel eqb m1 m2 s1 s2 (begin_ s1) (begin_ s2) else Ok false.
End Mem.

(** cspan.h:371-385 _cspan_print_assist: the text before and after an element.  The result buffers
    have 16 bytes each; [n] counts trailing zero positions, [j] trailing last positions. *)
Fixpoint zeros_loop (ps : list Z) (r : nat) (n : nat) : res nat :=
  match r with
  | O => Ok n
  | S r' => let* p := aget ps (Z.of_nat r') in if p =? 0 then zeros_loop ps r' (S n) else Ok n
  end.
Fixpoint lasts_loop (ps sh : list Z) (r : nat) (j : nat) : res nat :=
  match r with
  | O => Ok j
  | S r' =>
      let* p := aget ps (Z.of_nat r') in
      let* n := aget sh (Z.of_nat r') in
      if p + 1 =? n then lasts_loop ps sh r' (S j) else Ok j
  end.
Section Print.
Context {C : Type}.
Variables (op cl sp nl : C) (comma : option C).  (* brackets[0], [1], ' ', '\n', brackets[2] if not 0 *)
Definition room16 (l : list C) : res (list C) := if (length l <? 16)%nat then Ok l else Err OOB.
Definition print_assist (ps sh : list Z) : res (list C * list C) :=
  let rk := length sh in
  let* n := zeros_loop ps rk 0 in
  let* r0 := room16 (if (0 <? n)%nat then repeat sp (rk - n) ++ repeat op n else []) in
  let* j := lasts_loop ps sh rk 0 in
  let nn := ((if (0 <? j)%nat then 1 else 0) + (if (1 <? j)%nat && (j <? rk)%nat then 1 else 0))%nat in
  let cm := match comma with Some c => if (j <? rk)%nat then [c] else [] | None => [] end in
  let* r1 := room16 (repeat cl j ++ cm ++ repeat nl nn) in
  Ok (r0, r1).
(** cspan.h:299-304 the printing loop of cspan_print: [fld] is the formatted element, padded to
    the common width ([_max] plus one if it is not first in its row). *)
Context {A : Type}.
Variable fld : bool -> A -> list C.
Fixpoint print_loop (fuel : nat) (mem : list A) (s : span) (it : iter) : res (list C) :=
  match fuel with
  | O => Err OutOfFuel
  | S f =>
      match ref it with
      | None => Ok []
      | Some p =>
          let* q := print_assist (pos it) (shape s) in
          let* lastp := aget (pos it) (Z.of_nat (rank s - 1)) in
          let* x := aget mem p in
          let* it1 := next s it in
          let* l := print_loop f mem s it1 in
          Ok (fst q ++ fld (0 <? lastp) x ++ snd q ++ l)
      end
  end.
Definition print (fuel : nat) (mem : list A) (s : span) : res (list C) := print_loop fuel mem s (begin_ s).
End Print.
