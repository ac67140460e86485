(** Model of the macros of include/stc/sys/utility.h.

    They are written once, over the iterator operations a container provides ([ref], [next]) and
    the buffer of slots its iterators point into (vec, stack, queue, deque; a pointer is an index
    into the buffer), and then applied to the models of vec and deque. *)
From Verif Require Import Base Slots Vec_Model Deque_Model.

Section Macros.
Context {A I : Type}.
Variable ref : I -> option Z.
Variable next : I -> I.
(** utility.h 46-52 _c_find with endref = NULL; the result is *outit_ptr, [None] if its ref is NULL. *)
Fixpoint find_if (fuel : nat) (s : slots A) (it : I) (p : A -> bool) : res (option I) :=
  match fuel with
  | O => Err OutOfFuel
  | S f =>
      match ref it with
      | None => Ok None
      | Some r => let* x := rd s r in if p x then Ok (Some it) else find_if f s (next it) p
      end
  end.
(** utility.h 136-152 c_all_of, c_any_of, c_none_of. *)
Definition all_of (fuel : nat) (s : slots A) (it : I) (p : A -> bool) : res bool :=
  let* o := find_if fuel s it (fun x => negb (p x)) in Ok (match o with None => true | Some _ => false end).
Definition any_of (fuel : nat) (s : slots A) (it : I) (p : A -> bool) : res bool :=
  let* o := find_if fuel s it p in Ok (match o with None => false | Some _ => true end).
Definition none_of (fuel : nat) (s : slots A) (it : I) (p : A -> bool) : res bool :=
  let* o := find_if fuel s it p in Ok (match o with None => true | Some _ => false end).

(** utility.h 96-97 the first loop of c_eraseremove_if. *)
Fixpoint er_skip (fuel : nat) (s : slots A) (it : I) (p : A -> bool) : res I :=
  match fuel with
  | O => Err OutOfFuel
  | S f =>
      match ref it with
      | None => Ok it
      | Some r => let* x := rd s r in if p x then Ok it else er_skip f s (next it) p
      end
  end.
(** utility.h 98-101 the second loop: buffer, number of dropped values, the dropped values. *)
Fixpoint er_loop (fuel : nat) (s : slots A) (i it : I) (p : A -> bool) (n : Z) (dr : list A) : res (slots A * Z * list A) :=
  match fuel with
  | O => Err OutOfFuel
  | S f =>
      match ref it with
      | None => Ok (s, n, dr)
      | Some r =>
          let* x := rd s r in
          if p x then er_loop f s i (next it) p (n + 1) (dr ++ [x])
          else match ref i with
               | None => Err NullDeref
               | Some q => let* s1 := wr s q x in er_loop f s1 (next i) (next it) p n dr
               end
      end
  end.
(** utility.h 91-103 c_eraseremove_if, up to the call of _adjust_end_. *)
Definition eraseremove_if (fuel : nat) (s : slots A) (begin : I) (p : A -> bool) : res (slots A * Z * list A) :=
  let* it := er_skip fuel s begin p in er_loop fuel s it it p 0 [].

(** utility.h 124-130 _c_append_if; [push] is C_out_push on the output container.  The source is
    not the output container. *)
Fixpoint append_if {O : Type} (push : O -> A -> res O) (fuel : nat) (s : slots A) (it : I) (p : A -> bool) (out : O) : res O :=
  match fuel with
  | 0%nat => Err OutOfFuel
  | S f =>
      match ref it with
      | None => Ok out
      | Some r =>
          let* x := rd s r in
          let* out1 := if p x then push out x else Ok out in
          append_if push f s (next it) p out1
      end
  end.
End Macros.

(** utility.h 58-72 c_reverse_array and c_reverse: [get] and [put] are at/at_mut; c_swap copies
    the bytes of both values. *)
Section Reverse.
Context {A C : Type}.
Variable get : C -> Z -> res A.
Variable put : C -> Z -> A -> res C.
Fixpoint rev_loop (fuel : nat) (c : C) (i j : Z) : res C :=
  match fuel with
  | O => Err OutOfFuel
  | S f =>
      if i <? j then
        let* x := get c i in
        let* y := get c j in
        let* c1 := put c i y in
        let* c2 := put c1 j x in
        rev_loop f c2 (i + 1) (j - 1)
      else Ok c
  end.
Definition reverse (c : C) (n : Z) : res C := rev_loop (S (Z.to_nat n)) c 0 (n - 1).
End Reverse.

Section Vec.
Context {A : Type}.
(** vec.h 247-248 _adjust_end_. *)
Definition vec_adjust_end (v : vec A) (n : Z) : vec A := mkvec (Vec_Model.buf v) (Vec_Model.size v + n).
Definition vec_fuel (v : vec A) : nat := S (S (Z.to_nat (Vec_Model.capacity v))).
Definition vec_find_if (v : vec A) p : res (option Vec_Model.iter) := find_if Vec_Model.ref Vec_Model.next (vec_fuel v) (Vec_Model.buf v) (Vec_Model.begin v) p.
Definition vec_all_of (v : vec A) p := all_of Vec_Model.ref Vec_Model.next (vec_fuel v) (Vec_Model.buf v) (Vec_Model.begin v) p.
Definition vec_any_of (v : vec A) p := any_of Vec_Model.ref Vec_Model.next (vec_fuel v) (Vec_Model.buf v) (Vec_Model.begin v) p.
Definition vec_none_of (v : vec A) p := none_of Vec_Model.ref Vec_Model.next (vec_fuel v) (Vec_Model.buf v) (Vec_Model.begin v) p.
Definition vec_eraseremove_if (v : vec A) p : res (vec A * list A) :=
  let* q := eraseremove_if Vec_Model.ref Vec_Model.next (vec_fuel v) (Vec_Model.buf v) (Vec_Model.begin v) p in
  let '(s, n, dr) := q in Ok (vec_adjust_end (mkvec s (Vec_Model.size v)) (- n), dr).
Definition vec_append_if {O} (push : O -> A -> res O) (v : vec A) p (out : O) : res O :=
  append_if Vec_Model.ref Vec_Model.next push (vec_fuel v) (Vec_Model.buf v) (Vec_Model.begin v) p out.
(** vec.h 209-211 _at_mut, written through. *)
Definition vec_put_at (v : vec A) (i : Z) (x : A) : res (vec A) :=
  if (0 <=? i) && (i <? Vec_Model.size v) then let* s := wr (Vec_Model.buf v) i x in Ok (mkvec s (Vec_Model.size v)) else Err AssertFail.
Definition vec_reverse (v : vec A) : res (vec A) := reverse Vec_Model.at_ vec_put_at v (Vec_Model.size v).
Definition vec_push_out (v : vec A) (x : A) : res (vec A) := let* r := Vec_Model.push v x in Ok (fst r).
End Vec.

Section Deque.
Context {A : Type}.
(** queue_prv.h 149-150 _adjust_end_. *)
Definition deque_adjust_end (d : deque A) (n : Z) : deque A := mkdq (cbuf d) (start d) (Z.land (dend d + n) (capmask d)) (capmask d).
Definition deque_fuel (d : deque A) : nat := S (Z.to_nat (capmask d + 1)).
Definition deque_find_if (d : deque A) p : res (option Deque_Model.iter) := find_if Deque_Model.ref (Deque_Model.next d) (deque_fuel d) (cbuf d) (Deque_Model.begin d) p.
Definition deque_all_of (d : deque A) p := all_of Deque_Model.ref (Deque_Model.next d) (deque_fuel d) (cbuf d) (Deque_Model.begin d) p.
Definition deque_any_of (d : deque A) p := any_of Deque_Model.ref (Deque_Model.next d) (deque_fuel d) (cbuf d) (Deque_Model.begin d) p.
Definition deque_none_of (d : deque A) p := none_of Deque_Model.ref (Deque_Model.next d) (deque_fuel d) (cbuf d) (Deque_Model.begin d) p.
Definition deque_eraseremove_if (d : deque A) p : res (deque A * list A) :=
  let* q := eraseremove_if Deque_Model.ref (Deque_Model.next d) (deque_fuel d) (cbuf d) (Deque_Model.begin d) p in
  let '(s, n, dr) := q in Ok (deque_adjust_end (mkdq s (start d) (dend d) (capmask d)) (- n), dr).
Definition deque_append_if {O} (push : O -> A -> res O) (d : deque A) p (out : O) : res O :=
  append_if Deque_Model.ref (Deque_Model.next d) push (deque_fuel d) (cbuf d) (Deque_Model.begin d) p out.
Definition deque_reverse (d : deque A) : res (deque A) := reverse Deque_Model.at_ Deque_Model.put_at d (Deque_Model.size d).
End Deque.
