(** Model of stack.h, with growing storage or with a fixed capacity (i_capacity). *)
From Verif Require Import Base Slots.

Section StackModel.
Context {A : Type}.

(** types.h 197-205.  With a fixed capacity the slots are inline in the struct and the
    number of slots never changes; otherwise [data] is NULL iff there are no slots
    ([_with_capacity(0)] and [_with_size(0)], which call malloc(0), are not modelled). *)
Record stack : Type := mkst { fixed : bool; buf : slots A; size : Z }.

(** stack.h 101-107 _capacity. *)
Definition capacity (s : stack) : Z := zlen (buf s).

(** stack.h 49-50 _init, i_capacity = n. *)
Definition init_fixed (n : Z) : stack := mkst true (repeat None (Z.to_nat n)) 0.
Definition init_dyn : stack := mkst false [] 0.

(** stack.h 112-127 _reserve. *)
Definition reserve (s : stack) (n : Z) : stack * bool :=
  if fixed s then (s, n <=? capacity s) else
  let s1 := if (n >? capacity s) || (negb (n =? 0) && (n =? size s))
            then mkst false (realloc (buf s) n) (size s) else s in
  (s1, negb (capacity s1 =? 0)).

(** stack.h 129-136 _append_uninit; index of the returned pointer, [None] = NULL. *)
Definition append_uninit (s : stack) (n : Z) : stack * option Z :=
  let len := size s in
  let '(s1, ok) := if len + n >=? capacity s then reserve s (len * 3 / 2 + n) else (s, true) in
  if ok then (mkst (fixed s1) (buf s1) (size s1 + n), Some len) else (s1, None).

(** append_uninit followed by the caller filling the n new slots with [xs]. *)
Definition append (s : stack) (xs : list A) : res (stack * bool) :=
  let '(s1, o) := append_uninit s (zlen xs) in
  match o with
  | Some i => let* b := wrs (buf s1) i xs in Ok (mkst (fixed s1) b (size s1), true)
  | None => Ok (s1, false)
  end.

(** stack.h 156-162 _push. *)
Definition push (s : stack) (x : A) : res (stack * bool) :=
  let '(s1, ok) := if size s =? capacity s then reserve s (size s * 3 / 2 + 4) else (s, true) in
  if ok then
    let* b := wr (buf s1) (size s1) x in Ok (mkst (fixed s1) b (size s1 + 1), true)
  else Ok (s1, false).

(** stack.h 164-168 _pop, _pull. *)
Definition pop (s : stack) : res (stack * A) :=
  if size s =? 0 then Err AssertFail else
  let* x := rd (buf s) (size s - 1) in Ok (mkst (fixed s) (buf s) (size s - 1), x).

(** stack.h 151-154 _top. *)
Definition top (s : stack) : res A := rd (buf s) (size s - 1).

(** stack.h 75-80 _clear. *)
Fixpoint clear_loop (i : nat) (s : slots A) : res (list A) :=
  match i with
  | O => Ok []
  | S i' => let* x := rd s (Z.of_nat i') in let* r := clear_loop i' s in Ok (x :: r)
  end.
Definition clear (s : stack) : res (stack * list A) :=
  let* d := clear_loop (Z.to_nat (size s)) (buf s) in Ok (mkst (fixed s) (buf s) 0, d).

(** stack.h 52-54 _move with a fixed capacity: a struct copy that leaves the source as is. *)
Definition move (s : stack) : stack * stack :=
  if fixed s then (s, s) else (mkst false [] 0, s).

(** stack.h 213-217 _begin, 231-232 _next, common.h 164-165 c_each. *)
Definition begin (s : stack) : option Z :=
  if fixed s then Some 0 else if capacity s =? 0 then None else Some 0.
Fixpoint each_loop (fuel : nat) (s : slots A) (n : Z) (ref : option Z) : res (list A) :=
  match fuel with
  | O => Err OutOfFuel
  | S fuel' =>
    match ref with
    | None => Ok []
    | Some r =>
      let* x := rd s r in
      let* l := each_loop fuel' s n (if r + 1 =? n then None else Some (r + 1)) in Ok (x :: l)
    end
  end.
Definition each (s : stack) : res (list A) :=
  each_loop (S (S (Z.to_nat (capacity s)))) (buf s) (size s) (begin s).

Inductive op : Type :=
| Push (x : A)
| Pop
| Append (xs : list A)
| Reserve (n : Z)
| Clear.

(** New stack, success flag, elements handed to the destructor. *)
Definition step (s : stack) (o : op) : res (stack * (bool * list A)) :=
  match o with
  | Push x => let* r := push s x in Ok (fst r, (snd r, []))
  | Pop => let* r := pop s in Ok (fst r, (true, [snd r]))
  | Append xs => let* r := append s xs in Ok (fst r, (snd r, []))
  | Reserve n => let r := reserve s n in Ok (fst r, (snd r, []))
  | Clear => let* r := clear s in Ok (fst r, (true, snd r))
  end.

Fixpoint run (s : stack) (ops : list op) : res (stack * list (bool * list A)) :=
  match ops with
  | [] => Ok (s, [])
  | o :: rest =>
    let* r := step s o in
    let* r2 := run (fst r) rest in
    Ok (fst r2, snd r :: snd r2)
  end.
End StackModel.
Arguments stack : clear implicits.
Arguments op : clear implicits.
