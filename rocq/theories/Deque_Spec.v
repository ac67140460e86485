(** Specification of a double-ended sequence on mathematical lists. *)
From Verif Require Import Base Deque_Model.

Section DequeSpec.
Context {A : Type}.

(** The deque stores [l]: its size is the length of [l] and index i reads element i. *)
Definition stores (d : deque A) (l : list A) : Prop :=
  size d = zlen l /\ forall i, 0 <= i < zlen l -> at_ d i = aget l i.

(** A well-formed ring holding [l], at any offset and capacity: the buffer has a
    power-of-two number of slots (or there is no buffer yet), start and end are slots,
    at least one slot is free, and element i lies i slots after start, wrapping around. *)
Definition ring (d : deque A) (l : list A) : Prop :=
  let c := capmask d + 1 in
  (exists k, 0 <= k /\ c = 2 ^ k) /\
  (zlen (cbuf d) = c \/ (c = 1 /\ cbuf d = [])) /\
  0 <= start d < c /\ zlen l < c /\
  dend d = (start d + zlen l) mod c /\
  forall i x, aget l i = Ok x -> aget (cbuf d) ((start d + i) mod c) = Ok (Some x).

Definition seq_step (l : list A) (o : op A) : list A * (list A * list A) :=
  match o with
  | PushBack x => (l ++ [x], ([], []))
  | PushFront x => (x :: l, ([], []))
  | PopBack => (removelast l, (skipn (length l - 1) l, []))
  | PopFront => (tl l, (firstn 1 l, []))
  | PullBack => (removelast l, ([], skipn (length l - 1) l))
  | PullFront => (tl l, ([], firstn 1 l))
  | InsertN idx xs => (firstn (Z.to_nat idx) l ++ xs ++ skipn (Z.to_nat idx) l, ([], []))
  | EraseN idx n => (firstn (Z.to_nat idx) l ++ skipn (Z.to_nat (idx + n)) l,
                     (rev (firstn (Z.to_nat n) (skipn (Z.to_nat idx) l)), []))
  | Reserve _ | ShrinkToFit => (l, ([], []))
  | Clear => ([], (l, []))
  end.

Fixpoint seq_run (l : list A) (ops : list (op A)) : list A * list (list A * list A) :=
  match ops with
  | [] => (l, [])
  | o :: rest =>
    let r := seq_step l o in
    let r2 := seq_run (fst r) rest in
    (fst r2, snd r :: snd r2)
  end.

Definition legal_op (l : list A) (o : op A) : Prop :=
  match o with
  | PopBack | PopFront | PullBack | PullFront => l <> []
  | InsertN idx _ => 0 <= idx <= zlen l
  | EraseN idx n => 0 <= idx /\ 0 <= n /\ idx + n <= zlen l
  | Reserve cap => 0 <= cap
  | _ => True
  end.

Fixpoint legal (l : list A) (ops : list (op A)) : Prop :=
  match ops with
  | [] => True
  | o :: rest => legal_op l o /\ legal (fst (seq_step l o)) rest
  end.
End DequeSpec.
