(** Specification of list.h on mathematical sequences, and the shape of a list in memory. *)
From Verif Require Import Base List_Model.

Section ListSpec.
Context {A : Type}.
Implicit Types (h : heap A) (cs : list (Z * A)).

(** Addresses of a list of nodes (address, value). *)
Definition addrs cs : list Z := map fst cs.
Definition first_addr cs (q : Z) : Z := match cs with [] => q | (a, _) :: _ => a end.
Definition last_addr cs : Z := List.last (addrs cs) 0.

(** Node i of [cs] holds its value and points to node i+1; the final one points to [q]. *)
Fixpoint linked h cs (q : Z) : Prop :=
  match cs with
  | [] => True
  | (a, x) :: r => node h a = Some (x, first_addr r q) /\ linked h r q
  end.

(** [last] is the list whose nodes are [cs] in order: distinct nodes forming one cycle,
    [last] the final node (NULL when there is none). *)
Definition circular h (last : Z) cs : Prop :=
  NoDup (addrs cs) /\ linked h cs (first_addr cs 0) /\ last = last_addr cs.

Definition live h (a : Z) : Prop := node h a <> None.
(** Every live node has a proper address, below the next fresh one. *)
Definition heap_ok h : Prop := 0 < brk h /\ forall a, live h a -> 0 < a < brk h.

(** From heap [h] where the nodes [as1] belong to the lists operated on, to heap [h']
    where [as2] do: nothing else is touched, and everything live is either untouched or
    in [as2] - so nodes that left were freed, and nothing leaked. *)
Definition only h (as1 : list Z) h' (as2 : list Z) : Prop :=
  (forall a, live h a -> ~ In a as1 -> node h' a = node h a /\ ~ In a as2) /\
  (forall a, live h' a -> In a as2 \/ (live h a /\ ~ In a as1)).

(** A list in a well-formed heap; two disjoint lists in one heap. *)
Definition lst h (last : Z) cs : Prop := heap_ok h /\ circular h last cs.

Definition two h (l1 : Z) cs1 (l2 : Z) cs2 : Prop :=
  heap_ok h /\ circular h l1 cs1 /\ circular h l2 cs2 /\ NoDup (addrs cs1 ++ addrs cs2).

Variable eqb : A -> A -> bool.

(** One operation on a sequence: the new sequence, the values destroyed. *)
Definition seq_step (l : list A) (o : op A) : list A * list A :=
  match o with
  | PushBack x => (l ++ [x], [])
  | PushFront x => (x :: l, [])
  | InsertAt i x => (firstn i l ++ x :: skipn i l, [])
  | EraseAt i => (firstn i l ++ skipn (S i) l, firstn 1 (skipn i l))
  | EraseRange i j => (firstn i l ++ skipn j l, firstn (j - i) (skipn i l))
  | PopFront => (tl l, firstn 1 l)
  | Clear => ([], l)
  | Reverse => (rev l, [])
  | Remove raw => (filter (fun x => negb (eqb x raw)) l, filter (fun x => eqb x raw) l)
  end.

Fixpoint seq_run (l : list A) (ops : list (op A)) : list A * list (list A) :=
  match ops with
  | [] => (l, [])
  | o :: rest =>
    let r := seq_step l o in
    let r2 := seq_run (fst r) rest in
    (fst r2, snd r :: snd r2)
  end.

Definition legal_op (l : list A) (o : op A) : Prop :=
  match o with
  | InsertAt i _ => (i <= length l)%nat
  | EraseAt i => (i < length l)%nat
  | EraseRange i j => (i <= j <= length l)%nat /\ l <> []
  | PopFront => l <> []
  | _ => True
  end.

Fixpoint legal (l : list A) (ops : list (op A)) : Prop :=
  match ops with
  | [] => True
  | o :: rest => legal_op l o /\ legal (fst (seq_step l o)) rest
  end.
End ListSpec.
