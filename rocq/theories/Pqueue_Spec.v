(** Specification of a priority queue: a bag from which pop removes a maximal element. *)
From Verif Require Import Base Order Pqueue_Model.

Section PqueueSpec.
Context {A : Type}.
Variable less : A -> A -> bool.

(** [m] is an element of [b] such that no element of [b] is greater. *)
Definition maximal (m : A) (b : list A) : Prop := In m b /\ forall y, In y b -> less m y = false.

(** The queue stores the objects [l], in slots 0 .. size-1. *)
Definition stored (q : pqueue A) (l : list A) : Prop :=
  size q = zlen l /\ exists unused, buf q = map Some l ++ unused.

(** [bag_step b o b' out]: operation [o] on bag [b] leaves [b'] and destroys [out].
    Bags are lists up to permutation.  [reserve] needs a non-negative capacity. *)
Inductive bag_step : list A -> op A -> list A -> list A -> Prop :=
| bs_push b x b' : Permutation b' (x :: b) -> bag_step b (Push x) b' []
| bs_pop b m b' : maximal m b -> Permutation b (m :: b') -> bag_step b Pop b' [m]
| bs_clear b out : Permutation b out -> bag_step b Clear [] out
| bs_reserve b cap b' : Permutation b b' -> bag_step b (Reserve cap) b' []
| bs_shrink b b' : Permutation b b' -> bag_step b ShrinkToFit b' []
| bs_heap b b' : Permutation b b' -> bag_step b MakeHeap b' [].

Inductive bag_run : list A -> list (op A) -> list A -> list (list A) -> Prop :=
| br_nil b : bag_run b [] b []
| br_cons b o b1 out ops b2 outs :
    bag_step b o b1 out -> bag_run b1 ops b2 outs -> bag_run b (o :: ops) b2 (out :: outs).

(** Histories that never pop an empty queue, starting with [n] elements. *)
Fixpoint legal (n : nat) (ops : list (op A)) : Prop :=
  match ops with
  | [] => True
  | Push _ :: r => legal (S n) r
  | Pop :: r => match n with O => False | S n' => legal n' r end
  | Clear :: r => legal 0 r
  | Reserve cap :: r => 0 <= cap /\ legal n r
  | (ShrinkToFit | MakeHeap) :: r => legal n r
  end.
End PqueueSpec.
