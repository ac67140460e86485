(** Specification of the macros of utility.h on mathematical lists. *)
From Verif Require Import Base.

(** [x] is the first element of [l] satisfying [p], at position [i]. *)
Definition first_at {A} (p : A -> bool) (l : list A) (i : Z) : Prop :=
  exists l1 x l2, l = l1 ++ x :: l2 /\ p x = true /\ (forall y, In y l1 -> p y = false) /\ i = zlen l1.
Definition nowhere {A} (p : A -> bool) (l : list A) : Prop := forall y, In y l -> p y = false.
Definition everywhere {A} (p : A -> bool) (l : list A) : Prop := forall y, In y l -> p y = true.
Definition somewhere {A} (p : A -> bool) (l : list A) : Prop := exists y, In y l /\ p y = true.
(** The elements satisfying [p], in order. *)
Fixpoint keep {A} (p : A -> bool) (l : list A) : list A :=
  match l with [] => [] | x :: t => if p x then x :: keep p t else keep p t end.
(** [m] is [l] backwards. *)
Definition backwards {A} (l m : list A) : Prop := zlen m = zlen l /\ forall i, 0 <= i < zlen l -> aget m i = aget l (zlen l - 1 - i).
