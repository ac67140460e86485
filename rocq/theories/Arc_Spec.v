(** What is expected of shared owners. *)
From Verif Require Import Base Arc_Model.

(** All handles, client objects and unfinished drops of all threads. *)
Definition handles (g : state) : list handle := flat_map hs (thr g).
Definition clients (g : state) : list Z := flat_map raws (thr g).
Definition unfinished (g : state) : list (handle * stage) := flat_map pend (thr g).
(** Number of live handles sharing the object of [h]. *)
Fixpoint owners (h : handle) (l : list handle) : Z :=
  match l with [] => 0 | x :: t => (if (get x =? get h) && (uc x =? uc h) then 1 else 0) + owners h t end.
(** Never more than [max] handles exist during the history. *)
Fixpoint bounded (w OFFSET REP VAL EXTRA max : Z) (g : state) (l : list (Z * op)) : Prop :=
  zlen (handles g) <= max /\
  match l with
  | [] => True
  | (i, o) :: l' => match step w OFFSET REP VAL EXTRA g i o with Some (Ok g') => bounded w OFFSET REP VAL EXTRA max g' l' | _ => True end
  end.
(** The sizes the compiler chooses: the counter comes first, the value after it. *)
Definition layout (OFFSET REP VAL : Z) : Prop := 0 < OFFSET /\ 0 < VAL /\ OFFSET + VAL <= REP.
