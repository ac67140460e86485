(** A queue of live fibers.  The first one is resumed; a fiber spawned on [t] goes right behind [t]. *)
From Verif Require Import Base Fiber_Model.

Fixpoint behind (t new : addr) (q : list addr) : list addr :=
  match q with [] => [] | a :: q' => if Nat.eqb a t then a :: new :: q' else a :: behind t new q' end.
(** Names of new fibers: n, n+1, ... *)
Fixpoint behinds (ts : list addr) (n : addr) (q : list addr) : list addr :=
  match ts with [] => q | t :: ts' => behinds ts' (S n) (behind t n q) end.

(** What a fair scheduler does: an unfinished fiber goes to the end.
    What cco_resume_next does when a fiber is finished: its successor goes to the end too, without having
    been resumed. *)
Definition rotate (q : list addr) : list addr := match q with [] => [] | a :: q' => q' ++ [a] end.
Definition turn (q : list addr) (b : act) (n : addr) : list addr :=
  let q' := behinds (fst b) n q in
  if snd b then rotate (tl q') else rotate q'.

(** The run of a queue: queue, next name, who was resumed, who is finished. *)
Record sched := mks { q : list addr; nm : addr; tr : list addr; fin : list addr }.
Definition turn1 (s : sched) (b : act) : sched :=
  match q s with
  | [] => s
  | a :: _ => mks (turn (q s) b (nm s)) (nm s + length (fst b))%nat (tr s ++ [a]) (if snd b then fin s ++ [a] else fin s)
  end.
Fixpoint turns (s : sched) (bs : list act) : sched :=
  match q s, bs with
  | [], _ | _, [] => s
  | _, b :: bs' => turns (turn1 s b) bs'
  end.

(** Spawned on live fibers (the new ones of the same resumption included); a fiber that finishes spawns nothing
    on its predecessor in the queue: the last one, in particular not on itself when it is alone. *)
Fixpoint ok_targets (ts : list addr) (n : addr) (q : list addr) : Prop :=
  match ts with [] => True | t :: ts' => In t q /\ ok_targets ts' (S n) (behind t n q) end.
Definition ok_act (q : list addr) (n : addr) (b : act) : Prop :=
  ok_targets (fst b) n q /\ (snd b = true -> forall l z, q = l ++ [z] -> ~ In z (fst b)).
Fixpoint ok_acts (s : sched) (bs : list act) : Prop :=
  match q s, bs with
  | [], _ | _, [] => True
  | _, b :: bs' => ok_act (q s) (nm s) b /\ ok_acts (turn1 s b) bs'
  end.
Definition start (a : addr) : sched := mks [a] (S a) [] [].
