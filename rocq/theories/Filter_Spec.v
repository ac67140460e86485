(** What a filter pipeline means: list functions, composed from the source to the action.
    Values carry the number the nearest counting stage (counter, skip, take) gave them, 0 if there
    is none. *)
From Coq Require Import ZArith List.
From Verif Require Import Filter_Model.
Import ListNotations.
Open Scope Z_scope.
Section Pipe.
Context {A : Type}.
Fixpoint number (c : Z) (l : list (A * Z)) : list (A * Z) :=
  match l with [] => [] | (a, _) :: t => (a, c + 1) :: number (c + 1) t end.
Fixpoint skip_while {B} (p : B -> bool) (l : list B) : list B :=
  match l with [] => [] | x :: t => if p x then skip_while p t else l end.
Fixpoint take_while {B} (p : B -> bool) (l : list B) : list B :=
  match l with [] => [] | x :: t => if p x then x :: take_while p t else [] end.
Definition meaning (s : stage A) (l : list (A * Z)) : list (A * Z) :=
  match s with
  | Pred p => filter (fun x => p (fst x)) l
  | Counter => number 0 l
  | Skip n => skipn (Z.to_nat n) (number 0 l)
  | Take n => firstn (Z.to_nat n) (number 0 l)
  | SkipWhile p => skip_while (fun x => p (fst x)) l
  | TakeWhile p => take_while (fun x => p (fst x)) l
  | Map f => map (fun x => (f (fst x), snd x)) l
  end.
Definition pipe (sts : list (stage A)) (l : list A) : list (A * Z) :=
  fold_left (fun l s => meaning s l) sts (map (fun a => (a, 0)) l).
(** Counting stages and while stages, of which there is room for 19 and 20. *)
Definition counters (sts : list (stage A)) : nat :=
  length (filter (fun s => match s with Counter | Skip _ | Take _ => true | _ => false end) sts).
Definition flags (sts : list (stage A)) : nat :=
  length (filter (fun s => match s with SkipWhile _ | TakeWhile _ => true | _ => false end) sts).
Definition args_ok (sts : list (stage A)) : Prop :=
  Forall (fun s => match s with Skip n | Take n => 0 <= n < 4294967296 | _ => True end) sts.
End Pipe.
