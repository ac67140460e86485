(** A sequence whose operations may fail: a failed operation changes nothing. *)
From Verif Require Import Base Deque_Model Deque_Spec.

Section OomDequeSpec.
Context {A : Type}.

(** Only an operation that stores or grows may fail. *)
Definition may_fail (o : op A) : bool :=
  match o with PushBack _ | PushFront _ | Reserve _ => true | _ => false end.
(** [run_with l ops l' outs]: from [l], each operation either succeeded with its result on a
    sequence or, its allocation having failed, had no effect.  (Reserving, or inserting nothing, in a deque without memory may say false.) *)
Inductive run_with : list A -> list (bool * op A) -> list A -> list (list A * list A * bool) -> Prop :=
| rw_nil l : run_with l [] l []
| rw_ok l a o ops l' outs ok : match o with Reserve _ | InsertN _ [] => True | _ => ok = true end ->
    run_with (fst (seq_step l o)) ops l' outs ->
    run_with l ((a, o) :: ops) l' ((snd (seq_step l o), ok) :: outs)
| rw_fail l o ops l' outs : may_fail o = true -> run_with l ops l' outs ->
    run_with l ((false, o) :: ops) l' (([], [], false) :: outs).

(** In-range arguments whichever operations fail; an insertion of a block must get its
    memory (see C99_insert_n_refuted). *)
Fixpoint legal_f (l : list A) (ops : list (bool * op A)) : Prop :=
  match ops with
  | [] => True
  | (a, o) :: rest =>
    legal_op l o /\ match o with InsertN _ _ => a = true | _ => True end /\
    legal_f (fst (seq_step l o)) rest /\ (a = false -> may_fail o = true -> legal_f l rest)
  end.
End OomDequeSpec.
