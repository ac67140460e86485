(** How coroutines may use a semaphore. *)
From Verif Require Import Base Cco_Model Sema_Model.
Section Spec.
Context {U : Type}.
(** Statements and conditions of the user: they do not touch the semaphore. *)
Definition quiet (f : mem U -> mem U) : Prop := forall s, count (f s) = count s /\ held (f s) = held s /\ foul (f s) = foul s.
(** The acquire at [pc] is the second half of a cco_await_semaphore. *)
Definition inside (code : list (instr (mem U))) (i : nat) (pc : nat) : Prop := nth_error code pc = Some (Act (acquire i)).
Definition uses_sem (code : list (instr (mem U))) (i : nat) : Prop := forall pc x, nth_error code pc = Some x ->
  match x with
  | Act f => quiet f \/ f = release i \/
             (f = acquire i /\ exists p, pc = S p /\ nth_error code p = Some (Await (fun s => 0 <? count s)))
  | Jmp _ t => ~ inside code i t
  | Call f _ => quiet (fun s => fst (f s))
  | _ => True
  end.
(** Number of acquires not yet released by the coroutines 0 .. n-1. *)
Fixpoint holders (h : nat -> nat) (n : nat) : Z := match n with O => 0 | S k => holders h k + Z.of_nat (h k) end.
End Spec.
