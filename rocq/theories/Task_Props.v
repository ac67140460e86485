(** C96, C97: tasks that await each other, and errors. *)
From Verif Require Import Base Task_Model Task_Spec Task_Proofs.

(** A fiber runs its tasks as a call stack: for every program, as long as it keeps to the documented rules, the
    resumptions execute the same instructions, leave the same memory and end the same way as the specification with
    a stack; the parent pointers are the stack. *)
Theorem C96_runs {S} (code : nat -> list (instr S)) fuel n k root m stk s v : (k < n)%nat ->
  turns code fuel k [(root, 0)] (begin m) = Ok (stk, s, v) ->
  exists w, rounds code fuel n k (start root m) = Ok (w, v) /\ tr w = slog s /\ mem w = smem s /\ ferr (fb w) = err s /\
    ftask (fb w) = match stk with [] => None | (t, _) :: _ => Some t end /\
    (forall i t b, nth_error stk i = Some (t, b) -> tbits (tasks w t) = b /\ tparent (tasks w t) = option_map fst (nth_error stk (Datatypes.S i))) /\
    (forall t, pos s t = Over <-> tstate (tasks w t) = DONE).
Proof.
  intros Hn H. destruct (turns_ok code fuel n k [(root, 0)] (begin m) (start root m) stk s v (inv_start code root m) ltac:(cbn; lia) H) as (w & E & [Is Ip Ind Ic It Iu]).
  exists w. split; [exact E|]. destruct Is as (I1 & I2 & I3). split; [exact I3|]. split; [exact I1|]. split; [exact I2|]. split; [exact It|]. split.
  - clear - Ic. revert Ic. induction stk as [|[t0 b0] rest IH]; intros Ic i t b Hi; [destruct i; discriminate|]. destruct Ic as (C1 & C2 & C3). destruct i as [|i].
    + injection Hi as <- <-. split; [exact C1|]. rewrite C2. destruct rest as [|[]]; reflexivity.
    + apply (IH C3 i t b Hi).
  - intros t. specialize (Ip t). unfold DONE. destruct (pos s t); cbn [place_ok] in Ip; split; intros Q; try discriminate; try reflexivity; lia.
Qed.

(** The example of docs/coroutine_api.md: task 0 awaits 1, which awaits 2, which awaits 3; 3 throws 99 and task 1
    recovers. *)
Definition c96_code (t : nat) : list (instr Z) :=
  match t with
  | 0%nat => [Act (fun _ m => m + 1); AwaitTask (fun _ => 1%nat) 0; Finally; Act (fun _ m => m + 1)]
  | 1%nat => [Act (fun _ m => m + 10); AwaitTask (fun _ => 2%nat) 0; Act (fun _ m => m * 2); Finally; Jmp (fun e _ => negb (e =? 99)) 6; Recover; Act (fun _ m => m + 10)]
  | 2%nat => [Act (fun _ m => m + 100); AwaitTask (fun _ => 3%nat) 0; Act (fun _ m => m * 3); Finally; Act (fun _ m => m + 100)]
  | _ => [Act (fun _ m => m + 1000); Throw 99; Act (fun _ m => m * 5); Yield (2 ^ 28); Finally; Act (fun e m => m + e)]
  end.
Example C96_met : exists s w, turns c96_code 20 9 [(0%nat, 0)] (begin 0) = Ok ([], s, Finished) /\ rounds c96_code 20 10 9 (start 0 0) = Ok (w, Finished) /\
  mem w = (1 + 10 + 100 + 1000 + 99 + 100) * 2 + 10 + 1 /\
  tr w = [(0, 0); (0, 1); (1, 0); (1, 1); (2, 0); (2, 1); (3, 0); (3, 1); (3, 4); (3, 5); (2, 3); (2, 4); (1, 3); (1, 4); (1, 5); (1, 2); (1, 3); (1, 4); (1, 6); (0, 2); (0, 3)]%nat.
Proof. eexists _, _. split; [vm_compute; reflexivity|]. split; [vm_compute; reflexivity|]. split; reflexivity. Qed.

(** With awaitbits that include CCO_NOOP (~0, any suspension) a nested await is lost: task 1 awaits task 2, but control
    returns to task 0, which finishes; task 2 never runs. *)
Theorem C96_any_bits_refuted : exists (code : nat -> list (instr Z)) w, rounds code 20 10 5 (start 0 0) = Ok (w, Finished) /\
  code 1%nat = [AwaitTask (fun _ => 2%nat) 0; Act (fun _ m => m + 1)] /\ tr w = [(0, 0); (1, 0); (0, 1)]%nat /\ tstate (tasks w 1%nat) = line 0.
Proof.
  exists (fun t => match t with 0%nat => [AwaitTask (fun _ => 1%nat) (-1); Act (fun _ m => m)] | 1%nat => [AwaitTask (fun _ => 2%nat) 0; Act (fun _ m => m + 1)] | _ => [Act (fun _ m => m + 1)] end).
  eexists. split; [vm_compute; reflexivity|]. repeat split.
Qed.

(** Unwinding: in one resumption the tasks run are the first ones of the stack in this order, the innermost first; all
    but the first are run from their cleanup section; if nobody recovers all of them are run and the program exits
    with the error.  (By C96_runs the log is that of the code.) *)
Theorem C97_unwinding {S} (code : nat -> list (instr S)) fuel stk s stk' s' v : turn code fuel stk s = Ok (stk', s', v) ->
  exists ran rest l, stk = ran ++ rest /\ slog s' = slog s ++ l /\ logs code ran l /\ (forall e, v = Exit e -> rest = [] /\ e = err s').
Proof. intros H. destruct (turn_logs code fuel _ _ _ _ _ H) as (run & rest & l & ? & ? & ? & ? & _). exists run, rest, l. auto. Qed.
(** the fourth resumption of C96_met *)
Example C97_met : exists stk s s', turns c96_code 20 3 [(0%nat, 0)] (begin 0) = Ok (stk, s, Again) /\ map fst stk = [3; 2; 1; 0]%nat /\
  turn c96_code 20 stk s = Ok ([(0%nat, 0)], s', Again) /\ slog s' = slog s ++ [(3, 0); (3, 1); (3, 4); (3, 5); (2, 3); (2, 4); (1, 3); (1, 4); (1, 5); (1, 2); (1, 3); (1, 4); (1, 6)]%nat.
Proof. eexists _, _, _. split; [vm_compute; reflexivity|]. split; [reflexivity|]. split; [vm_compute; reflexivity|]. reflexivity. Qed.
(** An error nobody recovers from: the whole stack is cleaned up, then the program exits with it. *)
Example C97_exit_met : exists w, rounds (fun t => match t with 0%nat => [AwaitTask (fun _ => 1%nat) 0; Finally; Act (fun _ m => m + 1)] | _ => [Throw 7; Finally; Act (fun _ m => m + 10)] end) 20 10 5 (start 0 0) = Ok (w, Exit 7) /\ mem w = 11.
Proof. eexists. split; [vm_compute; reflexivity|reflexivity]. Qed.

(** cco_recover_error in the task that threw does not go to its resume point (here position 2) but to whatever
    recover_state holds, in the beginning 0: the body starts again. *)
Theorem C97_recover_own_refuted : exists (code : nat -> list (instr Z)) w, rounds code 20 10 2 (start 0 0) = Ok (w, Again) /\
  code 0%nat = [Act (fun _ m => m + 1); Yield (2 ^ 28); Jmp (fun _ m => 2 <=? m) 4; Throw 7; Finally; Jmp (fun e _ => e =? 0) 7; Recover] /\
  tr w = [(0, 0); (0, 1); (0, 2); (0, 3); (0, 4); (0, 5); (0, 6); (0, 0); (0, 1)]%nat.
Proof.
  exists (fun _ => [Act (fun _ m => m + 1); Yield (2 ^ 28); Jmp (fun _ m => 2 <=? m) 4; Throw 7; Finally; Jmp (fun e _ => e =? 0) 7; Recover]).
  eexists. split; [vm_compute; reflexivity|]. repeat split.
Qed.
(** A task that was asked to stop while it awaits another is not cleaned up when that one fails. *)
Theorem C97_stopped_refuted : exists (code : nat -> list (instr Z)) w, rounds code 20 10 5 (start 0 0) = Ok (w, Exit 7) /\
  code 0%nat = [AwaitTask (fun _ => 1%nat) 0; Finally; Act (fun _ m => m + 1)] /\ tr w = [(0, 0); (1, 0); (1, 1)]%nat.
Proof.
  exists (fun t => match t with 0%nat => [AwaitTask (fun _ => 1%nat) 0; Finally; Act (fun _ m => m + 1)] | _ => [Stop (fun _ => 0%nat); Throw 7] end).
  eexists. split; [vm_compute; reflexivity|]. repeat split.
Qed.
Print Assumptions C96_runs.
Print Assumptions C96_any_bits_refuted.
Print Assumptions C97_unwinding.
Print Assumptions C97_recover_own_refuted.
Print Assumptions C97_stopped_refuted.
