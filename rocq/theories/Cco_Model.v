(** Model of include/stc/coroutine.h: cco_routine and the statements in it (62-169).
    A coroutine function is a list of instructions: the body, the instruction [Finally] and the
    cleanup section.  Loops and conditions of C become jumps.  [S] is all the memory that the
    statements work on.  The line number kept in cco.state is the position of the instruction
    plus one: lines matter only by being different and positive. *)
From Verif Require Import Base.

Section Cco.
Context {S : Type}.
Inductive instr :=
| Act (f : S -> S)                    (* any statement *)
| Jmp (c : S -> bool) (t : nat)       (* if (c) goto t *)
| Yield (v : Z)                       (* 126-131 cco_yield_v *)
| Await (c : S -> bool)               (* 140-144 cco_await *)
| Call (f : S -> S * Z) (bits : Z)    (* 149-156 cco_await_coroutine_2 *)
| Return                              (* 120-124 cco_return *)
| YieldFinal (v : Z)                  (* 134-138 cco_yield_final_v *)
| Finally.                            (* 114-116 cco_finally *)

(** coroutine.h 62-66 *)
Definition INIT := 0. Definition FINALLY := -1. Definition DONE := -2.
(** coroutine.h 67-73 *)
Definition CCO_DONE := 0. Definition CCO_AWAIT := 2 ^ 29.
(** *st >= CCO_STATE_INIT ? CCO_STATE_FINALLY : CCO_STATE_DONE (122, 136, 165) *)
Definition stopped (st : Z) : Z := if INIT <=? st then FINALLY else DONE.
Definition line (pc : nat) : Z := Z.of_nat pc + 1.
Definition is_finally (i : instr) : bool := match i with Finally => true | _ => false end.
(** Where the switch of cco_routine goes on: the position of cco_finally, ... *)
Fixpoint find_finally (code : list instr) : option nat :=
  match code with [] => None | i :: t => if is_finally i then Some O else option_map Datatypes.S (find_finally t) end.

(** What a resumption leaves behind: cco.state, memory, return value, and the positions executed. *)
Record out := mkout { ostate : Z; omem : S; oret : Z; otrace : list nat }.

(** coroutine.h 93-96 cco_routine.  [run code fuel st pc s tr]: at position [pc].
    [resume]: at the label _resume (96) with the state [st]. *)
Section Run.
Variable code : list instr.
Fixpoint run (fuel : nat) (st : Z) (pc : nat) (s : S) (tr : list nat) : res out :=
  match fuel with
  | O => Err OutOfFuel
  | Datatypes.S fuel =>
      (* the end of the switch: the for loop sets CCO_STATE_DONE and ends; the function returns 0 *)
      let leave tr := Ok (mkout DONE s CCO_DONE tr) in
      (* goto _resume: the switch *)
      let resume st tr :=
        if st =? INIT then run fuel st O s tr else
        if st =? FINALLY then
          match find_finally code with
          | Some k => run fuel st (Datatypes.S k) s (tr ++ [k])
          | None => leave tr
          end
        else leave tr in
      match nth_error code pc with
      | None => leave tr
      | Some i =>
          let tr := tr ++ [pc] in
          match i with
          | Act f => run fuel st (Datatypes.S pc) (f s) tr
          | Jmp c t => run fuel st (if c s then t else Datatypes.S pc) s tr
          | Yield v => Ok (mkout (line pc) s v tr)
          | Await c => if c s then run fuel (line pc) (Datatypes.S pc) s tr else Ok (mkout (line pc) s CCO_AWAIT tr)
          | Call f bits =>
              let (s', r) := f s in
              if Z.land r (Z.lnot bits) =? 0 then run fuel (line pc) (Datatypes.S pc) s' tr else Ok (mkout (line pc) s' r tr)
          | Return => resume (stopped st) tr
          | YieldFinal v => Ok (mkout (stopped st) s v tr)
          | Finally => run fuel FINALLY (Datatypes.S pc) s tr
          end
      end
  end.
(** A call of the coroutine function: 95 the loop condition, 96 the switch. *)
Definition resume (fuel : nat) (st : Z) (s : S) (tr : list nat) : res out :=
  if st =? DONE then Ok (mkout st s CCO_DONE tr) else
  if st =? INIT then run fuel st O s tr else
  if st =? FINALLY then
    match find_finally code with
    | Some k => run fuel st (Datatypes.S k) s (tr ++ [k])
    | None => Ok (mkout DONE s CCO_DONE tr)
    end
  else
  let pc := Z.to_nat (st - 1) in
  match nth_error code pc with
  | Some (Yield _) => run fuel st (Datatypes.S pc) s tr
  | Some (Await _) | Some (Call _ _) => run fuel st pc s tr
  | _ => Ok (mkout DONE s CCO_DONE tr)
  end.
End Run.

(** The owner of the coroutine resumes it, stops it (162-166 cco_stop), or changes the memory.
    [life]: cco.state, memory, the positions executed, and what the resumptions returned. *)
Inductive cmd := Resume | Stop | Poke (f : S -> S).
Record life := mklife { lstate : Z; lmem : S; ltrace : list nat; lrets : list Z }.
Definition born (s : S) : life := mklife INIT s [] [].
Definition cmd1 (code : list instr) (fuel : nat) (x : life) (c : cmd) : res life :=
  match c with
  | Resume =>
      let* o := resume code fuel (lstate x) (lmem x) (ltrace x) in
      Ok (mklife (ostate o) (omem o) (otrace o) (lrets x ++ [oret o]))
  | Stop => Ok (mklife (stopped (lstate x)) (lmem x) (ltrace x) (lrets x))
  | Poke f => Ok (mklife (lstate x) (f (lmem x)) (ltrace x) (lrets x))
  end.
Fixpoint cmds (code : list instr) (fuel : nat) (x : life) (l : list cmd) : res life :=
  match l with [] => Ok x | c :: l' => let* y := cmd1 code fuel x c in cmds code fuel y l' end.
End Cco.
Arguments instr : clear implicits.
Arguments out : clear implicits.
Arguments cmd : clear implicits.
Arguments life : clear implicits.
