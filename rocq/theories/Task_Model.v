(** Model of tasks in include/stc/coroutine.h (98-112, 172-237, 276-303): cco_await_task, cco_yield_to,
    cco_throw_error, cco_recover_error and the executor cco_resume_current.
    The function of a task is a list of instructions as in Cco_Model.v; here it also works on the fiber.
    Tasks are numbered, NULL is None; a task is never freed while others refer to it.  Not here: other
    fibers (Fiber_Model.v), cco_resume_task and cco_cancel_task called from a task, and the line
    number of an error. *)
From Verif Require Import Base.

Section Task.
Context {S : Type}.
(** Statements and conditions see the error code of the fiber and the memory. *)
Inductive instr :=
| Act (f : Z -> S -> S)                   (* any statement *)
| Jmp (c : Z -> S -> bool) (t : nat)      (* if (c) goto t *)
| Yield (v : Z)                           (* 127-131 cco_yield_v *)
| Await (c : S -> bool)                   (* 140-144 cco_await *)
| Return                                  (* 120-124 cco_return *)
| YieldFinal (v : Z)                      (* 134-138 cco_yield_final_v *)
| Finally                                 (* 114-116 cco_finally *)
| AwaitTask (t : S -> nat) (bits : Z)     (* 218-226 cco_await_task_3 *)
| YieldTo (t : S -> nat)                  (* 229-237 cco_yield_to *)
| Throw (e : Z)                           (* 99-104 cco_throw_error *)
| Recover                                 (* 106-112 cco_recover_error *)
| Reset (t : S -> nat)                    (* 168-169 cco_reset *)
| Stop (t : S -> nat).                    (* 162-166 cco_stop *)

(** coroutine.h 62-73 *)
Definition INIT := 0. Definition FINALLY := -1. Definition DONE := -2.
Definition CCO_DONE := 0. Definition CCO_AWAIT := 2 ^ 29. Definition CCO_NOOP := 2 ^ 30.
Definition stopped (st : Z) : Z := if INIT <=? st then FINALLY else DONE.
Definition line (pc : nat) : Z := Z.of_nat pc + 1.

(** coroutine.h 187-195 the members of a task (its function is [code]), 176-184 cco_fiber *)
Record task := mkt { tstate : Z; tbits : Z; tparent : option nat }.
Record fiber := mkf { ftask : option nat; fparent : option nat; frec : Z; fbits : Z; fresult : Z; ferr : Z }.
(** [tr]: the instructions executed, as task and position *)
Record world := mkw { tasks : nat -> task; fb : fiber; mem : S; tr : list (nat * nat) }.

Definition set_task (w : world) (t : nat) (x : task) : world :=
  mkw (fun u => if Nat.eqb u t then x else tasks w u) (fb w) (mem w) (tr w).
Definition set_state (w : world) (t : nat) (st : Z) : world :=
  set_task w t (mkt st (tbits (tasks w t)) (tparent (tasks w t))).
Definition set_fb (w : world) (f : fiber) : world := mkw (tasks w) f (mem w) (tr w).
Definition set_mem (w : world) (s : S) : world := mkw (tasks w) (fb w) s (tr w).
Definition log (w : world) (t pc : nat) : world := mkw (tasks w) (fb w) (mem w) (tr w ++ [(t, pc)]).
Definition with_task (f : fiber) (t : option nat) : fiber := mkf t (fparent f) (frec f) (fbits f) (fresult f) (ferr f).
Definition with_err (f : fiber) (e : Z) : fiber := mkf (ftask f) (fparent f) (frec f) (fbits f) (fresult f) e.

Variable code : nat -> list instr.

Fixpoint find_finally (c : list instr) : option nat :=
  match c with
  | [] => None
  | Finally :: _ => Some O
  | _ :: t => option_map Datatypes.S (find_finally t)
  end.
(** coroutine.h 96: the position the switch of cco_routine goes to *)
Definition entry (c : list instr) (st : Z) : option nat :=
  if st =? INIT then Some O else
  if st =? FINALLY then find_finally c else
  if st <? 0 then None else
  match nth_error c (Z.to_nat (st - 1)) with
  | Some (Yield _) | Some (AwaitTask _ _) | Some (YieldTo _) => Some (Datatypes.S (Z.to_nat (st - 1)))
  | Some (Await _) => Some (Z.to_nat (st - 1))
  | _ => None
  end.

(** The function of task [self] at position [pc]; [goto w] is the label _resume (96).  Gives the value returned. *)
Fixpoint run (fuel : nat) (self pc : nat) (w : world) : res (world * Z) :=
  match fuel with
  | O => Err OutOfFuel
  | Datatypes.S fuel =>
      let leave w := Ok (set_state w self DONE, CCO_DONE) in
      let goto w := match entry (code self) (tstate (tasks w self)) with Some p => run fuel self p w | None => leave w end in
      match nth_error (code self) pc with
      | None => leave w
      | Some i =>
          let w := log w self pc in
          let st := tstate (tasks w self) in
          match i with
          | Act f => run fuel self (Datatypes.S pc) (set_mem w (f (ferr (fb w)) (mem w)))
          | Jmp c t => run fuel self (if c (ferr (fb w)) (mem w) then t else Datatypes.S pc) w
          | Yield v => Ok (set_state w self (line pc), v)
          | Await c =>
              if c (mem w) then run fuel self (Datatypes.S pc) (set_state w self (line pc))
              else Ok (set_state w self (line pc), CCO_AWAIT)
          | Return => goto (set_state w self (stopped st))
          | YieldFinal v => Ok (set_state w self (stopped st), v)
          | Finally => run fuel self (Datatypes.S pc) (set_state w self FINALLY)
          | AwaitTask t bits =>
              let w1 := set_task w (t (mem w)) (mkt (tstate (tasks w (t (mem w)))) bits (ftask (fb w))) in
              let w2 := set_fb w1 (with_task (fb w1) (Some (t (mem w)))) in
              Ok (set_state w2 self (line pc), CCO_NOOP)
          | YieldTo t =>
              match ftask (fb w) with
              | None => Err NullDeref
              | Some c =>
                  let w1 := set_task w (t (mem w)) (mkt (tstate (tasks w (t (mem w)))) (tbits (tasks w c)) (tparent (tasks w c))) in
                  let w2 := set_fb w1 (with_task (fb w1) (Some (t (mem w)))) in
                  Ok (set_state w2 self (line pc), CCO_NOOP)
              end
          | Throw e => goto (set_state (set_fb w (with_err (fb w) e)) self (stopped st))
          | Recover =>
              if negb (st =? FINALLY) then Err AssertFail else
              goto (set_fb (set_state w self (frec (fb w))) (with_err (fb w) 0))
          | Reset t => run fuel self (Datatypes.S pc) (set_state w (t (mem w)) INIT)
          | Stop t => run fuel self (Datatypes.S pc) (set_state w (t (mem w)) (stopped (tstate (tasks w (t (mem w))))))
          end
      end
  end.
(** coroutine.h 93-96: a call of the function of task [self] *)
Definition call (fuel self : nat) (w : world) : res (world * Z) :=
  if tstate (tasks w self) =? DONE then Ok (w, CCO_DONE) else
  match entry (code self) (tstate (tasks w self)) with
  | Some p => run fuel self p w
  | None => Ok (set_state w self DONE, CCO_DONE)
  end.

(** coroutine.h 276-303 cco_resume_current: CCO_NOOP, CCO_DONE or exit(error).  It is itself a coroutine, whose
    resumptions all continue at the top of its loop (278, 292).  [n] bounds the iterations of one call. *)
Inductive verdict := Again | Finished | Exit (e : Z).
Fixpoint resume_current (fuel n : nat) (w : world) : res (world * verdict) :=
  match n with
  | O => Err OutOfFuel
  | Datatypes.S n =>
      match ftask (fb w) with
      | None => Err NullDeref
      | Some t =>
          let f := fb w in
          let w := set_fb w (mkf (ftask f) (tparent (tasks w t)) (frec f) (tbits (tasks w t)) (fresult f) (ferr f)) in
          let* r := call fuel t w in
          let '(w, v) := r in
          let f := fb w in
          let f := mkf (ftask f) (fparent f) (frec f) (fbits f) v (ferr f) in
          if negb (ferr f =? 0) then
            match fparent f with
            | None => Ok (set_fb w (with_task f None), Exit (ferr f))
            | Some p =>
                let f := mkf (Some p) (fparent f) (tstate (tasks w p)) (fbits f) v (ferr f) in
                resume_current fuel n (set_state (set_fb w f) p (stopped (tstate (tasks w p))))
            end
          else if Z.land v (Z.lnot (fbits f)) =? 0 then
            Ok (set_fb w (with_task f (fparent f)), match fparent f with None => Finished | Some _ => Again end)
          else Ok (set_fb w f, Again)
      end
  end.

(** coroutine.h 256-262 cco_run_task with one fiber: up to [k] resumptions. *)
Fixpoint rounds (fuel n k : nat) (w : world) : res (world * verdict) :=
  match k with
  | O => Ok (w, Again)
  | Datatypes.S k =>
      let* r := resume_current fuel n w in
      match snd r with Again => rounds fuel n k (fst r) | _ => Ok r end
  end.
(** 318-321 _cco_new_fiber for the task [root]; all tasks as their initialisers leave them *)
Definition start (root : nat) (s : S) : world :=
  mkw (fun _ => mkt INIT 0 None) (mkf (Some root) None 0 0 0 0) s [].
End Task.
Arguments instr : clear implicits.
Arguments world : clear implicits.
