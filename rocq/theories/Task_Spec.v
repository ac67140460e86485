(** Tasks as procedures with a call stack: awaiting a task calls it, finishing returns, an error unwinds the
    stack through the cleanup sections.  A step that the rules of docs/coroutine_api.md do not allow is an
    [Err AssertFail]. *)
From Verif Require Import Base Task_Model.

Section Spec.
Context {S : Type}.
Variable code : nat -> list (instr S).

(** Where a task is: not started, suspended before an instruction, to do its cleanup, in its cleanup because the
    task it awaited failed (it would continue at [n]), or over. *)
Inductive place := Fresh | Paused (n : nat) | Closing | Unwound (n : nat) | Over.
Record sp := mksp { pos : nat -> place; err : Z; smem : S; slog : list (nat * nat) }.
Definition move (s : sp) (t : nat) (p : place) : sp := mksp (fun u => if Nat.eqb u t then p else pos s u) (err s) (smem s) (slog s).

(** In the body, or in the cleanup section (of a task that failed itself or is done: [None]). *)
Inductive mode := Body | Clean (r : option nat).
(** How an activation ends: suspended before [n] with a value; suspended before its cleanup with a value; a call of a
    task that returns for the values [bits]; control passed to another task; at its end. *)
Inductive ending := Pause (n : nat) (v : Z) | Final (v : Z) | Call (t : nat) (bits : Z) (n : nat) | Go (t n : nat) | End.

(** [busy]: the tasks on the stack. *)
Fixpoint act (fuel : nat) (busy : list nat) (self pc : nat) (m : mode) (s : sp) : res (sp * ending) :=
  match fuel with
  | O => Err OutOfFuel
  | Datatypes.S fuel =>
      let cleanup s := match find_finally (code self) with Some k => act fuel busy self k (Clean None) s | None => Ok (s, End) end in
      match nth_error (code self) pc with
      | None => Ok (s, End)
      | Some i =>
          let s := mksp (pos s) (err s) (smem s) (slog s ++ [(self, pc)]) in
          match i, m with
          | Act f, _ => act fuel busy self (Datatypes.S pc) m (mksp (pos s) (err s) (f (err s) (smem s)) (slog s))
          | Jmp c t, _ => act fuel busy self (if c (err s) (smem s) then t else Datatypes.S pc) m s
          | Yield v, Body => Ok (s, Pause (Datatypes.S pc) v)
          | Await c, Body => if c (smem s) then act fuel busy self (Datatypes.S pc) m s else Ok (s, Pause pc CCO_AWAIT)
          | Return, Body => cleanup s
          | Return, Clean _ => Ok (s, End)
          | YieldFinal v, Body => Ok (s, Final v)
          | Finally, Body => act fuel busy self (Datatypes.S pc) (Clean None) s
          | Finally, Clean _ => act fuel busy self (Datatypes.S pc) m s
          | AwaitTask t bits, Body => Ok (s, Call (t (smem s)) bits (Datatypes.S pc))
          | YieldTo t, Body => Ok (s, Go (t (smem s)) (Datatypes.S pc))
          | Throw e, Body => cleanup (mksp (pos s) e (smem s) (slog s))
          | Throw e, Clean _ => Ok (mksp (pos s) e (smem s) (slog s), End)
          | Recover, Clean (Some n) => act fuel busy self n Body (mksp (pos s) 0 (smem s) (slog s))
          | Reset t, _ => if existsb (Nat.eqb (t (smem s))) busy then Err AssertFail else
                          act fuel busy self (Datatypes.S pc) m (move s (t (smem s)) Fresh)
          | Stop t, _ => if existsb (Nat.eqb (t (smem s))) busy then Err AssertFail else
                         act fuel busy self (Datatypes.S pc) m
                             (move s (t (smem s)) (match pos s (t (smem s)) with Fresh | Paused _ => Closing | _ => Over end))
          | _, _ => Err AssertFail
          end
      end
  end.
Definition activate (fuel : nat) (busy : list nat) (t : nat) (s : sp) : res (sp * ending) :=
  let clean r := match find_finally (code t) with Some k => act fuel busy t k (Clean r) s | None => Ok (s, End) end in
  match pos s t with
  | Fresh => act fuel busy t O Body s
  | Paused n => act fuel busy t n Body s
  | Closing => clean None
  | Unwound n => clean (Some n)
  | Over => Ok (s, End)
  end.

(** Does the value [v] return to the task that awaits [bits]? *)
Definition returns (v bits : Z) : bool := Z.land v (Z.lnot bits) =? 0.

(** One resumption of a fiber whose stack is [stk], the running task first, each with the values its caller awaits. *)
Fixpoint turn (fuel : nat) (stk : list (nat * Z)) (s : sp) : res (list (nat * Z) * sp * @verdict) :=
  match stk with
  | [] => Err AssertFail
  | (t, b) :: rest =>
      let* r := activate fuel (map fst stk) t s in
      let '(s, e) := r in
      let ret p v := let stk' := if returns v b then rest else stk in
                     Ok (stk', move s t p, match stk' with [] => Finished | _ => Again end) in
      if negb (err s =? 0) then
        match e, rest with
        | End, [] => Ok ([], move s t Over, Exit (err s))
        | End, (p, _) :: _ =>
            match pos s p with Paused n => turn fuel rest (move (move s t Over) p (Unwound n)) | _ => Err AssertFail end
        | _, _ => Err AssertFail
        end
      else
        match e with
        | End => ret Over CCO_DONE
        | Pause n v => ret (Paused n) v
        | Final v => ret Closing v
        | Call t' b' n =>
            if existsb (Nat.eqb t') (map fst stk) || returns CCO_NOOP b then Err AssertFail
            else Ok ((t', b') :: stk, move s t (Paused n), Again)
        | Go t' n =>
            if existsb (Nat.eqb t') (map fst stk) || returns CCO_NOOP b then Err AssertFail
            else Ok ((t', b) :: rest, move s t (Paused n), Again)
        end
  end.
Fixpoint turns (fuel k : nat) (stk : list (nat * Z)) (s : sp) : res (list (nat * Z) * sp * @verdict) :=
  match k with
  | O => Ok (stk, s, Again)
  | Datatypes.S k =>
      let* r := turn fuel stk s in
      let '(stk', s', v) := r in
      match v with Again => turns fuel k stk' s' | _ => Ok r end
  end.
Definition begin (s : S) : sp := mksp (fun _ => Fresh) 0 s [].
(** The log of one resumption: the tasks run in stack order, all but the first from their cleanup section. *)
Inductive logs : list (nat * Z) -> list (nat * nat) -> Prop :=
| logs_one t b l : Forall (fun x => fst x = t) l -> logs [(t, b)] l
| logs_more t b p bp stk l m : Forall (fun x => fst x = t) l -> logs ((p, bp) :: stk) m ->
    (forall k, find_finally (code p) = Some k -> exists m', m = (p, k) :: m') -> logs ((t, b) :: (p, bp) :: stk) (l ++ m).
End Spec.
Arguments sp : clear implicits.
