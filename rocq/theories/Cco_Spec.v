(** What a coroutine should do: its function runs as if it were never interrupted.
    There is a position (or nothing left) instead of cco.state. *)
From Verif Require Import Base Cco_Model.

Section Spec.
Context {S : Type}.
Variable body fin : list (instr S).
(** A coroutine function with a cleanup section. *)
Definition code : list (instr S) := body ++ Finally :: fin.
Definition nb : nat := length body.

(** The rules of docs/coroutine_api.md 111-116: one cco_finally, gotos stay in their section (or enter the
    cleanup from the body), no suspension in the cleanup. *)
Definition in_body (i : instr S) : Prop :=
  match i with Finally => False | Jmp _ t => (t <= nb)%nat | _ => True end.
Definition in_fin (i : instr S) : Prop :=
  match i with
  | Act _ | Return | YieldFinal _ => True
  | Jmp _ t => (nb < t)%nat
  | Yield _ | Await _ | Call _ _ | Finally => False
  end.
Definition proper : Prop := Forall in_body body /\ Forall in_fin fin.

(** One resumption: from position [pc] with memory [s], the positions executed, where to go on
    (None: finished), the new memory and the value returned. *)
Inductive goes : nat -> S -> list nat -> option nat -> S -> Z -> Prop :=
| g_end pc s : nth_error code pc = None -> goes pc s [] None s 0
| g_act pc s f tr w s' v : nth_error code pc = Some (Act f) ->
    goes (Datatypes.S pc) (f s) tr w s' v -> goes pc s (pc :: tr) w s' v
| g_jmp pc s c t tr w s' v : nth_error code pc = Some (Jmp c t) ->
    goes (if c s then t else Datatypes.S pc) s tr w s' v -> goes pc s (pc :: tr) w s' v
| g_yield pc s v : nth_error code pc = Some (Yield v) -> goes pc s [pc] (Some (Datatypes.S pc)) s v
| g_await_yes pc s c tr w s' v : nth_error code pc = Some (Await c) -> c s = true ->
    goes (Datatypes.S pc) s tr w s' v -> goes pc s (pc :: tr) w s' v
| g_await_no pc s c : nth_error code pc = Some (Await c) -> c s = false ->
    goes pc s [pc] (Some pc) s (2 ^ 29)
| g_call_yes pc s f bits s1 r tr w s' v : nth_error code pc = Some (Call f bits) -> f s = (s1, r) ->
    Z.ldiff r bits = 0 -> goes (Datatypes.S pc) s1 tr w s' v -> goes pc s (pc :: tr) w s' v
| g_call_no pc s f bits s1 r : nth_error code pc = Some (Call f bits) -> f s = (s1, r) ->
    Z.ldiff r bits <> 0 -> goes pc s [pc] (Some pc) s1 r
| g_return pc s tr w s' v : nth_error code pc = Some Return -> (pc < nb)%nat ->
    goes nb s tr w s' v -> goes pc s (pc :: tr) w s' v
| g_return_fin pc s : nth_error code pc = Some Return -> (nb < pc)%nat -> goes pc s [pc] None s 0
| g_final pc s v : nth_error code pc = Some (YieldFinal v) -> (pc < nb)%nat -> goes pc s [pc] (Some nb) s v
| g_final_fin pc s v : nth_error code pc = Some (YieldFinal v) -> (nb < pc)%nat -> goes pc s [pc] None s v
| g_finally pc s tr w s' v : nth_error code pc = Some Finally ->
    goes (Datatypes.S pc) s tr w s' v -> goes pc s (pc :: tr) w s' v.

(** A whole life: position, memory, positions executed, values returned. *)
Inductive lives : option nat -> S -> list (cmd S) -> list nat -> list Z -> option nat -> S -> Prop :=
| l_nil w s : lives w s [] [] [] w s
| l_resume pc s tr w s1 v l tr' vs w' s' : goes pc s tr w s1 v -> lives w s1 l tr' vs w' s' ->
    lives (Some pc) s (Resume :: l) (tr ++ tr') (v :: vs) w' s'
| l_resume_done s l tr vs w' s' : lives None s l tr vs w' s' -> lives None s (Resume :: l) tr (0 :: vs) w' s'
| l_stop pc s l tr vs w' s' : lives (Some nb) s l tr vs w' s' -> lives (Some pc) s (Stop :: l) tr vs w' s'
| l_stop_done s l tr vs w' s' : lives None s l tr vs w' s' -> lives None s (Stop :: l) tr vs w' s'
| l_poke w s f l tr vs w' s' : lives w (f s) l tr vs w' s' -> lives w s (Poke f :: l) tr vs w' s'.

(** No stop for a coroutine that is already about to clean up (cco.state == CCO_STATE_FINALLY): neither
    two stops without a resumption in between, nor a stop after cco_yield_final. *)
Definition careful (fuel : nat) (s : S) (l : list (cmd S)) : Prop :=
  forall l1 l2 x, l = l1 ++ Stop :: l2 -> cmds code fuel (born s) l1 = Ok x -> lstate x <> FINALLY.

(** Two stops have a resumption in between. *)
Fixpoint polite (may : bool) (l : list (cmd S)) : bool :=
  match l with
  | [] => true
  | Resume :: l => polite true l
  | Stop :: l => may && polite false l
  | Poke _ :: l => polite may l
  end.
Definition no_yield_final : Prop := Forall (fun i => match i with YieldFinal _ => False | _ => True end) body.

(** How often the cleanup section was entered. *)
Definition cleanups (tr : list nat) : nat := count_occ Nat.eq_dec tr nb.
(** First statements of the body, then the cleanup. *)
Definition ordered (tr : list nat) : Prop :=
  exists t1 t2, tr = t1 ++ t2 /\ Forall (fun p => (p < nb)%nat) t1 /\
    (t2 = [] \/ exists t3, t2 = nb :: t3 /\ Forall (fun p => (nb < p)%nat) t3).
End Spec.
