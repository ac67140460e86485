(** Model of cco_semaphore (include/stc/coroutine.h 394-405): coroutines (Cco_Model.v) that share memory with a
    semaphore in it.  [held] and [foul] are not in the code: they record who is between acquire and release,
    and whether somebody released without having acquired. *)
From Verif Require Import Base Cco_Model.

Section Sema.
Context {U : Type}.
Record mem := mkmem { count : Z; held : nat -> nat; foul : bool; user : U }.
Definition add (h : nat -> nat) (i : nat) (n : nat) : nat -> nat := fun j => if Nat.eqb j i then n else h j.
(** 398 cco_acquire_semaphore, by coroutine [i] *)
Definition acquire (i : nat) (s : mem) : mem := mkmem (count s - 1) (add (held s) i (S (held s i))) (foul s) (user s).
(** 399 cco_release_semaphore *)
Definition release (i : nat) (s : mem) : mem :=
  mkmem (count s + 1) (add (held s) i (pred (held s i))) (foul s || Nat.eqb (held s i) 0) (user s).
(** 396 cco_make_semaphore *)
Definition make (n : Z) (u : U) : mem := mkmem n (fun _ => O) false u.
(** 401-405 cco_await_semaphore: two instructions *)
Definition await_sem (i : nat) : list (instr mem) := [Await (fun s => 0 <? count s); Act (acquire i)].
(** A statement of the user. *)
Definition uact (f : U -> U) : instr mem := Act (fun s => mkmem (count s) (held s) (foul s) (f (user s))).

(** Many coroutines: cco.state of each, and the memory. *)
Record sys := mksys { states : nat -> Z; smem : mem }.
Definition sets (f : nat -> Z) (i : nat) (v : Z) : nat -> Z := fun j => if Nat.eqb j i then v else f j.
Inductive scmd := SResume (i : nat) | SStop (i : nat) | SUser (f : U -> U).
Definition scmd1 (codes : nat -> list (instr mem)) (fuel : nat) (x : sys) (c : scmd) : res sys :=
  match c with
  | SResume i =>
      let* o := resume (codes i) fuel (states x i) (smem x) [] in
      Ok (mksys (sets (states x) i (ostate o)) (omem o))
  | SStop i => Ok (mksys (sets (states x) i (stopped (states x i))) (smem x))
  | SUser f => let s := smem x in Ok (mksys (states x) (mkmem (count s) (held s) (foul s) (f (user s))))
  end.
Fixpoint scmds (codes : nat -> list (instr mem)) (fuel : nat) (x : sys) (l : list scmd) : res sys :=
  match l with [] => Ok x | c :: l' => let* y := scmd1 codes fuel x c in scmds codes fuel y l' end.
Definition begin (n : Z) (u : U) : sys := mksys (fun _ => INIT) (make n u).
End Sema.
Arguments mem : clear implicits.
Arguments sys : clear implicits.
Arguments scmd : clear implicits.
