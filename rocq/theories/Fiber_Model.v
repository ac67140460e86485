(** Model of the fiber scheduler of include/stc/coroutine.h (240-330): cco_run_fiber, cco_resume_next,
    _cco_new_fiber, _cco_spawn.  A fiber is its address; of its members only [next] matters here.
    What the task of a fiber does when the fiber is resumed is left open: it spawns further fibers with
    given fibers as second argument, and the fiber is finished or not. *)
From Verif Require Import Base.

Definition addr := nat.
(** [next]: the allocated fibers and their member next (None: NULL).  [brk]: allocation is fresh. *)
Record heap := mkheap { next : addr -> option (option addr); brk : addr; freed : list addr }.
Definition load (h : heap) (a : addr) : res (option addr) :=
  match next h a with Some n => Ok n | None => Err UseAfterFree end.
Definition setn (f : addr -> option (option addr)) (a : addr) (v : option (option addr)) : addr -> option (option addr) :=
  fun b => if Nat.eqb a b then v else f b.
Definition store (h : heap) (a : addr) (n : option addr) : res heap :=
  match next h a with Some _ => Ok (mkheap (setn (next h) a (Some n)) (brk h) (freed h)) | None => Err UseAfterFree end.
(** free() *)
Definition release (h : heap) (a : addr) : res heap :=
  match next h a with Some _ => Ok (mkheap (setn (next h) a None) (brk h) (freed h ++ [a])) | None => Err UseAfterFree end.
(** c_new(cco_fiber, {.next=n}); it does not fail here *)
Definition alloc (h : heap) (n : option addr) : heap * addr :=
  (mkheap (setn (next h) (brk h) (Some n)) (S (brk h)) (freed h), brk h).

(** coroutine.h 318-321 _cco_new_fiber *)
Definition new_fiber (h : heap) : res (heap * addr) :=
  let (h, a) := alloc h None in let* h := store h a (Some a) in Ok (h, a).

(** coroutine.h 323-329 _cco_spawn *)
Definition spawn (h : heap) (fb : addr) : res heap :=
  let* n := load h fb in
  match n with
  | None => store h fb (Some fb)
  | Some _ => let (h, new) := alloc h n in store h fb (Some new)
  end.
Fixpoint spawns (h : heap) (l : list addr) : res heap :=
  match l with [] => Ok h | fb :: l' => let* h := spawn h fb in spawns h l' end.

(** One resumption: the fibers given to cco_spawn, and whether cco_resume_current returned CCO_DONE. *)
Definition act : Type := list addr * bool.

(** coroutine.h 305-316 cco_resume_next; also gives the fiber that was resumed *)
Definition resume_next (h : heap) (prev : addr) (b : act) : res (heap * option addr * addr) :=
  let* c := load h prev in
  match c with
  | None => Err NullDeref
  | Some curr =>
      let* _ := load h curr in
      let* h := spawns h (fst b) in
      if snd b then
        let* n := (if Nat.eqb curr prev then Ok None else load h curr) in
        let* h := store h prev n in
        let* h := release h curr in
        Ok (h, n, curr)
      else Ok (h, Some curr, curr)
  end.

(** coroutine.h 256-257 cco_run_fiber_2, for as many resumptions as behaviours are given.  [trace]: who was resumed. *)
Fixpoint run (h : heap) (it : addr) (bs : list act) (trace : list addr) : res (heap * option addr * list addr) :=
  match bs with
  | [] => Ok (h, Some it, trace)
  | b :: bs' =>
      let* (h', it', c) := resume_next h it b in
      match it' with
      | None => Ok (h', None, trace ++ [c])
      | Some it' => run h' it' bs' (trace ++ [c])
      end
  end.
(** coroutine.h 259-262 cco_run_task: everything from an empty heap *)
Definition run_task (bs : list act) : res (heap * option addr * list addr) :=
  let* (h, fb) := new_fiber (mkheap (fun _ => None) O []) in run h fb bs [].
