(** Several variables of a stack type with a fixed capacity (stack.h with i_capacity): the
    elements are inside the struct, so assignment copies them. *)
From Verif Require Import Base Slots Stack_Model.

Section Fvar.
Context {A : Type}.
Variable N : Z.    (* i_capacity *)

(** Variables, [None]: not initialised; elements destroyed; elements that the caller has
    (returned by pull, or refused by push). *)
Record fstate : Type := mkf { fvars : list (option (stack A)); fgone : list A; fgiven : list A }.

Inductive fop : Type :=
| FInit (i : Z)               (* x_i = X_init() *)
| FPush (i : Z) (x : A)       (* X_push(&x_i, x) *)
| FPop (i : Z)                (* X_pop(&x_i) *)
| FPull (i : Z)               (* X_pull(&x_i) *)
| FPutN (i : Z) (xs : list A) (* X_put_n(&x_i, raw, n), xs: what i_keyfrom makes *)
| FDrop (i : Z)               (* X_drop(&x_i) *)
| FMove (i j : Z)             (* x_j = X_move(&x_i) *)
| FTake (i j : Z).            (* X_take(&x_i, X_move(&x_j)) *)

Definition fload (s : fstate) (i : Z) : res (stack A) :=
  let* v := aget (fvars s) i in match v with Some t => Ok t | None => Err Uninit end.
Definition fset (s : fstate) (i : Z) (t : stack A) : res fstate :=
  let* vs := aset (fvars s) i (Some t) in Ok (mkf vs (fgone s) (fgiven s)).
Definition fdestroy (s : fstate) (d : list A) : fstate := mkf (fvars s) (fgone s ++ d) (fgiven s).
Definition freturn (s : fstate) (d : list A) : fstate := mkf (fvars s) (fgone s) (fgiven s ++ d).

(** stack.h 170-171 _put_n: the results of push are ignored. *)
Fixpoint put_n (t : stack A) (xs : list A) : res (stack A) :=
  match xs with [] => Ok t | x :: r => let* q := push t x in put_n (fst q) r end.
(** stack.h 82-88 _drop: with i_capacity only _clear. *)
Definition fdrop (s : fstate) (i : Z) : res fstate :=
  let* t := fload s i in
  let* r := clear t in
  let* s1 := fset s i (fst r) in Ok (fdestroy s1 (snd r)).
(** stack.h 53-54 _move with i_capacity. *)
Definition fmove (s : fstate) (i : Z) : res (fstate * stack A) :=
  let* t := fload s i in
  let q := move t in
  let* s1 := fset s i (fst q) in Ok (s1, snd q).
(** stack.h 90-93 _take. *)
Definition ftake (s : fstate) (i : Z) (m : stack A) : res fstate :=
  let* s1 := fdrop s i in fset s1 i m.

Definition fstep (s : fstate) (o : fop) : res fstate :=
  match o with
  | FInit i => fset s i (init_fixed N)
  | FPush i x =>
    let* t := fload s i in
    let* q := push t x in
    let* s1 := fset s i (fst q) in Ok (if snd q then s1 else freturn s1 [x])
  | FPop i =>
    let* t := fload s i in
    let* q := pop t in
    let* s1 := fset s i (fst q) in Ok (fdestroy s1 [snd q])
  | FPull i =>
    let* t := fload s i in
    let* q := pop t in
    let* s1 := fset s i (fst q) in Ok (freturn s1 [snd q])
  | FPutN i xs => let* t := fload s i in let* t' := put_n t xs in fset s i t'
  | FDrop i => fdrop s i
  | FMove i j => let* q := fmove s i in fset (fst q) j (snd q)
  | FTake i j => let* q := fmove s j in ftake (fst q) i (snd q)
  end.
Fixpoint frun (s : fstate) (ops : list fop) : res fstate :=
  match ops with [] => Ok s | o :: r => let* s1 := fstep s o in frun s1 r end.
Definition fstart (n : nat) : fstate := mkf (repeat None n) [] [].
End Fvar.
Arguments fstate : clear implicits.
Arguments fop : clear implicits.
