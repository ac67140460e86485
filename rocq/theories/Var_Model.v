(** Model of several variables of one container type: init, drop, move, take, clone and copy
    between them, and any operation of the container on one of them.  It is the same code in
    priv/queue_prv.h (queue, deque), hmap.h (hmap, hset) and smap.h (smap, sset), and is stated
    here once over a container type [C] given by its model.

    A variable is a C struct; what matters here is its pointer: uninitialised, null, or the
    address of a block.  A struct can be copied, so two variables may hold the same address, and
    a variable keeps its address after drop.  Simplified: the container (its block and the
    numbers in the struct) is kept in the heap under the address of the block; addresses are
    never reused, so every use of a freed block is seen. *)
From Verif Require Import Base.

Section Vars.
Context {C E Op : Type}.    (* containers, the objects they own, their operations *)
Variable init : C.
Variable step : C -> Op -> res (C * list E * list E).   (* objects destroyed, objects returned *)
Variable clone : C -> res C.
Variable drop : C -> res (list E).
Variable isnull : C -> bool.
(** Whether an operation leaves the block where it is (it may not, if the capacity changes). *)
Variable stays : C -> C -> bool.

Inductive var : Type := VUninit | VNull | VPtr (a : Z).
(** [heap]: the block at every address given out so far, [None] once freed; [gone]: objects
    destroyed so far; [given]: objects returned to the caller so far. *)
Record state : Type := mkst { heap : list (option C); vars : list var; gone : list E; given : list E }.

Inductive vop : Type :=
| VInit (i : Z)          (* x_i = X_init() or {0} *)
| VOp (i : Z) (o : Op)   (* X_op(&x_i, ..) *)
| VDrop (i : Z)          (* X_drop(&x_i) *)
| VMove (i j : Z)        (* x_j = X_move(&x_i) *)
| VTake (i j : Z)        (* X_take(&x_i, X_move(&x_j)) *)
| VClone (i j : Z)       (* x_j = X_clone(x_i) *)
| VCopy (i j : Z).       (* X_copy(&x_i, x_j) *)

Definition block (h : list (option C)) (a : Z) : res C :=
  let* b := aget h a in match b with Some c => Ok c | None => Err UseAfterFree end.
(** The container of a variable. *)
Definition load (s : state) (v : var) : res C :=
  match v with VUninit => Err Uninit | VNull => Ok init | VPtr a => block (heap s) a end.
(** free(NULL) does nothing; a block can be freed once. *)
Definition release (h : list (option C)) (v : var) : res (list (option C)) :=
  match v with
  | VUninit => Err Uninit
  | VNull => Ok h
  | VPtr a => let* _ := block h a in aset h a None
  end.
Definition fresh (h : list (option C)) (c : C) : list (option C) * var :=
  if isnull c then (h, VNull) else (h ++ [Some c], VPtr (zlen h)).
Definition set_var (s : state) (i : Z) (v : var) : res state :=
  let* vs := aset (vars s) i v in Ok (mkst (heap s) vs (gone s) (given s)).

(** queue_prv.h 171-176 _drop; hmap.h 331-338, smap.h 589-596: elements are destroyed, then
    the block is freed; the variable is left as it is. *)
Definition drop_var (s : state) (v : var) : res state :=
  let* c := load s v in
  let* d := drop c in
  let* h := release (heap s) v in Ok (mkst h (vars s) (gone s ++ d) (given s)).
(** An operation; the block is written in place or replaced. *)
Definition op_var (s : state) (i : Z) (o : Op) : res state :=
  let* v := aget (vars s) i in
  let* c := load s v in
  let* r := step c o in
  let '(c', d, g) := r in
  let* q :=
    match v with
    | VPtr a =>
      if stays c c' && negb (isnull c') then let* h := aset (heap s) a (Some c') in Ok (h, v)
      else let* h := release (heap s) v in Ok (fresh h c')
    | _ => Ok (fresh (heap s) c')
    end in
  let* vs := aset (vars s) i (snd q) in Ok (mkst (fst q) vs (gone s ++ d) (given s ++ g)).
(** queue_prv.h 91-95, hmap.h 180-184, smap.h 147-151 _move: returns the struct and zeroes it. *)
Definition move_var (s : state) (i : Z) : res (state * var) :=
  let* v := aget (vars s) i in
  let* s' := match v with VUninit => Err Uninit | _ => set_var s i VNull end in Ok (s', v).
(** queue_prv.h 97-100, hmap.h 186-189, smap.h 153-156 _take. *)
Definition take_var (s : state) (i : Z) (m : var) : res state :=
  let* v := aget (vars s) i in
  let* s1 := drop_var s v in set_var s1 i m.
(** queue_prv.h 239-252, hmap.h 428-448, smap.h 557-565 _clone: a container with blocks of its own. *)
Definition clone_var (s : state) (v : var) : res (state * var) :=
  let* c := load s v in
  let* c' := clone c in
  let q := fresh (heap s) c' in Ok (mkst (fst q) (vars s) (gone s) (given s), snd q).
(** Comparison of the two pointers; an uninitialised one must not be compared. *)
Definition same_ptr (v w : var) : res bool :=
  match v, w with
  | VUninit, _ | _, VUninit => Err Uninit
  | VNull, VNull => Ok true
  | VPtr a, VPtr b => Ok (a =? b)
  | _, _ => Ok false
  end.
(** queue_prv.h 66-70, hmap.h 144-149, smap.h 165-170 _copy. *)
Definition copy_var (s : state) (i j : Z) : res state :=
  let* v := aget (vars s) i in
  let* w := aget (vars s) j in
  let* b := same_ptr v w in
  if b then Ok s else
  let* s1 := drop_var s v in
  let* q := clone_var s1 w in set_var (fst q) i (snd q).

Definition vstep (s : state) (o : vop) : res state :=
  match o with
  | VInit i => set_var s i VNull
  | VOp i o => op_var s i o
  | VDrop i => let* v := aget (vars s) i in drop_var s v
  | VMove i j => let* q := move_var s i in set_var (fst q) j (snd q)
  | VTake i j => let* q := move_var s j in take_var (fst q) i (snd q)
  | VClone i j => let* v := aget (vars s) i in let* q := clone_var s v in set_var (fst q) j (snd q)
  | VCopy i j => copy_var s i j
  end.
Fixpoint vrun (s : state) (ops : list vop) : res state :=
  match ops with [] => Ok s | o :: r => let* s1 := vstep s o in vrun s1 r end.
(** [n] variables, none of them initialised. *)
Definition start (n : nat) : state := mkst [] (repeat VUninit n) [] [].
End Vars.
Arguments state : clear implicits.
Arguments vop : clear implicits.
