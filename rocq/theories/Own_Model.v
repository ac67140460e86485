(** Model of the ownership side of vec.h and stack.h (growing form): containers whose buffers live in
    one heap, several variables, elements with an identity that [i_keydrop] destroys.
    The element sequences of a single vec are modelled in more detail in Vec_Model.v, the
    fixed-capacity stack in Stack_Model.v. *)
From Verif Require Import Base Slots.

(** The two headers share most of their code; [kind] selects where they differ. *)
Inductive kind := KVec | KStack.

(** types.h declare_stack/declare_vec: [data], [size], [capacity]; NULL is 0. *)
Record cont := mkc { data : Z; size : Z; cap : Z }.
Inductive var := Dead | Live (c : cont).
Definition zero : cont := mkc 0 0 0.

(** What a client can do.  [k] numbers the elements the client owns itself, newest first. *)
Inductive op (A : Type) :=
| Init (i : Z) | WithCapacity (i n : Z) | WithSize (i n : Z) (x : A) | FromN (i : Z) (xs : list A)
| New (x : A) | Free (k : nat) | Push (i : Z) (k : nat) | PutN (i : Z) (xs : list A)
| Pop (i : Z) | Pull (i : Z) | EraseN (i idx n : Z) | Resize (i n : Z) (x : A)
| Clear (i : Z) | Drop (i : Z) | Move (i j : Z) | Take (i j : Z) | Clone (i j : Z) | Copy (i j : Z)
| Reserve (i n : Z) | Shrink (i : Z).
Arguments Init {A}. Arguments WithCapacity {A}. Arguments WithSize {A}. Arguments FromN {A}. Arguments New {A}.
Arguments Free {A}. Arguments Push {A}. Arguments PutN {A}. Arguments Pop {A}. Arguments Pull {A}. Arguments EraseN {A}.
Arguments Resize {A}. Arguments Clear {A}. Arguments Drop {A}. Arguments Move {A}. Arguments Take {A}. Arguments Clone {A}.
Arguments Copy {A}. Arguments Reserve {A}. Arguments Shrink {A}.

(** the [k]-th of [l] and the rest *)
Fixpoint pick {X} (k : nat) (l : list X) : option (X * list X) :=
  match l with
  | [] => None
  | x :: t =>
      match k with
      | O => Some (x, t)
      | S k' => match pick k' t with Some (y, t') => Some (y, x :: t') | None => None end
      end
  end.

Section Model.
Context {A : Type}.
(** An element: its identity ([None]: a value that owns nothing, destroying it has no effect) and its value. *)
Definition elem : Type := option Z * A.
Definition heap := list (Z * slots elem).

(** The allocator: where a block of [n] slots is put, and whether realloc can stay in place.  Both may
    depend on the number of allocations so far and on the heap. *)
Variable place : nat -> heap -> Z -> Z.
Variable stay : nat -> heap -> Z -> Z -> bool.
(** i_keyclone on the values *)
Variable keyclone : A -> A.

(** [tick]: allocator calls so far; [made]: identities given out; [gone]: identities destroyed, in order. *)
Record world := mkw { hp : heap; tick : nat; made : Z; gone : list Z }.
Definition with_heap (w : world) (h : heap) : world := mkw h (tick w) (made w) (gone w).
Definition ticked (w : world) (h : heap) : world := mkw h (S (tick w)) (made w) (gone w).

(** the block at [p], if live *)
Fixpoint find (h : heap) (p : Z) : option (slots elem) :=
  match h with [] => None | (q, b) :: t => if q =? p then Some b else find t p end.
Definition look (h : heap) (p : Z) : option (slots elem) := if p =? 0 then None else find h p.
Definition del (h : heap) (p : Z) : heap := filter (fun x => negb (fst x =? p)) h.
Definition put (h : heap) (p : Z) (b : slots elem) : heap := (p, b) :: del h p.

Definition block (w : world) (p : Z) : res (slots elem) :=
  match look (hp w) p with Some b => Ok b | None => Err (if p =? 0 then NullDeref else UseAfterFree) end.
(** read and write [p[i]] *)
Definition load (w : world) (p i : Z) : res elem := let* b := block w p in rd b i.
Definition store (w : world) (p i : Z) (x : elem) : res world :=
  let* b := block w p in let* b' := wr b i x in Ok (with_heap w (put (hp w) p b')).

(** common.h 93-98 c_malloc, c_realloc, c_free.  malloc(0) may return NULL or a block of no slots;
    realloc(p, 0) may also free the block and return NULL (glibc does).  The sizes handed to
    c_realloc and c_free must be those of the block.  Running out of memory is [place] answering 0
    for [n > 0]; a realloc that fails leaves the block alone. *)
Definition malloc (w : world) (n : Z) : world * Z :=
  let a := place (tick w) (hp w) n in
  if a =? 0 then (ticked w (hp w), 0) else (ticked w (put (hp w) a (repeat None (Z.to_nat n))), a).
Definition realloc (w : world) (p old n : Z) : res (world * Z) :=
  if p =? 0 then Ok (malloc w n) else
  let* b := block w p in
  if negb (zlen b =? old) then Err OOB else
  if stay (tick w) (hp w) p n then Ok (ticked w (put (hp w) p (Slots.realloc b n)), p) else
  if n =? 0 then Ok (ticked w (del (hp w) p), 0) else
  let a := place (tick w) (hp w) n in
  if a =? 0 then Ok (ticked w (hp w), 0) else
  Ok (ticked w (put (del (hp w) p) a (Slots.realloc b n)), a).
Definition free (w : world) (p n : Z) : res world :=
  if p =? 0 then Ok w else
  let* b := block w p in
  if negb (zlen b =? n) then Err OOB else Ok (with_heap w (del (hp w) p)).

(** i_keydrop, i_keyfrom, i_keyclone *)
Definition destroy (w : world) (x : elem) : world :=
  match fst x with Some id => mkw (hp w) (tick w) (made w) (gone w ++ [id]) | None => w end.
Definition create (w : world) (x : A) : world * elem := (mkw (hp w) (tick w) (made w + 1) (gone w), (Some (made w), x)).
Definition clone_elem (w : world) (x : elem) : world * elem :=
  match fst x with Some _ => create w (keyclone (snd x)) | None => (w, (None, keyclone (snd x))) end.

(** [for (isize i = from; n--; ++i) i_keydrop(p + i)], and the same downwards from [p + n - 1] *)
Fixpoint drop_up (w : world) (p from : Z) (n : nat) : res world :=
  match n with O => Ok w | S n' => let* x := load w p from in drop_up (destroy w x) p (from + 1) n' end.
Fixpoint drop_down (w : world) (p : Z) (n : nat) : res world :=
  match n with O => Ok w | S n' => let* x := load w p (Z.of_nat n') in drop_down (destroy w x) p n' end.
(** [*p++ = i_keyclone( *arr ), ++arr], n times *)
Fixpoint clone_loop (w : world) (src i dst j : Z) (n : nat) : res world :=
  match n with
  | O => Ok w
  | S n' =>
      let* x := load w src i in
      let '(w1, y) := clone_elem w x in
      let* w2 := store w1 dst j y in
      clone_loop w2 src (i + 1) dst (j + 1) n'
  end.
(** [data[i] = null] for [i] in [from, from + n) *)
Fixpoint fill (w : world) (p from : Z) (x : elem) (n : nat) : res world :=
  match n with O => Ok w | S n' => let* w1 := store w p from x in fill w1 p (from + 1) x n' end.
(** [while (i) data[--i] = null] *)
Fixpoint fill_down (w : world) (p : Z) (x : elem) (n : nat) : res world :=
  match n with O => Ok w | S n' => let* w1 := store w p (Z.of_nat n') x in fill_down w1 p x n' end.

(** vec.h 289-300, stack.h 112-127 _reserve *)
Definition reserve (w : world) (c : cont) (n : Z) : res (world * cont * bool) :=
  if (cap c <? n) || (negb (n =? 0) && (n =? size c)) then
    let* r := realloc w (data c) (cap c) n in
    let '(w1, d) := r in
    if d =? 0 then Ok (w1, c, false) else Ok (w1, mkc d (size c) n, true)
  else Ok (w, c, negb (data c =? 0)).

(** vec.h 104-111 (size*2 + 4), stack.h 156-162 (size*3/2 + 4) _push *)
Definition grown (k : kind) (n : Z) : Z := match k with KVec => n * 2 + 4 | KStack => n * 3 / 2 + 4 end.
Definition push (k : kind) (w : world) (c : cont) (x : elem) : res (world * cont * bool) :=
  let* r := if size c =? cap c then reserve w c (grown k (size c)) else Ok (w, c, true) in
  let '(w1, c1, ok) := r in
  if negb ok then Ok (w1, c1, false) else
  let* w2 := store w1 (data c1) (size c1) x in
  Ok (w2, mkc (data c1) (size c1 + 1) (cap c1), true).

(** vec.h 113-114, stack.h 170-171 _put_n (and _emplace: one raw value).  A refused push loses the
    element made from the raw value. *)
Fixpoint put_n (k : kind) (w : world) (c : cont) (xs : list A) : res (world * cont) :=
  match xs with
  | [] => Ok (w, c)
  | x :: t =>
      let '(w1, y) := create w x in
      let* r := push k w1 c y in
      let '(w2, c1, _) := r in
      put_n k w2 c1 t
  end.

(** vec.h 272-278, stack.h 75-80 _clear *)
Definition clear (w : world) (c : cont) : res (world * cont) :=
  if size c =? 0 then Ok (w, c) else
  let* w1 := drop_down w (data c) (Z.to_nat (size c)) in Ok (w1, mkc (data c) 0 (cap c)).

(** vec.h 280-287, stack.h 82-88 _drop *)
Definition drop (k : kind) (w : world) (c : cont) : res world :=
  match k with
  | KVec => if cap c =? 0 then Ok w else let* r := clear w c in let '(w1, c1) := r in free w1 (data c1) (cap c1)
  | KStack => let* r := clear w c in let '(w1, c1) := r in free w1 (data c1) (cap c1)
  end.

(** vec.h 161-162, stack.h 164-165 _pop; vec.h 163-164, stack.h 167-168 _pull *)
Definition pop (w : world) (c : cont) : res (world * cont) :=
  if size c =? 0 then Err AssertFail else
  let* x := load w (data c) (size c - 1) in Ok (destroy w x, mkc (data c) (size c - 1) (cap c)).
Definition pull (w : world) (c : cont) : res (cont * elem) :=
  if size c =? 0 then Err AssertFail else
  let* x := load w (data c) (size c - 1) in Ok (mkc (data c) (size c - 1) (cap c), x).

(** vec.h 302-313 _resize *)
Definition resize (w : world) (c : cont) (len : Z) (x : elem) : res (world * cont * bool) :=
  let* r := reserve w c len in
  let '(w1, c1, ok) := r in
  if negb ok then Ok (w1, c1, false) else
  let n := size c1 in
  let* w2 := drop_up w1 (data c1) len (Z.to_nat (n - len)) in
  let* w3 := fill w2 (data c1) n x (Z.to_nat (len - n)) in
  Ok (w3, mkc (data c1) len (cap c1), true).

(** vec.h 315-325 _insert_uninit; [None] for the position is the end iterator *)
Definition insert_uninit (w : world) (c : cont) (idx n : Z) : res (world * cont * option Z) :=
  let* r := if cap c <=? size c + n then reserve w c (size c * 3 / 2 + n) else Ok (w, c, true) in
  let '(w1, c1, ok) := r in
  if negb ok then Ok (w1, c1, None) else
  let* b := block w1 (data c1) in
  let* b' := amove b idx (idx + n) (size c1 - idx) in
  Ok (with_heap w1 (put (hp w1) (data c1) b'), mkc (data c1) (size c1 + n) (cap c1), Some idx).

(** vec.h 338-348 _copy_n *)
Definition copy_n (w : world) (c : cont) (idx arr n : Z) : res (world * cont) :=
  let* r := insert_uninit w c idx n in
  let '(w1, c1, pos) := r in
  match pos with
  | None => Ok (w1, c1)
  | Some p => let* w2 := clone_loop w1 arr 0 (data c1) p (Z.to_nat n) in Ok (w2, c1)
  end.

(** vec.h 327-336 _erase_n: the elements are dropped upwards, the tail moves down *)
Definition erase_n (w : world) (c : cont) (idx len : Z) : res (world * cont) :=
  if size c <? idx + len then Err AssertFail else
  let* w1 := drop_up w (data c) idx (Z.to_nat len) in
  if size c - idx - len =? 0 then Ok (w1, mkc (data c) (size c - len) (cap c)) else
  let* b := block w1 (data c) in
  let* b' := amove b (idx + len) idx (size c - idx - len) in
  Ok (with_heap w1 (put (hp w1) (data c) b'), mkc (data c) (size c - len) (cap c)).

(** vec.h 144-149, stack.h 188-196 _clone *)
Definition clone (k : kind) (w : world) (c : cont) : res (world * cont) :=
  match k with
  | KVec => copy_n w zero 0 (data c) (size c)
  | KStack =>
      let '(w1, p) := malloc w (size c) in
      if p =? 0 then Ok (w1, mkc p (size c) 0) else
      let* w2 := clone_loop w1 (data c) 0 p 0 (Z.to_nat (size c)) in Ok (w2, mkc p (size c) (size c))
  end.

(** vec.h 138-142, stack.h 198-202 _copy *)
Definition copy (k : kind) (w : world) (c other : cont) : res (world * cont) :=
  if data c =? data other then Ok (w, c) else
  match k with
  | KVec => let* r := clear w c in let '(w1, c1) := r in copy_n w1 c1 0 (data other) (size other)
  | KStack => let* w1 := drop k w c in clone k w1 other
  end.

(** vec.h 175-179, stack.h 63-66 _with_capacity *)
Definition with_capacity (k : kind) (w : world) (n : Z) : res (world * cont) :=
  match k with
  | KVec => let* r := reserve w zero n in let '(w1, c1, _) := r in Ok (w1, c1)
  | KStack => let '(w1, p) := malloc w n in Ok (w1, mkc p 0 n)
  end.

(** vec.h 169-173, stack.h 68-72 _with_size *)
Definition with_size (k : kind) (w : world) (n : Z) (x : elem) : res (world * cont) :=
  match k with
  | KVec => let* r := resize w zero n x in let '(w1, c1, _) := r in Ok (w1, c1)
  | KStack => let '(w1, p) := malloc w n in let* w2 := fill_down w1 p x (Z.to_nat n) in Ok (w2, mkc p n n)
  end.

(** A program: variables, the elements the client owns itself, and the world. *)
Record state := mks { wd : world; vars : list var; mine : list elem }.
Definition get (s : state) (i : Z) : option cont :=
  match aget (vars s) i with Ok (Live c) => Some c | _ => None end.
Definition dead (s : state) (i : Z) : bool := match aget (vars s) i with Ok Dead => true | _ => false end.
Definition set (s : state) (w : world) (i : Z) (v : var) : res state :=
  let* vs := aset (vars s) i v in Ok (mks w vs (mine s)).
Definition taking (m : list elem) (r : res state) : res state := let* s := r in Ok (mks (wd s) (vars s) m).

(** One call; [None] when it is not a legal one.  _move is vec.h 93-97, stack.h 57-61; _take vec.h 99-102,
    stack.h 90-93: [Move i j] is [i = _move(&j)], [Take i j] is [_take(&i, _move(&j))]. *)
Definition step (k : kind) (s : state) (o : op A) : option (res state) :=
  let w := wd s in
  match o with
  | Init i => if dead s i then Some (set s w i (Live zero)) else None
  | WithCapacity i n =>
      if dead s i && (0 <=? n) then Some (let* r := with_capacity k w n in let '(w1, c1) := r in set s w1 i (Live c1)) else None
  | WithSize i n x =>
      if dead s i && (0 <=? n) then Some (let* r := with_size k w n (None, x) in let '(w1, c1) := r in set s w1 i (Live c1)) else None
  | FromN i xs =>
      if dead s i then Some (let* r := put_n k w zero xs in let '(w1, c1) := r in set s w1 i (Live c1)) else None
  | New x => let '(w1, y) := create w x in Some (Ok (mks w1 (vars s) (y :: mine s)))
  | Free n => match pick n (mine s) with Some (y, m) => Some (Ok (mks (destroy w y) (vars s) m)) | None => None end
  | Push i n =>
      match get s i, pick n (mine s) with
      | Some c, Some (y, m) =>
          Some (let* r := push k w c y in
                let '(w1, c1, ok) := r in taking (if ok then m else mine s) (set s w1 i (Live c1)))
      | _, _ => None
      end
  | PutN i xs =>
      match get s i with Some c => Some (let* r := put_n k w c xs in let '(w1, c1) := r in set s w1 i (Live c1)) | None => None end
  | Pop i =>
      match get s i with
      | Some c => if size c =? 0 then None else Some (let* r := pop w c in let '(w1, c1) := r in set s w1 i (Live c1))
      | None => None
      end
  | Pull i =>
      match get s i with
      | Some c => if size c =? 0 then None else
                  Some (let* r := pull w c in let '(c1, y) := r in taking (y :: mine s) (set s w i (Live c1)))
      | None => None
      end
  | EraseN i idx n =>
      match k, get s i with
      | KVec, Some c => if (0 <=? idx) && (0 <=? n) && (idx + n <=? size c) then
                          Some (let* r := erase_n w c idx n in let '(w1, c1) := r in set s w1 i (Live c1)) else None
      | _, _ => None
      end
  | Resize i n x =>
      match k, get s i with
      | KVec, Some c => if 0 <=? n then Some (let* r := resize w c n (None, x) in let '(w1, c1, _) := r in set s w1 i (Live c1)) else None
      | _, _ => None
      end
  | Clear i =>
      match get s i with Some c => Some (let* r := clear w c in let '(w1, c1) := r in set s w1 i (Live c1)) | None => None end
  | Drop i => match get s i with Some c => Some (let* w1 := drop k w c in set s w1 i Dead) | None => None end
  | Move i j =>
      match dead s i, get s j with
      | true, Some c => Some (let* s1 := set s w j (Live zero) in set s1 w i (Live c))
      | _, _ => None
      end
  | Take i j =>
      match get s i, get s j with
      | Some _, Some c => Some (let* s1 := set s w j (Live zero) in
                                match get s1 i with
                                | Some c1 => let* w1 := drop k w c1 in set s1 w1 i (Live c)
                                | None => Err Uninit
                                end)
      | _, _ => None
      end
  | Clone i j =>
      match dead s i, get s j with
      | true, Some c => Some (let* r := clone k w c in let '(w1, c1) := r in set s w1 i (Live c1))
      | _, _ => None
      end
  | Copy i j =>
      match get s i, get s j with
      | Some c, Some o => Some (let* r := copy k w c o in let '(w1, c1) := r in set s w1 i (Live c1))
      | _, _ => None
      end
  | Reserve i n =>
      match get s i with
      | Some c => if 0 <=? n then Some (let* r := reserve w c n in let '(w1, c1, _) := r in set s w1 i (Live c1)) else None
      | None => None
      end
  | Shrink i =>
      match get s i with Some c => Some (let* r := reserve w c (size c) in let '(w1, c1, _) := r in set s w1 i (Live c1)) | None => None end
  end.
Fixpoint run (k : kind) (s : state) (l : list (op A)) : option (res state) :=
  match l with
  | [] => Some (Ok s)
  | o :: l' => match step k s o with Some (Ok s') => run k s' l' | Some (Err e) => Some (Err e) | None => None end
  end.
Definition start (n : nat) : state := mks (mkw [] 0 0 []) (repeat Dead n) [].

(** pqueue.h 55-59 _reserve, 64-67 _with_capacity; _clear, _drop, _move, _take (75-95) are as for the stack.
    The heap order of the elements is in Pqueue_Model.v. *)
Definition pq_reserve (w : world) (c : cont) (n : Z) : res (world * cont * bool) :=
  if negb (n =? size c) && (n <=? cap c) then Ok (w, c, true) else
  let* r := realloc w (data c) (cap c) n in
  let '(w1, d) := r in
  if d =? 0 then Ok (w1, c, false) else Ok (w1, mkc d (size c) n, true).
Definition pq_with_capacity (w : world) (n : Z) : res (world * cont) :=
  let* r := pq_reserve w zero n in let '(w1, c1, _) := r in Ok (w1, c1).
(** pqueue.h 152-160 _clone: the same loop as in the stack *)
Definition pq_clone (w : world) (c : cont) : res (world * cont) :=
  let* r := pq_with_capacity w (size c) in
  let '(w1, c1) := r in
  let* w2 := clone_loop w1 (data c) 0 (data c1) 0 (Z.to_nat (size c)) in
  Ok (w2, mkc (data c1) (size c) (cap c1)).
(** pqueue.h 171-181 _push, where [value] stays at the end of the array (no parent is less) *)
Definition pq_push_last (w : world) (c : cont) (x : elem) : res (world * cont) :=
  let* r := if size c =? cap c then pq_reserve w c (size c * 3 / 2 + 4) else Ok (w, c, true) in
  let '(w1, c1, _) := r in
  let* w2 := store w1 (data c1) (size c1) x in
  Ok (w2, mkc (data c1) (size c1 + 1) (cap c1)).
End Model.
