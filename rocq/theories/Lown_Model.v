(** Model of the ownership side of list.h: several list variables whose nodes live in one heap, elements
    with an identity that [i_keydrop] destroys, and nodes the client has unlinked and holds itself.
    The functions on a single list are those of List_Model.v. *)
From Verif Require Import Base List_Model.

(** What a client can do with variables [i], [j] (numbers), positions [p], [q], [r] (iterators reached from
    _begin), and the elements and unlinked nodes it owns itself ([k]-th, newest first). *)
Inductive lop (A : Type) :=
| LInit (i : Z) | LFromN (i : Z) (xs : list A) | LPutN (i : Z) (xs : list A) | LNew (x : A) | LFree (k : nat)
| LPush (i : Z) (k : nat) | LPushFront (i : Z) (k : nat) | LInsert (i : Z) (p : nat) (k : nat)
| LEraseAt (i : Z) (p : nat) | LEraseRange (i : Z) (p q : nat) | LPopFront (i : Z) | LRemove (i : Z) (raw : A)
| LReverse (i : Z) | LClear (i : Z) | LDrop (i : Z)
| LMove (i j : Z) | LTake (i j : Z) | LClone (i j : Z) | LCopy (i j : Z)
| LSplice (i : Z) (p : nat) (j : Z) | LSplit (i j : Z) (p q : nat) | LSpliceRange (i : Z) (p : nat) (j : Z) (q r : nat)
| LUnlink (i : Z) | LPushNode (i : Z) (k : nat) | LPushFrontNode (i : Z) (k : nat) | LFreeNode (k : nat).
Arguments LInit {A}. Arguments LFromN {A}. Arguments LPutN {A}. Arguments LNew {A}. Arguments LFree {A}. Arguments LPush {A}.
Arguments LPushFront {A}. Arguments LInsert {A}. Arguments LEraseAt {A}. Arguments LEraseRange {A}. Arguments LPopFront {A}.
Arguments LRemove {A}. Arguments LReverse {A}. Arguments LClear {A}. Arguments LDrop {A}. Arguments LMove {A}. Arguments LTake {A}.
Arguments LClone {A}. Arguments LCopy {A}. Arguments LSplice {A}. Arguments LSplit {A}. Arguments LSpliceRange {A}.
Arguments LUnlink {A}. Arguments LPushNode {A}. Arguments LPushFrontNode {A}. Arguments LFreeNode {A}.

(** the [k]-th of [l] and the rest *)
Fixpoint pick {X} (k : nat) (l : list X) : option (X * list X) :=
  match l with
  | [] => None
  | x :: t =>
      match k with
      | O => Some (x, t)
      | S k' => match pick k' t with Some (y, t') => Some (y, x :: t') | None => None end
      end
  end.

Section Model.
Context {A : Type}.
(** An element: its identity and its value. *)
Definition elem : Type := Z * A.
(** i_eq on the values, i_keyclone on the values *)
Variable eqb : A -> A -> bool.
Variable keyclone : A -> A.
Definition eeqb (x y : elem) : bool := eqb (snd x) (snd y).

(** [vars]: a variable is dead or has a [last] pointer; [mine], [nodes]: what the client owns; [made]: number of
    identities given out; [gone]: identities destroyed, in order. *)
Record state := mks { hp : heap elem; vars : list (option Z); mine : list elem; nodes : list Z; made : Z; gone : list Z }.
Definition get (s : state) (i : Z) : res Z :=
  let* v := aget (vars s) i in match v with Some last => Ok last | None => Err Uninit end.
Definition set (s : state) (i : Z) (v : option Z) : res state :=
  let* vs := aset (vars s) i v in Ok (mks (hp s) vs (mine s) (nodes s) (made s) (gone s)).
Definition with_heap (s : state) (h : heap elem) : state := mks h (vars s) (mine s) (nodes s) (made s) (gone s).
Definition with_mine (s : state) (m : list elem) : state := mks (hp s) (vars s) m (nodes s) (made s) (gone s).
Definition with_nodes (s : state) (n : list Z) : state := mks (hp s) (vars s) (mine s) n (made s) (gone s).
(** i_keydrop on the elements [xs], in order *)
Definition destroyed (s : state) (xs : list elem) : state := mks (hp s) (vars s) (mine s) (nodes s) (made s) (gone s ++ map fst xs).
Definition making (s : state) (d : Z) : state := mks (hp s) (vars s) (mine s) (nodes s) (made s + d) (gone s).

(** i_keyfrom on raw values; i_keyclone on elements: new identities *)
Fixpoint news (m : Z) (xs : list A) : list elem :=
  match xs with [] => [] | x :: t => (m, x) :: news (m + 1) t end.
Definition clones (m : Z) (l : list elem) : list elem := news m (map (fun e => keyclone (snd e)) l).

(** one call on one list *)
Definition call (s : state) (i : Z) (o : op elem) : res state :=
  let* last := get s i in
  let* r := step eeqb (hp s) last o in
  let '(h, last', xs) := r in
  set (destroyed (with_heap s h) xs) i (Some last').
(** ... that takes the client's element [k] *)
Definition call_with (s : state) (i : Z) (k : nat) (o : elem -> op elem) : res state :=
  match pick k (mine s) with
  | Some (y, m) => call (with_mine s m) i (o y)
  | None => Err OOB
  end.

(** list.h 142-143 _put_n: each element is made just before it is pushed; on a variable or (144-145 _from_n) a new list *)
Definition put_n (s : state) (i last : Z) (xs : list A) : res state :=
  let* r := push_all (hp s) last (news (made s) xs) in
  set (making (with_heap s (fst r)) (zlen xs)) i (Some (snd r)).
(** list.h 227-235 _clone with cloned elements; [i] becomes the clone of the list at [last] *)
Definition clone_to (s : state) (i last : Z) : res state :=
  let* xs := each (hp s) last in
  let* r := push_all (hp s) 0 (clones (made s) xs) in
  set (making (with_heap s (fst r)) (zlen xs)) i (Some (snd r)).
(** list.h 237-241 _drop of the list at [last]; the variable is not changed here *)
Definition drop_at (s : state) (last : Z) : res state :=
  let* r := drop (hp s) last in Ok (destroyed (with_heap s (fst r)) (snd r)).
Definition dead (s : state) (i : Z) : res unit :=
  let* v := aget (vars s) i in match v with None => Ok tt | Some _ => Err AssertFail end.

Definition lstep (s : state) (o : lop A) : res state :=
  match o with
  (* 141 _init *)
  | LInit i => let* _ := dead s i in set s i (Some 0)
  | LFromN i xs => let* _ := dead s i in put_n s i 0 xs
  | LPutN i xs => let* last := get s i in put_n s i last xs
  | LNew x => Ok (making (with_mine s ((made s, x) :: mine s)) 1)
  | LFree k => match pick k (mine s) with Some (y, m) => Ok (destroyed (with_mine s m) [y]) | None => Err OOB end
  | LPush i k => call_with s i k PushBack
  | LPushFront i k => call_with s i k PushFront
  | LInsert i p k => call_with s i k (InsertAt p)
  | LEraseAt i p => call s i (EraseAt p)
  | LEraseRange i p q => call s i (EraseRange p q)
  | LPopFront i => call s i PopFront
  | LRemove i raw => call s i (Remove (0, raw))
  | LReverse i => call s i Reverse
  | LClear i => call s i Clear
  | LDrop i => let* last := get s i in let* s1 := drop_at s last in set s1 i None
  (* 160-164 _move: [i = _move(&j)] *)
  | LMove i j => let* _ := dead s i in let* last := get s j in let* s1 := set s j (Some 0) in set s1 i (Some last)
  (* 166-169 _take: [_take(&i, _move(&j))] *)
  | LTake i j =>
      let* last := get s j in
      let* s1 := set s j (Some 0) in
      let* old := get s1 i in
      let* s2 := drop_at s1 old in
      set s2 i (Some last)
  | LClone i j => let* _ := dead s i in let* last := get s j in clone_to s i last
  (* 123-127 _copy *)
  | LCopy i j =>
      let* old := get s i in
      let* last := get s j in
      if old =? last then Ok s else
      let* s1 := drop_at s old in clone_to s1 i last
  | LSplice i p j =>
      let* last := get s i in
      let* olast := get s j in
      let* it := at_index (hp s) last p in
      let* r := splice (hp s) last it olast in
      let '(h, last', olast', _) := r in
      let* s1 := set (with_heap s h) i (Some last') in set s1 j (Some olast')
  | LSplit i j p q =>
      let* _ := dead s i in
      let* last := get s j in
      let* it1 := at_index (hp s) last p in
      let* it2 := at_index (hp s) last q in
      let* r := split_off (hp s) last it1 it2 in
      let '(h, last', olast) := r in
      let* s1 := set (with_heap s h) j (Some last') in set s1 i (Some olast)
  | LSpliceRange i p j q r =>
      let* last := get s i in
      let* olast := get s j in
      let* it := at_index (hp s) last p in
      let* it1 := at_index (hp s) olast q in
      let* it2 := at_index (hp s) olast r in
      let* x := splice_range (hp s) last it olast it1 it2 in
      let '(h, last', olast', _) := x in
      let* s1 := set (with_heap s h) i (Some last') in set s1 j (Some olast')
  (* 117-118 _unlink_front_node *)
  | LUnlink i =>
      let* last := get s i in
      let* r := unlink_after_node (hp s) last last in
      let '(h, last', nd) := r in
      set (with_nodes (with_heap s h) (nd :: nodes s)) i (Some last')
  | LPushNode i k =>
      match pick k (nodes s) with
      | Some (nd, ns) =>
          let* last := get s i in
          let* r := push_back_node (hp s) last nd in
          set (with_nodes (with_heap s (fst r)) ns) i (Some (snd r))
      | None => Err OOB
      end
  (* 265-271 _insert_after_node(self, self->last, node) *)
  | LPushFrontNode i k =>
      match pick k (nodes s) with
      | Some (nd, ns) =>
          let* last := get s i in
          let* r := insert_after_node (hp s) last last nd in
          set (with_nodes (with_heap s (fst r)) ns) i (Some (snd r))
      | None => Err OOB
      end
  (* the client destroys the value of a node it holds and frees it *)
  | LFreeNode k =>
      match pick k (nodes s) with
      | Some (nd, ns) =>
          let* x := val_of (hp s) nd in
          let* h := free (hp s) nd in
          Ok (destroyed (with_nodes (with_heap s h) ns) [x])
      | None => Err OOB
      end
  end.
Fixpoint lrun (s : state) (l : list (lop A)) : res state :=
  match l with [] => Ok s | o :: l' => let* s1 := lstep s o in lrun s1 l' end.
Definition lstart (n : nat) : state := mks empty_heap (repeat None n) [] [] 0 [].
End Model.
