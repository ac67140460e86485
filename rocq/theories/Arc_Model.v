(** Model of include/stc/arc.h: shared owners with an atomic count, used by several threads.

    Memory is a list of live blocks (address, size), a counter for some addresses and an object
    for some addresses.  A step is one atomic action of one thread; a drop that reaches zero goes
    on in further steps, between which other threads (and other calls of the same thread, e.g.
    made by the destructor) may act.  [assign(a, b)] is [Clone b; Drop a], [take] is [Drop],
    [reset_to] is [Drop; FromPtr], the rest of these functions only moves handles between the
    variables of a thread.  Atomics are sequentially consistent (arc.h 73-74 __ATOMIC_SEQ_CST). *)
From Verif Require Import Base.

(** types.h 100-105 _c_arc_types: the members of a handle.  NULL is 0. *)
Record handle := mkh { get : Z; uc : Z }.
Definition null : handle := mkh 0 0.
(** Where a drop that reached zero is: before i_keydrop (arc.h 144), before the first i_free
    (147 or 149), before the second i_free (150). *)
Inductive stage := SDestroy | SFree | SFree2.
Record thread := mkt { hs : list handle; raws : list Z; pend : list (handle * stage) }.
Record state := mks { blocks : list (Z * Z); ctr : Z -> option Z; obj : Z -> option Z; made : Z; gone : list Z; thr : list thread }.

Section Arc.
(** width of long; offsetof(rep, value), sizeof(rep), sizeof(value), and the dummy bytes of
    _from_ptr (4, arc.h 128). *)
Variables w OFFSET REP VAL EXTRA : Z.

Definition inside (bs : list (Z * Z)) (a : Z) : bool := existsb (fun b => (fst b <=? a) && (a <? fst b + snd b)) bs.
(** malloc may return any address where a free range of [n] bytes starts. *)
Definition place (bs : list (Z * Z)) (a n : Z) : bool :=
  (0 <? a) && forallb (fun b => (a + n <=? fst b) || (fst b + snd b <=? a)) bs.
Fixpoint free (bs : list (Z * Z)) (a n : Z) : res (list (Z * Z)) :=
  match bs with
  | [] => Err UseAfterFree
  | b :: t => if fst b =? a then (if snd b =? n then Ok t else Err OOB) else let* t' := free t a n in Ok (b :: t')
  end.
Definition wrap (x : Z) : Z := x mod 2 ^ w.
Definition setf {B} (f : Z -> option B) (a : Z) (x : option B) : Z -> option B := fun b => if b =? a then x else f b.
Definition load (g : state) (u : Z) : res Z :=
  if inside (blocks g) u then match ctr g u with Some v => Ok v | None => Err Uninit end else Err UseAfterFree.

(** arc.h 110-111 _use_count. *)
Definition use_count (g : state) (h : handle) : res Z := if uc h =? 0 then Ok 0 else load g (uc h).

(** the k-th element and the rest *)
Fixpoint pick {B} (k : nat) (l : list B) : option (B * list B) :=
  match l, k with
  | [], _ => None
  | x :: t, O => Some (x, t)
  | x :: t, S k' => match pick k' t with Some (y, t') => Some (y, x :: t') | None => None end
  end.

Inductive op :=
| Init                        (* arc.h 107-108 _init, or _from_ptr(NULL) *)
| Alloc (p : Z)               (* the client creates an object of its own at p *)
| Make (a : Z)                (* arc.h 115-121 _make (_from); a is the block from malloc *)
| FromPtr (k : nat) (a : Z)   (* arc.h 123-132 _from_ptr of the k-th object of the client *)
| Clone (k : nat)             (* arc.h 182-185 _clone of the k-th handle *)
| Move (k : nat)              (* arc.h 156-160 _move *)
| Drop (k : nat)              (* arc.h 141-142 _drop, up to the test *)
| Continue (k : nat)          (* arc.h 143-152: the next action of an unfinished drop *)
| Send (k : nat) (j : Z).     (* the k-th handle is handed to thread j *)

Definition with_thr (g : state) (i : Z) (t : thread) : res state :=
  let* ts := aset (thr g) i t in Ok (mks (blocks g) (ctr g) (obj g) (made g) (gone g) ts).

(** One step of thread [i]; [None]: not possible (no such handle, not an address malloc returns). *)
Definition step (g : state) (i : Z) (o : op) : option (res state) :=
  match aget (thr g) i with
  | Err _ => None
  | Ok t =>
    match o with
    | Init => Some (with_thr g i (mkt (null :: hs t) (raws t) (pend t)))
    | Alloc p =>
        if place (blocks g) p VAL then
          Some (with_thr (mks ((p, VAL) :: blocks g) (ctr g) (setf (obj g) p (Some (made g))) (made g + 1) (gone g) (thr g)) i (mkt (hs t) (p :: raws t) (pend t)))
        else None
    | Make a =>
        if place (blocks g) a REP then
          Some (with_thr (mks ((a, REP) :: blocks g) (setf (ctr g) a (Some 1)) (setf (obj g) (a + OFFSET) (Some (made g))) (made g + 1) (gone g) (thr g)) i
                 (mkt (mkh (a + OFFSET) a :: hs t) (raws t) (pend t)))
        else None
    | FromPtr k a =>
        match pick k (raws t) with
        | Some (p, rs) =>
            if place (blocks g) a (OFFSET + EXTRA) then
              Some (with_thr (mks ((a, OFFSET + EXTRA) :: blocks g) (setf (ctr g) a (Some 1)) (obj g) (made g) (gone g) (thr g)) i
                     (mkt (mkh p a :: hs t) rs (pend t)))
            else None
        | None => None
        end
    | Clone k =>
        match pick k (hs t) with
        | Some (h, _) =>
            if uc h =? 0 then Some (with_thr g i (mkt (h :: hs t) (raws t) (pend t))) else
            Some (let* v := load g (uc h) in
                  with_thr (mks (blocks g) (setf (ctr g) (uc h) (Some (wrap (v + 1)))) (obj g) (made g) (gone g) (thr g)) i (mkt (h :: hs t) (raws t) (pend t)))
        | None => None
        end
    | Move k =>
        match pick k (hs t) with
        | Some (h, rest) => Some (with_thr g i (mkt (h :: null :: rest) (raws t) (pend t)))
        | None => None
        end
    | Drop k =>
        match pick k (hs t) with
        | Some (h, rest) =>
            if uc h =? 0 then Some (with_thr g i (mkt rest (raws t) (pend t))) else
            Some (let* v := load g (uc h) in
                  let v' := wrap (v - 1) in
                  with_thr (mks (blocks g) (setf (ctr g) (uc h) (Some v')) (obj g) (made g) (gone g) (thr g)) i
                    (mkt rest (raws t) (if v' =? 0 then (h, SDestroy) :: pend t else pend t)))
        | None => None
        end
    | Continue k =>
        match pick k (pend t) with
        | Some ((h, SDestroy), rest) =>
            Some (if inside (blocks g) (get h) then
                    match obj g (get h) with
                    | Some id => with_thr (mks (blocks g) (ctr g) (setf (obj g) (get h) None) (made g) (gone g ++ [id]) (thr g)) i (mkt (hs t) (raws t) ((h, SFree) :: rest))
                    | None => Err Uninit
                    end
                  else Err UseAfterFree)
        | Some ((h, SFree), rest) =>
            Some (if uc h + OFFSET =? get h then
                    let* bs := free (blocks g) (uc h) REP in
                    with_thr (mks bs (ctr g) (obj g) (made g) (gone g) (thr g)) i (mkt (hs t) (raws t) rest)
                  else
                    let* bs := free (blocks g) (uc h) (OFFSET + EXTRA) in
                    with_thr (mks bs (ctr g) (obj g) (made g) (gone g) (thr g)) i (mkt (hs t) (raws t) ((h, SFree2) :: rest)))
        | Some ((h, SFree2), rest) =>
            Some (let* bs := free (blocks g) (get h) VAL in
                  with_thr (mks bs (ctr g) (obj g) (made g) (gone g) (thr g)) i (mkt (hs t) (raws t) rest))
        | None => None
        end
    | Send k j =>
        match pick k (hs t) with
        | Some (h, rest) =>
            match with_thr g i (mkt rest (raws t) (pend t)) with
            | Ok g1 => match aget (thr g1) j with
                       | Ok t2 => Some (with_thr g1 j (mkt (h :: hs t2) (raws t2) (pend t2)))
                       | Err _ => None
                       end
            | Err e => Some (Err e)
            end
        | None => None
        end
    end
  end.

Fixpoint run (g : state) (l : list (Z * op)) : option (res state) :=
  match l with
  | [] => Some (Ok g)
  | (i, o) :: l' =>
      match step g i o with
      | None => None
      | Some (Err e) => Some (Err e)
      | Some (Ok g') => run g' l'
      end
  end.
(** [n] threads without handles. *)
Definition start (n : nat) : state := mks [] (fun _ => None) (fun _ => None) 0 [] (repeat (mkt [] [] []) n).
End Arc.

(** arc.h 97-100: counting without atomics (i_no_atomic), on one counter: ++ and -- are a load into
    a register of the thread and a store.  [owned] is the number of handles of each thread. *)
Record plain := mkp { pc : Z; regs : list (option Z); owned : list Z; destroyed : bool }.
Inductive pop := PLoad (i : Z) | PInc (i : Z) | PDec (i : Z).
Definition pstep (s : plain) (o : pop) : res plain :=
  match o with
  | PLoad i => let* r := aset (regs s) i (Some (pc s)) in Ok (mkp (pc s) r (owned s) (destroyed s))
  | PInc i =>
      let* v := aget (regs s) i in
      let* n := aget (owned s) i in
      let* ow := aset (owned s) i (n + 1) in
      match v with Some x => Ok (mkp (x + 1) (regs s) ow (destroyed s)) | None => Err Uninit end
  | PDec i =>
      let* v := aget (regs s) i in
      let* n := aget (owned s) i in
      let* ow := aset (owned s) i (n - 1) in
      match v with Some x => Ok (mkp (x - 1) (regs s) ow (destroyed s || (x - 1 =? 0))) | None => Err Uninit end
  end.
Fixpoint prun (s : plain) (l : list pop) : res plain :=
  match l with [] => Ok s | o :: l' => let* s' := pstep s o in prun s' l' end.
