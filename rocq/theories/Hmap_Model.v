(** Model of hmap.h (hash map; hset.h is the same code without mapped values). *)
From Verif Require Import Base Slots Pow2 Float32.

(** hmap.h 57: struct hmap_meta, a 6-bit hash fragment and a 10-bit probe distance
    (0 = empty, 1 = at its home bucket, ...).  Assigning to [dist] reduces modulo 1024. *)
Record meta : Type := mkmeta { hashx : Z; dist : Z }.
Definition meta0 : meta := mkmeta 0 0.
(** hmap.h 55-56. *)
Definition hashmask : Z := 63.
Definition distmask : Z := 1023.
(** increment of the 10-bit field *)
Definition dist_inc (m : meta) : meta := mkmeta (hashx m) ((dist m + 1) mod 1024).
Definition dist_dec (m : meta) : meta := mkmeta (hashx m) ((dist m - 1) mod 1024).

Section HmapModel.
Context {K V : Type}.
(** i_hash and i_eq on raw keys (a raw key is a copy of the key). *)
Variable hash : K -> Z.
Variable eqb : K -> K -> bool.

(** types.h 149-154: table, meta, size, bucket_count.  [table] has bucket_count slots and
    [metas] bucket_count + 1 entries (the last is the end mark); both are NULL (empty
    lists) when bucket_count is 0. *)
Record hmap : Type := mkhmap { table : slots (K * V); metas : list meta; size : Z; bcount : Z }.

(** What the element destructors are called on. *)
Inductive destroyed : Type := DKey (k : K) | DVal (v : V).
(** hmap.h 175-178 _value_drop. *)
Definition value_drop (e : K * V) : list destroyed := [DKey (fst e); DVal (snd e)].

(** hmap.h 104 _init. *)
Definition init : hmap := mkhmap [] [] 0 0.
(** hmap.h 311-313 _capacity, and the bound used in 118. *)
Definition load_limit (b : Z) : Z := f32_trunc (f32_mul (f32_of_int b) f32_080).
Definition capacity (h : hmap) : Z := load_limit (bcount h).

(** types.h 136-142: the result of a probe; [r_ref] is an index of [table]. *)
Record result : Type := mkresult {
  r_ref : option Z; r_idx : Z; r_inserted : bool; r_hashx : Z; r_dist : Z }.

(** hmap.h 381-391: the probe loop.  [r_dist] is a uint16_t. *)
Fixpoint lookup_loop (fuel : nat) (h : hmap) (k : K) (idx hx d : Z) : res result :=
  match fuel with
  | O => Err OutOfFuel
  | S fuel' =>
    let* m := aget (metas h) idx in
    if d <=? dist m then
      let go := lookup_loop fuel' h k (Z.land (idx + 1) (bcount h - 1)) hx ((d + 1) mod 65536) in
      if hashx m =? hx then
        let* e := rd (table h) idx in
        if eqb (fst e) k then Ok (mkresult (Some idx) idx false hx d) else go
      else go
    else Ok (mkresult None idx false hx d)
  end.
(** hmap.h 375-393 _bucket_lookup_.  A stored distance is at most 1023, so the loop stops
    by itself within 1025 rounds.  With a NULL table the C code dereferences NULL. *)
Definition probe_fuel : nat := Z.to_nat 1025.
Definition bucket_lookup (h : hmap) (k : K) : res result :=
  if bcount h =? 0 then Err NullDeref else
  lookup_loop probe_fuel h k (Z.land (hash k) (bcount h - 1))
    (Z.land (Z.shiftr (hash k) 24) hashmask) 1.

(** hmap.h 408-422: displace poorer entries until an empty bucket is found. *)
Fixpoint shift_loop (fuel : nat) (ms : list meta) (t : slots (K * V)) (mask idx : Z)
    (mcur : meta) (dcur : K * V) : res (list meta * slots (K * V)) :=
  match fuel with
  | O => Err OutOfFuel
  | S fuel' =>
    let idx := Z.land (idx + 1) mask in
    let mcur := dist_inc mcur in
    let* m := aget ms idx in
    if dist m =? 0 then
      let* ms' := aset ms idx mcur in
      let* t' := wr t idx dcur in
      Ok (ms', t')
    else if dist m <? dist mcur then
      let* d := rd t idx in
      let* ms' := aset ms idx mcur in
      let* t' := wr t idx dcur in
      shift_loop fuel' ms' t' mask idx m d
    else shift_loop fuel' ms t mask idx mcur dcur
  end.
(** hmap.h 395-424 _bucket_insert_.  The slot [r_ref] is to be written by the caller. *)
Definition bucket_insert (h : hmap) (k : K) : res (hmap * result) :=
  let* r := bucket_lookup h k in
  match r_ref r with
  | Some _ => Ok (h, r)
  | None =>
    let idx := r_idx r in
    let mnew := mkmeta (Z.land (r_hashx r) hashmask) (Z.land (r_dist r) distmask) in
    let* mcur := aget (metas h) idx in
    let* ms := aset (metas h) idx mnew in
    let r' := mkresult (Some idx) idx true (r_hashx r) (r_dist r) in
    if negb (dist mcur =? 0) then
      let* dcur := rd (table h) idx in
      let* q := shift_loop (S (Z.to_nat (bcount h))) ms (table h) (bcount h - 1) idx mcur dcur in
      Ok (mkhmap (snd q) (fst q) (size h) (bcount h), r')
    else Ok (mkhmap (table h) ms (size h) (bcount h), r')
  end.
(** Write through [res.ref]. *)
Definition put_ref (h : hmap) (i : Z) (e : K * V) : res hmap :=
  let* t := wr (table h) i e in Ok (mkhmap t (metas h) (size h) (bcount h)).

(** hmap.h 472-476: move every entry of the old table to the new one. *)
Fixpoint rehash_loop (fuel : nat) (old new : hmap) (i : Z) : res hmap :=
  match fuel with
  | O => Err OutOfFuel
  | S fuel' =>
    if i <? bcount old then
      let* m := aget (metas old) i in
      if negb (dist m =? 0) then
        let* d := rd (table old) i in
        let* r := bucket_insert new (fst d) in
        match r_ref (snd r) with
        | Some p => let* new' := put_ref (fst r) p d in rehash_loop fuel' old new' (i + 1)
        | None => Err NullDeref
        end
      else rehash_loop fuel' old new (i + 1)
    else Ok new
  end.
(** hmap.h 454, 455 *)
Definition buckets_for (cap : Z) : Z :=
  next_pow2 (f32_trunc (f32_div (f32_of_int cap) f32_080) + 4).
(** hmap.h 451-481 _reserve; allocation succeeds, so the result is always true. *)
Definition reserve (h : hmap) (cap : Z) : res hmap :=
  let nb := buckets_for cap in
  if (cap <? size h) || (nb =? bcount h) then Ok h else
  let* ms := aset (repeat meta0 (Z.to_nat (nb + 1))) nb (mkmeta 0 distmask) in
  let new := mkhmap (repeat None (Z.to_nat nb)) ms (size h) nb in
  rehash_loop (S (Z.to_nat (bcount h))) h new 0.
(** hmap.h 105 _shrink_to_fit. *)
Definition shrink_to_fit (h : hmap) : res hmap := reserve h (size h).
(** hmap.h 315-319 _with_capacity. *)
Definition with_capacity (cap : Z) : res hmap := reserve init cap.

(** hmap.h 116-125 _insert_entry_. *)
Definition insert_entry (h : hmap) (k : K) : res (hmap * result) :=
  let* h1 := if size h >=? load_limit (bcount h) then reserve h (size h * 3 / 2 + 2) else Ok h in
  let* r := bucket_insert h1 k in
  let h2 := fst r in
  Ok (mkhmap (table h2) (metas h2) (size h2 + (if r_inserted (snd r) then 1 else 0)) (bcount h2), snd r).

Definition the_ref (r : result) : res Z :=
  match r_ref r with Some i => Ok i | None => Err NullDeref end.

(** hmap.h 191-199 _insert (and 201-208 _push): new map, destroyed keys/values, inserted?. *)
Definition insert (h : hmap) (k : K) (v : V) : res (hmap * list destroyed * bool) :=
  let* r := insert_entry h k in
  if r_inserted (snd r) then
    let* i := the_ref (snd r) in
    let* h' := put_ref (fst r) i (k, v) in Ok (h', [], true)
  else Ok (fst r, [DKey k; DVal v], false).
(** hmap.h 159-167 _emplace: the key and value objects are only made if inserted. *)
Definition emplace (h : hmap) (k : K) (v : V) : res (hmap * list destroyed * bool) :=
  let* r := insert_entry h k in
  if r_inserted (snd r) then
    let* i := the_ref (snd r) in
    let* h' := put_ref (fst r) i (k, v) in Ok (h', [], true)
  else Ok (fst r, [], false).
(** hmap.h 347-357 _insert_or_assign. *)
Definition insert_or_assign (h : hmap) (k : K) (v : V) : res (hmap * list destroyed * bool) :=
  let* r := insert_entry h k in
  let* i := the_ref (snd r) in
  if r_inserted (snd r) then
    let* h' := put_ref (fst r) i (k, v) in Ok (h', [], true)
  else
    let* e := rd (table (fst r)) i in
    let* h' := put_ref (fst r) i (fst e, v) in Ok (h', [DKey k; DVal (snd e)], false).
(** hmap.h 360-371 _emplace_or_assign (also 211-217 _put). *)
Definition emplace_or_assign (h : hmap) (k : K) (v : V) : res (hmap * list destroyed * bool) :=
  let* r := insert_entry h k in
  let* i := the_ref (snd r) in
  if r_inserted (snd r) then
    let* h' := put_ref (fst r) i (k, v) in Ok (h', [], true)
  else
    let* e := rd (table (fst r)) i in
    let* h' := put_ref (fst r) i (fst e, v) in Ok (h', [DVal (snd e)], false).

(** hmap.h 109-110 _contains, 259-262 _get: the entry found. *)
Definition get (h : hmap) (k : K) : res (option (K * V)) :=
  if size h =? 0 then Ok None else
  let* r := bucket_lookup h k in
  match r_ref r with
  | None => Ok None
  | Some i => let* e := rd (table h) i in Ok (Some e)
  end.
Definition contains (h : hmap) (k : K) : res bool :=
  let* o := get h k in Ok (match o with Some _ => true | None => false end).
(** hmap.h 133-137 _at: no test for an empty map. *)
Definition at_ (h : hmap) (k : K) : res V :=
  let* r := bucket_lookup h k in
  match r_ref r with
  | None => Err AssertFail
  | Some i => let* e := rd (table h) i in Ok (snd e)
  end.

(** hmap.h 491-499: backward shift. *)
Fixpoint erase_loop (fuel : nat) (ms : list meta) (t : slots (K * V)) (mask i j : Z)
    : res (list meta * slots (K * V) * Z) :=
  match fuel with
  | O => Err OutOfFuel
  | S fuel' =>
    let j := Z.land (j + 1) mask in
    let* m := aget ms j in
    if dist m <? 2 then Ok (ms, t, i)
    else
      let* o := aget t j in
      let* t' := aset t i o in
      let* ms' := aset ms i (dist_dec m) in
      erase_loop fuel' ms' t' mask j j
  end.
(** hmap.h 483-502 _erase_entry; [i] is the index of the erased bucket. *)
Definition erase_entry (h : hmap) (i : Z) : res (hmap * list destroyed) :=
  let* e := rd (table h) i in
  let* r := erase_loop (S (Z.to_nat (bcount h))) (metas h) (table h) (bcount h - 1) i i in
  let '(ms, t, p) := r in
  let* m := aget ms p in
  let* ms' := aset ms p (mkmeta (hashx m) 0) in
  Ok (mkhmap t ms' (size h - 1) (bcount h), value_drop e).
(** hmap.h 268-274 _erase. *)
Definition erase (h : hmap) (k : K) : res (hmap * list destroyed * bool) :=
  if size h =? 0 then Ok (h, [], false) else
  let* r := bucket_lookup h k in
  match r_ref r with
  | None => Ok (h, [], false)
  | Some i => let* q := erase_entry h i in Ok (fst q, snd q, true)
  end.

(** hmap.h 321-329 _wipe_: what is destroyed. *)
Fixpoint wipe_loop (fuel : nat) (h : hmap) (i : Z) : res (list destroyed) :=
  match fuel with
  | O => Err OutOfFuel
  | S fuel' =>
    if i =? bcount h then Ok [] else
    let* m := aget (metas h) i in
    if negb (dist m =? 0) then
      let* e := rd (table h) i in
      let* r := wipe_loop fuel' h (i + 1) in Ok (value_drop e ++ r)
    else wipe_loop fuel' h (i + 1)
  end.
Definition wipe (h : hmap) : res (list destroyed) :=
  if size h =? 0 then Ok [] else wipe_loop (S (Z.to_nat (bcount h))) h 0.
(** hmap.h 331-338 _drop. *)
Definition drop (h : hmap) : res (list destroyed) :=
  if bcount h >? 0 then wipe h else Ok [].
(** hmap.h 340-344 _clear. *)
Definition clear (h : hmap) : res (hmap * list destroyed) :=
  let* d := wipe h in
  let* ms := ablit (metas h) 0 (repeat meta0 (Z.to_nat (bcount h))) in
  Ok (mkhmap (table h) ms 0 (bcount h), d).

(** Iterators: [ref] as an index of [table] ([None] is NULL) and [_mref] as an index of
    [metas]; [_end] is bucket_count. *)
Record iter : Type := mkiter { ref : option Z; mref : Z }.
Fixpoint skip_empty (fuel : nat) (ms : list meta) (p : Z) : res Z :=
  match fuel with
  | O => Err OutOfFuel
  | S fuel' => let* m := aget ms p in if dist m =? 0 then skip_empty fuel' ms (p + 1) else Ok p
  end.
(** hmap.h 297-305 _begin. *)
Definition begin (h : hmap) : res iter :=
  if bcount h =? 0 then Ok (mkiter None 0) else
  let* p := skip_empty (S (S (Z.to_nat (bcount h)))) (metas h) 0 in
  Ok (mkiter (if p =? bcount h then None else Some p) p).
(** hmap.h 239-242 _next (it->ref is not NULL; ref and _mref advance together). *)
Definition next (h : hmap) (it : iter) : res iter :=
  match ref it with
  | None => Err NullDeref
  | Some r =>
    let* p := skip_empty (S (S (Z.to_nat (bcount h)))) (metas h) (mref it + 1) in
    let r' := r + (p - mref it) in
    Ok (mkiter (if r' =? bcount h then None else Some r') p)
  end.
(** common.h 164-165 c_each_3: the entries visited. *)
Fixpoint each_loop (fuel : nat) (h : hmap) (it : iter) : res (list (K * V)) :=
  match fuel with
  | O => Err OutOfFuel
  | S fuel' =>
    match ref it with
    | None => Ok []
    | Some r =>
      let* e := rd (table h) r in
      let* it' := next h it in
      let* l := each_loop fuel' h it' in Ok (e :: l)
    end
  end.
Definition each (h : hmap) : res (list (K * V)) :=
  let* it := begin h in each_loop (S (S (Z.to_nat (bcount h)))) h it.
(** hmap.h 249-257 _find. *)
Definition find (h : hmap) (k : K) : res iter :=
  if size h =? 0 then Ok (mkiter None 0) else
  let* r := bucket_lookup h k in
  match r_ref r with
  | None => Ok (mkiter None 0)
  | Some i => Ok (mkiter (Some i) i)
  end.

(** hmap.h 276-282 _erase_at. *)
Definition erase_at (h : hmap) (it : iter) : res (hmap * list destroyed * iter) :=
  match ref it with
  | None => Err NullDeref
  | Some i =>
    let* q := erase_entry h i in
    let* m := aget (metas (fst q)) (mref it) in
    if dist m =? 0 then let* it' := next (fst q) it in Ok (fst q, snd q, it')
    else Ok (fst q, snd q, it)
  end.
(** sys/utility.h 76-83 c_erase_if; also returns the entries the predicate was called on.
    Every round either advances (at most bucket_count times) or erases (at most size times). *)
Fixpoint erase_if_loop (fuel : nat) (p : K * V -> bool) (h : hmap) (it : iter)
    : res (hmap * list destroyed * list (K * V)) :=
  match fuel with
  | O => Err OutOfFuel
  | S fuel' =>
    match ref it with
    | None => Ok (h, [], [])
    | Some r =>
      let* e := rd (table h) r in
      if p e then
        let* q := erase_at h it in
        let '(h', d, it') := q in
        let* w := erase_if_loop fuel' p h' it' in
        let '(h2, d2, s2) := w in Ok (h2, d ++ d2, e :: s2)
      else
        let* it' := next h it in
        let* w := erase_if_loop fuel' p h it' in
        let '(h2, d2, s2) := w in Ok (h2, d2, e :: s2)
    end
  end.
Definition erase_if (p : K * V -> bool) (h : hmap) : res (hmap * list destroyed * list (K * V)) :=
  let* it := begin h in erase_if_loop (S (S (Z.to_nat (bcount h + size h)))) p h it.

(** hmap.h 284-292 _eq: compares the key sets only. *)
Fixpoint eq_loop (fuel : nat) (h other : hmap) (it : iter) : res bool :=
  match fuel with
  | O => Err OutOfFuel
  | S fuel' =>
    match ref it with
    | None => Ok true
    | Some r =>
      let* e := rd (table h) r in
      let* c := contains other (fst e) in
      if negb c then Ok false else
      let* it' := next h it in eq_loop fuel' h other it'
    end
  end.
Definition eq (h other : hmap) : res bool :=
  if negb (size h =? size other) then Ok false else
  let* it := begin h in eq_loop (S (S (Z.to_nat (bcount h)))) h other it.

(** hmap.h 428-448 _clone: live slots are cloned (clone is the identity on values), the
    other slots of the new table stay uninitialised. *)
Fixpoint clone_slots (ms : list meta) (t : slots (K * V)) : res (slots (K * V)) :=
  match t, ms with
  | [], _ => Ok []
  | o :: t', m :: ms' =>
    let* r := clone_slots ms' t' in
    if negb (dist m =? 0) then
      match o with Some e => Ok (Some e :: r) | None => Err Uninit end
    else Ok (None :: r)
  | _ :: _, [] => Err OOB
  end.
Definition clone (h : hmap) : res hmap :=
  if negb (bcount h =? 0) then
    let* t := clone_slots (metas h) (table h) in
    Ok (mkhmap t (metas h) (size h) (bcount h))
  else Ok h.

(** Operation histories. *)
Inductive op : Type :=
| Insert (k : K) (v : V)
| Emplace (k : K) (v : V)
| InsertOrAssign (k : K) (v : V)
| EmplaceOrAssign (k : K) (v : V)
| Erase (k : K)
| EraseIf (p : K * V -> bool)
| Clear
| Reserve (cap : Z)
| ShrinkToFit.

(** One operation: new map, destroyed objects, and the bool of the C result ([inserted],
    or whether a key was erased). *)
Definition step (h : hmap) (o : op) : res (hmap * list destroyed * bool) :=
  match o with
  | Insert k v => insert h k v
  | Emplace k v => emplace h k v
  | InsertOrAssign k v => insert_or_assign h k v
  | EmplaceOrAssign k v => emplace_or_assign h k v
  | Erase k => erase h k
  | EraseIf p => let* r := erase_if p h in let '(h', d, _) := r in Ok (h', d, false)
  | Clear => let* r := clear h in Ok (fst r, snd r, false)
  | Reserve cap => let* r := reserve h cap in Ok (r, [], true)
  | ShrinkToFit => let* r := shrink_to_fit h in Ok (r, [], true)
  end.
Fixpoint run (h : hmap) (ops : list op) : res (hmap * list (list destroyed * bool)) :=
  match ops with
  | [] => Ok (h, [])
  | o :: rest =>
    let* r := step h o in
    let '(h1, d, b) := r in
    let* r2 := run h1 rest in
    Ok (fst r2, (d, b) :: snd r2)
  end.
End HmapModel.
Arguments hmap : clear implicits.
Arguments op : clear implicits.
Arguments destroyed : clear implicits.
