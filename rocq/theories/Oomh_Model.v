(** Model of hmap.h when memory may run out: as Hmap_Model.v, with the outcomes [a] of the
    two allocations of a new table (false: NULL). *)
From Verif Require Import Base Slots Pow2 Float32 Hmap_Model.

Section OomHmap.
Context {K V : Type}.
Variable hash : K -> Z.
Variable eqb : K -> K -> bool.
Implicit Types (h : hmap K V).

(** Outcomes of i_malloc for the table and i_calloc (i_malloc in _clone) for the meta data. *)
Definition alloc : Type := (bool * bool)%type.
(** hmap.h 466: ok = map.table && map.meta. *)
Definition granted (a : alloc) : bool := fst a && snd a.

(** hmap.h 451-481 _reserve: if an allocation fails, what was obtained is freed (479, 480) and
    false is returned. *)
Definition reserve_f (a : alloc) h (cap : Z) : res (hmap K V * bool) :=
  let nb := buckets_for cap in
  if (cap <? size h) || (nb =? bcount h) then Ok (h, true) else
  if granted a then let* h' := reserve hash eqb h cap in Ok (h', true)
  else Ok (h, false).

(** hmap.h 116-125 _insert_entry_: a null result if there is no memory to grow. *)
Definition insert_entry_f (a : alloc) h (k : K) : res (hmap K V * result) :=
  let* r := if size h >=? load_limit (bcount h) then reserve_f a h (size h * 3 / 2 + 2) else Ok (h, true) in
  if negb (snd r) then Ok (fst r, mkresult None 0 false 0 0) else
  let* q := bucket_insert hash eqb (fst r) k in
  let h2 := fst q in
  Ok (mkhmap (table h2) (metas h2) (size h2 + (if r_inserted (snd q) then 1 else 0)) (bcount h2), snd q).

(** The results are: map, destroyed objects, [inserted], and whether [ref] is not NULL. *)
Definition out : Type := (hmap K V * list (destroyed K V) * bool * bool)%type.
Definition found (r : result) : bool := match r_ref r with Some _ => true | None => false end.

(** hmap.h 191-199 _insert (and 201-208 _push). *)
Definition insert_f (a : alloc) h (k : K) (v : V) : res out :=
  let* r := insert_entry_f a h k in
  if r_inserted (snd r) then
    let* i := the_ref (snd r) in
    let* h' := put_ref (fst r) i (k, v) in Ok (h', [], true, true)
  else Ok (fst r, [DKey k; DVal v], false, found (snd r)).
(** hmap.h 159-167 _emplace. *)
Definition emplace_f (a : alloc) h (k : K) (v : V) : res out :=
  let* r := insert_entry_f a h k in
  if r_inserted (snd r) then
    let* i := the_ref (snd r) in
    let* h' := put_ref (fst r) i (k, v) in Ok (h', [], true, true)
  else Ok (fst r, [], false, found (snd r)).
(** hmap.h 347-357 _insert_or_assign: without [ref], [_mp] is the argument itself. *)
Definition insert_or_assign_f (a : alloc) h (k : K) (v : V) : res out :=
  let* r := insert_entry_f a h k in
  if r_inserted (snd r) then
    let* i := the_ref (snd r) in
    let* h' := put_ref (fst r) i (k, v) in Ok (h', [], true, true)
  else match r_ref (snd r) with
  | Some i =>
    let* e := rd (table (fst r)) i in
    let* h' := put_ref (fst r) i (fst e, v) in Ok (h', [DKey k; DVal (snd e)], false, true)
  | None => Ok (fst r, [DKey k; DVal v], false, false)
  end.
(** hmap.h 360-371 _emplace_or_assign (also 211-217 _put). *)
Definition emplace_or_assign_f (a : alloc) h (k : K) (v : V) : res out :=
  let* r := insert_entry_f a h k in
  if r_inserted (snd r) then
    let* i := the_ref (snd r) in
    let* h' := put_ref (fst r) i (k, v) in Ok (h', [], true, true)
  else match r_ref (snd r) with
  | None => Ok (fst r, [], false, false)
  | Some i =>
    let* e := rd (table (fst r)) i in
    let* h' := put_ref (fst r) i (fst e, v) in Ok (h', [DVal (snd e)], false, true)
  end.

(** One operation; the last component says whether it had its memory. *)
Definition step_f (a : alloc) h (o : op K V) : res out :=
  match o with
  | Insert k v => insert_f a h k v
  | Emplace k v => emplace_f a h k v
  | InsertOrAssign k v => insert_or_assign_f a h k v
  | EmplaceOrAssign k v => emplace_or_assign_f a h k v
  | Reserve cap => let* r := reserve_f a h cap in Ok (fst r, [], snd r, snd r)
  | ShrinkToFit => let* r := reserve_f a h (size h) in Ok (fst r, [], true, snd r)
  | _ => let* r := step hash eqb h o in Ok (fst (fst r), snd (fst r), snd r, true)
  end.
Fixpoint run_f h (ops : list (alloc * op K V)) : res (hmap K V * list (list (destroyed K V) * bool * bool)) :=
  match ops with
  | [] => Ok (h, [])
  | (a, o) :: rest =>
    let* r := step_f a h o in
    let '(h1, d, b, ok) := r in
    let* q := run_f h1 rest in
    Ok (fst q, (d, b, ok) :: snd q)
  end.

(** hmap.h 428-448 _clone: without memory the table is NULL and bucket_count 0; size is kept. *)
Definition clone_f (a : alloc) h : res (hmap K V) :=
  if negb (bcount h =? 0) && negb (granted a) then Ok (mkhmap [] [] (size h) 0) else clone h.
End OomHmap.
