(** Model of smap.h when memory may run out: as Smap_Model.v, with the outcome [a] of the one
    i_realloc an operation may ask for (false: NULL). *)
From Verif Require Import Base Slots Smap_Model.

Section OomSmap.
Context {K V : Type}.
Variable cmp : K -> K -> Z.
Implicit Types (s : smap K V).

(** smap.h 290-302 _reserve. *)
Definition reserve_f (a : bool) s (c : Z) : res (smap K V * bool) :=
  if negb (c <=? cap s) && negb a then Ok (s, false) else reserve s c.
(** smap.h 322-337 _new_node_: 0 if there is no memory. *)
Definition new_node_f (a : bool) s (level : Z) : res (smap K V * Z) :=
  if (disp s =? 0) && (head s =? cap s) && negb a then
    if 2 ^ 31 <=? head s * 3 then Err Overflow else Ok (s, 0)
  else new_node s level.
(** smap.h 420-460 _insert_entry_i_, _insert_entry_: node (0: res.ref is NULL), inserted.  If
    there is no node, _insert_entry_i_ returns 0 (434, 435), which becomes the root (456). *)
Definition insert_entry_f (a : bool) s (k : K) : res (smap K V * Z * bool) :=
  let* r := descend cmp 65 (nodes s) (root s) k [] false in
  match r with
  | inl i => Ok (s, i, false)
  | inr (up, dir) =>
    let* q := new_node_f a s 1 in
    let s1 := fst q in let tx := snd q in
    if tx =? 0 then Ok (mksmap (nodes s1) 0 (disp s1) (head s1) (size s1) (cap s1), 0, false) else
    match up with
    | [] => Ok (mksmap (nodes s1) tx (disp s1) (head s1) (size s1 + 1) (cap s1), tx, true)
    | u :: _ =>
      let* d := set_link (nodes s1) u dir tx in
      let* f := fix_loop d up in
      Ok (mksmap (fst f) (snd f) (disp s1) (head s1) (size s1 + 1) (cap s1), tx, true)
    end
  end.

(** smap.h 218-226 _insert (and 228-235 _push), 569-577 _emplace, 340-350 _insert_or_assign,
    353-364 _emplace_or_assign: map, destroyed objects, inserted; the other operations are
    those of Smap_Model.v. *)
Definition step_f (a : bool) s (o : op K V) : res (smap K V * list (destroyed K V) * bool) :=
  match o with
  | Insert k v =>
    let* r := insert_entry_f a s k in
    let '(s1, i, ins) := r in
    if ins then let* s2 := put_val s1 i (k, v) in Ok (s2, [], true) else Ok (s1, [DKey k; DVal v], false)
  | Emplace k v =>
    let* r := insert_entry_f a s k in
    let '(s1, i, ins) := r in
    if ins then let* s2 := put_val s1 i (k, v) in Ok (s2, [], true) else Ok (s1, [], false)
  | InsertOrAssign k v =>
    let* r := insert_entry_f a s k in
    let '(s1, i, ins) := r in
    if ins then let* s2 := put_val s1 i (k, v) in Ok (s2, [], true)
    else if i =? 0 then Ok (s1, [DKey k; DVal v], false)
    else
      let* e := get_val (nodes s1) i in
      let* s2 := put_val s1 i (fst e, v) in Ok (s2, [DKey k; DVal (snd e)], false)
  | EmplaceOrAssign k v =>
    let* r := insert_entry_f a s k in
    let '(s1, i, ins) := r in
    if ins then let* s2 := put_val s1 i (k, v) in Ok (s2, [], true)
    else if i =? 0 then Ok (s1, [], false)
    else
      let* e := get_val (nodes s1) i in
      let* s2 := put_val s1 i (fst e, v) in Ok (s2, [DVal (snd e)], false)
  | Reserve c => let* r := reserve_f a s c in Ok (fst r, [], true)
  | _ => step cmp s o
  end.

(** smap.h 546-555 _clone_r_ with the outcomes of the reallocs; nodes[0] of a NULL array is
    written when there is no node. *)
Fixpoint clone_r_f (fuel : nat) (al : list bool) s (src : slots (node K V)) (sn : Z) : res (smap K V * Z * list bool) :=
  match fuel with
  | O => Err OutOfFuel
  | S fuel' =>
    if sn =? 0 then Ok (s, 0, al) else
    let* n := rd src sn in
    let asks := (disp s =? 0) && (head s =? cap s) in
    let* q := new_node_f (if asks then hd true al else true) s (lev n) in
    let al := if asks then tl al else al in
    let t := snd q in
    let* e := get_val src sn in
    let* s1 := if zlen (nodes (fst q)) =? 0 then Err NullDeref else put_val (fst q) t e in
    let* q0 := clone_r_f fuel' al s1 src (lk0 n) in
    let '(s2, x0, al) := q0 in
    let* d0 := set_link (nodes s2) t false x0 in
    let s2 := mksmap d0 (root s2) (disp s2) (head s2) (size s2) (cap s2) in
    let* q1 := clone_r_f fuel' al s2 src (lk1 n) in
    let '(s3, x1, al) := q1 in
    let* d1 := set_link (nodes s3) t true x1 in
    Ok (mksmap d1 (root s3) (disp s3) (head s3) (size s3) (cap s3), t, al)
  end.
(** smap.h 557-565 _clone; the result of _with_capacity (127-131) is not looked at. *)
Definition clone_f (al : list bool) s : res (smap K V) :=
  let* w := reserve_f (hd true al) init (size s) in
  let* q := clone_r_f (S (length (nodes s))) (tl al) (fst w) (nodes s) (root s) in
  let '(c, t, _) := q in
  Ok (mksmap (nodes c) t (disp c) (head s) (size s) (cap c)).
End OomSmap.
