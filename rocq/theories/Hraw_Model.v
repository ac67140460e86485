(** Model of hmap.h and hset.h with i_keyraw and i_valraw: keys and values that are made from,
    looked up by and compared through raw values (as cstr through const char pointers).  Tables
    and the functions that see no raw value are those of Hmap_Model.v. *)
From Verif Require Import Base Slots Pow2 Float32 Hmap_Model.

Section HmapRaw.
Context {K V RK RV : Type}.
(** i_keytoraw, i_keyfrom, i_valfrom; i_hash and i_eq take raw keys. *)
Variable toraw : K -> RK.
Variable kfrom : RK -> K.
Variable vfrom : RV -> V.
Variable hash : RK -> Z.
Variable eqb : RK -> RK -> bool.
Implicit Types (h : hmap K V).

(** hmap.h 375-393 _bucket_lookup_: every stored key with the right hash fragment is turned
    into a raw key (383) and compared. *)
Fixpoint lookup_loop_r (fuel : nat) h (r : RK) (idx hx d : Z) : res result :=
  match fuel with
  | O => Err OutOfFuel
  | S fuel' =>
    let* m := aget (metas h) idx in
    if d <=? dist m then
      let go := lookup_loop_r fuel' h r (Z.land (idx + 1) (bcount h - 1)) hx ((d + 1) mod 65536) in
      if hashx m =? hx then
        let* e := rd (table h) idx in
        if eqb (toraw (fst e)) r then Ok (mkresult (Some idx) idx false hx d) else go
      else go
    else Ok (mkresult None idx false hx d)
  end.
Definition bucket_lookup_r h (r : RK) : res result :=
  if bcount h =? 0 then Err NullDeref else
  lookup_loop_r probe_fuel h r (Z.land (hash r) (bcount h - 1)) (Z.land (Z.shiftr (hash r) 24) hashmask) 1.
(** hmap.h 395-424 _bucket_insert_. *)
Definition bucket_insert_r h (rk : RK) : res (hmap K V * result) :=
  let* r := bucket_lookup_r h rk in
  match r_ref r with
  | Some _ => Ok (h, r)
  | None =>
    let idx := r_idx r in
    let mnew := mkmeta (Z.land (r_hashx r) hashmask) (Z.land (r_dist r) distmask) in
    let* mcur := aget (metas h) idx in
    let* ms := aset (metas h) idx mnew in
    let r' := mkresult (Some idx) idx true (r_hashx r) (r_dist r) in
    if negb (dist mcur =? 0) then
      let* dcur := rd (table h) idx in
      let* q := shift_loop (S (Z.to_nat (bcount h))) ms (table h) (bcount h - 1) idx mcur dcur in
      Ok (mkhmap (snd q) (fst q) (size h) (bcount h), r')
    else Ok (mkhmap (table h) ms (size h) (bcount h), r')
  end.
(** hmap.h 472-476: rehashing goes through the raw keys of the entries. *)
Fixpoint rehash_loop_r (fuel : nat) (old new : hmap K V) (i : Z) : res (hmap K V) :=
  match fuel with
  | O => Err OutOfFuel
  | S fuel' =>
    if i <? bcount old then
      let* m := aget (metas old) i in
      if negb (dist m =? 0) then
        let* d := rd (table old) i in
        let* r := bucket_insert_r new (toraw (fst d)) in
        match r_ref (snd r) with
        | Some p => let* new' := put_ref (fst r) p d in rehash_loop_r fuel' old new' (i + 1)
        | None => Err NullDeref
        end
      else rehash_loop_r fuel' old new (i + 1)
    else Ok new
  end.
(** hmap.h 451-481 _reserve. *)
Definition reserve_r h (cap : Z) : res (hmap K V) :=
  let nb := buckets_for cap in
  if (cap <? size h) || (nb =? bcount h) then Ok h else
  let* ms := aset (repeat meta0 (Z.to_nat (nb + 1))) nb (mkmeta 0 distmask) in
  let new := mkhmap (repeat None (Z.to_nat nb)) ms (size h) nb in
  rehash_loop_r (S (Z.to_nat (bcount h))) h new 0.
(** hmap.h 116-125 _insert_entry_. *)
Definition insert_entry_r h (rk : RK) : res (hmap K V * result) :=
  let* h1 := if size h >=? load_limit (bcount h) then reserve_r h (size h * 3 / 2 + 2) else Ok h in
  let* r := bucket_insert_r h1 rk in
  let h2 := fst r in
  Ok (mkhmap (table h2) (metas h2) (size h2 + (if r_inserted (snd r) then 1 else 0)) (bcount h2), snd r).

(** Results: map, destroyed objects, objects made by i_keyfrom and i_valfrom, inserted. *)
Definition out : Type := (hmap K V * list (destroyed K V) * list (destroyed K V) * bool)%type.
(** hmap.h 191-199 _insert (and 201-208 _push). *)
Definition insert_r h (k : K) (v : V) : res out :=
  let* r := insert_entry_r h (toraw k) in
  if r_inserted (snd r) then
    let* i := the_ref (snd r) in
    let* h' := put_ref (fst r) i (k, v) in Ok (h', [], [], true)
  else Ok (fst r, [DKey k; DVal v], [], false).
(** hmap.h 159-167 _emplace: nothing is made unless inserted. *)
Definition emplace_r h (rk : RK) (rv : RV) : res out :=
  let* r := insert_entry_r h rk in
  if r_inserted (snd r) then
    let* i := the_ref (snd r) in
    let k := kfrom rk in let v := vfrom rv in
    let* h' := put_ref (fst r) i (k, v) in Ok (h', [], [DKey k; DVal v], true)
  else Ok (fst r, [], [], false).
(** hmap.h 347-357 _insert_or_assign. *)
Definition insert_or_assign_r h (k : K) (v : V) : res out :=
  let* r := insert_entry_r h (toraw k) in
  let* i := the_ref (snd r) in
  if r_inserted (snd r) then
    let* h' := put_ref (fst r) i (k, v) in Ok (h', [], [], true)
  else
    let* e := rd (table (fst r)) i in
    let* h' := put_ref (fst r) i (fst e, v) in Ok (h', [DKey k; DVal (snd e)], [], false).
(** hmap.h 360-371 _emplace_or_assign (also 211-217 _put): the key is made only if inserted. *)
Definition emplace_or_assign_r h (rk : RK) (rv : RV) : res out :=
  let* r := insert_entry_r h rk in
  let* i := the_ref (snd r) in
  if r_inserted (snd r) then
    let k := kfrom rk in let v := vfrom rv in
    let* h' := put_ref (fst r) i (k, v) in Ok (h', [], [DKey k; DVal v], true)
  else
    let* e := rd (table (fst r)) i in
    let v := vfrom rv in
    let* h' := put_ref (fst r) i (fst e, v) in Ok (h', [DVal (snd e)], [DVal v], false).
(** hmap.h 109-110 _contains, 259-262 _get. *)
Definition get_r h (rk : RK) : res (option (K * V)) :=
  if size h =? 0 then Ok None else
  let* r := bucket_lookup_r h rk in
  match r_ref r with
  | None => Ok None
  | Some i => let* e := rd (table h) i in Ok (Some e)
  end.
Definition contains_r h (rk : RK) : res bool :=
  let* o := get_r h rk in Ok (match o with Some _ => true | None => false end).
(** hmap.h 268-274 _erase. *)
Definition erase_r h (rk : RK) : res out :=
  if size h =? 0 then Ok (h, [], [], false) else
  let* r := bucket_lookup_r h rk in
  match r_ref r with
  | None => Ok (h, [], [], false)
  | Some i => let* q := erase_entry h i in Ok (fst q, snd q, [], true)
  end.

Inductive rop : Type :=
| RInsert (k : K) (v : V)
| REmplace (rk : RK) (rv : RV)
| RInsertOrAssign (k : K) (v : V)
| REmplaceOrAssign (rk : RK) (rv : RV)
| RErase (rk : RK)
| RClear
| RReserve (cap : Z).
Definition step_r h (o : rop) : res out :=
  match o with
  | RInsert k v => insert_r h k v
  | REmplace rk rv => emplace_r h rk rv
  | RInsertOrAssign k v => insert_or_assign_r h k v
  | REmplaceOrAssign rk rv => emplace_or_assign_r h rk rv
  | RErase rk => erase_r h rk
  | RClear => let* r := clear h in Ok (fst r, snd r, [], false)
  | RReserve cap => let* r := reserve_r h cap in Ok (r, [], [], true)
  end.
Fixpoint run_r h (ops : list rop) : res (hmap K V * list (list (destroyed K V) * list (destroyed K V) * bool)) :=
  match ops with
  | [] => Ok (h, [])
  | o :: rest =>
    let* r := step_r h o in
    let '(h1, d, m, b) := r in
    let* r2 := run_r h1 rest in
    Ok (fst r2, (d, m, b) :: snd r2)
  end.

(** hmap.h 219-228 _put_n of a map, 230-231 _from_n: what was destroyed and made. *)
Fixpoint put_n_r h (raws : list (RK * RV)) : res (hmap K V * list (destroyed K V) * list (destroyed K V)) :=
  match raws with
  | [] => Ok (h, [], [])
  | e :: rest =>
    let* r := emplace_or_assign_r h (fst e) (snd e) in
    let '(h1, d, m, _) := r in
    let* q := put_n_r h1 rest in
    let '(h2, d2, m2) := q in Ok (h2, d ++ d2, m ++ m2)
  end.
Definition from_n_r (raws : list (RK * RV)) : res (hmap K V * list (destroyed K V) * list (destroyed K V)) := put_n_r init raws.
End HmapRaw.
Arguments rop : clear implicits.
