(** Model of hmap.h with raw arguments that point into the map itself: the raw form of a stored
    value or key, as const char pointers got from the strings of a map. *)
From Verif Require Import Base Slots Hmap_Model Hraw_Model.

Section HmapAlias.
Context {K V RK RV : Type}.
Variable toraw : K -> RK.
Variable kfrom : RK -> K.
Variable vfrom : RV -> V.
Variable vraw : V -> RV.
Variable hash : RK -> Z.
Variable eqb : RK -> RK -> bool.
Implicit Types (h : hmap K V).

(** A raw value argument.  [VHeap r]: it points to a block owned by the value stored under [r]
    (a long string); entries may move, the block stays until the value is destroyed.
    [VInplace r]: it points into that value itself (a short string), so to a place in the table. *)
Inductive varg : Type := VPlain (rv : RV) | VHeap (r : RK) | VInplace (r : RK).

(** What i_valfrom reads: [h] is the map before the call, [h1] when i_valfrom is called, [dead]
    the entry whose value has been destroyed by then.  (A short string keeps its characters when
    destroyed, so [VInplace] does not look at [dead].) *)
Definition read_val h h1 (dead : option (K * V)) (a : varg) : res RV :=
  match a with
  | VPlain rv => Ok rv
  | VHeap r =>
    let* o := get_r toraw hash eqb h r in
    match o with
    | None => Err NullDeref
    | Some e =>
      match dead with
      | Some e' => if eqb (toraw (fst e)) (toraw (fst e')) then Err UseAfterFree else Ok (vraw (snd e))
      | None => Ok (vraw (snd e))
      end
    end
  | VInplace r =>
    let* q := bucket_lookup_r toraw hash eqb h r in
    let* j := the_ref q in
    if negb (bcount h1 =? bcount h) then Err UseAfterFree else
    let* e := rd (table h1) j in Ok (vraw (snd e))
  end.
(** hmap.h 159-167 _emplace. *)
Definition emplace_own h (rk : RK) (a : varg) : res (out (K:=K) (V:=V)) :=
  let* r := insert_entry_r toraw hash eqb h rk in
  if r_inserted (snd r) then
    let* i := the_ref (snd r) in
    let* rv := read_val h (fst r) None a in
    let k := kfrom rk in let v := vfrom rv in
    let* h' := put_ref (fst r) i (k, v) in Ok (h', [], [DKey k; DVal v], true)
  else Ok (fst r, [], [], false).
(** hmap.h 360-371 _emplace_or_assign (also 211-217 _put): the old value is destroyed (367)
    before the new one is made (369). *)
Definition emplace_or_assign_own h (rk : RK) (a : varg) : res (out (K:=K) (V:=V)) :=
  let* r := insert_entry_r toraw hash eqb h rk in
  let* i := the_ref (snd r) in
  if r_inserted (snd r) then
    let* rv := read_val h (fst r) None a in
    let k := kfrom rk in let v := vfrom rv in
    let* h' := put_ref (fst r) i (k, v) in Ok (h', [], [DKey k; DVal v], true)
  else
    let* e := rd (table (fst r)) i in
    let* rv := read_val h (fst r) (Some e) a in
    let v := vfrom rv in
    let* h' := put_ref (fst r) i (fst e, v) in Ok (h', [DVal (snd e)], [DVal v], false).
(** hmap.h 116-125 _insert_entry_ with the raw form of the key stored under [r], which points
    into the table; it is read after the table may have been replaced (118-119). *)
Definition insert_entry_own_key h (r : RK) : res (hmap K V * result) :=
  let* h1 := if size h >=? load_limit (bcount h) then reserve_r toraw hash eqb h (size h * 3 / 2 + 2) else Ok h in
  let* q := bucket_lookup_r toraw hash eqb h r in
  let* j := the_ref q in
  if negb (bcount h1 =? bcount h) then Err UseAfterFree else
  let* e := rd (table h1) j in
  let* r := bucket_insert_r toraw hash eqb h1 (toraw (fst e)) in
  let h2 := fst r in
  Ok (mkhmap (table h2) (metas h2) (size h2 + (if r_inserted (snd r) then 1 else 0)) (bcount h2), snd r).
End HmapAlias.
Arguments varg : clear implicits.
