(** Model of smap.h and sset.h with i_keyraw and i_valraw: keys and values that are made from,
    looked up by and compared through raw values.  The functions that see no raw value are
    those of Smap_Model.v. *)
From Verif Require Import Base Slots Smap_Model.

Section SmapRaw.
Context {K V RK RV : Type}.
(** i_keytoraw, i_keyfrom, i_valfrom; i_cmp takes raw keys. *)
Variable toraw : K -> RK.
Variable kfrom : RK -> K.
Variable vfrom : RV -> V.
Variable cmp : RK -> RK -> Z.
Implicit Types (s : smap K V).

(** smap.h 425-432: the search, comparing raw keys. *)
Fixpoint descend_r (fuel : nat) (d : slots (node K V)) (tx : Z) (r : RK) (up : list Z) (dir : bool) : res (Z + list Z * bool) :=
  match fuel with
  | O => Err OutOfFuel
  | S fuel' =>
    if tx =? 0 then Ok (inr (up, dir)) else
    if 64 <=? zlen up then Err OOB else
    let* n := rd d tx in
    let* e := get_val d tx in
    let c := cmp (toraw (fst e)) r in
    if c =? 0 then Ok (inl tx)
    else descend_r fuel' d (link (c <? 0) n) r (tx :: up) (c <? 0)
  end.
(** smap.h 420-460 _insert_entry_i_, _insert_entry_. *)
Definition insert_entry_r s (r : RK) : res (smap K V * Z * bool) :=
  let* q := descend_r 65 (nodes s) (root s) r [] false in
  match q with
  | inl i => Ok (s, i, false)
  | inr (up, dir) =>
    let* q := new_node s 1 in
    let s1 := fst q in let tx := snd q in
    if tx =? 0 then Err NullDeref else
    match up with
    | [] => Ok (mksmap (nodes s1) tx (disp s1) (head s1) (size s1 + 1) (cap s1), tx, true)
    | u :: _ =>
      let* d := set_link (nodes s1) u dir tx in
      let* f := fix_loop d up in
      Ok (mksmap (fst f) (snd f) (disp s1) (head s1) (size s1 + 1) (cap s1), tx, true)
    end
  end.

(** Results: map, destroyed objects, objects made by i_keyfrom and i_valfrom, inserted. *)
Definition out : Type := (smap K V * list (destroyed K V) * list (destroyed K V) * bool)%type.
(** smap.h 218-226 _insert (and 228-235 _push). *)
Definition insert_r s (k : K) (v : V) : res out :=
  let* r := insert_entry_r s (toraw k) in
  let '(s1, i, ins) := r in
  if ins then let* s2 := put_val s1 i (k, v) in Ok (s2, [], [], true)
  else Ok (s1, [DKey k; DVal v], [], false).
(** smap.h 569-577 _emplace. *)
Definition emplace_r s (rk : RK) (rv : RV) : res out :=
  let* r := insert_entry_r s rk in
  let '(s1, i, ins) := r in
  if ins then
    let k := kfrom rk in let v := vfrom rv in
    let* s2 := put_val s1 i (k, v) in Ok (s2, [], [DKey k; DVal v], true)
  else Ok (s1, [], [], false).
(** smap.h 340-350 _insert_or_assign. *)
Definition insert_or_assign_r s (k : K) (v : V) : res out :=
  let* r := insert_entry_r s (toraw k) in
  let '(s1, i, ins) := r in
  if ins then let* s2 := put_val s1 i (k, v) in Ok (s2, [], [], true)
  else
    let* e := get_val (nodes s1) i in
    let* s2 := put_val s1 i (fst e, v) in Ok (s2, [DKey k; DVal (snd e)], [], false).
(** smap.h 353-364 _emplace_or_assign (also 238-244 _put). *)
Definition emplace_or_assign_r s (rk : RK) (rv : RV) : res out :=
  let* r := insert_entry_r s rk in
  let '(s1, i, ins) := r in
  if ins then
    let k := kfrom rk in let v := vfrom rv in
    let* s2 := put_val s1 i (k, v) in Ok (s2, [], [DKey k; DVal v], true)
  else
    let* e := get_val (nodes s1) i in
    let v := vfrom rv in
    let* s2 := put_val s1 i (fst e, v) in Ok (s2, [DVal (snd e)], [DVal v], false).

(** smap.h 461-499 _erase_r_: the key of the predecessor is turned into a raw key (478). *)
Fixpoint erase_loop_r (fuel : nat) (d : slots (node K V)) (dp : Z) (tn : Z) (r : RK) (er : Z)
    : res (slots (node K V) * Z * Z * Z * list (destroyed K V)) :=
  match fuel with
  | O => Err OutOfFuel
  | S fuel' =>
    if tn =? 0 then Ok (d, dp, 0, er, []) else
    let* n := rd d tn in
    let* e := get_val d tn in
    let c := cmp (toraw (fst e)) r in
    let* q :=
      if negb (c =? 0) then
        let* r := erase_loop_r fuel' d dp (link (c <? 0) n) r er in
        let '(d1, dp1, t1, er1, ds) := r in
        let* d2 := set_link d1 tn (c <? 0) t1 in
        Ok (d2, dp1, tn, er1, ds)
      else
        let ds := if er =? 0 then value_drop e else [] in
        if negb (lk0 n =? 0) && negb (lk1 n =? 0) then
          let* tx := go_right (length d) d (lk0 n) in
          let* v := get_val d tx in
          let* d1 := set_val d tn v in
          let* r := erase_loop_r fuel' d1 dp (lk0 n) (toraw (fst v)) (er + 1) in
          let '(d2, dp1, t1, er1, ds1) := r in
          let* d3 := set_link d2 tn false t1 in
          Ok (d3, dp1, tn, er1, ds ++ ds1)
        else
          let* d1 := set_link d tn true dp in
          Ok (d1, tn, (if lk0 n =? 0 then lk1 n else lk0 n), er + 1, ds) in
    let '(d1, dp1, t1, er1, ds) := q in
    let* r := rebal d1 t1 in
    Ok (fst r, dp1, snd r, er1, ds)
  end.
(** smap.h 501-510 _erase. *)
Definition erase_key_r s (rk : RK) : res out :=
  let* r := erase_loop_r (S (length (nodes s))) (nodes s) (disp s) (root s) rk 0 in
  let '(d, dp, t, er, ds) := r in
  if er =? 0 then Ok (mksmap d (root s) dp (head s) (size s) (cap s), ds, [], false)
  else Ok (mksmap d t dp (head s) (size s - 1) (cap s), ds, [], true).

(** smap.h 368-383 _find_it. *)
Fixpoint find_loop_r (fuel : nat) (d : slots (node K V)) (t : Z) (r : RK) (stk : list Z) : res iter :=
  match fuel with
  | O => Err OutOfFuel
  | S fuel' =>
    if t =? 0 then Ok (mkiter None None stk) else
    let* n := rd d t in
    let* e := get_val d t in
    let c := cmp (toraw (fst e)) r in
    if c <? 0 then find_loop_r fuel' d (lk1 n) r stk
    else if c >? 0 then
      if 36 <=? zlen stk then Err OOB else find_loop_r fuel' d (lk0 n) r (t :: stk)
    else Ok (mkiter (Some t) (Some (lk1 n)) stk)
  end.
Definition find_it_r s (r : RK) : res iter := find_loop_r (S (length (nodes s))) (nodes s) (root s) r [].
(** smap.h 122-123 _get, 120-121 _contains. *)
Definition get_r s (r : RK) : res (option (K * V)) :=
  let* it := find_it_r s r in
  match ref it with
  | None => Ok None
  | Some i => let* e := get_val (nodes s) i in Ok (Some e)
  end.
(** smap.h 385-395 _lower_bound. *)
Definition lower_bound_r s (r : RK) : res iter :=
  let* it := find_it_r s r in
  match ref it, st it with
  | None, t :: rest => let* n := rd (nodes s) t in Ok (mkiter (Some t) (Some (lk1 n)) rest)
  | _, _ => Ok it
  end.

Inductive rop : Type :=
| RInsert (k : K) (v : V)
| REmplace (rk : RK) (rv : RV)
| RInsertOrAssign (k : K) (v : V)
| REmplaceOrAssign (rk : RK) (rv : RV)
| RErase (rk : RK)
| RClear
| RReserve (cap : Z).
Definition step_r s (o : rop) : res out :=
  match o with
  | RInsert k v => insert_r s k v
  | REmplace rk rv => emplace_r s rk rv
  | RInsertOrAssign k v => insert_or_assign_r s k v
  | REmplaceOrAssign rk rv => emplace_or_assign_r s rk rv
  | RErase rk => erase_key_r s rk
  | RClear => let* r := clear s in Ok (fst r, snd r, [], false)
  | RReserve cap => let* r := reserve s cap in Ok (fst r, [], [], true)
  end.
Fixpoint run_r s (ops : list rop) : res (smap K V * list (list (destroyed K V) * list (destroyed K V) * bool)) :=
  match ops with
  | [] => Ok (s, [])
  | o :: rest =>
    let* r := step_r s o in
    let '(s1, d, m, b) := r in
    let* r2 := run_r s1 rest in
    Ok (fst r2, (d, m, b) :: snd r2)
  end.
(** smap.h 246-255 _put_n, 257-258 _from_n of a map: what was destroyed and made. *)
Fixpoint put_n_r s (raws : list (RK * RV)) : res (smap K V * list (destroyed K V) * list (destroyed K V)) :=
  match raws with
  | [] => Ok (s, [], [])
  | e :: rest =>
    let* r := emplace_or_assign_r s (fst e) (snd e) in
    let '(s1, d, m, _) := r in
    let* q := put_n_r s1 rest in
    let '(s2, d2, m2) := q in Ok (s2, d ++ d2, m ++ m2)
  end.
Definition from_n_r (raws : list (RK * RV)) : res (smap K V * list (destroyed K V) * list (destroyed K V)) := put_n_r init raws.
End SmapRaw.
Arguments rop : clear implicits.
