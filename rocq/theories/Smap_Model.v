(** Model of include/stc/smap.h: the AA-tree behind smap and sset.
    Nodes live in one array and link to each other by index; index 0 is the null node.
    Simplifications: allocation never fails; i_keyraw is the key itself (keytoraw, keyfrom
    and clone are the identity); a set is a map whose values carry no information; the fixed
    size C stacks up[64] and _st[36] are lists, top first, pushing onto a full one is OOB;
    int8 levels and int32 indices are integers (C26 bounds the levels), except that the
    growth computation reports signed overflow. *)
From Verif Require Import Base Slots.

Section SmapModel.
Context {K V : Type}.
(** i_cmp: negative, zero or positive. *)
Variable cmp : K -> K -> Z.

(** smap.h 84-88 struct _m_node; [val] is [None] while the node's value is not initialised. *)
Record node : Type := mknode { lk0 : Z; lk1 : Z; lev : Z; val : option (K * V) }.
(** types.h 191-195 struct SELF; nodes = NULL is []. *)
Record smap : Type := mksmap { nodes : slots node; root : Z; disp : Z; head : Z; size : Z; cap : Z }.
(** smap.h 114 _init. *)
Definition init : smap := mksmap [] 0 0 0 0 0.
Definition node0 : node := mknode 0 0 0 None.

(** Objects destroyed by an operation. *)
Inductive destroyed : Type := DKey (k : K) | DVal (v : V).
(** smap.h 142-145 _value_drop. *)
Definition value_drop (e : K * V) : list destroyed := [DKey (fst e); DVal (snd e)].

Definition link (b : bool) (n : node) : Z := if b then lk1 n else lk0 n.
Definition with_link (b : bool) (x : Z) (n : node) : node :=
  if b then mknode (lk0 n) x (lev n) (val n) else mknode x (lk1 n) (lev n) (val n).
Definition with_lev (x : Z) (n : node) : node := mknode (lk0 n) (lk1 n) x (val n).
Definition with_val (o : option (K * V)) (n : node) : node := mknode (lk0 n) (lk1 n) (lev n) o.
(** d[i].link[b] = x, d[i].level = x, d[i].value = e *)
Definition set_link (d : slots node) (i : Z) (b : bool) (x : Z) : res (slots node) :=
  let* n := rd d i in wr d i (with_link b x n).
Definition set_lev (d : slots node) (i : Z) (x : Z) : res (slots node) :=
  let* n := rd d i in wr d i (with_lev x n).
Definition set_val (d : slots node) (i : Z) (e : K * V) : res (slots node) :=
  let* n := rd d i in wr d i (with_val (Some e) n).
Definition get_val (d : slots node) (i : Z) : res (K * V) :=
  let* n := rd d i in match val n with Some e => Ok e | None => Err Uninit end.

(** smap.h 290-302 _reserve; returns whether memory was allocated. *)
Definition reserve (s : smap) (c : Z) : res (smap * bool) :=
  if c <=? cap s then Ok (s, false) else
  let* d := wr (realloc (nodes s) (c + 1)) 0 node0 in
  Ok (mksmap d (root s) (disp s) (head s) (size s) c, true).

(** smap.h 322-337 _new_node_.  The value of the node is not initialised.  head*3/2 + 4 is
    computed in int. *)
Definition new_node (s : smap) (level : Z) : res (smap * Z) :=
  if negb (disp s =? 0) then
    let tn := disp s in
    let* n := rd (nodes s) tn in
    let* d := wr (nodes s) tn (mknode 0 0 level None) in
    Ok (mksmap d (root s) (lk1 n) (head s) (size s) (cap s), tn)
  else
    let* r :=
      if head s =? cap s then
        if 2 ^ 31 <=? head s * 3 then Err Overflow else reserve s (head s * 3 / 2 + 4)
      else Ok (s, true) in
    let s1 := fst r in
    if negb (snd r) then Ok (s1, 0) else
    let tn := head s1 + 1 in
    let* d := wr (nodes s1) tn (mknode 0 0 level None) in
    Ok (mksmap d (root s1) (disp s1) tn (size s1) (cap s1), tn).

(** smap.h 397-406 _skew_. *)
Definition skew (d : slots node) (tn : Z) : res (slots node * Z) :=
  if tn =? 0 then Ok (d, tn) else
  let* n := rd d tn in
  let* m := rd d (lk0 n) in
  if lev m =? lev n then
    let tmp := lk0 n in
    let* d := set_link d tn false (lk1 m) in
    let* d := set_link d tmp true tn in
    Ok (d, tmp)
  else Ok (d, tn).
(** smap.h 408-418 _split_. *)
Definition split (d : slots node) (tn : Z) : res (slots node * Z) :=
  let* n := rd d tn in
  let* m := rd d (lk1 n) in
  let* p := rd d (lk1 m) in
  if lev p =? lev n then
    let tmp := lk1 n in
    let* d := set_link d tn true (lk0 m) in
    let* d := set_link d tmp false tn in
    let* q := rd d tmp in
    let* d := set_lev d tmp (lev q + 1) in
    Ok (d, tmp)
  else Ok (d, tn).

(** smap.h 425-432: search for the key; [inl i] if node [i] has it, otherwise the stack of
    visited nodes (top first) and the last direction. *)
Fixpoint descend (fuel : nat) (d : slots node) (tx : Z) (k : K) (up : list Z) (dir : bool)
    : res (Z + list Z * bool) :=
  match fuel with
  | O => Err OutOfFuel
  | S fuel' =>
    if tx =? 0 then Ok (inr (up, dir)) else
    if 64 <=? zlen up then Err OOB else
    let* n := rd d tx in
    let* e := get_val d tx in
    let c := cmp (fst e) k in
    if c =? 0 then Ok (inl tx)
    else descend fuel' d (link (c <? 0) n) k (tx :: up) (c <? 0)
  end.
(** smap.h 441-449: rebalancing on the way up. *)
Fixpoint fix_loop (d : slots node) (up : list Z) : res (slots node * Z) :=
  match up with
  | [] => Err OOB
  | x :: rest =>
    let* dir := match rest with
      | [] => Ok false
      | u :: _ => let* n := rd d u in Ok (lk1 n =? x) end in
    let* r1 := skew d x in
    let* r2 := split (fst r1) (snd r1) in
    match rest with
    | [] => Ok r2
    | u :: _ => let* d' := set_link (fst r2) u dir (snd r2) in fix_loop d' rest
    end
  end.
(** smap.h 420-460 _insert_entry_i_, _insert_entry_: the node of the key and whether it is
    new ([inserted]). *)
Definition insert_entry (s : smap) (k : K) : res (smap * Z * bool) :=
  let* r := descend 65 (nodes s) (root s) k [] false in
  match r with
  | inl i => Ok (s, i, false)
  | inr (up, dir) =>
    let* q := new_node s 1 in
    let s1 := fst q in let tx := snd q in
    if tx =? 0 then Err NullDeref else
    match up with
    | [] => Ok (mksmap (nodes s1) tx (disp s1) (head s1) (size s1 + 1) (cap s1), tx, true)
    | u :: _ =>
      let* d := set_link (nodes s1) u dir tx in
      let* f := fix_loop d up in
      Ok (mksmap (fst f) (snd f) (disp s1) (head s1) (size s1 + 1) (cap s1), tx, true)
    end
  end.

Definition put_val (s : smap) (i : Z) (e : K * V) : res smap :=
  let* d := set_val (nodes s) i e in
  Ok (mksmap d (root s) (disp s) (head s) (size s) (cap s)).
(** smap.h 218-226 _insert (and 228-235 _push): an argument that is not inserted is destroyed. *)
Definition insert (s : smap) (k : K) (v : V) : res (smap * list destroyed * bool) :=
  let* r := insert_entry s k in
  let '(s1, i, ins) := r in
  if ins then let* s2 := put_val s1 i (k, v) in Ok (s2, [], true)
  else Ok (s1, [DKey k; DVal v], false).
(** smap.h 569-577 _emplace: the key and value objects are only made if inserted. *)
Definition emplace (s : smap) (k : K) (v : V) : res (smap * list destroyed * bool) :=
  let* r := insert_entry s k in
  let '(s1, i, ins) := r in
  if ins then let* s2 := put_val s1 i (k, v) in Ok (s2, [], true)
  else Ok (s1, [], false).
(** smap.h 340-350 _insert_or_assign. *)
Definition insert_or_assign (s : smap) (k : K) (v : V) : res (smap * list destroyed * bool) :=
  let* r := insert_entry s k in
  let '(s1, i, ins) := r in
  if ins then let* s2 := put_val s1 i (k, v) in Ok (s2, [], true)
  else
    let* e := get_val (nodes s1) i in
    let* s2 := put_val s1 i (fst e, v) in Ok (s2, [DKey k; DVal (snd e)], false).
(** smap.h 353-364 _emplace_or_assign (also 238-244 _put). *)
Definition emplace_or_assign (s : smap) (k : K) (v : V) : res (smap * list destroyed * bool) :=
  let* r := insert_entry s k in
  let '(s1, i, ins) := r in
  if ins then let* s2 := put_val s1 i (k, v) in Ok (s2, [], true)
  else
    let* e := get_val (nodes s1) i in
    let* s2 := put_val s1 i (fst e, v) in Ok (s2, [DVal (snd e)], false).

(** smap.h 474-476: last node of the right spine. *)
Fixpoint go_right (fuel : nat) (d : slots node) (tx : Z) : res Z :=
  match fuel with
  | O => Err OutOfFuel
  | S fuel' =>
    let* n := rd d tx in
    if negb (lk1 n =? 0) then go_right fuel' d (lk1 n) else Ok tx
  end.
Fixpoint go_left (fuel : nat) (d : slots node) (tx : Z) : res Z :=
  match fuel with
  | O => Err OutOfFuel
  | S fuel' =>
    let* n := rd d tx in
    if negb (lk0 n =? 0) then go_left fuel' d (lk0 n) else Ok tx
  end.
(** smap.h 488-497: rebalancing after an erasure below. *)
Definition rebal (d : slots node) (tn : Z) : res (slots node * Z) :=
  let* n := rd d tn in
  let tx := lk1 n in
  let* a := rd d (lk0 n) in
  let* b := rd d tx in
  if (lev a <? lev n - 1) || (lev b <? lev n - 1) then
    let* d := set_lev d tn (lev n - 1) in
    let* d := if lev b >? lev n - 1 then set_lev d tx (lev n - 1) else Ok d in
    let* r := skew d tn in
    let d := fst r in let tn := snd r in
    let* n := rd d tn in
    let* r := skew d (lk1 n) in
    let* d := set_link (fst r) tn true (snd r) in
    let tx := snd r in
    let* m := rd d tx in
    let* r := skew d (lk1 m) in
    let* d := set_link (fst r) tx true (snd r) in
    let* r := split d tn in
    let d := fst r in let tn := snd r in
    let* n := rd d tn in
    let* r := split d (lk1 n) in
    let* d := set_link (fst r) tn true (snd r) in
    Ok (d, tn)
  else Ok (d, tn).
(** smap.h 461-499 _erase_r_; [er] is *erased.  Result: nodes, disposed list, subtree root,
    *erased, destroyed objects. *)
Fixpoint erase_r (fuel : nat) (d : slots node) (dp : Z) (tn : Z) (k : K) (er : Z)
    : res (slots node * Z * Z * Z * list destroyed) :=
  match fuel with
  | O => Err OutOfFuel
  | S fuel' =>
    if tn =? 0 then Ok (d, dp, 0, er, []) else
    let* n := rd d tn in
    let* e := get_val d tn in
    let c := cmp (fst e) k in
    let* q :=
      if negb (c =? 0) then
        let* r := erase_r fuel' d dp (link (c <? 0) n) k er in
        let '(d1, dp1, t1, er1, ds) := r in
        let* d2 := set_link d1 tn (c <? 0) t1 in
        Ok (d2, dp1, tn, er1, ds)
      else
        let ds := if er =? 0 then value_drop e else [] in
        if negb (lk0 n =? 0) && negb (lk1 n =? 0) then
          let* tx := go_right (length d) d (lk0 n) in
          let* v := get_val d tx in
          let* d1 := set_val d tn v in
          let* r := erase_r fuel' d1 dp (lk0 n) (fst v) (er + 1) in
          let '(d2, dp1, t1, er1, ds1) := r in
          let* d3 := set_link d2 tn false t1 in
          Ok (d3, dp1, tn, er1, ds ++ ds1)
        else
          let* d1 := set_link d tn true dp in
          Ok (d1, tn, (if lk0 n =? 0 then lk1 n else lk0 n), er + 1, ds) in
    let '(d1, dp1, t1, er1, ds) := q in
    let* r := rebal d1 t1 in
    Ok (fst r, dp1, snd r, er1, ds)
  end.
(** smap.h 501-510 _erase. *)
Definition erase (s : smap) (k : K) : res (smap * list destroyed * bool) :=
  let* r := erase_r (S (length (nodes s))) (nodes s) (disp s) (root s) k 0 in
  let '(d, dp, t, er, ds) := r in
  if er =? 0 then Ok (mksmap d (root s) dp (head s) (size s) (cap s), ds, false)
  else Ok (mksmap d t dp (head s) (size s - 1) (cap s), ds, true).

(** types.h 184-189 iterators: [ref] is the node whose value ref points to, [tn] is [None]
    while _tn is not initialised, [st] is the stack (top first, at most 36). *)
Record iter : Type := mkiter { ref : option Z; tn : option Z; st : list Z }.
(** smap.h 268-271: push the left spine. *)
Fixpoint push_left (fuel : nat) (d : slots node) (t : Z) (stk : list Z) : res (list Z) :=
  match fuel with
  | O => Err OutOfFuel
  | S fuel' =>
    if t =? 0 then Ok stk else
    if 36 <=? zlen stk then Err OOB else
    let* n := rd d t in push_left fuel' d (lk0 n) (t :: stk)
  end.
(** smap.h 264-277 _next. *)
Definition next (d : slots node) (it : iter) : res iter :=
  let body t :=
    let* stk := push_left 37 d t (st it) in
    match stk with
    | [] => Err OOB
    | x :: rest => let* n := rd d x in Ok (mkiter (Some x) (Some (lk1 n)) rest)
    end in
  match st it, tn it with
  | [], None => Err Uninit
  | [], Some t => if negb (t =? 0) then body t else Ok (mkiter None (Some t) [])
  | _ :: _, None => Err Uninit
  | _ :: _, Some t => body t
  end.
(** smap.h 279-288 _begin. *)
Definition begin (s : smap) : res iter :=
  let it := mkiter None (Some (root s)) [] in
  if negb (root s =? 0) then next (nodes s) it else Ok it.
(** smap.h 368-383 _find_it. *)
Fixpoint find_loop (fuel : nat) (d : slots node) (t : Z) (k : K) (stk : list Z) : res iter :=
  match fuel with
  | O => Err OutOfFuel
  | S fuel' =>
    if t =? 0 then Ok (mkiter None None stk) else
    let* n := rd d t in
    let* e := get_val d t in
    let c := cmp (fst e) k in
    if c <? 0 then find_loop fuel' d (lk1 n) k stk
    else if c >? 0 then
      if 36 <=? zlen stk then Err OOB else find_loop fuel' d (lk0 n) k (t :: stk)
    else Ok (mkiter (Some t) (Some (lk1 n)) stk)
  end.
Definition find_it (s : smap) (k : K) : res iter :=
  find_loop (S (length (nodes s))) (nodes s) (root s) k [].
(** smap.h 122-123 _get, 120-121 _contains. *)
Definition get (s : smap) (k : K) : res (option (K * V)) :=
  let* it := find_it s k in
  match ref it with
  | None => Ok None
  | Some i => let* e := get_val (nodes s) i in Ok (Some e)
  end.
Definition contains (s : smap) (k : K) : res bool :=
  let* it := find_it s k in Ok (match ref it with Some _ => true | None => false end).
(** smap.h 186-190 _at: dereferences the result of _find_it. *)
Definition at_ (s : smap) (k : K) : res V :=
  let* o := get s k in match o with Some e => Ok (snd e) | None => Err NullDeref end.
(** smap.h 385-395 _lower_bound. *)
Definition lower_bound (s : smap) (k : K) : res iter :=
  let* it := find_it s k in
  match ref it, st it with
  | None, t :: rest => let* n := rd (nodes s) t in Ok (mkiter (Some t) (Some (lk1 n)) rest)
  | _, _ => Ok it
  end.
(** smap.h 304-320 _front, _back (they read nodes[root] also when the map is empty). *)
Definition front (s : smap) : res (K * V) :=
  let* i := go_left (S (length (nodes s))) (nodes s) (root s) in get_val (nodes s) i.
Definition back (s : smap) : res (K * V) :=
  let* i := go_right (S (length (nodes s))) (nodes s) (root s) in get_val (nodes s) i.

(** common.h 164-165 c_each_3, from a given iterator: the entries visited. *)
Fixpoint each_loop (fuel : nat) (d : slots node) (it : iter) : res (list (K * V)) :=
  match fuel with
  | O => Err OutOfFuel
  | S fuel' =>
    match ref it with
    | None => Ok []
    | Some i =>
      let* e := get_val d i in
      let* it' := next d it in
      let* l := each_loop fuel' d it' in Ok (e :: l)
    end
  end.
Definition each_from (s : smap) (it : iter) : res (list (K * V)) :=
  each_loop (S (length (nodes s))) (nodes s) it.
Definition each (s : smap) : res (list (K * V)) := let* it := begin s in each_from s it.
(** smap.h 199-203 _advance. *)
Fixpoint advance (d : slots node) (it : iter) (n : nat) : res iter :=
  match n with
  | O => Ok it
  | S n' => match ref it with
            | None => Ok it
            | Some _ => let* it' := next d it in advance d it' n' end
  end.

(** smap.h 512-523 _erase_at. *)
Definition erase_at (s : smap) (it : iter) : res (smap * list destroyed * iter) :=
  match ref it with
  | None => Err NullDeref
  | Some i =>
    let* e := get_val (nodes s) i in
    let* it1 := next (nodes s) it in
    match ref it1 with
    | Some j =>
      let* e1 := get_val (nodes s) j in
      let* r := erase s (fst e) in
      let* it2 := find_it (fst (fst r)) (fst e1) in
      Ok (fst (fst r), snd (fst r), it2)
    | None => let* r := erase s (fst e) in Ok (fst (fst r), snd (fst r), it1)
    end
  end.
(** sys/utility.h 77-84 c_erase_if; also returns the entries the predicate was called on. *)
Fixpoint erase_if_loop (fuel : nat) (p : K * V -> bool) (s : smap) (it : iter)
    : res (smap * list destroyed * list (K * V)) :=
  match fuel with
  | O => Err OutOfFuel
  | S fuel' =>
    match ref it with
    | None => Ok (s, [], [])
    | Some i =>
      let* e := get_val (nodes s) i in
      if p e then
        let* q := erase_at s it in
        let '(s1, d, it') := q in
        let* w := erase_if_loop fuel' p s1 it' in
        let '(s2, d2, q2) := w in Ok (s2, d ++ d2, e :: q2)
      else
        let* it' := next (nodes s) it in
        let* w := erase_if_loop fuel' p s it' in
        let '(s2, d2, q2) := w in Ok (s2, d2, e :: q2)
    end
  end.
Definition erase_if (p : K * V -> bool) (s : smap) : res (smap * list destroyed * list (K * V)) :=
  let* it := begin s in erase_if_loop (S (length (nodes s))) p s it.
(** smap.h 525-543 _erase_range; [same] is memcmp(&k1, &k2, sizeof k1) == 0. *)
Fixpoint range_to_end (fuel : nat) (s : smap) (it : iter) : res (smap * list destroyed * iter) :=
  match fuel with
  | O => Err OutOfFuel
  | S fuel' =>
    match ref it with
    | None => Ok (s, [], it)
    | Some _ =>
      let* q := erase_at s it in
      let '(s1, d, it') := q in
      let* w := range_to_end fuel' s1 it' in
      let '(s2, d2, it2) := w in Ok (s2, d ++ d2, it2)
    end
  end.
Fixpoint range_loop (fuel : nat) (same : K -> K -> bool) (s : smap) (it : iter) (k1 k2 : K)
    : res (smap * list destroyed * iter) :=
  match fuel with
  | O => Err OutOfFuel
  | S fuel' =>
    if same k1 k2 then Ok (s, [], it) else
    let* it1 := next (nodes s) it in
    match ref it1 with
    | None => Err NullDeref
    | Some j =>
      let* e := get_val (nodes s) j in
      let* r := erase s k1 in
      let* it2 := find_it (fst (fst r)) (fst e) in
      let* w := range_loop fuel' same (fst (fst r)) it2 (fst e) k2 in
      let '(s2, d2, it3) := w in Ok (s2, snd (fst r) ++ d2, it3)
    end
  end.
Definition erase_range (same : K -> K -> bool) (s : smap) (it1 it2 : iter) : res (smap * list destroyed * iter) :=
  match ref it2 with
  | None => range_to_end (S (length (nodes s))) s it1
  | Some j =>
    match ref it1 with
    | None => Err NullDeref
    | Some i =>
      let* e1 := get_val (nodes s) i in
      let* e2 := get_val (nodes s) j in
      range_loop (S (length (nodes s))) same s it1 (fst e1) (fst e2)
    end
  end.

(** smap.h 580-587 _drop_r_: what is destroyed. *)
Fixpoint drop_r (fuel : nat) (d : slots node) (t : Z) : res (list destroyed) :=
  match fuel with
  | O => Err OutOfFuel
  | S fuel' =>
    if t =? 0 then Ok [] else
    let* n := rd d t in
    let* a := drop_r fuel' d (lk0 n) in
    let* b := drop_r fuel' d (lk1 n) in
    let* e := get_val d t in Ok (a ++ b ++ value_drop e)
  end.
(** smap.h 589-596 _drop. *)
Definition drop (s : smap) : res (list destroyed) :=
  if negb (cap s =? 0) then drop_r (S (length (nodes s))) (nodes s) (root s) else Ok [].
(** smap.h 133-134 _clear. *)
Definition clear (s : smap) : res (smap * list destroyed) :=
  let* d := drop s in Ok (init, d).

(** smap.h 546-555 _clone_r_. *)
Fixpoint clone_r (fuel : nat) (s : smap) (src : slots node) (sn : Z) : res (smap * Z) :=
  match fuel with
  | O => Err OutOfFuel
  | S fuel' =>
    if sn =? 0 then Ok (s, 0) else
    let* n := rd src sn in
    let* q := new_node s (lev n) in
    let t := snd q in
    let* e := get_val src sn in
    let* s1 := put_val (fst q) t e in
    let* q0 := clone_r fuel' s1 src (lk0 n) in
    let* d0 := set_link (nodes (fst q0)) t false (snd q0) in
    let s2 := fst q0 in
    let s2 := mksmap d0 (root s2) (disp s2) (head s2) (size s2) (cap s2) in
    let* q1 := clone_r fuel' s2 src (lk1 n) in
    let* d1 := set_link (nodes (fst q1)) t true (snd q1) in
    let s3 := fst q1 in
    Ok (mksmap d1 (root s3) (disp s3) (head s3) (size s3) (cap s3), t)
  end.
(** smap.h 557-565 _clone; 127-131 _with_capacity.  [head] and [size] are those of [s]. *)
Definition clone (s : smap) : res smap :=
  let* w := reserve init (size s) in
  let* q := clone_r (S (length (nodes s))) (fst w) (nodes s) (root s) in
  Ok (mksmap (nodes (fst q)) (snd q) (disp (fst q)) (head s) (size s) (cap (fst q))).
(** smap.h 172-175 _shrink_to_fit. *)
Definition shrink_to_fit (s : smap) : res (smap * list destroyed) :=
  let* c := clone s in let* d := drop s in Ok (c, d).

(** smap.h 206-215 _eq: compares keys only; [eq] is i_eq. *)
Fixpoint eq_loop (fuel : nat) (eq : K -> K -> bool) (d1 d2 : slots node) (i j : iter) : res bool :=
  match fuel with
  | O => Err OutOfFuel
  | S fuel' =>
    match ref i with
    | None => Ok true
    | Some x =>
      let* e1 := get_val d1 x in
      match ref j with
      | None => Err NullDeref
      | Some y =>
        let* e2 := get_val d2 y in
        if negb (eq (fst e1) (fst e2)) then Ok false else
        let* i' := next d1 i in let* j' := next d2 j in eq_loop fuel' eq d1 d2 i' j'
      end
    end
  end.
Definition map_eq (eq : K -> K -> bool) (s o : smap) : res bool :=
  if negb (size s =? size o) then Ok false else
  let* i := begin s in let* j := begin o in
  eq_loop (S (length (nodes s))) eq (nodes s) (nodes o) i j.

(** Operation histories. *)
Inductive op : Type :=
| Insert (k : K) (v : V)
| Emplace (k : K) (v : V)
| InsertOrAssign (k : K) (v : V)
| EmplaceOrAssign (k : K) (v : V)
| Erase (k : K)
| EraseIf (p : K * V -> bool)
| Clear
| Reserve (c : Z).
(** One operation: new map, destroyed objects, and the C result ([inserted], whether a key was
    erased; fixed for the operations without result). *)
Definition step (s : smap) (o : op) : res (smap * list destroyed * bool) :=
  match o with
  | Insert k v => insert s k v
  | Emplace k v => emplace s k v
  | InsertOrAssign k v => insert_or_assign s k v
  | EmplaceOrAssign k v => emplace_or_assign s k v
  | Erase k => erase s k
  | EraseIf p => let* r := erase_if p s in let '(s', d, _) := r in Ok (s', d, false)
  | Clear => let* r := clear s in Ok (fst r, snd r, false)
  | Reserve c => let* r := reserve s c in Ok (fst r, [], true)
  end.
Fixpoint run (s : smap) (ops : list op) : res (smap * list (list destroyed * bool)) :=
  match ops with
  | [] => Ok (s, [])
  | o :: rest =>
    let* r := step s o in
    let '(s1, d, b) := r in
    let* r2 := run s1 rest in
    Ok (fst r2, (d, b) :: snd r2)
  end.
End SmapModel.
Arguments node : clear implicits.
Arguments smap : clear implicits.
Arguments op : clear implicits.
Arguments destroyed : clear implicits.
