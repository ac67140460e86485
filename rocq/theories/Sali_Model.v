(** Model of smap.h with raw arguments that point into the map itself: the raw form of a stored
    value, as const char pointers got from the strings of a map.  (A raw key that points into
    the map is only read before nodes are allocated: smap.h 425-436.) *)
From Verif Require Import Base Slots Smap_Model Sraw_Model.

Section SmapAlias.
Context {K V RK RV : Type}.
Variable toraw : K -> RK.
Variable kfrom : RK -> K.
Variable vfrom : RV -> V.
Variable vraw : V -> RV.
Variable cmp : RK -> RK -> Z.
Implicit Types (s : smap K V).

(** A raw value argument.  [VHeap r]: it points to a block owned by the value stored under [r]
    (a long string), which stays until the value is destroyed.  [VInplace r]: it points into
    that value itself (a short string), so into the array of nodes. *)
Inductive varg : Type := VPlain (rv : RV) | VHeap (r : RK) | VInplace (r : RK).

(** The node of the entry of a key. *)
Definition node_of s (r : RK) : res Z :=
  let* q := descend_r toraw cmp 65 (nodes s) (root s) r [] false in
  match q with inl i => Ok i | inr _ => Err NullDeref end.
(** What i_valfrom reads: [s] is the map before the call, [s1] when i_valfrom is called, [dead]
    the entry whose value has been destroyed by then.  (A short string keeps its characters when
    destroyed, so [VInplace] does not look at [dead].) *)
Definition read_val s s1 (dead : option (K * V)) (a : varg) : res RV :=
  match a with
  | VPlain rv => Ok rv
  | VHeap r =>
    let* j := node_of s r in
    let* e := get_val (nodes s) j in
    match dead with
    | Some e' => if cmp (toraw (fst e)) (toraw (fst e')) =? 0 then Err UseAfterFree else Ok (vraw (snd e))
    | None => Ok (vraw (snd e))
    end
  | VInplace r =>
    let* j := node_of s r in
    if negb (cap s1 =? cap s) then Err UseAfterFree else
    let* e := get_val (nodes s1) j in Ok (vraw (snd e))
  end.
(** smap.h 569-577 _emplace. *)
Definition emplace_own s (rk : RK) (a : varg) : res (out (K:=K) (V:=V)) :=
  let* r := insert_entry_r toraw cmp s rk in
  let '(s1, i, ins) := r in
  if ins then
    let* rv := read_val s s1 None a in
    let k := kfrom rk in let v := vfrom rv in
    let* s2 := put_val s1 i (k, v) in Ok (s2, [], [DKey k; DVal v], true)
  else Ok (s1, [], [], false).
(** smap.h 353-364 _emplace_or_assign (also 238-244 _put): the old value is destroyed before
    the new one is made. *)
Definition emplace_or_assign_own s (rk : RK) (a : varg) : res (out (K:=K) (V:=V)) :=
  let* r := insert_entry_r toraw cmp s rk in
  let '(s1, i, ins) := r in
  if ins then
    let* rv := read_val s s1 None a in
    let k := kfrom rk in let v := vfrom rv in
    let* s2 := put_val s1 i (k, v) in Ok (s2, [], [DKey k; DVal v], true)
  else
    let* e := get_val (nodes s1) i in
    let* rv := read_val s s1 (Some e) a in
    let v := vfrom rv in
    let* s2 := put_val s1 i (fst e, v) in Ok (s2, [DVal (snd e)], [DVal v], false).
End SmapAlias.
Arguments varg : clear implicits.
