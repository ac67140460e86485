(** Specification of ordered maps with raw keys: a list of entries, in strictly increasing
    order of the raw form of their keys. *)
From Verif Require Import Base Smap_Model Smap_Spec Sraw_Model.
From Coq Require Import Sorted.

Section SrawSpec.
Context {K V RK RV : Type}.
Variable toraw : K -> RK.
Variable kfrom : RK -> K.
Variable vfrom : RV -> V.
Variable cmp : RK -> RK -> Z.
Implicit Types (l : list (K * V)).

(** What the user's functions must satisfy: a key made from a raw key compares equal to it. *)
Record raw_ok : Prop := { ro_cmp : cmp_ok cmp; ro_from : forall r, cmp (toraw (kfrom r)) r = 0 }.

Definition rlookup (r : RK) l : option (K * V) := List.find (fun e => cmp (toraw (fst e)) r =? 0) l.
Definition rremove (r : RK) l : list (K * V) := filter (fun e => negb (cmp (toraw (fst e)) r =? 0)) l.
Definition rassign (r : RK) (v : V) l : list (K * V) := map (fun e => if cmp (toraw (fst e)) r =? 0 then (fst e, v) else e) l.
Definition radd (k : K) (v : V) l : list (K * V) :=
  filter (fun e => cmp (toraw (fst e)) (toraw k) <? 0) l ++ (k, v) :: filter (fun e => 0 <? cmp (toraw (fst e)) (toraw k)) l.
(** Every entry is below all later ones. *)
Definition rincreasing l : Prop := StronglySorted (fun a b => cmp (toraw (fst a)) (toraw (fst b)) < 0) l.

(** One operation: entries afterwards, destroyed objects, made objects, result. *)
Definition rmap_step l (o : rop K V RK RV) : list (K * V) * list (destroyed K V) * list (destroyed K V) * bool :=
  match o with
  | RInsert k v => match rlookup (toraw k) l with
      | None => (radd k v l, [], [], true)
      | Some _ => (l, [DKey k; DVal v], [], false) end
  | REmplace r rv => match rlookup r l with
      | None => (radd (kfrom r) (vfrom rv) l, [], [DKey (kfrom r); DVal (vfrom rv)], true)
      | Some _ => (l, [], [], false) end
  | RInsertOrAssign k v => match rlookup (toraw k) l with
      | None => (radd k v l, [], [], true)
      | Some old => (rassign (toraw k) v l, [DKey k; DVal (snd old)], [], false) end
  | REmplaceOrAssign r rv => match rlookup r l with
      | None => (radd (kfrom r) (vfrom rv) l, [], [DKey (kfrom r); DVal (vfrom rv)], true)
      | Some old => (rassign r (vfrom rv) l, [DVal (snd old)], [DVal (vfrom rv)], false) end
  | RErase r => match rlookup r l with
      | None => (l, [], [], false)
      | Some old => (rremove r l, destroy_entry old, [], true) end
  | RClear => ([], flat_map destroy_entry l, [], false)
  | RReserve _ => (l, [], [], true)
  end.
Fixpoint rmap_run l (ops : list (rop K V RK RV)) : list (K * V) * list (list (destroyed K V) * list (destroyed K V) * bool) :=
  match ops with
  | [] => (l, [])
  | o :: rest =>
    let '(l1, d, m, b) := rmap_step l o in
    let r := rmap_run l1 rest in (fst r, (d, m, b) :: snd r)
  end.

(** As [legal] of Smap_Spec.v: [n] entries have been reserved. *)
Fixpoint legal_r (n : Z) l (ops : list (rop K V RK RV)) : Prop :=
  match ops with
  | [] => True
  | o :: rest =>
    let l1 := fst (fst (fst (rmap_step l o))) in
    match o with RReserve c => c < 2 ^ 31 | _ => True end /\
    zlen l1 <= Z.max n max_unreserved /\
    legal_r (match o with RReserve c => Z.max n c | RClear => 0 | _ => n end) l1 rest
  end.
(** Same results: what was destroyed as a multiset, what was made, the bool. *)
Definition same_outs_r (a c : list (list (destroyed K V) * list (destroyed K V) * bool)) : Prop :=
  Forall2 (fun x y => Permutation (fst (fst x)) (fst (fst y)) /\ snd (fst x) = snd (fst y) /\ snd x = snd y) a c.
(** Objects handed over by the caller. *)
Definition handed (o : rop K V RK RV) : list (destroyed K V) :=
  match o with RInsert k v | RInsertOrAssign k v => [DKey k; DVal v] | _ => [] end.
End SrawSpec.
