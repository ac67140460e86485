(** Specification of maps with raw keys: a list of entries, found by the raw form of their keys. *)
From Verif Require Import Base Hmap_Model Hmap_Spec Hraw_Model.

Section HrawSpec.
Context {K V RK RV : Type}.
Variable toraw : K -> RK.
Variable kfrom : RK -> K.
Variable vfrom : RV -> V.
Variable hash : RK -> Z.
Variable eqb : RK -> RK -> bool.
Implicit Types (l : list (K * V)).

(** What the user's functions must satisfy: a key made from a raw key is equal to it. *)
Record raw_ok : Prop := { ro_key : key_ok hash eqb; ro_from : forall r, eqb (toraw (kfrom r)) r = true }.

Definition rlookup (r : RK) l : option (K * V) := List.find (fun e => eqb (toraw (fst e)) r) l.
Definition rremove (r : RK) l : list (K * V) := filter (fun e => negb (eqb (toraw (fst e)) r)) l.
Definition rassign (r : RK) (v : V) l : list (K * V) := map (fun e => if eqb (toraw (fst e)) r then (fst e, v) else e) l.

(** One operation: entries afterwards, destroyed objects, made objects, result. *)
Definition rmap_step l (o : rop K V RK RV) : list (K * V) * list (destroyed K V) * list (destroyed K V) * bool :=
  match o with
  | RInsert k v => match rlookup (toraw k) l with
      | None => ((k, v) :: l, [], [], true)
      | Some _ => (l, [DKey k; DVal v], [], false) end
  | REmplace r rv => match rlookup r l with
      | None => ((kfrom r, vfrom rv) :: l, [], [DKey (kfrom r); DVal (vfrom rv)], true)
      | Some _ => (l, [], [], false) end
  | RInsertOrAssign k v => match rlookup (toraw k) l with
      | None => ((k, v) :: l, [], [], true)
      | Some old => (rassign (toraw k) v l, [DKey k; DVal (snd old)], [], false) end
  | REmplaceOrAssign r rv => match rlookup r l with
      | None => ((kfrom r, vfrom rv) :: l, [], [DKey (kfrom r); DVal (vfrom rv)], true)
      | Some old => (rassign r (vfrom rv) l, [DVal (snd old)], [DVal (vfrom rv)], false) end
  | RErase r => match rlookup r l with
      | None => (l, [], [], false)
      | Some old => (rremove r l, destroy_entry old, [], true) end
  | RClear => ([], flat_map destroy_entry l, [], false)
  | RReserve _ => (l, [], [], true)
  end.
Fixpoint rmap_run l (ops : list (rop K V RK RV)) : list (K * V) * list (list (destroyed K V) * list (destroyed K V) * bool) :=
  match ops with
  | [] => (l, [])
  | o :: rest =>
    let '(l1, d, m, b) := rmap_step l o in
    let r := rmap_run l1 rest in (fst r, (d, m, b) :: snd r)
  end.

(** As [legal] of Hmap_Spec.v: capacities, and hashes that spread over the table. *)
Fixpoint legal_r l (ops : list (rop K V RK RV)) : Prop :=
  match ops with
  | [] => True
  | o :: rest =>
    let l1 := fst (fst (fst (rmap_step l o))) in
    match o with RReserve cap => 0 <= cap <= 2 ^ 60 | _ => zlen l < 2 ^ 60 end /\
    spread (fun k => hash (toraw k)) l1 /\ legal_r l1 rest
  end.
(** Same results: what was destroyed as a multiset, what was made, the bool. *)
Definition same_outs_r (a c : list (list (destroyed K V) * list (destroyed K V) * bool)) : Prop :=
  Forall2 (fun x y => Permutation (fst (fst x)) (fst (fst y)) /\ snd (fst x) = snd (fst y) /\ snd x = snd y) a c.
(** Objects handed over by the caller. *)
Definition handed (o : rop K V RK RV) : list (destroyed K V) :=
  match o with RInsert k v | RInsertOrAssign k v => [DKey k; DVal v] | _ => [] end.
End HrawSpec.
