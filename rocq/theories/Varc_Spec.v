(** The values of the containers that Var_Spec.v is used with. *)
From Verif Require Import Base Var_Model Var_Spec.
From Verif Require Deque_Model Deque_Spec Hmap_Model Hmap_Spec Smap_Model Smap_Spec.

(** A deque is its sequence; these operations put objects into it. *)
Definition dq_made {A} (l : list A) (o : Deque_Model.op A) : list A :=
  match o with
  | Deque_Model.PushBack x | Deque_Model.PushFront x => [x]
  | Deque_Model.InsertN _ xs => xs
  | _ => []
  end.
Definition dq_legal {A} := vlegal_all (A:=list A) [] (fun l o => fst (Deque_Spec.seq_step l o)) dq_made Deque_Spec.legal_op
  (fun _ => True) (fun l => l) (fun l => l).
Definition dq_spec {A} := vspec_all (A:=list A) [] (fun l o => fst (Deque_Spec.seq_step l o)) dq_made (fun l => l) (fun l => l).
Definition dq_given {A} := vgiven (A:=list A) [] (fun l o => fst (Deque_Spec.seq_step l o)) dq_made (fun l => l) (fun l => l)
  (fun l o => snd (snd (Deque_Spec.seq_step l o))).

(** A hash map is its entries (as a multiset); it owns their keys and values. *)
Definition hm_objs {K V} (l : list (K * V)) : list (Hmap_Model.destroyed K V) := flat_map Hmap_Spec.destroy_entry l.
Definition hm_legal {K V} (hash : K -> Z) (eqb : K -> K -> bool) :=
  vlegal_all (A:=list (K * V)) [] (fun l o => fst (fst (Hmap_Spec.map_step eqb l o))) (Hmap_Spec.moved_in eqb)
    (fun l o => Hmap_Spec.legal_op l o /\ Hmap_Spec.spread hash (fst (fst (Hmap_Spec.map_step eqb l o))))
    (fun _ => True) (fun l => l) hm_objs.
Definition hm_spec {K V} (eqb : K -> K -> bool) :=
  vspec_all (A:=list (K * V)) [] (fun l o => fst (fst (Hmap_Spec.map_step eqb l o))) (Hmap_Spec.moved_in eqb) (fun l => l) hm_objs.

(** A sorted map is its entries in order, the number of entries reserved, and the largest number
    of entries since it was last empty and new (by init, clear or clone). *)
Record sval {K V : Type} : Type := mksval { entries : list (K * V); rsv : Z; pk : Z }.
Arguments sval : clear implicits.
Arguments mksval {K V}.
Definition sm_objs {K V} (a : sval K V) : list (Smap_Model.destroyed K V) := flat_map Smap_Spec.destroy_entry (entries a).
Definition sm_sstep {K V} (cmp : K -> K -> Z) (a : sval K V) (o : Smap_Model.op K V) : sval K V :=
  let l := fst (fst (Smap_Spec.map_step cmp (entries a) o)) in
  mksval l (Smap_Spec.reserved (rsv a) o) (match o with Smap_Model.Clear => 0 | _ => Z.max (pk a) (zlen l) end).
Definition sm_made {K V} (cmp : K -> K -> Z) (a : sval K V) (o : Smap_Model.op K V) : list (Smap_Model.destroyed K V) :=
  match o with
  | Smap_Model.Insert k v | Smap_Model.InsertOrAssign k v => [Smap_Model.DKey k; Smap_Model.DVal v]
  | Smap_Model.Emplace k v => match Smap_Spec.lookup cmp k (entries a) with None => [Smap_Model.DKey k; Smap_Model.DVal v] | Some _ => [] end
  | Smap_Model.EmplaceOrAssign k v => match Smap_Spec.lookup cmp k (entries a) with None => [Smap_Model.DKey k; Smap_Model.DVal v] | Some _ => [Smap_Model.DVal v] end
  | _ => []
  end.
(** Sizes as in Smap_Spec.legal.  A map is cloned only if it has never held more entries than
    now: the clone of any other is broken (C27). *)
Definition sm_slegal {K V} (cmp : K -> K -> Z) (a : sval K V) (o : Smap_Model.op K V) : Prop :=
  match o with Smap_Model.Reserve c => c < 2 ^ 31 | _ => True end /\
  zlen (entries (sm_sstep cmp a o)) <= Z.max (rsv a) Smap_Spec.max_unreserved.
Definition sm_cloneable {K V} (a : sval K V) : Prop := pk a = zlen (entries a).
Definition sm_cloned {K V} (a : sval K V) : sval K V := mksval (entries a) (zlen (entries a)) (pk a).
Definition sm_legal {K V} (cmp : K -> K -> Z) :=
  vlegal_all (A:=sval K V) (mksval [] 0 0) (sm_sstep cmp) (sm_made cmp) (sm_slegal cmp) sm_cloneable sm_cloned sm_objs.
Definition sm_spec {K V} (cmp : K -> K -> Z) :=
  vspec_all (A:=sval K V) (mksval [] 0 0) (sm_sstep cmp) (sm_made cmp) sm_cloned sm_objs.
