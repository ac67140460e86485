(** Specification of an ordered map: a list of entries in strictly increasing key order. *)
From Verif Require Import Base Slots Smap_Model.
From Coq Require Import Sorted.

Section SmapSpec.
Context {K V : Type}.
Variable cmp : K -> K -> Z.

(** What i_cmp must satisfy: its sign is a total order up to equivalence of keys. *)
Record cmp_ok : Prop := {
  co_refl : forall x, cmp x x = 0;
  co_opp : forall x y, cmp x y < 0 <-> 0 < cmp y x;
  co_trans : forall x y z, cmp x y < 0 -> cmp y z < 0 -> cmp x z < 0;
  co_eq_l : forall x y z, cmp x y = 0 -> cmp y z < 0 -> cmp x z < 0;
  co_eq_r : forall x y z, cmp x y < 0 -> cmp y z = 0 -> cmp x z < 0;
}.

Definition entry_lt (a b : K * V) : Prop := cmp (fst a) (fst b) < 0.
(** Strictly increasing keys: every entry is below all later ones. *)
Definition increasing (l : list (K * V)) : Prop := StronglySorted entry_lt l.

Definition lookup (k : K) (l : list (K * V)) : option (K * V) := List.find (fun e => cmp (fst e) k =? 0) l.
Definition below (k : K) (l : list (K * V)) : list (K * V) := filter (fun e => cmp (fst e) k <? 0) l.
Definition above (k : K) (l : list (K * V)) : list (K * V) := filter (fun e => 0 <? cmp (fst e) k) l.
Definition remove (k : K) (l : list (K * V)) : list (K * V) := filter (fun e => negb (cmp (fst e) k =? 0)) l.
Definition add (k : K) (v : V) (l : list (K * V)) : list (K * V) := below k l ++ (k, v) :: above k l.
(** Replace the value of the entry with key [k], keeping the stored key. *)
Definition assign (k : K) (v : V) (l : list (K * V)) : list (K * V) :=
  map (fun e => if cmp (fst e) k =? 0 then (fst e, v) else e) l.

Definition destroy_entry (e : K * V) : list (destroyed K V) := [DKey (fst e); DVal (snd e)].

(** One operation: entries afterwards, destroyed objects, result. *)
Definition map_step (l : list (K * V)) (o : op K V) : list (K * V) * list (destroyed K V) * bool :=
  match o with
  | Insert k v => match lookup k l with
      | None => (add k v l, [], true)
      | Some _ => (l, [DKey k; DVal v], false) end
  | Emplace k v => match lookup k l with
      | None => (add k v l, [], true)
      | Some _ => (l, [], false) end
  | InsertOrAssign k v => match lookup k l with
      | None => (add k v l, [], true)
      | Some old => (assign k v l, [DKey k; DVal (snd old)], false) end
  | EmplaceOrAssign k v => match lookup k l with
      | None => (add k v l, [], true)
      | Some old => (assign k v l, [DVal (snd old)], false) end
  | Erase k => match lookup k l with
      | None => (l, [], false)
      | Some old => (remove k l, destroy_entry old, true) end
  | EraseIf p => (filter (fun e => negb (p e)) l, flat_map destroy_entry (filter p l), false)
  | Clear => ([], flat_map destroy_entry l, false)
  | Reserve _ => (l, [], true)
  end.
Fixpoint map_run (l : list (K * V)) (ops : list (op K V))
    : list (K * V) * list (list (destroyed K V) * bool) :=
  match ops with
  | [] => (l, [])
  | o :: rest =>
    let '(l1, d, b) := map_step l o in
    let r := map_run l1 rest in (fst r, (d, b) :: snd r)
  end.

(** Sizes the 32-bit indices and the growth computation head*3/2 + 4 (in int) allow:
    [r] entries have been reserved; at most max(r, 715827882) entries are ever stored. *)
Definition max_unreserved : Z := 715827882.
Definition reserved (r : Z) (o : op K V) : Z :=
  match o with Reserve c => Z.max r c | Clear => 0 | _ => r end.
Fixpoint legal (r : Z) (l : list (K * V)) (ops : list (op K V)) : Prop :=
  match ops with
  | [] => True
  | o :: rest =>
    let l1 := fst (fst (map_step l o)) in
    match o with Reserve c => c < 2 ^ 31 | _ => True end /\
    zlen l1 <= Z.max r max_unreserved /\ legal (reserved r o) l1 rest
  end.
(** The largest number of entries held at once since the last clear. *)
Fixpoint peak (p : Z) (l : list (K * V)) (ops : list (op K V)) : Z :=
  match ops with
  | [] => p
  | o :: rest =>
    let l1 := fst (fst (map_step l o)) in
    peak (match o with Clear => 0 | _ => Z.max p (zlen l1) end) l1 rest
  end.
(** The same operations ran with the same results: destroyed objects as multisets. *)
Definition same_outs (a c : list (list (destroyed K V) * bool)) : Prop :=
  Forall2 (fun x y => Permutation (fst x) (fst y) /\ snd x = snd y) a c.
End SmapSpec.

(** A downward path of [n] nodes from node [i]. *)
Inductive path_from {K V} (d : slots (node K V)) : Z -> Z -> Prop :=
| path_none i : path_from d i 0
| path_node i nd b n : i <> 0 -> aget d i = Ok (Some nd) -> path_from d (link b nd) n -> path_from d i (1 + n).
