(** Specification of a finite map: a list of entries with pairwise different keys. *)
From Verif Require Import Base Hmap_Model.

Section HmapSpec.
Context {K V : Type}.
Variable hash : K -> Z.
Variable eqb : K -> K -> bool.

(** What i_eq and i_hash must satisfy: i_eq is an equivalence, equal keys hash equal. *)
Record key_ok : Prop := {
  ko_refl : forall x, eqb x x = true;
  ko_sym : forall x y, eqb x y = true -> eqb y x = true;
  ko_trans : forall x y z, eqb x y = true -> eqb y z = true -> eqb x z = true;
  ko_hash : forall x y, eqb x y = true -> hash x = hash y;
}.

(** Pairwise different keys. *)
Fixpoint distinct_keys (l : list (K * V)) : Prop :=
  match l with
  | [] => True
  | e :: r => (forall e', In e' r -> eqb (fst e) (fst e') = false) /\ distinct_keys r
  end.

Definition lookup (k : K) (l : list (K * V)) : option (K * V) := List.find (fun e => eqb (fst e) k) l.
Definition remove (k : K) (l : list (K * V)) : list (K * V) := filter (fun e => negb (eqb (fst e) k)) l.
(** Replace the value of the entry with key [k], keeping the stored key. *)
Definition assign (k : K) (v : V) (l : list (K * V)) : list (K * V) :=
  map (fun e => if eqb (fst e) k then (fst e, v) else e) l.

Definition destroy_entry (e : K * V) : list (destroyed K V) := [DKey (fst e); DVal (snd e)].

(** One operation: entries afterwards, destroyed objects, result. *)
Definition map_step (l : list (K * V)) (o : op K V) : list (K * V) * list (destroyed K V) * bool :=
  match o with
  | Insert k v => match lookup k l with
      | None => ((k, v) :: l, [], true)
      | Some _ => (l, [DKey k; DVal v], false) end
  | Emplace k v => match lookup k l with
      | None => ((k, v) :: l, [], true)
      | Some _ => (l, [], false) end
  | InsertOrAssign k v => match lookup k l with
      | None => ((k, v) :: l, [], true)
      | Some old => (assign k v l, [DKey k; DVal (snd old)], false) end
  | EmplaceOrAssign k v => match lookup k l with
      | None => ((k, v) :: l, [], true)
      | Some old => (assign k v l, [DVal (snd old)], false) end
  | Erase k => match lookup k l with
      | None => (l, [], false)
      | Some old => (remove k l, destroy_entry old, true) end
  | EraseIf p => (filter (fun e => negb (p e)) l, flat_map destroy_entry (filter p l), false)
  | Clear => ([], flat_map destroy_entry l, false)
  | Reserve _ | ShrinkToFit => (l, [], true)
  end.

Fixpoint map_run (l : list (K * V)) (ops : list (op K V))
    : list (K * V) * list (list (destroyed K V) * bool) :=
  match ops with
  | [] => (l, [])
  | o :: rest =>
    let '(l1, d, b) := map_step l o in
    let r := map_run l1 rest in (fst r, (d, b) :: snd r)
  end.

(** Sizes that cannot make the capacity computation overflow 64 bits. *)
Definition legal_op (l : list (K * V)) (o : op K V) : Prop :=
  match o with
  | Reserve cap => 0 <= cap <= 2 ^ 60
  | _ => zlen l < 2 ^ 60
  end.

(** The 10-bit distance field can express every probe distance: in a table of [b] buckets no
    window of n >= 1023 consecutive buckets is home to more than n of the keys. *)
Definition in_window (b start n : Z) (k : K) : bool := (hash k - start) mod b <? n.
Definition spread_in (b : Z) (l : list (K * V)) : Prop :=
  forall start n, 1023 <= n <= b ->
    zlen (filter (fun e => in_window b start n (fst e)) l) <= n.
(** ... for every table size (a power of two) at which the keys fill at most 81% of the
    buckets (the code keeps tables at about 80%). *)
Definition spread (l : list (K * V)) : Prop :=
  forall j, 0 <= j -> 100 * zlen l <= 81 * 2 ^ j -> spread_in (2 ^ j) l.

Fixpoint legal (l : list (K * V)) (ops : list (op K V)) : Prop :=
  match ops with
  | [] => True
  | o :: rest =>
    let l1 := fst (fst (map_step l o)) in
    legal_op l o /\ spread l1 /\ legal l1 rest
  end.

(** Keys and values moved into the map by an operation. *)
Definition moved_in (l : list (K * V)) (o : op K V) : list (destroyed K V) :=
  match o with
  | Insert k v | InsertOrAssign k v => [DKey k; DVal v]
  | Emplace k v => match lookup k l with None => [DKey k; DVal v] | Some _ => [] end
  | EmplaceOrAssign k v => match lookup k l with None => [DKey k; DVal v] | Some _ => [DVal v] end
  | _ => []
  end.
Fixpoint moved_in_all (l : list (K * V)) (ops : list (op K V)) : list (destroyed K V) :=
  match ops with
  | [] => []
  | o :: rest => moved_in l o ++ moved_in_all (fst (fst (map_step l o))) rest
  end.

(** No more than [n] entries at any time. *)
Fixpoint sizes_le (n : Z) (l : list (K * V)) (ops : list (op K V)) : Prop :=
  match ops with
  | [] => True
  | o :: rest =>
    let l1 := fst (fst (map_step l o)) in
    legal_op l o /\ zlen l1 <= n /\ sizes_le n l1 rest
  end.
(** Same results of the operations: what was destroyed (as a multiset) and the bool. *)
Definition same_outs (a c : list (list (destroyed K V) * bool)) : Prop :=
  Forall2 (fun x y => Permutation (fst x) (fst y) /\ snd x = snd y) a c.
End HmapSpec.
