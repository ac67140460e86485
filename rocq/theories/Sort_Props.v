(** Property theorems C14-C17 (priv/sort_prv.h). *)
From Verif Require Import Base Order Sort_Model Sort_Proofs.

(** C14: for every strict weak order and every content, sort terminates without an out-of-bounds access and
    returns a permutation of its input in which no later element is less than an earlier one. *)
Theorem C14_sort_is_sorted_permutation :
  forall (A : Type) (less : A -> A -> bool), strict_weak_order less ->
  forall l : list A,
  exists l', sort_by_value less l = Ok l' /\ Permutation l l' /\ sorted_by less l'.
Proof. exact @sort_correct. Qed.
Print Assumptions C14_sort_is_sorted_permutation.

(** Elements with ties under the order, including duplicates. *)
Example C14_example :
  strict_weak_order fst_ltb /\
  sort_by_value fst_ltb [(3,0);(1,1);(3,2);(2,3);(1,4);(0,5)] = Ok [(0,5);(1,4);(1,1);(2,3);(3,2);(3,0)].
Proof. split; [exact fst_ltb_swo | vm_compute; reflexivity]. Qed.

(** C15 (as documented, "sort the range low..high"): violated.  The insertion sort used for short
    ranges shifts elements down past [lo] to index 0, so elements before the range are moved. *)
Theorem C15_sort_lowhigh_touches_outside_refuted :
  exists (l : list Z) (lo hi : Z) (l' : list Z),
    0 <= lo /\ lo <= hi /\ hi < zlen l /\
    sort_lowhigh Z.ltb (fun _ => false) (sort_fuel l + 1) l lo hi = Ok l' /\
    exists k, 0 <= k < lo /\ aget l' k <> aget l k.
Proof.
  exists [9;2;5;1;4;3], 1, 5, [1;9;2;3;4;5]. repeat split; try (cbn; lia).
  exists 0. split; [lia|]. vm_compute. discriminate.
Qed.
Print Assumptions C15_sort_lowhigh_touches_outside_refuted.

(** C15, the part that holds: if nothing before the range is greater than anything in it, the range is sorted,
    only the range is rearranged, and everything outside keeps its place. *)
Theorem C15_sort_lowhigh_partial :
  forall (A : Type) (less : A -> A -> bool), strict_weak_order less ->
  forall (l : list A) lo hi,
  0 <= lo -> hi < zlen l ->
  (forall k m x y, 0 <= k < lo -> lo <= m <= hi -> aget l k = Ok x -> aget l m = Ok y -> less y x = false) ->
  exists l', sort_lowhigh less (fun _ => false) (sort_fuel l + 1) l lo hi = Ok l' /\
    Permutation l l' /\
    (forall k, ~ (lo <= k <= hi) -> aget l' k = aget l k) /\
    (forall i j x y, lo <= i -> i < j -> j <= hi -> aget l' i = Ok x -> aget l' j = Ok y -> less y x = false).
Proof.
  intros A less Hs l lo hi H1 H2 H3.
  destruct (sort_lowhigh_correct less Hs l lo hi H1 H2 H3) as (l' & E & (_ & P & O) & S).
  exists l'. auto.
Qed.
Print Assumptions C15_sort_lowhigh_partial.

Example C15_example : sort_lowhigh Z.ltb (fun _ => false) 20 [1;0;5;3;4;2;9;8] 2 6 = Ok [1;0;2;3;4;5;9;8].
Proof. vm_compute. reflexivity. Qed.

(** C16: violated.  When the raw key refers into the element's slot (cstr in its in-place form, see
    cstr_toraw), the pivot changes when its slot is swapped, and the result need not be sorted. *)
Theorem C16_sort_by_reference_refuted :
  exists l l' : list Z, sort Z.ltb (fun _ => true) l = Ok l' /\ ~ sorted_by Z.ltb l'.
Proof.
  exists [30;50;25;90;20], [20;30;25;50;90]. split; [vm_compute; reflexivity|].
  rewrite sorted_by_aget. intros H. specialize (H 1 2 30 25 eq_refl eq_refl eq_refl). discriminate.
Qed.
Print Assumptions C16_sort_by_reference_refuted.

(** C17: on a sorted array, lower_bound returns the first position whose element is not less than
    the key, or nothing if all elements are less. *)
Theorem C17_lower_bound_exact :
  forall (A : Type) (less : A -> A -> bool), strict_weak_order less ->
  forall (l : list A) (key : A), sorted_by less l ->
  exists r, lower_bound less l key = Ok r /\
  match r with
  | Some k => 0 <= k < zlen l /\
      (forall i x, 0 <= i < k -> aget l i = Ok x -> less x key = true) /\
      (forall i x, k <= i < zlen l -> aget l i = Ok x -> less x key = false)
  | None => forall i x, 0 <= i < zlen l -> aget l i = Ok x -> less x key = true
  end.
Proof.
  intros A less Hs l key Hl.
  exact (lower_bound_range_spec less Hs l key 0 (zlen l) (Z.le_refl 0) (zlen_nonneg l) (Z.le_refl _)
           (sorted_by_rng less l 0 _ Hl)).
Qed.
Print Assumptions C17_lower_bound_exact.

Theorem C17_binary_search_exact :
  forall (A : Type) (less : A -> A -> bool), strict_weak_order less ->
  forall (l : list A) (key : A), sorted_by less l ->
  exists r, binary_search less l key = Ok r /\
  match r with
  | Some k => exists x, aget l k = Ok x /\ less x key = false /\ less key x = false
  | None => ~ exists x, In x l /\ less x key = false /\ less key x = false
  end.
Proof.
  intros A less Hs l key Hl.
  destruct (binary_search_range_spec less Hs l key 0 (zlen l) (Z.le_refl 0) (zlen_nonneg l) (Z.le_refl _)
           (sorted_by_rng less l 0 _ Hl)) as (r & E & H).
  exists r. split; [exact E|]. destruct r as [k|]; [apply H|].
  intros (x & Hin & Hx). apply In_aget in Hin as (i & Hi & Hg). exact (H i x Hi Hg Hx).
Qed.
Print Assumptions C17_binary_search_exact.

(** The same on any subrange [s,e) that is sorted. *)
Theorem C17_search_range_exact :
  forall (A : Type) (less : A -> A -> bool), strict_weak_order less ->
  forall (l : list A) (key : A) s e, 0 <= s -> s <= e -> e <= zlen l ->
  (forall i j x y, s <= i -> i < j -> j <= e - 1 -> aget l i = Ok x -> aget l j = Ok y -> less y x = false) ->
  (exists r, lower_bound_range less l key s e = Ok r /\
   match r with
   | Some k => s <= k < e /\
       (forall i x, s <= i < k -> aget l i = Ok x -> less x key = true) /\
       (forall i x, k <= i < e -> aget l i = Ok x -> less x key = false)
   | None => forall i x, s <= i < e -> aget l i = Ok x -> less x key = true
   end) /\
  (exists r, binary_search_range less l key s e = Ok r /\
   match r with
   | Some k => s <= k < e /\ exists x, aget l k = Ok x /\ less x key = false /\ less key x = false
   | None => forall i x, s <= i < e -> aget l i = Ok x -> ~ (less x key = false /\ less key x = false)
   end).
Proof.
  intros A less Hs l key s e H1 H2 H3 H4.
  exact (conj (lower_bound_range_spec less Hs l key s e H1 H2 H3 H4)
              (binary_search_range_spec less Hs l key s e H1 H2 H3 H4)).
Qed.
Print Assumptions C17_search_range_exact.

Example C17_example :
  sorted_by Z.ltb [1;3;3;5;8;8;9] /\
  lower_bound Z.ltb [1;3;3;5;8;8;9] 4 = Ok (Some 3) /\ lower_bound Z.ltb [1;3;3;5;8;8;9] 10 = Ok None /\
  binary_search Z.ltb [1;3;3;5;8;8;9] 8 = Ok (Some 4) /\ binary_search Z.ltb [1;3;3;5;8;8;9] 4 = Ok None.
Proof.
  split; [|vm_compute; auto]. unfold sorted_by, leb_of. repeat (constructor; [|repeat constructor]). constructor.
Qed.
