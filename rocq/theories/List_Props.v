(** list properties: C12, C13, C69, C70 and the list parts of C03 and C14. *)
From Verif Require Import Base Order Sort_Model Sort_Proofs List_Model List_Spec List_Proofs List_Proofs2.

(** C12.  Any legal history on any list in any heap runs without reading a freed node or
    following a null pointer, destroys what the same history destroys on a sequence, and
    leaves one cycle of distinct nodes holding the resulting sequence with [last] at its
    end.  [only]: no node outside the list is touched, and every node that left the list
    is no longer allocated. *)
Theorem C12_list_is_sequence {A} (eqb : A -> A -> bool) (h : heap A) last (cs : list (Z * A)) (ops : list (op A)) :
  heap_ok h -> circular h last cs -> legal eqb (map snd cs) ops ->
  exists h' last' cs', run eqb h last ops = Ok (h', last', snd (seq_run eqb (map snd cs) ops)) /\
    heap_ok h' /\ circular h' last' cs' /\ map snd cs' = fst (seq_run eqb (map snd cs) ops) /\
    only h (addrs cs) h' (addrs cs') /\
    each h' last' = Ok (fst (seq_run eqb (map snd cs) ops)) /\
    count h' last' = Ok (zlen (fst (seq_run eqb (map snd cs) ops))).
Proof.
  intros Ho Hc Hl. destruct (run_spec eqb ops h last cs (conj Ho Hc) Hl) as (h' & last' & cs' & E & Hr & Hm & Hon).
  exists h', last', cs'. split; [exact E|]. split; [apply Hr|]. split; [apply Hr|]. split; [exact Hm|]. split; [exact Hon|].
  rewrite <- Hm. split; [now apply each_spec|]. rewrite (count_spec _ _ _ Hr). f_equal. unfold zlen. now rewrite map_length.
Qed.
Print Assumptions C12_list_is_sequence.

(** C12 from the empty list in a heap with nothing allocated: at the end exactly the nodes
    of the list are allocated, and after dropping it nothing is. *)
Theorem C12_list_from_empty {A} (eqb : A -> A -> bool) (ops : list (op A)) :
  legal eqb [] ops ->
  exists h last cs, run eqb empty_heap 0 ops = Ok (h, last, snd (seq_run eqb [] ops)) /\
    circular h last cs /\ map snd cs = fst (seq_run eqb [] ops) /\ (forall a, node h a <> None <-> In a (addrs cs)) /\
    exists h', drop h last = Ok (h', fst (seq_run eqb [] ops)) /\ forall a, node h' a = None.
Proof.
  intros Hl. assert (H0 : lst (@empty_heap A) 0 []). { apply lst_nil. split; [cbn; lia|]. intros a Ha. exfalso. apply Ha. reflexivity. }
  destruct (run_spec eqb ops empty_heap 0 [] H0 Hl) as (h & last & cs & E & Hr & Hm & Hon).
  assert (Hlv : forall a, node h a <> None <-> In a (addrs cs)).
  { intros a. split; [|now apply (lst_live h last cs)]. intros Ha. destruct Hon as [_ G]. destruct (G a Ha) as [?|[Hx _]]; [auto|].
    exfalso. apply Hx. reflexivity. }
  exists h, last, cs. split; [exact E|]. split; [apply Hr|]. split; [exact Hm|]. split; [exact Hlv|].
  destruct (drop_spec h last cs Hr) as (h' & E2 & Ho & [_ G]). exists h'. cbn [map] in Hm. rewrite <- Hm. split; [exact E2|].
  intros a. destruct (node h' a) eqn:En; [|reflexivity]. exfalso. destruct (G a) as [[]|[Hx Hy]]; [unfold live; congruence|].
  apply Hy. now apply Hlv.
Qed.
Print Assumptions C12_list_from_empty.

Theorem C12_list_front_back {A} (h : heap A) last (cs : list (Z * A)) :
  heap_ok h -> circular h last cs -> cs <> [] ->
  front h last = aget (map snd cs) 0 /\ back h last = aget (map snd cs) (zlen cs - 1).
Proof.
  intros Ho Hc Hne. split.
  - destruct cs as [|[a x] cs]; [congruence|]. rewrite (front_spec h last a x cs (conj Ho Hc)). reflexivity.
  - destruct (exists_last Hne) as (c0 & [a x] & ->). rewrite (back_spec h last a x c0 (conj Ho Hc)).
    rewrite map_app, zlen_app, aget_app2 by (unfold zlen; rewrite ?map_length; cbn; lia).
    unfold zlen. rewrite map_length. cbn [length map snd]. replace (Z.of_nat (length c0) + Z.of_nat 1 - 1 - Z.of_nat (length c0)) with 0 by lia. reflexivity.
Qed.
Print Assumptions C12_list_front_back.

(** C12, cloning: the copy holds the same values in nodes of its own, the original is
    untouched, nothing else changes. *)
Theorem C12_list_clone {A} (h : heap A) last (cs : list (Z * A)) :
  heap_ok h -> circular h last cs ->
  exists h' last' new, clone h last = Ok (h', last') /\ two h' last cs last' new /\ map snd new = map snd cs /\
    only h [] h' (addrs new).
Proof. intros Ho Hc. exact (clone_spec h last cs (conj Ho Hc)). Qed.
Print Assumptions C12_list_clone.

(** C12, equality of two lists in the same heap (possibly the same list). *)
Theorem C12_list_eq {A} (eqb : A -> A -> bool) (h : heap A) l1 l2 (cs1 cs2 : list (Z * A)) :
  (forall x y, eqb x y = true <-> x = y) -> heap_ok h -> circular h l1 cs1 -> circular h l2 cs2 ->
  exists b, eq eqb h l1 l2 = Ok b /\ (b = true <-> map snd cs1 = map snd cs2).
Proof.
  intros Hb Ho H1 H2. eexists. split; [exact (eq_spec eqb h l1 l2 cs1 cs2 (conj Ho H1) (conj Ho H2))|].
  generalize (map snd cs1) (map snd cs2). clear - Hb. intros l1. induction l1 as [|x l1 IH]; intros [|y l2]; cbn; try (split; [discriminate|discriminate]); try tauto.
  rewrite Bool.andb_true_iff, Hb, IH. split; [intros [-> ->]; reflexivity|intros [= -> ->]; auto].
Qed.
Print Assumptions C12_list_eq.

(** C12, find: the first equal element, or the end. *)
Theorem C12_list_find {A} (eqb : A -> A -> bool) (h : heap A) last (cs : list (Z * A)) raw :
  heap_ok h -> circular h last cs ->
  exists it, find eqb h last raw = Ok it /\
    match List.find (fun x => eqb x raw) (map snd cs) with
    | None => ref it = 0
    | Some x => val_of h (ref it) = Ok x
    end.
Proof.
  intros Ho Hc. destruct (find_spec eqb h last cs raw (conj Ho Hc)) as (it & E & Hit). exists it. split; [exact E|].
  destruct Hit as [[-> Hn]|(m & a & x & r & Ecs & -> & Ex & Hm)].
  - assert (G : List.find (fun x => eqb x raw) (map snd cs) = None); [|now rewrite G].
    destruct (List.find _ _) eqn:Ef; [|reflexivity]. apply find_some in Ef as [Hi He]. rewrite Hn in He by exact Hi. discriminate.
  - assert (G : List.find (fun x => eqb x raw) (map snd cs) = Some x).
    { rewrite Ecs, map_app. cbn [map snd]. clear - Ex Hm. induction (map snd m) as [|y l IH]; cbn; [now rewrite Ex|].
      rewrite Hm by (left; reflexivity). apply IH. intros z Hz. apply Hm. right. exact Hz. }
    rewrite G. subst cs. exact (it_at_val h last m a x r (conj Ho Hc)).
Qed.
Print Assumptions C12_list_find.

(** the nodes of a three element list, not in address order, in a heap with a fourth node *)
Definition heap3 : heap Z :=
  mkheap (fun a => if a =? 2 then Some (10, 5) else if a =? 5 then Some (20, 3) else if a =? 3 then Some (30, 2)
                   else if a =? 4 then Some (99, 4) else None) 7.
Example heap3_ok : heap_ok heap3 /\ circular heap3 3 [(2, 10); (5, 20); (3, 30)] /\ circular heap3 4 [(4, 99)].
Proof.
  split; [|split].
  - split; [cbn; lia|]. intros a Ha. unfold live in Ha. cbn in Ha. cbn.
    destruct (Z.eqb_spec a 2); [lia|]. destruct (Z.eqb_spec a 5); [lia|]. destruct (Z.eqb_spec a 3); [lia|]. destruct (Z.eqb_spec a 4); [lia|congruence].
  - split; [repeat constructor; cbn; intuition lia|]. split; [cbn; auto|reflexivity].
  - split; [repeat constructor; cbn; intuition lia|]. split; [cbn; auto|reflexivity].
Qed.
Definition demo_ops : list (op Z) :=
  [InsertAt 3 40; InsertAt 0 5; EraseAt 4; PopFront; PushFront 20; Remove 20; Reverse; PushBack 7; EraseRange 1 3; Clear; InsertAt 0 1].
Example C12_example :
  legal Z.eqb [10; 20; 30] demo_ops /\
  seq_run Z.eqb [10; 20; 30] demo_ops = ([1], [[]; []; [40]; [5]; []; [20; 20]; []; []; [10; 7]; [30]; []]) /\
  (exists h last, run Z.eqb heap3 3 demo_ops = Ok (h, last, [[]; []; [40]; [5]; []; [20; 20]; []; []; [10; 7]; [30]; []]) /\
     each h last = Ok [1] /\ node h 4 = Some (99, 4) /\ node h 2 = None /\ node h 3 = None /\ node h 5 = None).
Proof. split; [cbn; intuition (try discriminate; try lia)|]. split; [reflexivity|]. eexists _, _. split; [vm_compute; reflexivity|]. vm_compute. auto. Qed.

(** C13, splice: the whole of the other list goes before position i and the other list
    becomes empty; both lists' nodes are reused, nothing is allocated or freed. *)
Theorem C13_list_splice {A} (h : heap A) last (cs : list (Z * A)) olast (ocs : list (Z * A)) (i : nat) :
  two h last cs olast ocs -> (i <= length cs)%nat ->
  exists it h' last' it', at_index h last i = Ok it /\ splice h last it olast = Ok (h', last', 0, it') /\
    heap_ok h' /\ circular h' last' (firstn i cs ++ ocs ++ skipn i cs) /\
    only h (addrs cs ++ addrs ocs) h' (addrs cs ++ addrs ocs) /\
    each h' last' = Ok (firstn i (map snd cs) ++ map snd ocs ++ skipn i (map snd cs)).
Proof.
  intros H Hi. exists (it_at (firstn i cs) (skipn i cs)). rewrite (at_index_spec h last cs i (two_lst1 _ _ _ _ _ H) Hi).
  pose proof H as H'. rewrite <- (firstn_skipn i cs) in H'.
  destruct (splice_spec h last _ _ olast ocs H') as (h' & last' & it' & E & Hr & Hon). do 3 eexists.
  split; [reflexivity|]. split; [exact E|]. split; [apply Hr|]. split; [apply Hr|]. split.
  - rewrite firstn_skipn in Hon. eapply only_perm; [intros; reflexivity| |exact Hon].
    intros a. rewrite <- (firstn_skipn i cs) at 3. rewrite !addrs_app, !in_app_iff. tauto.
  - rewrite (each_spec _ _ _ Hr), !map_app, map_firstn, map_skipn. reflexivity.
Qed.
Print Assumptions C13_list_splice.

(** C13, split_off: exactly the range [i, j) leaves, in order, as a list of its own. *)
Theorem C13_list_split_off {A} (h : heap A) last (cs : list (Z * A)) (i j : nat) :
  heap_ok h -> circular h last cs -> (i <= j <= length cs)%nat ->
  exists it1 it2 h' last' olast, at_index h last i = Ok it1 /\ at_index h last j = Ok it2 /\
    split_off h last it1 it2 = Ok (h', last', olast) /\
    two h' last' (firstn i cs ++ skipn j cs) olast (firstn (j - i) (skipn i cs)) /\
    only h (addrs cs) h' (addrs cs) /\
    each h' last' = Ok (firstn i (map snd cs) ++ skipn j (map snd cs)) /\
    each h' olast = Ok (firstn (j - i) (skipn i (map snd cs))).
Proof.
  intros Ho Hc Hij. pose proof (conj Ho Hc : lst h last cs) as H. destruct (cut_range cs i j Hij) as (E1 & E2 & E3).
  exists (it_at (firstn i cs) (skipn i cs)), (it_at (firstn j cs) (skipn j cs)).
  rewrite (at_index_spec h last cs i H), (at_index_spec h last cs j H) by lia.
  pose proof H as H'. rewrite E1 in H'.
  destruct (split_off_spec h last _ _ _ H') as (h' & last' & olast & E & Ht & Hon). rewrite <- E2, <- E3 in E. do 3 eexists.
  split; [reflexivity|]. split; [reflexivity|]. split; [exact E|]. split; [exact Ht|]. split; [|split].
  - rewrite <- E1 in Hon. eapply only_perm; [intros; reflexivity| |exact Hon]. intros a. rewrite (f_equal addrs E1). rewrite !addrs_app, !in_app_iff. tauto.
  - rewrite (each_spec _ _ _ (two_lst1 _ _ _ _ _ Ht)), map_app, map_firstn, map_skipn. reflexivity.
  - rewrite (each_spec _ _ _ (two_lst2 _ _ _ _ _ Ht)), map_firstn, map_skipn. reflexivity.
Qed.
Print Assumptions C13_list_split_off.

(** C13, splice_range: the range [i, j) of the other list moves before position k. *)
Theorem C13_list_splice_range {A} (h : heap A) last (cs : list (Z * A)) olast (ocs : list (Z * A)) (k i j : nat) :
  two h last cs olast ocs -> (k <= length cs)%nat -> (i <= j <= length ocs)%nat ->
  exists it it1 it2 h' last' olast' it',
    at_index h last k = Ok it /\ at_index h olast i = Ok it1 /\ at_index h olast j = Ok it2 /\
    splice_range h last it olast it1 it2 = Ok (h', last', olast', it') /\
    two h' last' (firstn k cs ++ firstn (j - i) (skipn i ocs) ++ skipn k cs) olast' (firstn i ocs ++ skipn j ocs) /\
    only h (addrs cs ++ addrs ocs) h' (addrs cs ++ addrs ocs).
Proof. exact (splice_range_spec h last cs olast ocs k i j). Qed.
Print Assumptions C13_list_splice_range.

(** C13, reverse. *)
Theorem C13_list_reverse {A} (h : heap A) last (cs : list (Z * A)) :
  heap_ok h -> circular h last cs ->
  exists h' last', reverse h last = Ok (h', last') /\ heap_ok h' /\ circular h' last' (rev cs) /\
    only h (addrs cs) h' (addrs (rev cs)) /\ each h' last' = Ok (rev (map snd cs)).
Proof.
  intros Ho Hc. destruct (reverse_spec h last cs (conj Ho Hc)) as (h' & last' & E & Hr & Hon). exists h', last'.
  split; [exact E|]. split; [apply Hr|]. split; [apply Hr|]. split; [exact Hon|]. now rewrite (each_spec _ _ _ Hr), map_rev.
Qed.
Print Assumptions C13_list_reverse.

(** C13, remove: exactly the equal elements go (their nodes are freed, the destroyed
    values are those), the others keep their order, the count is returned. *)
Theorem C13_list_remove {A} (eqb : A -> A -> bool) (h : heap A) last (cs : list (Z * A)) raw :
  heap_ok h -> circular h last cs ->
  let gone := filter (fun x => eqb x raw) (map snd cs) in
  let kept := filter (fun nd => negb (eqb (snd nd) raw)) cs in
  exists h' last', remove eqb h last raw = Ok (h', last', gone, zlen gone) /\
    heap_ok h' /\ circular h' last' kept /\ only h (addrs cs) h' (addrs kept) /\
    each h' last' = Ok (filter (fun x => negb (eqb x raw)) (map snd cs)).
Proof.
  intros Ho Hc gone kept. destruct (remove_spec eqb h last cs raw (conj Ho Hc)) as (h' & last' & E & Hr & Hon). exists h', last'.
  split; [exact E|]. split; [apply Hr|]. split; [apply Hr|]. split; [exact Hon|]. rewrite (each_spec _ _ _ Hr). f_equal.
  symmetry. exact (filter_snd (fun x => negb (eqb x raw)) cs).
Qed.
Print Assumptions C13_list_remove.

Example C13_example :
  (let* it := at_index heap3 3 3 in let* r := splice heap3 3 it 4 in
   let '(h, l, o, _) := r in let* xs := each h l in Ok (xs, o)) = Ok ([10; 20; 30; 99], 0) /\
  (let* i1 := at_index heap3 3 1 in let* i2 := at_index heap3 3 3 in let* r := split_off heap3 3 i1 i2 in
   let '(h, l, o) := r in let* xs := each h l in let* ys := each h o in Ok (xs, ys)) = Ok ([10], [20; 30]) /\
  (let* it := at_index heap3 4 0 in let* i1 := at_index heap3 3 1 in let* i2 := at_index heap3 3 3 in
   let* r := splice_range heap3 4 it 3 i1 i2 in
   let '(h, l, o, _) := r in let* xs := each h l in let* ys := each h o in Ok (xs, ys)) = Ok ([20; 30; 99], [10]) /\
  (let* r := reverse heap3 3 in each (fst r) (snd r)) = Ok [30; 20; 10] /\
  (let* r := remove Z.eqb heap3 3 30 in let '(h, l, g, n) := r in let* xs := each h l in Ok (xs, g, n)) = Ok ([10; 20], [30], 1) /\
  two heap3 3 [(2, 10); (5, 20); (3, 30)] 4 [(4, 99)].
Proof.
  do 5 (split; [vm_compute; reflexivity|]).
  destruct heap3_ok as (Ha & Hb & Hc). split; [exact Ha|]. split; [exact Hb|]. split; [exact Hc|]. repeat constructor; cbn; intuition lia.
Qed.

(** C14 for the list: sort rearranges the values into a sorted permutation, in the same
    nodes, and reports whether the list was non-empty. *)
Theorem C14_list_sort {A} (less : A -> A -> bool) (h : heap A) last (cs : list (Z * A)) :
  strict_weak_order less -> heap_ok h -> circular h last cs ->
  exists h' cs', sort less h last = Ok (h', match cs with [] => false | _ => true end) /\
    heap_ok h' /\ circular h' last cs' /\ addrs cs' = addrs cs /\ Permutation (map snd cs) (map snd cs') /\
    sorted_by less (map snd cs') /\ only h (addrs cs) h' (addrs cs).
Proof.
  intros Hs Ho Hc. destruct (list_sort_spec less h last cs Hs (conj Ho Hc)) as (h' & ys & E & P & S & Hr & Em & Hon).
  exists h', (combine (addrs cs) ys). rewrite (lst_zero h last cs (conj Ho Hc)) in E.
  split; [rewrite E; destruct cs; reflexivity|]. split; [apply Hr|]. split; [apply Hr|].
  split; [apply combine_fst; apply Permutation_length in P; rewrite map_length in P; unfold addrs; rewrite map_length; lia|].
  rewrite Em. auto.
Qed.
Print Assumptions C14_list_sort.
Example C14_list_example : exists h, sort (fun x y => y <? x) heap3 3 = Ok (h, true) /\ each h 3 = Ok [30; 20; 10].
Proof. eexists. split; vm_compute; reflexivity. Qed.

(** C03 for the list. *)
Theorem C03_list_each {A} (h : heap A) last (cs : list (Z * A)) :
  heap_ok h -> circular h last cs -> each h last = Ok (map snd cs).
Proof. intros Ho Hc. exact (each_spec h last cs (conj Ho Hc)). Qed.
Print Assumptions C03_list_each.
Example C03_list_example : each heap3 3 = Ok [10; 20; 30] /\ each heap3 0 = Ok [].
Proof. split; vm_compute; reflexivity. Qed.

(** C69: on the empty list erase_range(begin, end) follows a null pointer. *)
Theorem C69_list_erase_range_refuted :
  exists (h : heap Z) it, heap_ok h /\ circular h 0 [] /\ begin h 0 = Ok it /\ erase_range h 0 it end_ = Err NullDeref.
Proof.
  exists empty_heap. eexists. split; [|split; [|split; [vm_compute; reflexivity|vm_compute; reflexivity]]].
  - split; [cbn; lia|]. intros a Ha. exfalso. apply Ha. reflexivity.
  - split; [constructor|]. split; [exact I|reflexivity].
Qed.
Print Assumptions C69_list_erase_range_refuted.

(** C69, every non-empty list: exactly the range goes; the upper bound may also be given
    by the end iterator. *)
Theorem C69_list_erase_range_partial {A} (h : heap A) last (cs : list (Z * A)) (i j : nat) :
  heap_ok h -> circular h last cs -> cs <> [] -> (i <= j <= length cs)%nat ->
  exists it1 it2 h' last' it', at_index h last i = Ok it1 /\ at_index h last j = Ok it2 /\
    erase_range h last it1 it2 = Ok (h', last', firstn (j - i) (skipn i (map snd cs)), it') /\
    (j = length cs -> exists it'', erase_range h last it1 end_ = Ok (h', last', firstn (j - i) (skipn i (map snd cs)), it'')) /\
    heap_ok h' /\ circular h' last' (firstn i cs ++ skipn j cs) /\
    only h (addrs cs) h' (addrs (firstn i cs ++ skipn j cs)).
Proof.
  intros Ho Hc Hne Hij. pose proof (conj Ho Hc : lst h last cs) as H. destruct (cut_range cs i j Hij) as (E1 & E2 & E3).
  exists (it_at (firstn i cs) (skipn i cs)), (it_at (firstn j cs) (skipn j cs)).
  rewrite (at_index_spec h last cs i H), (at_index_spec h last cs j H) by lia.
  pose proof H as H'. rewrite E1 in H'. pose proof Hne as Hne'. rewrite E1 in Hne'.
  destruct (erase_range_spec h last _ _ _ H' Hne') as (h' & last' & E & Hr & Hon). rewrite <- E1 in Hon. rewrite <- E2, <- E3 in E.
  rewrite map_firstn, map_skipn in E. do 3 eexists. split; [reflexivity|]. split; [reflexivity|]. split; [exact E|].
  split; [|split; [apply Hr|split; [apply Hr|exact Hon]]].
  intros ->. exists end_. revert E. unfold erase_range. rewrite (skipn_all cs). cbn [it_at ref first_addr end_ Z.eqb].
  destruct (next_of h last) as [e|]; cbn [bind]; [|discriminate].
  destruct (_ =? 0); [intros [= -> -> -> ]; reflexivity|].
  destruct (erase_loop _ _ _ _ _) as [[[h1 l1] ys]|]; cbn [bind]; [|discriminate]. intros [= -> -> -> ]. reflexivity.
Qed.
Print Assumptions C69_list_erase_range_partial.
Example C69_example :
  (let* it1 := at_index heap3 3 1 in let* r := erase_range heap3 3 it1 end_ in
   let '(h, l, g, _) := r in let* xs := each h l in Ok (xs, g, node h 5, node h 3)) = Ok ([10], [20; 30], None, None).
Proof. vm_compute. reflexivity. Qed.

(** C70: erasing at the iterator returned by erase_range reads a freed node. *)
Theorem C70_erase_range_iterator_refuted :
  exists (h : heap Z) last cs it1 it2 h' last' ys it',
    heap_ok h /\ circular h last cs /\ at_index h last 0 = Ok it1 /\ at_index h last 2 = Ok it2 /\
    erase_range h last it1 it2 = Ok (h', last', ys, it') /\ erase_at h' last' it' = Err UseAfterFree /\
    insert_at h' last' it' 7 = Err UseAfterFree.
Proof.
  destruct heap3_ok as (H1 & H2 & _). exists heap3, 3, [(2, 10); (5, 20); (3, 30)]. do 6 eexists.
  split; [exact H1|]. split; [exact H2|]. repeat (split; [vm_compute; reflexivity|]). vm_compute. reflexivity.
Qed.
Print Assumptions C70_erase_range_iterator_refuted.

(** C70: the iterator returned by insert_at at the end iterator cannot be advanced. *)
Theorem C70_insert_at_end_iterator_refuted :
  exists (h : heap Z) last cs h' last' it',
    heap_ok h /\ circular h last cs /\ insert_at h last end_ 7 = Ok (h', last', it') /\ ref it' = last' /\ next h' last' it' = Err NullDeref.
Proof.
  destruct heap3_ok as (H1 & H2 & _). exists heap3, 3, [(2, 10); (5, 20); (3, 30)]. do 3 eexists.
  split; [exact H1|]. split; [exact H2|]. repeat (split; [vm_compute; reflexivity|]). vm_compute. reflexivity.
Qed.
Print Assumptions C70_insert_at_end_iterator_refuted.

(** C70, iterators obtained by advancing from begin: insert_at returns an iterator from
    which the loop visits the new element and what followed; erase_at one from which it
    visits what followed. *)
Theorem C70_insert_at_iterator_partial {A} (h : heap A) last (cs : list (Z * A)) (i : nat) x :
  heap_ok h -> circular h last cs -> (i <= length cs)%nat ->
  exists it h' last' it' cs', at_index h last i = Ok it /\ insert_at h last it x = Ok (h', last', it') /\
    heap_ok h' /\ circular h' last' cs' /\
    map snd cs' = firstn i (map snd cs) ++ x :: skipn i (map snd cs) /\
    each_loop (fuel_of h') h' last' it' = Ok (x :: skipn i (map snd cs)) /\ only h (addrs cs) h' (addrs cs').
Proof.
  intros Ho Hc Hi. destruct (insert_at_index h last cs i x (conj Ho Hc) Hi) as (it & h' & last' & it' & cs' & H).
  exists it, h', last', it', cs'. destruct H as (H1 & H2 & [H3 H4] & H5). auto 8.
Qed.
Print Assumptions C70_insert_at_iterator_partial.
Theorem C70_erase_at_iterator_partial {A} (h : heap A) last (cs : list (Z * A)) (i : nat) :
  heap_ok h -> circular h last cs -> (i < length cs)%nat ->
  exists it h' last' y it' cs', at_index h last i = Ok it /\ erase_at h last it = Ok (h', last', y, it') /\
    heap_ok h' /\ circular h' last' cs' /\ nth_error (map snd cs) i = Some y /\
    map snd cs' = firstn i (map snd cs) ++ skipn (S i) (map snd cs) /\
    each_loop (fuel_of h') h' last' it' = Ok (skipn (S i) (map snd cs)) /\ only h (addrs cs) h' (addrs cs').
Proof.
  intros Ho Hc Hi. destruct (erase_at_index h last cs i (conj Ho Hc) Hi) as (it & h' & last' & y & it' & cs' & H).
  exists it, h', last', y, it', cs'. destruct H as (H1 & H2 & [H3 H4] & H5). auto 8.
Qed.
Print Assumptions C70_erase_at_iterator_partial.
Example C70_example :
  (let* it := at_index heap3 3 1 in let* r := erase_at heap3 3 it in
   let '(h, l, y, it') := r in let* xs := each_loop (fuel_of h) h l it' in Ok (y, xs)) = Ok (20, [30]).
Proof. vm_compute. reflexivity. Qed.
