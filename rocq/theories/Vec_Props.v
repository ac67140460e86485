(** vec properties: C01, C02, C03 (vec part), C76. *)
From Verif Require Import Base Slots Vec_Model Vec_Spec Vec_Proofs Vec_Iter.

(** C01.  Any legal history, from any vec whose first [size] slots are live, runs without
    memory error, returns and destroys exactly what the same history does on a
    mathematical sequence, and leaves the vec storing that sequence, with size <= capacity. *)
Theorem C01_vec_is_sequence {A} (v : vec A) (l : list A) (ops : list (op A)) :
  stored v l -> legal l ops ->
  exists v', run v ops = Ok (v', snd (seq_run l ops)) /\
    stored v' (fst (seq_run l ops)) /\ 0 <= size v' <= capacity v'.
Proof.
  intros Hst Hl. destruct (run_spec ops v l Hst Hl) as (v' & E & H). exists v'. split; [exact E|]. split; [exact H|].
  pose proof (stored_cap _ _ H) as Hc. destruct H as [Hs _]. pose proof (zlen_nonneg (fst (seq_run l ops))). lia.
Qed.

(** C01, reading back: at/front/back/clone/eq/find agree with the sequence. *)
Theorem C01_vec_reads {A} (v : vec A) (l : list A) (eqb : A -> A -> bool) (raw : A) :
  stored v l ->
  size v = zlen l /\
  (forall i x, aget l i = Ok x -> at_ v i = Ok x) /\
  (l <> [] -> front v = aget l 0 /\ back v = aget l (zlen l - 1)) /\
  (exists w, clone v = Ok w /\ stored w l) /\
  (forall w m, stored w m -> exists b, eq eqb v w = Ok b /\ (b = true <-> Forall2 (fun x y => eqb x y = true) l m)) /\
  (exists o, find eqb v raw = Ok o /\
     match o with
     | Some i => (exists x, aget l i = Ok x /\ eqb raw x = true) /\
                 forall j y, 0 <= j < i -> aget l j = Ok y -> eqb raw y = false
     | None => forall x, In x l -> eqb raw x = false
     end).
Proof.
  intros Hst. pose proof Hst as [Hs Hh]. split; [exact Hs|]. split; [|split; [|split; [|split]]].
  - intros i x Hx. unfold at_. pose proof (aget_ok_range _ _ _ Hx) as Hr. rewrite Hs.
    destruct (Z.leb_spec 0 i); [|lia]. destruct (Z.ltb_spec i (zlen l)); [|lia]. cbn [andb].
    rewrite (holds_rd _ l) by (auto; lia). exact Hx.
  - intros Hne. assert (0 < zlen l) by (destruct l; [congruence|rewrite zlen_cons; pose proof (zlen_nonneg l); lia]).
    unfold front, back. rewrite Hs. split; apply holds_rd; auto; lia.
  - now apply clone_spec.
  - intros w m Hw. now apply eq_spec.
  - now apply find_spec.
Qed.

Example C01_example :
  legal [] [Push 1; InsertN 0 [7;8]; Resize 5 9; EraseN 1 3; Pull; Reserve 9; Push 4; Pop; ShrinkToFit; Clear; Push 6] /\
  exists v, run init [Push 1; InsertN 0 [7;8]; Resize 5 9; EraseN 1 3; Pull; Reserve 9; Push 4; Pop; ShrinkToFit; Clear; Push 6]
   = Ok (v, [([],[]); ([],[]); ([],[]); ([8;1;9],[]); ([],[9]); ([],[]); ([],[]); ([4],[]); ([],[]); ([7],[]); ([],[])]) /\
   stored v [6].
Proof.
  split; [cbn; intuition (try discriminate; try lia)|].
  eexists. split; [vm_compute; reflexivity|]. split; [reflexivity|eexists; reflexivity].
Qed.

(** C02.  Over a history from empty ending in drop, the elements moved in are, as a
    multiset, exactly those destroyed (by the operations or the final drop) plus those
    returned to the caller. *)
Theorem C02_vec_destroys_once {A} (ops : list (op A)) :
  legal [] ops ->
  exists v outs final, run init ops = Ok (v, outs) /\ drop v = Ok final /\
    Permutation (moved_in_all [] ops) (concat (map fst outs) ++ final ++ concat (map snd outs)).
Proof.
  intros Hl. destruct (run_spec ops init [] stored_init Hl) as (v & E & H).
  exists v, (snd (seq_run [] ops)), (rev (fst (seq_run [] ops))).
  split; [exact E|]. split; [now apply drop_spec|].
  pose proof (run_owner ops [] Hl) as P. cbn [app] in P. rewrite P. unfold dropped_all, given_all.
  rewrite !app_assoc. apply Permutation_app_tail.
  rewrite Permutation_app_comm. apply Permutation_app_head. apply Permutation_rev.
Qed.

(** C02, copy assignment destroys exactly the old contents. *)
Theorem C02_vec_copy_destroys_old {A} (v w : vec A) l m : stored v l -> stored w m ->
  exists v' d, copy v w = Ok (v', d) /\ stored v' m /\ Permutation d l.
Proof.
  intros Hv Hw. destruct (copy_spec v l w m Hv Hw) as (v' & E & H). exists v', (rev l).
  split; [exact E|]. split; [exact H|]. symmetry. apply Permutation_rev.
Qed.

Example C02_example :
  legal [] [Push 1; Push 2; InsertN 1 [3]; Pull; Resize 1 0] /\
  exists v outs, run init [Push 1; Push 2; InsertN 1 [3]; Pull; Resize 1 0] = Ok (v, outs) /\
    concat (map fst outs) = [3] /\ concat (map snd outs) = [2] /\ drop v = Ok [1].
Proof.
  split; [cbn; intuition (try discriminate; try lia)|].
  do 2 eexists. split; [vm_compute; reflexivity|]. repeat split.
Qed.

(** C03 for vec, as stated, fails: after a push and a clear the vec is empty but the
    for-each loop starts with a non-NULL reference and runs its body on the destroyed
    element (and then past it). *)
Theorem C03_vec_each_empty_refuted :
  exists (ops : list (op Z)) v outs, legal [] ops /\ run init ops = Ok (v, outs) /\ size v = 0 /\
    ref (begin v) = Some 0 /\ each v <> Ok [].
Proof.
  exists [Push 1; Clear]. do 2 eexists. split; [cbn; auto|]. split; [vm_compute; reflexivity|].
  split; [reflexivity|]. split; [reflexivity|]. vm_compute. discriminate.
Qed.

(** C03 for vec: every non-empty vec, and every vec without a buffer, is visited
    completely, in order (and in reverse order by the reverse loop). *)
Theorem C03_vec_each_partial {A} (v : vec A) l :
  stored v l -> (l <> [] \/ capacity v = 0) -> each v = Ok l /\ each_reverse v = Ok (rev l).
Proof. intros Hst Hor. split; [now apply each_spec|now apply each_reverse_spec]. Qed.

Example C03_vec_example :
  exists v outs, run init [Push 3; Push 5; InsertN 1 [4]] = Ok (v, outs) /\ stored v [3;4;5] /\
   each v = Ok [3;4;5] /\ each_reverse v = Ok [5;4;3].
Proof.
  do 2 eexists. split; [vm_compute; reflexivity|].
  split; [split; [reflexivity|eexists; reflexivity]|]. split; vm_compute; reflexivity.
Qed.

(** C76.  The iterator reached by i steps from begin denotes position i: advance gives the
    same iterator, insert_at inserts before element i (at the end for i = size), erase_at and
    erase_range remove the elements from i on, and the returned iterators denote the
    position where the change happened (the end when nothing follows). *)
Theorem C76_vec_iterators_partial {A} (v : vec A) l x (i : nat) : stored v l -> l <> [] -> Z.of_nat i <= zlen l ->
  let it := Nat.iter i next (begin v) in
  advance (begin v) (Z.of_nat i) = Ok it /\
  ref it = (if Z.of_nat i =? zlen l then None else Some (Z.of_nat i)) /\
  (exists v', insert_at v it x = Ok (v', Some (Z.of_nat i)) /\ stored v' (firstn i l ++ x :: skipn i l)) /\
  (Z.of_nat i < zlen l ->
    (exists v', erase_at v it = Ok (v', firstn 1 (skipn i l), if Z.of_nat i + 1 =? zlen l then None else Some (Z.of_nat i)) /\
       stored v' (firstn i l ++ skipn (S i) l)) /\
    (forall j : nat, (i <= j)%nat -> Z.of_nat j <= zlen l -> exists v',
       erase_range v it (Nat.iter j next (begin v)) =
         Ok (v', firstn (j - i) (skipn i l), if Z.of_nat j =? zlen l then None else Some (Z.of_nat i)) /\
       stored v' (firstn i l ++ skipn j l)) /\
    (exists v', erase_range v it end_ = Ok (v', skipn i l, None) /\ stored v' (firstn i l))).
Proof. exact (vec_iterators v l x i). Qed.

(** Not covered above, and wrong in the code: the iterator returned by vec_end() has no
    position, so insert_at(vec_end()) and the empty range from an exhausted iterator to
    vec_end() subtract pointers one of which is NULL. *)
Theorem C76_vec_end_refuted {A} (v : vec A) l x : stored v l -> l <> [] ->
  insert_at v end_ x = Err NullDeref /\ erase_range v (Nat.iter (length l) next (begin v)) end_ = Err NullDeref.
Proof.
  intros Hst Hne. pose proof (stored_cap _ _ Hst). 
  assert (0 < zlen l) by (destruct l; [congruence|rewrite zlen_cons; pose proof (zlen_nonneg l); lia]).
  split.
  - unfold insert_at, end_, it_ptr, is_null. cbn [ref iend]. destruct (Z.eqb_spec (capacity v) 0); [lia|reflexivity].
  - rewrite (iter_pos v l (length l) Hst Hne) by (unfold zlen; lia). unfold erase_range, pos_at. cbn [ref].
    change (Z.of_nat (length l)) with (zlen l). now rewrite Z.eqb_refl.
Qed.

(** push returns the new last element, insert_n the first inserted one, erase_n the first
    after the erased ones. *)
Theorem C76_vec_returned_positions {A} (v : vec A) l : stored v l ->
  (forall x, exists v', push v x = Ok (v', Some (zlen l)) /\ stored v' (l ++ [x])) /\
  (forall idx xs, 0 <= idx <= zlen l -> xs <> [] -> exists v', insert_n v idx xs = Ok (v', Some idx) /\
     stored v' (firstn (Z.to_nat idx) l ++ xs ++ skipn (Z.to_nat idx) l)) /\
  (forall idx n, 0 <= idx -> 0 <= n -> idx + n <= zlen l -> exists v' d,
     erase_n v idx n = Ok (v', d, if idx + n =? zlen l then None else Some idx)).
Proof.
  intros Hst. split; [|split].
  - intros x. now apply push_spec.
  - intros idx xs Hi Hx. destruct (insert_n_spec v l idx xs Hst Hi) as (v' & o & E & H & Ho).
    destruct Ho as [-> | [_ Hn]]; [|congruence]. eauto.
  - intros idx n H1 H2 H3. destruct (erase_n_spec v l idx n Hst H1 H2 H3) as (v' & E & _). eauto.
Qed.

Example C76_example :
  exists v outs, run init [Push 3; Push 5; InsertN 1 [4]] = Ok (v, outs) /\ stored v [3;4;5] /\
   erase_range v (next (begin v)) end_ = Ok (mkvec (buf v) 1, [4;5], None).
Proof.
  do 2 eexists. split; [vm_compute; reflexivity|].
  split; [split; [reflexivity|eexists; reflexivity]|]. vm_compute; reflexivity.
Qed.

Print Assumptions C01_vec_is_sequence.
Print Assumptions C01_vec_reads.
Print Assumptions C02_vec_destroys_once.
Print Assumptions C02_vec_copy_destroys_old.
Print Assumptions C03_vec_each_empty_refuted.
Print Assumptions C03_vec_each_partial.
Print Assumptions C76_vec_iterators_partial.
Print Assumptions C76_vec_end_refuted.
Print Assumptions C76_vec_returned_positions.
