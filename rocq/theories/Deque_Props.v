(** deque and queue properties: C05, C06, C07, C08 and the deque part of C03. *)
From Verif Require Import Base Slots Pow2 Deque_Model Deque_Spec Deque_Proofs.

(** C05.  Any legal history, from any ring at any offset and capacity, runs without
    touching memory outside the buffer, returns and destroys what the same history does
    on a mathematical sequence, and leaves a ring whose size, indexed reads, front and
    back, and both iterations give that sequence. *)
Theorem C05_deque_is_sequence {A} (d : deque A) (l : list A) (ops : list (op A)) :
  ring d l -> legal l ops ->
  exists d', run d ops = Ok (d', snd (seq_run l ops)) /\
    ring d' (fst (seq_run l ops)) /\ stores d' (fst (seq_run l ops)) /\
    each d' = Ok (fst (seq_run l ops)) /\ each_reverse d' = Ok (rev (fst (seq_run l ops))).
Proof.
  intros Hr Hl. apply rg_ring in Hr. destruct (run_spec ops d l Hr Hl) as (d' & E & H). exists d'. split; [exact E|].
  split; [now apply rg_ring|]. split; [now apply rg_stores|]. split; [now apply each_spec|now apply each_reverse_spec].
Qed.

(** C05 from the empty deque. *)
Theorem C05_deque_from_empty {A} (ops : list (op A)) :
  legal [] ops ->
  exists d, run init ops = Ok (d, snd (seq_run [] ops)) /\ stores d (fst (seq_run [] ops)) /\
    each d = Ok (fst (seq_run [] ops)) /\ size d < capmask d + 1.
Proof.
  intros Hl. destruct (C05_deque_is_sequence init [] ops (proj1 (rg_ring _ _) rg_init) Hl) as (d & E & H & S & I & _).
  exists d. split; [exact E|]. split; [exact S|]. split; [exact I|]. destruct S as [-> _]. apply H.
Qed.

(** C05, the ends of a non-empty deque. *)
Theorem C05_deque_front_back {A} (d : deque A) (l : list A) :
  ring d l -> l <> [] -> front d = aget l 0 /\ back d = aget l (zlen l - 1).
Proof.
  intros Hr Hne. apply rg_ring in Hr. split.
  - destruct l as [|x l]; [congruence|]. destruct (pop_front_spec d x l Hr) as (? & _ & _ & ->). reflexivity.
  - destruct (exists_last Hne) as (l0 & x & ->). destruct (pop_back_spec d x l0 Hr) as (? & _ & _ & ->).
    rewrite zlen_app, aget_app2 by (change (zlen [x]) with 1; lia). change (zlen [x]) with 1.
    replace (zlen l0 + 1 - 1 - zlen l0) with 0 by lia. reflexivity.
Qed.

(** a wrapped ring: capacity 4, start 3 *)
Definition wrapped : deque Z := mkdq [Some 2; Some 3; None; Some 1] 3 2 3.
Example wrapped_ring : ring wrapped [1; 2; 3].
Proof.
  split; [exists 2; split; [lia|reflexivity]|]. split; [left; reflexivity|]. split; [cbn; lia|].
  split; [vm_compute; reflexivity|]. split; [reflexivity|].
  intros i x Hx. pose proof (aget_ok_range _ _ _ Hx) as Hr. change (zlen [1;2;3]) with 3 in Hr.
  assert (i = 0 \/ i = 1 \/ i = 2) as [->|[->| ->]] by lia; injection Hx as <-; reflexivity.
Qed.
Example C05_example :
  legal [1;2;3] [PushFront 7; PopBack; PullFront; PushBack 5; PushBack 6; Reserve 20; ShrinkToFit; PullBack; Clear; PushFront 9] /\
  (exists d, run wrapped [PushFront 7; PopBack; PullFront; PushBack 5; PushBack 6; Reserve 20; ShrinkToFit; PullBack; Clear; PushFront 9]
    = Ok (d, [([],[]); ([3],[]); ([],[7]); ([],[]); ([],[]); ([],[]); ([],[]); ([],[6]); ([1;2;5],[]); ([],[])])).
Proof. split; [cbn; intuition (try discriminate; try lia)|]. eexists. vm_compute. reflexivity. Qed.

(** C06.  Inserting a block at any index 0..size and erasing any block inside the
    sequence are list splices, for every ring layout. *)
Theorem C06_deque_insert_is_splice {A} (d : deque A) (l xs : list A) idx :
  ring d l -> 0 <= idx <= zlen l ->
  exists d' it, insert_n d idx xs = Ok (d', it) /\
    ring d' (firstn (Z.to_nat idx) l ++ xs ++ skipn (Z.to_nat idx) l) /\
    stores d' (firstn (Z.to_nat idx) l ++ xs ++ skipn (Z.to_nat idx) l) /\
    (xs <> [] -> exists p, ref it = Some p /\ rd (cbuf d') p = aget xs 0).
Proof.
  intros Hr Hi. apply rg_ring in Hr. destruct (insert_n_spec d l idx xs Hr Hi) as (d' & it & E & H & Hit).
  exists d', it. split; [exact E|]. split; [now apply rg_ring|]. split; [now apply rg_stores|].
  intros Hne. destruct (Hit Hne) as [H1 H2]. exists (pos it). split; [exact H1|]. rewrite H2.
  destruct xs as [|x xs]; [congruence|]. rewrite (rg_rd d' _ idx x H); [reflexivity|].
  pose proof (zlen_firstn idx l ltac:(lia)). rewrite aget_app2 by lia. replace (idx - zlen (firstn (Z.to_nat idx) l)) with 0 by lia.
  reflexivity.
Qed.

Theorem C06_deque_erase_is_splice {A} (d : deque A) (l : list A) idx n :
  ring d l -> 0 <= idx -> 0 <= n -> idx + n <= zlen l ->
  exists d', erase_n d idx n = Ok (d', rev (firstn (Z.to_nat n) (skipn (Z.to_nat idx) l))) /\
    ring d' (firstn (Z.to_nat idx) l ++ skipn (Z.to_nat (idx + n)) l) /\
    stores d' (firstn (Z.to_nat idx) l ++ skipn (Z.to_nat (idx + n)) l).
Proof.
  intros Hr H1 H2 H3. apply rg_ring in Hr. destruct (erase_n_spec d l idx n Hr H1 H2 H3) as (d' & E & H & _).
  exists d'. split; [exact E|]. split; [now apply rg_ring|now apply rg_stores].
Qed.

Example C06_example :
  (exists d' it, insert_n wrapped 1 [8;9] = Ok (d', it) /\ each d' = Ok [1;8;9;2;3]) /\
  (exists d', erase_n wrapped 0 2 = Ok (d', [2;1]) /\ each d' = Ok [3]).
Proof.
  split; [do 2 eexists; split; vm_compute; reflexivity|]. eexists. split; vm_compute; reflexivity.
Qed.

(** C07 fails: deque_end() is position 0 of the buffer, not the end of the ring.
    Inserting at the end of [1;2] gives [3;1;2]; erasing all of [1;2] through begin/end
    removes nothing, and erasing from the second element to the end fails an assertion. *)
Theorem C07_insert_at_end_refuted :
  exists (d : deque Z) l x d' it l', ring d l /\ insert_at d end_ x = Ok (d', it) /\ each d' = Ok l' /\ l' <> l ++ [x].
Proof.
  destruct (C05_deque_is_sequence (A := Z) init [] [PushBack 1; PushBack 2] (proj1 (rg_ring _ _) rg_init)) as (d & E & H & _); [cbn; auto|].
  vm_compute in E. injection E as <-. cbn in H.
  eexists. exists [1; 2], 3. do 3 eexists. split; [exact H|]. split; [vm_compute; reflexivity|]. split; [vm_compute; reflexivity|]. discriminate.
Qed.
Theorem C07_erase_to_end_refuted :
  exists (d : deque Z) l d' dr it l', ring d l /\
    erase_range d (begin d) end_ = Ok (d', dr, it) /\ each d' = Ok l' /\
    dr = [] /\ l' <> [] /\ erase_range d (advance d (begin d) 1) end_ = Err AssertFail.
Proof.
  destruct (C05_deque_is_sequence (A := Z) init [] [PushBack 1; PushBack 2] (proj1 (rg_ring _ _) rg_init)) as (d & E & H & _); [cbn; auto|].
  vm_compute in E. injection E as <-. cbn in H.
  do 6 eexists. split; [exact H|]. split; [vm_compute; reflexivity|]. split; [vm_compute; reflexivity|].
  split; [reflexivity|]. split; [discriminate|vm_compute; reflexivity].
Qed.

(** C07, the part that holds: the iterator reached by advancing [begin] by i < size
    denotes element i; insertion before it, erasing it, and erasing the range between two
    such iterators act on the sequence as expected, and the returned iterator denotes the
    inserted (resp. following) element.  Missing: positions given by deque_end(). *)
Theorem C07_deque_iterators_partial {A} (d : deque A) (l : list A) i x j :
  ring d l -> aget l i = Ok x -> i <= j < zlen l ->
  exists p, advance d (begin d) i = mkit (Some p) p /\ rd (cbuf d) p = Ok x /\
  (forall y, exists d' it, insert_at d (advance d (begin d) i) y = Ok (d', it) /\
     ring d' (firstn (Z.to_nat i) l ++ [y] ++ skipn (Z.to_nat i) l) /\ it = advance d' (begin d') i) /\
  (exists d' it, erase_at d (advance d (begin d) i) = Ok (d', [x], it) /\
     ring d' (firstn (Z.to_nat i) l ++ skipn (Z.to_nat (i + 1)) l) /\
     (if i + 1 =? zlen l then ref it = None else it = advance d' (begin d') i)) /\
  (exists d', erase_range d (advance d (begin d) i) (advance d (begin d) j) =
       Ok (d', rev (firstn (Z.to_nat (j - i)) (skipn (Z.to_nat i) l)), advance d' (begin d') i) /\
     ring d' (firstn (Z.to_nat i) l ++ skipn (Z.to_nat j) l)).
Proof.
  intros Hr Hx Hj. pose proof (aget_ok_range _ _ _ Hx) as Ri. apply rg_ring in Hr.
  assert (Hadv : forall d0 (l0 : list A) k, rg d0 l0 -> 0 <= k < zlen l0 -> advance d0 (begin d0) k = it_at d0 k).
  { intros d0 l0 k H0 Hk. assert (l0 <> []) by (intros ->; cbn in Hk; lia).
    rewrite (begin_spec d0 l0 H0) by assumption. change (mkit _ _) with (it_at d0 0).
    rewrite (advance_spec d0 l0) by (auto; lia). reflexivity. }
  rewrite !(Hadv d l) by (auto; lia). exists (nrm (cap d) (start d + i)). split; [reflexivity|].
  split; [now apply (rg_rd d l)|]. split; [|split].
  - intros y. destruct (insert_at_spec d l i y Hr Ri) as (d' & it & E & Hit & H). exists d', it.
    split; [exact E|]. split; [now apply rg_ring|]. rewrite (Hadv d' _ i H); [exact Hit|].
    rewrite !zlen_app, zlen_firstn, zlen_skipn by lia. change (zlen [y]) with 1. lia.
  - destruct (erase_at_spec d l i x Hr Hx) as (d' & E & H). do 2 eexists. split; [exact E|].
    split; [now apply rg_ring|]. destruct (Z.eqb_spec (i + 1) (zlen l)); [reflexivity|].
    rewrite (Hadv d' _ i H); [reflexivity|]. rewrite zlen_app, zlen_firstn, zlen_skipn by lia. lia.
  - destruct (erase_range_spec d l i j Hr) as (d' & E & H); try lia. exists d'.
    rewrite (Hadv d' _ i H); [split; [exact E|now apply rg_ring]|].
    rewrite zlen_app, zlen_firstn, zlen_skipn by lia. lia.
Qed.
Example C07_example : aget [1;2;3] 1 = Ok 2 /\ 1 <= 2 < zlen [1;2;3] /\ advance wrapped (begin wrapped) 1 = mkit (Some 0) 0.
Proof. repeat split; vm_compute; congruence. Qed.

(** C08.  clone holds the same sequence in a buffer of its own (model values share
    nothing); eq is element-wise equality of the sequences, whatever the two layouts. *)
Theorem C08_deque_clone {A} (d : deque A) (l : list A) :
  ring d l -> exists d', clone d = Ok d' /\ ring d' l /\ stores d' l.
Proof.
  intros Hr. apply rg_ring in Hr. destruct (clone_spec d l Hr) as (d' & E & H). exists d'.
  split; [exact E|]. split; [now apply rg_ring|now apply rg_stores].
Qed.
Theorem C08_deque_eq {A} (eqb : A -> A -> bool) (d1 d2 : deque A) (l m : list A) :
  ring d1 l -> ring d2 m ->
  exists b, eq eqb d1 d2 = Ok b /\ (b = true <-> Forall2 (fun x y => eqb x y = true) l m).
Proof. intros H1 H2. apply rg_ring in H1, H2. now apply eq_spec. Qed.
Example C08_example : exists d, clone wrapped = Ok d /\ start d = 0 /\ eq Z.eqb wrapped d = Ok true /\ eq Z.eqb d wrapped = Ok true.
Proof. eexists. split; [vm_compute; reflexivity|]. repeat split; vm_compute; reflexivity. Qed.

(** C03, deque: the loops visit every element once, in order (or reverse order), and
    nothing when the deque is empty, whether or not it owns a buffer. *)
Theorem C03_deque_each {A} (d : deque A) (l : list A) :
  ring d l -> each d = Ok l /\ each_reverse d = Ok (rev l).
Proof. intros Hr. apply rg_ring in Hr. split; [now apply each_spec|now apply each_reverse_spec]. Qed.
Example C03_deque_example : each wrapped = Ok [1;2;3] /\ each (mkdq (A := Z) [None;None] 1 1 1) = Ok [].
Proof. split; vm_compute; reflexivity. Qed.

(** Searching returns an iterator to the first equal element, or none. *)
Theorem C05_deque_find {A} (eqb : A -> A -> bool) (d : deque A) (l : list A) raw :
  ring d l ->
  exists it, find eqb d raw = Ok it /\
   ((exists i x, it = advance d (begin d) i /\ aget l i = Ok x /\ eqb raw x = true /\
        forall j y, j < i -> aget l j = Ok y -> eqb raw y = false) \/
    (ref it = None /\ forall x, In x l -> eqb raw x = false)).
Proof.
  intros Hr. apply rg_ring in Hr. unfold find. rewrite (rg_size d l Hr). pose proof Hr as (Hw & _).
  pose proof (wf_start d Hw).
  assert (B : begin d = mkit (if Z.of_nat 0 =? zlen l then None else Some (nrm (cap d) (start d + Z.of_nat 0))) (nrm (cap d) (start d + Z.of_nat 0))).
  { unfold begin. rewrite (rg_is_empty d l Hr). assert (nrm (cap d) (start d + Z.of_nat 0) = start d) as -> by nrm_tac.
    rewrite Z.eqb_sym. reflexivity. }
  rewrite B. destruct (find_loop_spec eqb (S (Z.to_nat (zlen l))) d l raw 0 Hr) as (it & E & HH); [lia|unfold zlen; lia|].
  exists it. split; [exact E|]. destruct HH as [(i & x & H1 & H2 & H3 & H4 & H5)|[H1 H2]].
  - left. exists i, x. pose proof (aget_ok_range _ _ _ H3) as Ri. destruct (Z.eqb_spec (Z.of_nat 0) (zlen l)); [lia|].
    change (mkit _ _) with (it_at d 0). rewrite (advance_spec d l) by (auto; lia). replace (0 + i) with i by lia.
    repeat split; auto. intros j y Hj Hy. apply (H5 j); auto. pose proof (aget_ok_range _ _ _ Hy). lia.
  - right. split; [exact H1|]. intros x Hx. destruct (In_aget _ _ Hx) as (j & Hj & Hy). apply (H2 j); auto. lia.
Qed.
Example C05_find_example : find Z.eqb wrapped 3 = Ok (mkit (Some 1) 1).
Proof. vm_compute. reflexivity. Qed.

Print Assumptions C05_deque_is_sequence.
Print Assumptions C05_deque_from_empty.
Print Assumptions C05_deque_front_back.
Print Assumptions C05_deque_find.
Print Assumptions C06_deque_insert_is_splice.
Print Assumptions C06_deque_erase_is_splice.
Print Assumptions C07_insert_at_end_refuted.
Print Assumptions C07_erase_to_end_refuted.
Print Assumptions C07_deque_iterators_partial.
Print Assumptions C08_deque_clone.
Print Assumptions C08_deque_eq.
Print Assumptions C03_deque_each.
