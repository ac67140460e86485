(** deque and queue when memory runs out: C99. *)
From Verif Require Import Base Slots Pow2 Deque_Model Deque_Spec Deque_Proofs Deque_Props Oomq_Model Oomq_Spec Oomq_Proofs.

(** C99.  Any history with an allocator that fails whenever it likes: nothing is accessed
    outside the buffer, and each operation either does what it does on a sequence or reports
    failure (only if its allocation failed) and leaves the deque as it was. *)
Theorem C99_deque_histories_partial {A} (d : deque A) (l : list A) (ops : list (bool * op A)) :
  ring d l -> legal_f l ops ->
  exists d' l' outs, run_f d ops = Ok (d', outs) /\ run_with l ops l' outs /\ ring d' l' /\ each d' = Ok l'.
Proof.
  intros Hr Hl. apply rg_ring in Hr. destruct (run_f_spec ops d l Hr Hl) as (d' & l' & outs & E & RW & H).
  exists d', l', outs. split; [exact E|]. split; [exact RW|]. split; [now apply rg_ring|now apply each_spec].
Qed.
(** If every allocation succeeds the operations succeed, as in C05. *)
Theorem C99_deque_all_well {A} (d : deque A) (l : list A) (ops : list (op A)) :
  ring d l -> legal l ops ->
  exists d' outs, run_f d (map (fun o => (true, o)) ops) = Ok (d', outs) /\ map fst outs = snd (seq_run l ops) /\
    ring d' (fst (seq_run l ops)).
Proof.
  intros Hr. apply rg_ring in Hr. revert d l Hr. induction ops as [|o ops IH]; intros d l Hr Hl; cbn [map run_f seq_run fst snd].
  - exists d, []. split; [reflexivity|]. split; [reflexivity|]. now apply rg_ring.
  - destruct Hl as (Ho & Hl). destruct (step_f_spec true d l o Hr Ho) as [(_ & X & _)|(d1 & ok & E & Hr1 & _)]; [destruct o; auto|discriminate|].
    rewrite E. cbn [bind fst snd]. destruct (IH d1 _ Hr1 Hl) as (d' & outs & E2 & M & H). rewrite E2. cbn [bind fst snd].
    eexists d', _. split; [reflexivity|]. split; [cbn; now rewrite M|exact H].
Qed.
(** A reserve that says true has room for the elements asked for. *)
Theorem C99_deque_reserve {A} (a : bool) (d : deque A) (l : list A) c :
  ring d l -> 0 <= c -> exists d' ok, reserve_f a d c = Ok (d', ok) /\ ring d' l /\
    (ok = true -> c < zlen (cbuf d')) /\ (a = false -> ok = false -> d' = d).
Proof.
  intros Hr Hc. apply rg_ring in Hr. pose proof (cap_pos d (proj1 Hr)). unfold reserve_f.
  destruct (asks d c && negb a) eqn:Q.
  - exists d, false. split; [reflexivity|]. split; [now apply rg_ring|]. split; [discriminate|auto].
  - destruct (reserve_spec d l c Hr Hc) as (d' & ok & E & Hr' & H1 & H2 & -> & H3). exists d', (negb (is_null d')).
    split; [exact E|]. split; [now apply rg_ring|]. split.
    + intros N. destruct (wf_buf d' (proj1 Hr')) as [->|[_ X]]; [exact H1|]. unfold is_null in N. rewrite X in N. discriminate.
    + intros -> N. rewrite andb_true_r in Q. unfold asks in Q. apply negb_false_iff in Q. unfold reserve in E. rewrite Q in E.
      now injection E as <- _.
Qed.

(** A full wrapped deque: the push fails, the deque is unchanged, a pop makes room. *)
Example C99_deque_met : ring wrapped [1; 2; 3] /\
  legal_f [1; 2; 3] [(false, PushBack 7); (false, PopFront); (false, PushBack 8); (true, PushFront 9)] /\
  exists d, run_f wrapped [(false, PushBack 7); (false, PopFront); (false, PushBack 8); (true, PushFront 9)] =
    Ok (d, [(([], []), false); (([1], []), true); (([], []), true); (([], []), true)]) /\ each d = Ok [9; 2; 3; 8].
Proof.
  split; [exact wrapped_ring|]. split; [cbn; intuition (try discriminate)|].
  eexists. split; vm_compute; reflexivity.
Qed.

(** Not so for a block: if there is no memory for it, insert_n still writes it, over the
    elements that are there.  They are neither destroyed nor returned. *)
Theorem C99_insert_n_overwrites {A} (d : deque A) (l xs : list A) idx :
  ring d l -> 0 <= idx -> idx + zlen xs <= zlen l -> xs <> [] -> zlen l + zlen xs >= capmask d + 1 ->
  exists d', insert_n_f false d idx xs = Ok (d', mkit None 0) /\
    ring d' (firstn (Z.to_nat idx) l ++ xs ++ skipn (Z.to_nat (idx + zlen xs)) l).
Proof.
  intros Hr H1 H2 H3 H4. apply rg_ring in Hr. destruct (insert_n_lost d l idx xs Hr H1 H2 H3 H4) as (d' & E & H).
  exists d'. split; [exact E|now apply rg_ring].
Qed.
Theorem C99_insert_n_refuted :
  (exists d', insert_n_f false wrapped 1 [8; 9] = Ok (d', mkit None 0) /\ ring wrapped [1; 2; 3] /\ each d' = Ok [1; 8; 9]) /\
  (** past the last element the assertion of _at fails *)
  insert_n_f false wrapped 3 [8] = Err AssertFail /\ insert_n_f false (@init Z) 0 [8] = Err AssertFail.
Proof.
  split; [eexists; split; [vm_compute; reflexivity|split; [exact wrapped_ring|vm_compute; reflexivity]]|].
  split; vm_compute; reflexivity.
Qed.

(** A clone that got no memory keeps the end position: it is not empty, its first element is
    not there; the next push gets a buffer of 4 slots and writes at the old end position. *)
Theorem C99_clone_refuted :
  exists d c, run init (map (@PushBack Z) [1; 2; 3; 4; 5]) = Ok (d, repeat ([], []) 5) /\ clone_f false d = Ok c /\
    is_empty c = false /\ size c = 0 /\ front c = Err OOB /\ push_back_f true c 6 = Err OOB.
Proof.
  match goal with |- exists d c, ?r = _ /\ _ => let v := eval vm_compute in r in match v with Ok (?a, _) => exists a end end.
  eexists. repeat (split; [vm_compute; reflexivity|]). vm_compute. reflexivity.
Qed.
(** For every clone of a non-empty deque that got no memory. *)
Theorem C99_clone_unusable {A} (d : deque A) (l : list A) : ring d l -> l <> [] ->
  exists c, clone_f false d = Ok c /\ is_empty c = false /\ front c = Err OOB /\ pop_front c = Err OOB.
Proof.
  intros Hr Hne. apply rg_ring in Hr. unfold clone_f. rewrite (rg_size d l Hr).
  assert (0 < zlen l) by (destruct l; [congruence|rewrite zlen_cons; pose proof (zlen_nonneg l); lia]).
  unfold reserve_f, asks. cbn [capmask init].
  destruct (pow2_ceil_pow2 (zlen l + 1)) as [_ Hp]; [lia|]. destruct (Z.leb_spec (pow2_ceil (zlen l + 1)) (0 + 1)); [lia|].
  cbn [negb andb bind fst snd is_null cbuf]. change (zlen (@nil (option A)) =? 0) with true. cbn [negb bind].
  eexists. split; [reflexivity|]. unfold is_empty, front, pop_front, is_empty. cbn [start dend cbuf capmask].
  destruct (Z.eqb_spec 0 (zlen l)); [lia|]. repeat split.
Qed.

(** Elements made by emplace or put_n that find no place are neither stored nor destroyed. *)
Theorem C99_put_n_refuted : put_n_f [false] (@init Z) [5] = Ok (init, [5]).
Proof. reflexivity. Qed.
Print Assumptions C99_deque_histories_partial.
Print Assumptions C99_deque_all_well.
Print Assumptions C99_deque_reserve.
Print Assumptions C99_insert_n_overwrites.
Print Assumptions C99_insert_n_refuted.
Print Assumptions C99_clone_refuted.
Print Assumptions C99_clone_unusable.
Print Assumptions C99_put_n_refuted.
