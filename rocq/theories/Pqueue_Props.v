(** Priority queue properties C09 - C11. *)
From Coq Require Import Sorted.
From Verif Require Import Base Order Slots Pqueue_Model Pqueue_Spec Pqueue_Proofs.

Lemma repr_stored {A} less (q : pqueue A) l : repr less q l -> stored q l.
Proof. intros (H1 & H2 & _). split; auto. Qed.

Lemma stored_inj {A} (q : pqueue A) l1 l2 : stored q l1 -> stored q l2 -> l1 = l2.
Proof.
  intros [H1 [u1 E1]] [H2 [u2 E2]]. apply (holds_inj (buf q)); [now exists u1|now exists u2|congruence].
Qed.

(** C09.  Any history that never pops an empty queue runs without memory error, behaves
    as a bag whose pop destroys exactly one maximal element, and leaves a queue whose
    [top] is a maximal stored element. *)
Theorem C09_pqueue_is_max_bag {A} (less : A -> A -> bool) (ops : list (op A)) :
  strict_weak_order less -> legal 0 ops ->
  exists q outs l, run less init ops = Ok (q, outs) /\ stored q l /\
    bag_run less [] ops l outs /\
    (l <> [] -> exists m, top q = Ok m /\ maximal less m l).
Proof.
  intros Hswo Hl.
  destruct (run_spec less Hswo ops init [] (repr_init less) Hl) as (q & l & outs & E & Hr & Hb).
  exists q, outs, l. split; [exact E|]. split; [eapply repr_stored; eauto|]. split; [exact Hb|].
  apply repr_top; auto.
Qed.

(** C09, draining: pushing any list and popping as often returns its elements in
    non-increasing order, and leaves the queue empty. *)
Theorem C09_pqueue_drains_sorted {A} (less : A -> A -> bool) (xs : list A) :
  strict_weak_order less ->
  exists q1 o1 q2 ms,
    run less init (map Push xs) = Ok (q1, o1) /\
    run less q1 (repeat Pop (length xs)) = Ok (q2, map (fun m => [m]) ms) /\
    size q2 = 0 /\ Permutation xs ms /\ sorted_by less (rev ms).
Proof.
  intros Hswo.
  assert (HLp : forall (ys : list A) n, legal n (map Push ys)).
  { induction ys as [|y ys IH]; intros n; cbn; auto. }
  destruct (run_spec less Hswo (map Push xs) init [] (repr_init less) (HLp _ _)) as (q1 & l1 & o1 & E1 & Hr1 & Hb1).
  assert (HP : forall (ys : list A) b b' o, bag_run less b (map Push ys) b' o -> Permutation b' (ys ++ b)).
  { clear. induction ys as [|y ys IH]; intros b b' o H; inversion H; subst; cbn; [apply Permutation_refl|].
    match goal with H : bag_step _ _ _ _ _ |- _ => inversion H; subst end.
    match goal with H : bag_run _ _ _ _ _ |- _ => apply IH in H; rewrite H end.
    match goal with H : Permutation _ (_ :: _) |- _ => rewrite H end. symmetry. apply Permutation_middle. }
  pose proof (HP _ _ _ _ Hb1) as P1. rewrite app_nil_r in P1.
  assert (HL2 : forall n, legal n (repeat (@Pop A) n)) by (induction n; cbn; auto).
  destruct (run_spec less Hswo (repeat Pop (length xs)) q1 l1 Hr1) as (q2 & l2 & o2 & E2 & Hr2 & Hb2).
  { rewrite (Permutation_length P1). apply HL2. }
  destruct (bag_run_pops less _ _ _ _ Hb2) as (-> & ms & -> & Pm & Sm).
  { symmetry. apply Permutation_length. exact P1. }
  exists q1, o1, q2, ms. split; [exact E1|]. split; [exact E2|].
  split; [apply Hr2|]. split; [|exact Sm]. now rewrite <- P1.
Qed.

(** C09, make_heap: from arbitrary stored content (for example written through
    [data]), make_heap yields a queue with the same elements, from which every later
    history is again a maximal-first bag. *)
Theorem C09_make_heap_establishes {A} (less : A -> A -> bool) (q : pqueue A) (l : list A) (ops : list (op A)) :
  strict_weak_order less -> stored q l -> legal (length l) ops ->
  exists q1 q2 l1 l2 outs, make_heap less q = Ok q1 /\ stored q1 l1 /\ Permutation l l1 /\
    run less q1 ops = Ok (q2, outs) /\ stored q2 l2 /\ bag_run less l1 ops l2 outs /\
    (l2 <> [] -> exists m, top q2 = Ok m /\ maximal less m l2).
Proof.
  intros Hswo [Hs Hu] Hl.
  destruct (make_heap_spec less Hswo q l Hu Hs) as (q1 & l1 & E1 & Hr1 & P1).
  rewrite (Permutation_length P1) in Hl.
  destruct (run_spec less Hswo ops q1 l1 Hr1 Hl) as (q2 & l2 & outs & E2 & Hr2 & Hb2).
  exists q1, q2, l1, l2, outs. repeat (split; [first [eassumption | eapply repr_stored; eassumption]|]).
  intros Hne. eapply repr_top; eauto.
Qed.

Example C09_example :
  legal 0 [Push 3; Push 1; Push 3; Reserve 20; Pop; Push 7; MakeHeap; Pop; ShrinkToFit] /\
  run Z.ltb init [Push 3; Push 1; Push 3; Reserve 20; Pop; Push 7; MakeHeap; Pop; ShrinkToFit]
  = Ok (mkpq [Some 3; Some 1] 2, [[]; []; []; []; [3]; []; []; [7]; []]).
Proof. split; [cbn; intuition lia|reflexivity]. Qed.

(** C10, as stated: after erase_at on a queue built by pushes, every later top is a
    maximal stored element.  Refuted: a queue built by 15 pushes, erase_at(3), seven
    pops, and then the top is 3 although 93 is stored. *)
Definition c10_pushes : list Z := [100;3;99;1;2;98;97;0;0;0;0;96;95;94;93].

Theorem C10_erase_at_breaks_order_refuted :
  exists ops q outs idx q1 d n q2 outs2 l m y,
    legal 0 ops /\ run Z.ltb init ops = Ok (q, outs) /\ 0 <= idx < size q /\
    erase_at Z.ltb q idx = Ok (q1, d) /\
    run Z.ltb q1 (repeat Pop n) = Ok (q2, outs2) /\
    stored q2 l /\ top q2 = Ok m /\ In y l /\ Z.ltb m y = true.
Proof.
  exists (map Push c10_pushes).
  remember (run Z.ltb init (map Push c10_pushes)) as r eqn:Er.
  vm_compute in Er. subst r.
  eexists _, _, 3.
  assert (exists q1 d, erase_at Z.ltb (mkpq (map Some c10_pushes ++ [None; None; None; None]) 15) 3 = Ok (q1, d)
    /\ exists q2 o2, run Z.ltb q1 (repeat Pop 7%nat) = Ok (q2, o2) /\
       stored q2 [3; 93; 0; 0; 2; 0; 0] /\ top q2 = Ok 3) as (q1 & d & E1 & q2 & o2 & E2 & Hst & Ht).
  { do 2 eexists. split; [vm_compute; reflexivity|]. do 2 eexists. split; [vm_compute; reflexivity|].
    split; [split; [reflexivity|eexists; vm_compute; reflexivity]|vm_compute; reflexivity]. }
  exists q1, d, 7%nat, q2, o2, [3; 93; 0; 0; 2; 0; 0], 3, 93.
  split; [cbn; auto|]. split; [reflexivity|]. split; [cbn; lia|].
  split; [exact E1|]. split; [exact E2|]. split; [exact Hst|]. split; [exact Ht|].
  split; [cbn; auto|reflexivity].
Qed.

(** C10, the part that holds: if the index is 0, or the last stored element is not
    greater than the parent of the erased one, erase_at removes exactly that element and
    every later history is again a maximal-first bag.  Missing for the full claim: the
    remaining indices, where the theorem above shows it false. *)
Theorem C10_erase_at_partial {A} (less : A -> A -> bool) ops0 q outs0 l idx d ops :
  strict_weak_order less -> legal 0 ops0 ->
  run less init ops0 = Ok (q, outs0) -> stored q l -> aget l idx = Ok d ->
  (idx = 0 \/ forall p z, aget l ((idx + 1) / 2 - 1) = Ok p -> aget l (zlen l - 1) = Ok z -> less p z = false) ->
  legal (length l - 1) ops ->
  exists q1 l1 q2 l2 outs, erase_at less q idx = Ok (q1, d) /\ stored q1 l1 /\ Permutation l (d :: l1) /\
    run less q1 ops = Ok (q2, outs) /\ stored q2 l2 /\ bag_run less l1 ops l2 outs /\
    (l2 <> [] -> exists m, top q2 = Ok m /\ maximal less m l2).
Proof.
  intros Hswo Hl0 E0 Hst Hd Hcond Hl.
  destruct (run_spec less Hswo ops0 init [] (repr_init less) Hl0) as (q' & l' & outs' & E' & Hr' & _).
  rewrite E0 in E'. injection E' as <- <-.
  assert (l' = l) by (eapply stored_inj; eauto; eapply repr_stored; eauto). subst l'.
  destruct (erase_at_spec less Hswo q l idx d Hr' Hd Hcond) as (q1 & l1 & E1 & Hr1 & P1).
  assert (Hl1 : legal (length l1) ops).
  { apply Permutation_length in P1. cbn in P1. replace (length l1) with (length l - 1)%nat by lia. exact Hl. }
  destruct (run_spec less Hswo ops q1 l1 Hr1 Hl1) as (q2 & l2 & outs & E2 & Hr2 & Hb2).
  exists q1, l1, q2, l2, outs. repeat (split; [first [eassumption | eapply repr_stored; eassumption]|]).
  intros Hne. eapply repr_top; eauto.
Qed.

Example C10_example :
  exists q outs, run Z.ltb init (map Push [9;5;8;1;4]) = Ok (q, outs) /\ stored q [9;5;8;1;4] /\
    aget [9;5;8;1;4] 1 = Ok 5 /\
    (forall p z, aget [9;5;8;1;4] ((1 + 1) / 2 - 1) = Ok p -> aget [9;5;8;1;4] (zlen [9;5;8;1;4] - 1) = Ok z -> Z.ltb p z = false).
Proof.
  eexists _, _. split; [vm_compute; reflexivity|].
  split; [split; [reflexivity|eexists; reflexivity]|]. split; [reflexivity|].
  intros p z Hp Hz. cbn in Hp, Hz. injection Hp as <-. injection Hz as <-. reflexivity.
Qed.

(** C11.  [pull] returns the top element, but every call has also given that same element
    to the destructor: the caller receives a destroyed object. *)
Theorem C11_pull_always_returns_dropped {A} (less : A -> A -> bool) ops q outs l :
  strict_weak_order less -> legal 0 ops -> run less init ops = Ok (q, outs) -> stored q l -> l <> [] ->
  exists v q1 dropped, pull less q = Ok (v, q1, dropped) /\ dropped = v /\ top q = Ok v.
Proof.
  intros Hswo Hl E Hst Hne.
  destruct (run_spec less Hswo ops init [] (repr_init less) Hl) as (q' & l' & outs' & E' & Hr' & _).
  rewrite E in E'. injection E' as <- <-.
  assert (l' = l) by (eapply stored_inj; eauto; eapply repr_stored; eauto). subst l'.
  destruct (pop_spec less Hswo q l Hr' Hne) as (q1 & l1 & m & Ep & Et & Hr1 & P1 & Hm).
  exists m, q1, m. split; [|split; auto].
  unfold pull. unfold top in Et. rewrite Et. cbn [bind].
  unfold pop in Ep. destruct (size q =? 0); [discriminate|]. rewrite Ep. reflexivity.
Qed.

Theorem C11_pull_returns_dropped_refuted :
  exists (ops : list (op Z)) q outs v q1 dropped, legal 0 ops /\ run Z.ltb init ops = Ok (q, outs) /\
    pull Z.ltb q = Ok (v, q1, dropped) /\ dropped = v.
Proof.
  exists [Push 4; Push 9]. do 5 eexists. split; [cbn; auto|]. split; [vm_compute; reflexivity|].
  split; [vm_compute; reflexivity|reflexivity].
Qed.

(** C11, the part that holds: pull returns a maximal element and removes exactly one
    occurrence of it from the queue.  Missing: ownership, refuted above. *)
Theorem C11_pull_value_partial {A} (less : A -> A -> bool) ops q outs l :
  strict_weak_order less -> legal 0 ops -> run less init ops = Ok (q, outs) -> stored q l -> l <> [] ->
  exists v q1 d l1, pull less q = Ok (v, q1, d) /\ maximal less v l /\ stored q1 l1 /\ Permutation l (v :: l1).
Proof.
  intros Hswo Hl E Hst Hne.
  destruct (run_spec less Hswo ops init [] (repr_init less) Hl) as (q' & l' & outs' & E' & Hr' & _).
  rewrite E in E'. injection E' as <- <-.
  assert (l' = l) by (eapply stored_inj; eauto; eapply repr_stored; eauto). subst l'.
  destruct (pop_spec less Hswo q l Hr' Hne) as (q1 & l1 & m & Ep & Et & Hr1 & P1 & Hm).
  exists m, q1, m, l1. split; [|split; [exact Hm|split; [eapply repr_stored; eauto|exact P1]]].
  unfold pull. unfold top in Et. rewrite Et. cbn [bind].
  unfold pop in Ep. destruct (size q =? 0); [discriminate|]. rewrite Ep. reflexivity.
Qed.

Example C11_example :
  exists q outs, run Z.ltb init [Push 4; Push 9] = Ok (q, outs) /\ stored q [9; 4] /\
    exists q1, pull Z.ltb q = Ok (9, q1, 9) /\ stored q1 [4].
Proof.
  eexists _, _. split; [vm_compute; reflexivity|].
  split; [split; [reflexivity|eexists; reflexivity]|].
  eexists. split; [vm_compute; reflexivity|]. split; [reflexivity|eexists; reflexivity].
Qed.

Print Assumptions C09_pqueue_is_max_bag.
Print Assumptions C09_pqueue_drains_sorted.
Print Assumptions C09_make_heap_establishes.
Print Assumptions C10_erase_at_breaks_order_refuted.
Print Assumptions C10_erase_at_partial.
Print Assumptions C11_pull_always_returns_dropped.
Print Assumptions C11_pull_returns_dropped_refuted.
Print Assumptions C11_pull_value_partial.
