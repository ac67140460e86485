(** C57: the fiber scheduler. *)
From Verif Require Import Base Fiber_Model Fiber_Spec Fiber_Proofs Fiber_Proofs2.
From Coq Require Import Permutation.

Lemma turns_app b1 : forall b2 s, turns s (b1 ++ b2) = turns (turns s b1) b2.
Proof.
  induction b1 as [|b b1 IH]; intros b2 s.
  - cbn [app]. assert (turns s [] = s) as -> by (cbn; destruct (q s); auto). reflexivity.
  - cbn [app]. rewrite !turns_cons'. apply IH.
Qed.
Lemma ok_acts_app b1 : forall b2 s, ok_acts s (b1 ++ b2) -> ok_acts s b1 /\ ok_acts (turns s b1) b2.
Proof.
  induction b1 as [|b b1 IH]; intros b2 s O.
  - cbn [app] in O. assert (turns s [] = s) as -> by (cbn; destruct (q s); auto). split; auto. cbn. destruct (q s); auto.
  - cbn [app] in O. pose proof O as O'. apply ok_acts_cons in O. destruct O as [O1 O2]. rewrite turns_cons'.
    destruct (IH _ _ O2) as [H1 H2]. split; auto. cbn. destruct (q s) eqn:E; auto. split; auto. apply O1. congruence.
Qed.

(** cco_run_task follows the queue; it is safe; every fiber that was ever made is either alive or was freed
    exactly once; the loop ends exactly when all were freed. *)
Theorem C57_run_partial bs : ok_acts (start O) bs -> exists h it,
  run_task bs = Ok (h, it, tr (turns (start O) bs)) /\ freed h = fin (turns (start O) bs) /\
  NoDup (freed h) /\ (forall x, (x < brk h)%nat <-> next h x <> None \/ In x (freed h)) /\
  (forall x, next h x <> None -> ~ In x (freed h)) /\
  (it = None <-> forall x, (x < brk h)%nat -> In x (freed h)).
Proof.
  intros O. destruct (run_task_turns bs O) as (h & E & R & B & F).
  pose proof (books_turns bs _ books_start O) as K. set (s := turns (start 0%nat) bs) in *.
  exists h, (back (q s)). destruct K as [K1 K2 K3 K4]. destruct R as [_ _ M _].
  rewrite F, B. split; auto. split; auto. split; auto. split; [intros x; rewrite M, K4; tauto|].
  split; [intros x H; apply K3, M, H|].
  rewrite turn_nil_back. split.
  - intros Q x L. apply K4 in L. rewrite Q in L. destruct L as [[]|L]. exact L.
  - intros H. destruct (q s) as [|a r] eqn:Q; auto. exfalso. apply (K3 a); [left; auto|]. apply H, K4. left; left; auto.
Qed.

(** As long as no fiber finishes: between two resumptions of a fiber every other one that was alive is
    resumed exactly once, and no fiber twice. *)
Theorem C57_round_robin b1 (b2 : list act) h1 z t1 a h2 it2 ex ex2 :
  ok_acts (start O) (b1 ++ b2) -> Forall (fun b => snd b = false) b2 ->
  run_task b1 = Ok (h1, Some z, t1) -> next h1 z = Some (Some a) ->
  run_task (b1 ++ b2) = Ok (h2, it2, t1 ++ a :: ex ++ a :: ex2) -> ~ In a ex ->
  NoDup ex /\ forall x, next h1 x <> None -> x <> a -> In x ex.
Proof.
  intros O F E1 N E2 A. destruct (ok_acts_app _ _ _ O) as [O1 O2].
  destruct (run_task_turns b1 O1) as (h & E & R & B & Fr). rewrite E in E1. injection E1 as -> Z T1.
  destruct (run_task_turns _ O) as (h' & E' & _). rewrite E' in E2. injection E2 as _ _ T2.
  rewrite turns_app in T2. set (s := turns (start 0%nat) b1) in *.
  pose proof (books_turns b1 _ books_start O1) as K. fold s in K.
  destruct (snoc_view (q s)) as [Q|(l & z' & Q)]; [rewrite Q in Z; discriminate|].
  rewrite Q, back_snoc in Z. injection Z as ->. pose proof (rp_ring _ _ R) as RR. rewrite Q in RR.
  apply ring_last in RR. rewrite N in RR. injection RR as RR.
  assert (QA : exists r, q s = a :: r). { rewrite Q. destruct l; cbn in *; injection RR as <-; eauto. }
  destruct QA as (r & QA).
  destruct b2 as [|b b2].
  { exfalso. rewrite <- T1 in T2. assert (turns s [] = s) as TT by (cbn; destruct (q s); auto). rewrite TT in T2.
    apply (f_equal (@length _)) in T2. rewrite !app_length in T2. cbn in T2. lia. }
  rewrite turns_cons' in T2. destruct (ok_acts_cons _ _ _ O2) as [O3 O4]. inversion F as [|? ? F1 F2]; subst.
  assert (NE : q s <> []) by congruence. specialize (O3 NE).
  pose proof (books_step s b K (fun _ => proj1 O3)) as K'.
  destruct K as [K1 K2 K3 K4]. destruct O3 as [O3 _].
  assert (Hq : exists r', q (turn1 s b) = r' ++ a :: [] /\ incl r r').
  { unfold turn1. rewrite QA. cbn [q]. rewrite <- QA. unfold turn. rewrite F1.
    destruct (behinds_hd (fst b) (nm s) a r) as (r' & E3). rewrite QA, E3. cbn. exists r'. split; auto.
    intros x H. assert (I : In x (behinds (fst b) (nm s) (a :: r))). { apply in_behinds; [rewrite <- QA; auto|]. left; right; auto. }
    rewrite E3 in I. destruct I as [->|I]; auto. exfalso. rewrite QA in K1. inversion K1; auto. }
  destruct Hq as (r' & Hq & IR).
  destruct (round b2 (turn1 s b) r' [] a [] r K' O4 F2 Hq) with (ex1 := ex) (ex2 := ex2) as [G1 G2]; auto.
  - intros x [].
  - constructor.
  - rewrite T2. unfold turn1. rewrite QA. cbn. rewrite <- app_assoc. reflexivity.
  - split; auto. intros x H H'. apply G2. apply (rp_dom _ _ R) in H. rewrite QA in H. destruct H; congruence.
Qed.

(** Fibers may finish, but none is spawned: every living fiber is resumed within n(n+1)/2 resumptions. *)
Theorem C57_no_starvation_partial b1 (b2 : list act) h1 z t1 h2 it2 t2 live :
  ok_acts (start O) (b1 ++ b2) -> Forall (fun b => fst b = []) b2 ->
  run_task b1 = Ok (h1, Some z, t1) -> NoDup live -> (forall x, In x live <-> next h1 x <> None) ->
  (length live * (length live + 1) <= 2 * length b2)%nat ->
  run_task (b1 ++ b2) = Ok (h2, it2, t2) ->
  exists e, t2 = t1 ++ e /\ forall x, In x live -> In x e.
Proof.
  intros O F E1 D L B E2. destruct (ok_acts_app _ _ _ O) as [O1 O2].
  destruct (run_task_turns b1 O1) as (h & E & R & _ & _). rewrite E in E1. injection E1 as -> Z T1.
  destruct (run_task_turns _ O) as (h' & E' & _). rewrite E' in E2. injection E2 as _ _ T2.
  rewrite turns_app in T2. set (s := turns (start 0%nat) b1) in *.
  assert (P : Permutation live (q s)). { apply NoDup_Permutation; auto; [apply R|]. intros x. rewrite L. apply R. }
  assert (TR : forall n, (2 * tri n = n * (n + 1))%nat). { induction n; cbn [tri]; [auto|]. nia. }
  rewrite (Permutation_length P) in B. specialize (TR (length (q s))).
  destruct (tr_turns b2 s) as (e & He). exists e. split; [congruence|]. intros x I.
  destruct (waits' s x b2) as (e' & He' & Ie); auto; [eapply Permutation_in; eauto|revert B TR; generalize (length (q s)); intros m B TR; change (@length act b2) with (@length (list addr * bool) b2) in *; nia|].
  rewrite He in He'. apply app_inv_head in He'. congruence.
Qed.

(** Three fibers: the first one spawns two on itself; all finish in the end. *)
Definition ex_acts : list act := [([0%nat; 0%nat], false); ([], false); ([], false); ([], false); ([], false)].
Definition ex_ends : list act := [([], true); ([], true); ([], true)].
Example C57_met : exists h1 h2,
  ok_acts (start O) (ex_acts ++ ex_ends) /\
  run_task ex_acts = Ok (h1, Some 2%nat, [0; 2; 1; 0; 2]%nat) /\
  run_task (ex_acts ++ ex_ends) = Ok (h2, None, [0; 2; 1; 0; 2; 1; 2; 0]%nat) /\ freed h2 = [1; 2; 0]%nat.
Proof.
  eexists. eexists. split; [|split; [vm_compute; reflexivity|split; vm_compute; reflexivity]].
  cbn. unfold ok_act. cbn. repeat split; auto; try tauto; intros H; try discriminate H;
  intros l y E; intros [].
Qed.

(** * What is not true *)
(** The last fiber spawns another one and finishes in the same resumption: the loop ends, the new fiber was never
    resumed and is not freed ("run task blocking until it and spawned fibers are finished"). *)
Theorem C57_spawn_and_finish_refuted : exists h,
  run_task [([O], true)] = Ok (h, None, [O]) /\ next h 1%nat <> None /\ freed h = [O].
Proof. eexists. split; [vm_compute; reflexivity|]. split; [vm_compute; discriminate|reflexivity]. Qed.
(** The same with three fibers: 1 spawns a fiber on its predecessor and finishes; the new fiber 3 is out of the ring. *)
Theorem C57_spawn_on_predecessor_refuted : exists h,
  run_task [([0; 0]%nat, false); ([], false); ([2]%nat, true); ([], true); ([], true)] = Ok (h, None, [0; 2; 1; 2; 0]%nat) /\
  next h 3%nat <> None /\ freed h = [1; 2; 0]%nat.
Proof. eexists. split; [vm_compute; reflexivity|]. split; [vm_compute; discriminate|reflexivity]. Qed.
(** The successor of a finished fiber loses its turn: 0 is resumed again before 1 although 1 was waiting longer. *)
Theorem C57_successor_skipped_refuted : exists h,
  run_task [([0; 0]%nat, false); ([], true); ([], false); ([], false)] = Ok (h, Some 1%nat, [0; 2; 0; 1]%nat).
Proof. eexists. vm_compute. reflexivity. Qed.
(** Fiber 0 spawns a short fiber at each resumption: fiber 1 is never resumed again. *)
Definition busy : list act := [([O], false); ([], true)].
Fixpoint times (k : nat) : list act := match k with O => [] | S k => busy ++ times k end.
Lemma busy_round k : forall n t f, (1 < n)%nat -> exists s,
  turns (mks [0; 1]%nat n t f) (times k) = s /\ ok_acts (mks [0; 1]%nat n t f) (times k) /\ exists e, tr s = t ++ e /\ length e = (2 * k)%nat /\ ~ In 1%nat e.
Proof.
  induction k as [|k IH]; intros n t f L.
  - eexists. split; [reflexivity|]. split; [exact I|]. exists []. cbn. rewrite app_nil_r. auto.
  - assert (T : turns (mks [0; 1]%nat n t f) (times (S k)) = turns (mks [0; 1]%nat (S n) (t ++ [0%nat; n]) (f ++ [n])) (times k)).
    { cbn [times busy app]. rewrite !turns_cons'. unfold turn1, turn. cbn. rewrite Nat.add_0_r, Nat.add_1_r, <- app_assoc. reflexivity. }
    destruct (IH (S n) (t ++ [0%nat; n]) (f ++ [n]) ltac:(lia)) as (s & E & O & e & T1 & L1 & N1).
    exists s. rewrite T. split; auto. split.
    + cbn [times busy app]. cbn [ok_acts q]. unfold turn1 at 1. cbn [q turn fst snd behinds behind Nat.eqb rotate app].
      split; [split; cbn; [tauto|discriminate]|]. cbn [ok_acts]. cbn [q nm fst snd length]. split.
      * split; cbn; [tauto|]. intros _ l z _ [].
      * unfold turn1, turn. cbn. rewrite Nat.add_0_r, Nat.add_1_r, <- app_assoc. exact O.
    + exists (0%nat :: n :: e). rewrite T1, <- app_assoc. split; auto. split; [cbn; lia|].
      intros [H|[H|H]]; [discriminate|lia|auto].
Qed.
Theorem C57_starvation_refuted : forall k, exists h t,
  run_task ([([O], false); ([], false)] ++ times k) = Ok (h, Some 1%nat, [0; 1]%nat ++ t) /\
  next h 1%nat <> None /\ length t = (2 * k)%nat /\ ~ In 1%nat t.
Proof.
  intros k. destruct (busy_round k 2%nat [0; 1]%nat [] ltac:(lia)) as (s & E & O & e & T & L & N).
  assert (OO : ok_acts (start 0%nat) ([([0%nat], false); ([], false)] ++ times k)).
  { cbn [app ok_acts start q]. split; [split; cbn; [tauto|discriminate]|]. unfold turn1 at 1. cbn [ok_acts]. cbn [q turn fst snd behinds behind Nat.eqb rotate app nm].
    split; [split; cbn; [tauto|discriminate]|]. exact O. }
  destruct (run_task_turns _ OO) as (h & E' & R & _). exists h, e.
  assert (S1 : turns (start 0%nat) ([([0%nat], false); ([], false)] ++ times k) = s).
  { rewrite turns_app. rewrite <- E. reflexivity. }
  rewrite S1 in *.
  assert (Q : q s = [0; 1]%nat).
  { rewrite <- E. clear. assert (G : forall k n t f, q (turns (mks [0; 1]%nat n t f) (times k)) = [0; 1]%nat).
    { induction k0; intros; [reflexivity|]. cbn [times busy app]. rewrite !turns_cons'. unfold turn1, turn. cbn. apply IHk0. }
    apply G. }
  rewrite Q in *. rewrite T in E'. split; [exact E'|]. split; [|auto]. apply (rp_dom _ _ R). right; left; auto.
Qed.
Print Assumptions C57_run_partial.
Print Assumptions C57_round_robin.
Print Assumptions C57_no_starvation_partial.
Print Assumptions C57_spawn_and_finish_refuted.
Print Assumptions C57_spawn_on_predecessor_refuted.
Print Assumptions C57_successor_skipped_refuted.
Print Assumptions C57_starvation_refuted.
