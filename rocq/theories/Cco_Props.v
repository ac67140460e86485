(** C56: the cleanup section of a coroutine.  C83: a coroutine goes on where it left. *)
From Verif Require Import Base Cco_Model Cco_Spec Cco_Proofs Cco_Proofs2.

(** Any owner: body first, then cleanup, at most once; not done means not cleaned. *)
Theorem C56_at_most_once S (body fin : list (instr S)) fuel s l x : proper body fin ->
  cmds (code body fin) fuel (born s) l = Ok x ->
  ordered body (ltrace x) /\ (cleanups body (ltrace x) <= 1)%nat /\
  (lstate x <> DONE -> cleanups body (ltrace x) = O).
Proof.
  intros W E. destruct (inv_cmds body fin W _ _ _ _ (inv_born body fin s) E) as (w & R & I1 & I2).
  assert (O : ordered body (ltrace x)). { destruct w; [apply lo_ordered, I1; discriminate|auto]. }
  split; auto. split; [apply ordered_once; auto|]. intros D. apply count_lo, I1. intros ->. apply D. eapply repr_none; eauto.
Qed.

(** Once it is done, the cleanup ran exactly once iff no stop came while cleanup was already due. *)
Theorem C56_exactly_once S (body fin : list (instr S)) fuel s l x : proper body fin ->
  cmds (code body fin) fuel (born s) l = Ok x -> lstate x = DONE ->
  (cleanups body (ltrace x) = 1%nat <-> careful body fin fuel s l).
Proof.
  intros W E D. split.
  - intros C l1 l2 y -> E1 F. destruct (never_cleaned body fin W _ _ _ _ _ _ E1 F E) as [_ Z]. congruence.
  - intros C. refine (once_cmds body fin W _ _ _ _ (inv_born body fin s) _ C E D). discriminate.
Qed.

(** In particular when two stops have a resumption in between and cco_yield_final is not used. *)
Theorem C56_polite S (body fin : list (instr S)) fuel s l x : proper body fin -> no_yield_final body ->
  polite true l = true -> cmds (code body fin) fuel (born s) l = Ok x -> lstate x = DONE ->
  cleanups body (ltrace x) = 1%nat.
Proof.
  intros W N P E D. apply (C56_exactly_once S body fin fuel s l x W E D).
  refine (polite_careful body fin W N fuel l true (born s) P (inv_born body fin s) _). discriminate.
Qed.

(** After a stop only the cleanup section runs, and the next resumption is the last one. *)
Theorem C56_after_stop S (body fin : list (instr S)) fuel s l1 l2 x y : proper body fin ->
  cmds (code body fin) fuel (born s) l1 = Ok x ->
  cmds (code body fin) fuel (born s) (l1 ++ Stop :: l2) = Ok y ->
  (exists t, ltrace y = ltrace x ++ t /\ Forall (fun p => (nb body <= p)%nat) t) /\ (In Resume l2 -> lstate y = DONE).
Proof.
  intros W E1 E2. rewrite cmds_app, E1 in E2. cbn in E2.
  destruct (inv_cmds body fin W _ _ _ _ (inv_born body fin s) E1) as (w & R & _).
  apply (stopped_cmds body fin W) in E2; [|exact (stop_is_stopped body fin _ _ R)]. destruct E2; split; auto.
Qed.

(** Done stays done: nothing is executed any more and resumptions return CCO_DONE. *)
Theorem C56_done_for_good S (body fin : list (instr S)) fuel s l1 l2 x y :
  cmds (code body fin) fuel (born s) l1 = Ok x -> lstate x = DONE ->
  cmds (code body fin) fuel (born s) (l1 ++ l2) = Ok y ->
  lstate y = DONE /\ ltrace y = ltrace x /\ exists z, lrets y = lrets x ++ z /\ Forall (fun v => v = 0) z.
Proof. intros E1 D E2. rewrite cmds_app, E1 in E2. cbn in E2. eapply done_cmds; eauto. Qed.

(** for (n = 0; n < k; ++n) cco_yield; cco_await(go); cco_finally: n = 100; *)
Definition ex_body : list (instr (Z * bool)) :=
  [Jmp (fun s => fst s =? 2) 4; Yield 7; Act (fun s => (fst s + 1, snd s)); Jmp (fun _ => true) 0; Await (fun s => snd s); Return].
Definition ex_fin : list (instr (Z * bool)) := [Act (fun s => (100, snd s))].
Definition ex_go (s : Z * bool) : Z * bool := (fst s, true).
Lemma ex_proper : proper ex_body ex_fin.
Proof. split; unfold ex_body, ex_fin; repeat constructor; cbn; unfold nb; cbn; lia. Qed.
Example C56_met :
  proper ex_body ex_fin /\ no_yield_final ex_body /\
  polite true [Resume; Resume; Resume; Poke ex_go; Resume; Resume; Stop] = true /\
  cmds (code ex_body ex_fin) 100 (born (0, false)) [Resume; Resume; Resume; Poke ex_go; Resume; Resume; Stop] =
    Ok (mklife DONE (100, true) [0; 1; 2; 3; 0; 1; 2; 3; 0; 4; 4; 5; 6; 7]%nat [7; 7; CCO_AWAIT; 0; 0]) /\
  cmds (code ex_body ex_fin) 100 (born (0, false)) [Resume; Stop; Resume] =
    Ok (mklife DONE (100, false) [0; 1; 6; 7]%nat [7; 0]).
Proof.
  split; [exact ex_proper|]. split; [unfold no_yield_final, ex_body; repeat constructor|].
  split; [reflexivity|]. split; vm_compute; reflexivity.
Qed.

(** Two stops without a resumption in between: done, and the cleanup never ran. *)
Theorem C56_stop_twice_refuted : exists x,
  cmds (code ex_body ex_fin) 100 (born (0, false)) [Resume; Stop; Stop; Resume; Resume] = Ok x /\
  lstate x = DONE /\ cleanups ex_body (ltrace x) = O /\ lmem x = (0, false).
Proof. eexists. split; [vm_compute; reflexivity|]. repeat split; reflexivity. Qed.
(** A stop after cco_yield_final does the same. *)
Theorem C56_stop_after_yield_final_refuted : exists x,
  proper [YieldFinal 7] [Act (fun _ => 100)] /\
  cmds (code [YieldFinal 7] [Act (fun _ => 100)]) 100 (born 0) [Resume; Stop; Resume] = Ok x /\
  lstate x = DONE /\ cleanups [@YieldFinal Z 7] (ltrace x) = O /\ lmem x = 0.
Proof. eexists. split; [split; repeat constructor|]. split; [vm_compute; reflexivity|]. repeat split; reflexivity. Qed.
(** A suspension in the cleanup section (against rule 3): a stop then runs the cleanup again. *)
Theorem C56_suspension_in_cleanup_refuted : exists x,
  cmds (code [Yield 7] [Act (fun n => n + 1); Yield 8]) 100 (born 0) [Resume; Stop; Resume; Stop; Resume; Resume] = Ok x /\
  lstate x = DONE /\ cleanups [@Yield Z 7] (ltrace x) = 2%nat /\ lmem x = 2.
Proof. eexists. split; [vm_compute; reflexivity|]. repeat split; reflexivity. Qed.

(** * C83: resuming again and again is the same as running the function without interruption. *)
Theorem C83_resumes S (body fin : list (instr S)) fuel s l x : proper body fin -> careful body fin fuel s l ->
  cmds (code body fin) fuel (born s) l = Ok x ->
  exists w, lives body fin (Some O) s l (ltrace x) (lrets x) w (lmem x) /\ (lstate x = DONE <-> w = None).
Proof.
  intros W C E. destruct (cmds_lives body fin W fuel l (born s) x (Some O) (r_init _ _) C E) as (t & vs & w & G1 & G2 & G3 & G4).
  cbn in G1, G2, G3. exists w. rewrite G2, G3. split; auto. split; intros D.
  - rewrite D in G4. eapply repr_done; eauto.
  - subst. eapply repr_none; eauto.
Qed.
(** The other way round: whatever the uninterrupted function does, some fuel is enough for the code to do it.
    (Careful is meant for the histories that the code itself goes through.) *)
Theorem C83_complete S (body fin : list (instr S)) s l t vs w s' : proper body fin ->
  lives body fin (Some O) s l t vs w s' ->
  exists n, forall fuel, (n <= fuel)%nat -> careful body fin fuel s l ->
  exists x, cmds (code body fin) fuel (born s) l = Ok x /\ ltrace x = t /\ lrets x = vs /\ lmem x = s' /\
            (lstate x = DONE <-> w = None).
Proof.
  intros W L. destruct (lives_cmds body fin W _ _ _ _ _ _ _ L (born s) (r_init _ _) eq_refl) as (n & H).
  exists n. intros fuel Lf C. destruct (H fuel Lf C) as (st & E & R). eexists. split; [exact E|]. cbn.
  repeat split; auto; intros D.
  - rewrite D in R. eapply repr_done; eauto.
  - subst. eapply repr_none; eauto.
Qed.
(** What the spec allows is unique. *)
Theorem C83_deterministic S (body fin : list (instr S)) pc s t w s' v t' w' s'' v' :
  goes body fin pc s t w s' v -> goes body fin pc s t' w' s'' v' -> t = t' /\ w = w' /\ s' = s'' /\ v = v'.
Proof.
  intros G. revert t' w' s'' v'. induction G; intros t2 w2 s2 v2 G2; inversion G2; subst;
    repeat match goal with
    | A : nth_error ?c ?p = _, B : nth_error ?c ?p = _ |- _ => rewrite A in B; injection B as ?; subst
    | A : nth_error ?c ?p = _, B : nth_error ?c ?p = _ |- _ => rewrite A in B; discriminate B
    | A : ?f ?s = (_, _), B : ?f ?s = (_, _) |- _ => rewrite A in B; injection B as ? ?; subst
    end; try congruence; try lia; auto;
    match goal with IH : forall t' w' s'' v', _ -> _, H : _ |- _ => destruct (IH _ _ _ _ H) as (-> & -> & -> & ->); auto end.
Qed.
Example C83_met : proper ex_body ex_fin /\ careful ex_body ex_fin 100 (0, false) [Resume; Stop; Resume] /\
  cmds (code ex_body ex_fin) 100 (born (0, false)) [Resume; Stop; Resume] =
    Ok (mklife DONE (100, false) [0; 1; 6; 7]%nat [7; 0]).
Proof.
  split; [exact ex_proper|]. split; [|vm_compute; reflexivity].
  refine (polite_careful ex_body ex_fin ex_proper _ 100 [Resume; Stop; Resume] true (born (0, false)) eq_refl (inv_born _ _ _) _); [|discriminate].
  unfold no_yield_final, ex_body; repeat constructor.
Qed.
Print Assumptions C56_at_most_once.
Print Assumptions C56_exactly_once.
Print Assumptions C56_polite.
Print Assumptions C56_after_stop.
Print Assumptions C56_done_for_good.
Print Assumptions C56_stop_twice_refuted.
Print Assumptions C56_stop_after_yield_final_refuted.
Print Assumptions C56_suspension_in_cleanup_refuted.
Print Assumptions C83_resumes.
Print Assumptions C83_complete.
Print Assumptions C83_deterministic.
