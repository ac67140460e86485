(** C58: semaphores. *)
From Verif Require Import Base Cco_Model Sema_Model Sema_Spec Sema_Proofs.

(** N coroutines, any code, any schedule of resumptions, stops and other changes: as long as nobody releases what it
    has not acquired, the count is never negative and is what the holders leave of the initial count. *)
Theorem C58_holders U (codes : nat -> list (instr (mem U))) N n0 u fuel l x :
  0 <= n0 -> (forall i, uses_sem (codes i) i) -> Forall (member N) l ->
  scmds codes fuel (begin n0 u) l = Ok x -> foul (smem x) = false ->
  0 <= count (smem x) /\ holders (held (smem x)) N = n0 - count (smem x) /\ holders (held (smem x)) N <= n0.
Proof.
  intros P W M E F. pose proof (scmds_inv codes N n0 W fuel l _ _ (begin_inv N n0 P u) M E F) as [A B]. lia.
Qed.

(** A waiting coroutine goes on iff the count is positive: otherwise nothing changes. *)
Theorem C58_wait U (code : list (instr (mem U))) p fuel (s : mem U) tr o :
  nth_error code p = Some (Await (fun s => 0 <? count s)) -> resume code fuel (line p) s tr = Ok o ->
  count s <= 0 -> o = mkout (line p) s CCO_AWAIT (tr ++ [p]).
Proof.
  intros E R C. unfold resume in R.
  replace (line p =? DONE) with false in R by (symmetry; apply Z.eqb_neq; unfold line, DONE; lia).
  replace (line p =? INIT) with false in R by (symmetry; apply Z.eqb_neq; unfold line, INIT; lia).
  replace (line p =? FINALLY) with false in R by (symmetry; apply Z.eqb_neq; unfold line, FINALLY; lia).
  replace (Z.to_nat (line p - 1)) with p in R by (unfold line; lia). rewrite E in R.
  destruct fuel; [discriminate|]. cbn in R. rewrite E in R. replace (0 <? count s) with false in R by lia. cbn in R. injection R as <-. reflexivity.
Qed.
Theorem C58_go U (code : list (instr (mem U))) i p fuel (s : mem U) tr :
  nth_error code p = Some (Await (fun s => 0 <? count s)) -> nth_error code (S p) = Some (Act (acquire i)) -> 0 < count s ->
  resume code (S (S fuel)) (line p) s tr = run code fuel (line p) (S (S p)) (acquire i s) ((tr ++ [p]) ++ [S p]).
Proof.
  intros E E2 C. unfold resume.
  replace (line p =? DONE) with false by (symmetry; apply Z.eqb_neq; unfold line, DONE; lia).
  replace (line p =? INIT) with false by (symmetry; apply Z.eqb_neq; unfold line, INIT; lia).
  replace (line p =? FINALLY) with false by (symmetry; apply Z.eqb_neq; unfold line, FINALLY; lia).
  replace (Z.to_nat (line p - 1)) with p by (unfold line; lia). rewrite E.
  cbn [run]. rewrite E. replace (0 <? count s) with true by lia. rewrite E2. reflexivity.
Qed.

(** Three coroutines for two places: loop { await_semaphore; yield; release } with a cleanup that does not release. *)
Definition ex_code (i : nat) : list (instr (mem Z)) :=
  await_sem i ++ [uact (fun n => n + 1); Yield 7; Act (release i); Jmp (fun _ => true) 0; Finally; uact (fun n => 100)].
Lemma ex_uses i : uses_sem (ex_code i) i.
Proof.
  intros pc x E. unfold ex_code in E.
  destruct pc as [|[|[|[|[|[|[|[|pc]]]]]]]]; cbn in E; try (injection E as <-; cbn; auto).
  - right; right. split; auto. exists O. auto.
  - left. intros s. auto.
  - unfold inside. cbn. discriminate.
  - left. intros s. auto.
  - destruct pc; discriminate.
Qed.
Definition ex_hist : list (scmd Z) := [SResume 0; SResume 1; SResume 2; SResume 0; SResume 2; SStop 1].
Example C58_met : exists x,
  (forall i, uses_sem (ex_code i) i) /\ Forall (member 3) ex_hist /\
  scmds ex_code 100 (begin 2 0) ex_hist = Ok x /\ foul (smem x) = false /\
  count (smem x) = 0 /\ held (smem x) 0%nat = 1%nat /\ held (smem x) 1%nat = 1%nat /\ held (smem x) 2%nat = 0%nat.
Proof.
  eexists. split; [exact ex_uses|]. split; [unfold ex_hist; repeat constructor|].
  split; [vm_compute; reflexivity|]. repeat split; reflexivity.
Qed.
(** A release without an acquire breaks it: afterwards three hold two places. *)
Definition foul_code (i : nat) : list (instr (mem Z)) :=
  if Nat.eqb i 3 then [Act (release i); Yield 7] else ex_code i.
Theorem C58_foul_release_refuted : exists x,
  (forall i, uses_sem (foul_code i) i) /\
  scmds foul_code 100 (begin 2 0) [SResume 0; SResume 1; SResume 3; SResume 2] = Ok x /\
  holders (held (smem x)) 4 = 3.
Proof.
  eexists. split; [|split; vm_compute; reflexivity]. intros i. unfold foul_code. destruct (Nat.eqb i 3); [|apply ex_uses].
  intros pc x E. destruct pc as [|[|[|pc]]]; cbn in E; try discriminate; injection E as <-; cbn; auto.
Qed.
Print Assumptions C58_holders.
Print Assumptions C58_wait.
Print Assumptions C58_go.
Print Assumptions C58_foul_release_refuted.
