From Verif Require Import Base Cco_Model Sema_Model Sema_Spec.
Section P.
Context {U : Type}.
Variable codes : nat -> list (instr (mem U)).
Variable N : nat.
Variable n0 : Z.
Hypothesis n0_ok : 0 <= n0.
Hypothesis uses : forall i, uses_sem (codes i) i.

Definition Inv (s : mem U) : Prop := foul s = false -> 0 <= count s /\ count s + holders (held s) N = n0.

Lemma holders_other h i v : forall n, (n <= i)%nat -> holders (add h i v) n = holders h n.
Proof. induction n; intros L; cbn; auto. rewrite IHn by lia. unfold add. destruct (Nat.eqb_spec n i); [lia|auto]. Qed.
Lemma holders_add h i v : forall n, (i < n)%nat -> holders (add h i v) n = holders h n - Z.of_nat (h i) + Z.of_nat v.
Proof.
  induction n; intros L; [lia|]. cbn. destruct (Nat.eq_dec i n) as [->|E].
  - rewrite holders_other by lia. unfold add. rewrite Nat.eqb_refl. lia.
  - rewrite IHn by lia. unfold add at 1. destruct (Nat.eqb_spec n i); [lia|]. lia.
Qed.
Lemma holders_nonneg h n : 0 <= holders h n. Proof. induction n; cbn; lia. Qed.

Lemma inv_quiet f s : quiet f -> Inv s -> Inv (f s).
Proof. intros Q I. destruct (Q s) as (A & B & C). unfold Inv. rewrite A, B, C. exact I. Qed.
Lemma inv_acquire i s : (i < N)%nat -> Inv s -> 0 < count s -> Inv (acquire i s).
Proof. intros L I P. unfold Inv, acquire. cbn. intros F. specialize (I F). rewrite holders_add by auto. lia. Qed.
Lemma inv_release i s : (i < N)%nat -> Inv s -> Inv (release i s).
Proof.
  intros L I. unfold Inv, release. cbn. intros F. apply orb_false_elim in F. destruct F as [F1 F2]. specialize (I F1).
  rewrite holders_add by auto. destruct (Nat.eqb_spec (held s i) 0); [discriminate|]. lia.
Qed.

Definition ready (i pc : nat) (s : mem U) : Prop := inside (codes i) i pc -> 0 < count s.
Lemma ready_not i pc s : ~ inside (codes i) i pc -> ready i pc s. Proof. unfold ready. tauto. Qed.
Lemma inside_await i p c (s : mem U) : inside (codes i) i (S p) -> nth_error (codes i) p = Some c -> quiet (acquire i (U := U)) \/ c = Await (fun s : mem U => 0 <? count s).
Proof.
  intros H E. pose proof (uses i _ _ H) as W. cbn in W. destruct W as [W|[W|(_ & q & Hq & W)]]; auto.
  - exfalso. assert (X : acquire i s = release i s) by (rewrite W; auto). apply (f_equal count) in X. cbn in X. lia.
  - injection Hq as <-. right. congruence.
Qed.
Lemma not_quiet i (s : mem U) : ~ quiet (acquire i (U := U)).
Proof. intros Q. destruct (Q s) as (A & _). cbn in A. lia. Qed.
Lemma inside_prev i p c (s : mem U) : inside (codes i) i (S p) -> nth_error (codes i) p = Some c -> c = Await (fun s : mem U => 0 <? count s).
Proof. intros H E. destruct (inside_await i p c s H E) as [Q|Q]; auto. exfalso. exact (not_quiet i s Q). Qed.
Lemma inside_0 i (s : mem U) : ~ inside (codes i) i O.
Proof.
  intros H. pose proof (uses i _ _ H) as W. cbn in W. destruct W as [W|[W|(_ & q & Hq & W)]].
  - exact (not_quiet i s W).
  - assert (X : acquire i s = release i s) by (rewrite W; auto). apply (f_equal count) in X. cbn in X. lia.
  - discriminate.
Qed.
Lemma find_finally_nth (code : list (instr (mem U))) k : find_finally code = Some k -> nth_error code k = Some Finally.
Proof.
  revert k; induction code as [|x code IH]; intros k E; [discriminate|]. cbn in E. destruct x; cbn in E;
  try (destruct (find_finally code); [|discriminate]; cbn in E; injection E as <-; cbn; auto).
  injection E as <-. reflexivity.
Qed.

Lemma run_inv i : (i < N)%nat -> forall fuel st pc s tr o, Inv s -> ready i pc s ->
  run (codes i) fuel st pc s tr = Ok o -> Inv (omem o).
Proof.
  intros L. induction fuel as [|fuel IH]; intros st pc s tr o I R E; [discriminate|]. cbn in E.
  destruct (nth_error (codes i) pc) as [x|] eqn:X; [|injection E as <-; exact I].
  pose proof (uses i pc x X) as W.
  assert (NX : forall s', x <> Await (fun s : mem U => 0 <? count s) -> ready i (S pc) s').
  { intros s' D. apply ready_not. intros H. apply D. eapply inside_prev; eauto. }
  assert (FIN : forall k s', find_finally (codes i) = Some k -> ready i (S k) s').
  { intros k s' F. apply ready_not. intros H. apply find_finally_nth in F.
    pose proof (inside_prev i k Finally s H F). discriminate. }
  destruct x.
  - refine (IH _ _ _ _ _ _ (NX _ ltac:(discriminate)) E). destruct W as [W|[->|(-> & _)]].
    + apply inv_quiet; auto.
    + apply inv_release; auto.
    + apply inv_acquire; auto.
  - refine (IH _ _ _ _ _ I _ E). destruct (c s); [apply ready_not; exact W|apply NX; discriminate].
  - injection E as <-. exact I.
  - destruct (c s) eqn:C; [|injection E as <-; exact I]. refine (IH _ _ _ _ _ I _ E). intros H.
    pose proof (inside_prev i pc _ s H X) as Q. injection Q as ->. lia.
  - destruct (f s) as [s1 r] eqn:C.
    assert (I1 : Inv s1). { replace s1 with (fst (f s)) by (rewrite C; auto). apply (inv_quiet (fun s => fst (f s))); auto. }
    destruct (Z.land r (Z.lnot bits) =? 0); [|injection E as <-; exact I1].
    exact (IH _ _ _ _ _ I1 (NX _ ltac:(discriminate)) E).
  - destruct (stopped st =? INIT); [refine (IH _ _ _ _ _ I _ E); apply ready_not, inside_0; auto|].
    destruct (stopped st =? FINALLY); [|injection E as <-; exact I].
    destruct (find_finally (codes i)) as [k|] eqn:F; [|injection E as <-; exact I].
    exact (IH _ _ _ _ _ I (FIN _ _ eq_refl) E).
  - injection E as <-. exact I.
  - exact (IH _ _ _ _ _ I (NX _ ltac:(discriminate)) E).
Qed.
Lemma resume_inv i fuel st s tr o : (i < N)%nat -> Inv s -> resume (codes i) fuel st s tr = Ok o -> Inv (omem o).
Proof.
  intros L I E. unfold resume in E.
  destruct (st =? DONE); [injection E as <-; exact I|].
  destruct (st =? INIT); [eapply run_inv in E; eauto; apply ready_not, inside_0; auto|].
  destruct (st =? FINALLY).
  { destruct (find_finally (codes i)) as [k|] eqn:F; [|injection E as <-; exact I].
    eapply run_inv in E; eauto. apply ready_not. intros H. apply find_finally_nth in F.
    pose proof (inside_prev i k Finally s H F). discriminate. }
  destruct (nth_error (codes i) (Z.to_nat (st - 1))) as [x|] eqn:X; [|injection E as <-; exact I].
  destruct x; try (injection E as <-; exact I).
  - eapply run_inv in E; eauto. apply ready_not. intros H. pose proof (inside_prev i _ _ s H X). discriminate.
  - eapply run_inv in E; eauto. apply ready_not. unfold inside. congruence.
  - eapply run_inv in E; eauto. apply ready_not. unfold inside. congruence.
Qed.
Definition member (c : scmd U) : Prop := match c with SResume i | SStop i => (i < N)%nat | SUser _ => True end.
Lemma scmd_inv fuel x c y : Inv (smem x) -> member c -> scmd1 codes fuel x c = Ok y -> Inv (smem y).
Proof.
  intros I M E. destruct c; cbn in *.
  - destruct (resume (codes i) fuel (states x i) (smem x) []) as [o|] eqn:E1; [|discriminate]. cbn in E. injection E as <-.
    cbn. eapply resume_inv; eauto.
  - injection E as <-. exact I.
  - injection E as <-. exact I.
Qed.
Lemma scmds_inv fuel l : forall x y, Inv (smem x) -> Forall member l -> scmds codes fuel x l = Ok y -> Inv (smem y).
Proof.
  induction l as [|c l IH]; intros x y I M E; cbn in E; [injection E as <-; exact I|].
  inversion M; subst. destruct (scmd1 codes fuel x c) as [z|] eqn:E1; [|discriminate]. eapply IH; [|eauto|exact E].
  eapply scmd_inv; eauto.
Qed.
Lemma begin_inv u : Inv (smem (begin n0 u)).
Proof. intros _. cbn. assert (H : holders (fun _ : nat => O) N = 0) by (clear uses; induction N; cbn; auto; lia). rewrite H. lia. Qed.
End P.
