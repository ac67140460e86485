From Verif Require Import Base Cco_Model Cco_Spec.

Section P.
Context {S : Type}.
Variable body fin : list (instr S).
Notation code := (code body fin).
Notation nb := (nb body).
Notation goes := (goes body fin).
Notation lives := (lives body fin).
Hypothesis wf : proper body fin.

Lemma nth_body pc : (pc < nb)%nat -> exists i, nth_error code pc = Some i /\ in_body body i.
Proof.
  intros H. unfold Cco_Spec.code. rewrite nth_error_app1 by exact H.
  destruct (nth_error body pc) eqn:E.
  - exists i. split; [reflexivity|]. apply nth_error_In in E. destruct wf as [w _]. rewrite Forall_forall in w. auto.
  - apply nth_error_None in E. unfold Cco_Spec.nb in H. lia.
Qed.
Lemma nth_nb : nth_error code nb = Some Finally.
Proof. unfold Cco_Spec.code, Cco_Spec.nb. rewrite nth_error_app2 by lia. rewrite Nat.sub_diag. reflexivity. Qed.
Lemma nth_fin pc i : (nb < pc)%nat -> nth_error code pc = Some i -> in_fin body i.
Proof.
  intros H E. unfold Cco_Spec.code in E. unfold Cco_Spec.nb in H. rewrite nth_error_app2 in E by lia.
  destruct (pc - length body)%nat eqn:D; [lia|]. cbn in E. apply nth_error_In in E. destruct wf as [_ w].
  rewrite Forall_forall in w. auto.
Qed.
Lemma find_nb : find_finally code = Some nb.
Proof.
  destruct wf as [w _]. unfold Cco_Spec.code, Cco_Spec.nb.
  assert (G : forall b (n : nat), Forall (fun i => is_finally i = false) b -> find_finally (b ++ Finally :: fin) = Some (length b)).
  { induction b as [|i b IH]; intros n Hb; [reflexivity|]. inversion Hb; subst. cbn. rewrite H1. rewrite IH by auto. reflexivity. }
  apply (G body O). eapply Forall_impl; [|exact w]. intros i; destruct i; cbn; auto; tauto.
Qed.
Lemma len_nb : (nb < length code)%nat.
Proof. unfold Cco_Spec.nb, Cco_Spec.code. rewrite app_length. cbn. lia. Qed.

(** cco.state tells the position. *)
Inductive repr : Z -> option nat -> Prop :=
| r_init : repr INIT (Some O)
| r_finally : repr FINALLY (Some nb)
| r_done : repr DONE None
| r_yield p v : (p < nb)%nat -> nth_error code p = Some (Yield v) -> repr (line p) (Some (Datatypes.S p))
| r_await p c : (p < nb)%nat -> nth_error code p = Some (Await c) -> repr (line p) (Some p)
| r_call p f b : (p < nb)%nat -> nth_error code p = Some (Call f b) -> repr (line p) (Some p).

Definition st_ok (st : Z) (pc : nat) : Prop :=
  ((pc < nb)%nat -> 0 <= st) /\ ((nb < pc)%nat -> st = FINALLY).

Lemma stopped_pos st : 0 <= st -> stopped st = FINALLY.
Proof. intros. unfold stopped, INIT. destruct (0 <=? st) eqn:E; [reflexivity|lia]. Qed.
Lemma stopped_fin : stopped FINALLY = DONE. Proof. reflexivity. Qed.
Lemma line_pos p : 0 < line p. Proof. unfold line. lia. Qed.
Lemma land_ldiff r b : Z.land r (Z.lnot b) = Z.ldiff r b.
Proof. symmetry. apply Z.ldiff_land. Qed.

Lemma run_goes : forall fuel st pc s tr o, st_ok st pc -> run code fuel st pc s tr = Ok o ->
  exists t w, goes pc s t w (omem o) (oret o) /\ otrace o = tr ++ t /\ repr (ostate o) w.
Proof.
  induction fuel as [|fuel IH]; intros st pc s tr o K E; [discriminate|]. cbn in E.
  destruct (nth_error code pc) as [i|] eqn:N.
  2:{ injection E as <-. exists [], None. cbn. rewrite app_nil_r. repeat split; constructor; auto. }
  assert (W : forall st' pc' s', st_ok st' pc' -> run code fuel st' pc' s' (tr ++ [pc]) = Ok o ->
     (forall t w, goes pc' s' t w (omem o) (oret o) -> goes pc s (pc :: t) w (omem o) (oret o)) ->
     exists t w, goes pc s t w (omem o) (oret o) /\ otrace o = tr ++ t /\ repr (ostate o) w).
  { intros st' pc' s' K' E' G. destruct (IH _ _ _ _ _ K' E') as (t & w & H1 & H2 & H3).
    exists (pc :: t), w. rewrite H2, <- app_assoc. repeat split; auto. }
  destruct (lt_eq_lt_dec pc nb) as [[L|L]|L].
  - (* body *)
    destruct (nth_body pc L) as (i' & N' & B). rewrite N in N'. injection N' as <-.
    pose proof (proj1 K L) as P.
    assert (K1 : forall st', 0 <= st' -> st_ok st' (Datatypes.S pc)) by (intros; split; [auto|lia]).
    destruct i; cbn in B.
    + eapply W; [| exact E |]; [apply K1; auto|]. intros; eapply g_act; eauto.
    + eapply W; [| exact E | intros; eapply g_jmp; eauto]. destruct (c s); [split; [auto|lia]|apply K1; auto].
    + injection E as <-. exists [pc], (Some (Datatypes.S pc)). cbn. repeat split; [constructor; auto|econstructor; eauto].
    + destruct (c s) eqn:C.
      * eapply W; [| exact E |]; [apply K1; pose proof (line_pos pc); lia|]. intros; eapply g_await_yes; eauto.
      * injection E as <-. exists [pc], (Some pc). cbn. repeat split; [eapply g_await_no; eauto|eapply r_await; eauto].
    + destruct (f s) as [s1 r] eqn:C. rewrite land_ldiff in E. destruct (Z.ldiff r bits =? 0) eqn:D.
      * eapply W; [| exact E |]; [apply K1; pose proof (line_pos pc); lia|].
        intros; eapply g_call_yes; eauto. lia.
      * injection E as <-. exists [pc], (Some pc). cbn.
        repeat split; [eapply g_call_no; eauto; lia|eapply r_call; eauto].
    + rewrite stopped_pos, find_nb in E by auto. cbn in E.
      destruct (IH FINALLY (Datatypes.S nb) s _ _ ltac:(split; [lia|auto]) E) as (t & w & H1 & H2 & H3).
      exists (pc :: nb :: t), w. rewrite H2, <- !app_assoc. repeat split; auto.
      eapply g_return; eauto. eapply g_finally; eauto. apply nth_nb.
    + injection E as <-. exists [pc], (Some nb). cbn. rewrite stopped_pos by auto.
      repeat split; [eapply g_final; eauto|constructor].
    + contradiction.
  - subst pc. rewrite nth_nb in N. injection N as <-.
    eapply W; [| exact E |]; [split; [lia|auto]|]. intros; eapply g_finally; eauto. apply nth_nb.
  - pose proof (nth_fin pc i L N) as B. pose proof (proj2 K L) as ->.
    destruct i; cbn in B; try contradiction.
    + eapply W; [| exact E |]; [split; [lia|auto]|]. intros; eapply g_act; eauto.
    + eapply W; [| exact E | intros; eapply g_jmp; eauto]. split; [destruct (c s); lia|auto].
    + cbn in E. injection E as <-. exists [pc], None. cbn. repeat split; [eapply g_return_fin; eauto|constructor].
    + injection E as <-. exists [pc], None. cbn. repeat split; [eapply g_final_fin; eauto|constructor].
Qed.

Lemma resume_goes fuel st s tr o pc : repr st (Some pc) -> resume code fuel st s tr = Ok o ->
  exists t w, goes pc s t w (omem o) (oret o) /\ otrace o = tr ++ t /\ repr (ostate o) w.
Proof.
  intros R E. unfold resume in E.
  assert (L : forall p, (line p =? DONE) = false /\ (line p =? INIT) = false /\ (line p =? FINALLY) = false /\ Z.to_nat (line p - 1) = p).
  { intros p. unfold line, DONE, INIT, FINALLY. repeat split; try (apply Z.eqb_neq; lia); lia. }
  inversion R; subst.
  - cbn in E. eapply run_goes in E; [exact E|]. split; unfold INIT; lia.
  - cbn in E. rewrite find_nb in E. eapply run_goes in E; [|split; [lia|auto]].
    destruct E as (t & w & H1 & H2 & H3). exists (nb :: t), w. rewrite H2, <- app_assoc. repeat split; auto.
    eapply g_finally; eauto. apply nth_nb.
  - destruct (L p) as (L0 & L1 & L2 & L3). rewrite L0, L1, L2, L3, H2 in E. eapply run_goes in E; [exact E|].
    split; [pose proof (line_pos p); lia|lia].
  - destruct (L pc) as (L0 & L1 & L2 & L3). rewrite L0, L1, L2, L3, H2 in E. eapply run_goes in E; [exact E|].
    split; [pose proof (line_pos pc); lia|lia].
  - destruct (L pc) as (L0 & L1 & L2 & L3). rewrite L0, L1, L2, L3, H2 in E. eapply run_goes in E; [exact E|].
    split; [pose proof (line_pos pc); lia|lia].
Qed.
Lemma repr_none st : repr st None -> st = DONE.
Proof. intros H; inversion H; auto. Qed.
Lemma repr_done w : repr DONE w -> w = None.
Proof. intros H; inversion H; auto; unfold line, DONE in *; lia. Qed.
Lemma repr_stop st pc : repr st (Some pc) -> st <> FINALLY -> stopped st = FINALLY.
Proof. intros H N; inversion H; subst; try reflexivity; try tauto; apply stopped_pos; unfold line; lia. Qed.

Lemma cmds_app fuel l1 l2 : forall x, cmds code fuel x (l1 ++ l2) = let* y := cmds code fuel x l1 in cmds code fuel y l2.
Proof.
  induction l1 as [|c l1 IH]; intros x; [reflexivity|]. cbn [app cmds].
  destruct (cmd1 code fuel x c); cbn; auto.
Qed.

Definition careful_from (fuel : nat) (x : life S) (l : list (cmd S)) : Prop :=
  forall l1 l2 y, l = l1 ++ Stop :: l2 -> cmds code fuel x l1 = Ok y -> lstate y <> FINALLY.
Lemma careful_step fuel x y c l : careful_from fuel x (c :: l) -> cmd1 code fuel x c = Ok y -> careful_from fuel y l.
Proof. intros H E l1 l2 z -> E'. apply (H (c :: l1) l2 z eq_refl). cbn. rewrite E. exact E'. Qed.

Lemma cmds_lives fuel : forall l x x' w, repr (lstate x) w -> careful_from fuel x l -> cmds code fuel x l = Ok x' ->
  exists t vs w', lives w (lmem x) l t vs w' (lmem x') /\ ltrace x' = ltrace x ++ t /\ lrets x' = lrets x ++ vs /\ repr (lstate x') w'.
Proof.
  induction l as [|c l IH]; intros x x' w R C E.
  - cbn in E. injection E as <-. exists [], [], w. rewrite !app_nil_r. repeat split; auto. constructor.
  - cbn in E. destruct (cmd1 code fuel x c) as [y|] eqn:E1; [|discriminate]. cbn in E.
    pose proof (careful_step _ _ _ _ _ C E1) as C'.
    destruct c; cbn in E1.
    + destruct (resume code fuel (lstate x) (lmem x) (ltrace x)) as [o|] eqn:E2; [|discriminate].
      cbn in E1. injection E1 as <-.
      destruct w as [pc|].
      * destruct (resume_goes _ _ _ _ _ _ R E2) as (t & w & H1 & H2 & H3).
        destruct (IH (mklife _ _ _ _) _ w H3 C' E) as (t' & vs & w' & G1 & G2 & G3 & G4). cbn in *.
        exists (t ++ t'), (oret o :: vs), w'. rewrite G2, G3, H2, <- !app_assoc. repeat split; auto. econstructor; eauto.
      * pose proof (repr_none _ R) as D. rewrite D in E2. cbn in E2. injection E2 as <-. cbn in *.
        destruct (IH (mklife _ _ _ _) _ None r_done C' E) as (t' & vs & w' & G1 & G2 & G3 & G4). cbn in *.
        exists t', (0 :: vs), w'. rewrite G2, G3, <- !app_assoc. repeat split; auto. constructor. exact G1.
    + injection E1 as <-. destruct w as [pc|].
      * assert (N : lstate x <> FINALLY) by (apply (C [] l x); reflexivity).
        rewrite (repr_stop _ _ R N) in *.
        destruct (IH (mklife _ _ _ _) _ (Some nb) r_finally C' E) as (t' & vs & w' & G1 & G2 & G3 & G4). cbn in *.
        exists t', vs, w'. repeat split; auto. constructor. exact G1.
      * pose proof (repr_none _ R) as D. rewrite D in *.
        destruct (IH (mklife _ _ _ _) _ None r_done C' E) as (t' & vs & w' & G1 & G2 & G3 & G4). cbn in *.
        exists t', vs, w'. repeat split; auto. constructor. exact G1.
    + injection E1 as <-. destruct (IH (mklife _ _ _ _) _ w R C' E) as (t' & vs & w' & G1 & G2 & G3 & G4). cbn in *.
      exists t', vs, w'. repeat split; auto. constructor. exact G1.
Qed.

(** * The other direction: whatever the spec does, the code does with enough fuel. *)
Lemma goes_run pc s t w s' v : goes pc s t w s' v -> forall st, st_ok st pc ->
  exists n st', repr st' w /\ forall fuel tr, (n <= fuel)%nat ->
    run code fuel st pc s tr = Ok (mkout st' s' v (tr ++ t)).
Proof.
  assert (OUT : forall pc (s' : S) v w t st', repr st' w -> forall st s,
     (forall fuel tr, run code (Datatypes.S fuel) st pc s tr = Ok (mkout st' s' v (tr ++ t))) ->
     exists n st', repr st' w /\ forall fuel tr, (n <= fuel)%nat ->
       run code fuel st pc s tr = Ok (mkout st' s' v (tr ++ t))).
  { intros pc0 s0 v0 w0 t0 st' R st s1 H. exists 1%nat, st'. split; auto. intros fuel tr L. destruct fuel; [lia|]. auto. }
  assert (STEP : forall pc0 s0 (t0 : list nat) w0 s1 v0 st pc1 st1 s2 t1,
     (exists n st', repr st' w0 /\ forall fuel tr, (n <= fuel)%nat -> run code fuel st1 pc1 s2 tr = Ok (mkout st' s1 v0 (tr ++ t0))) ->
     (forall fuel tr, run code (Datatypes.S fuel) st pc0 s0 tr = run code fuel st1 pc1 s2 (tr ++ t1)) ->
     exists n st', repr st' w0 /\ forall fuel tr, (n <= fuel)%nat ->
       run code fuel st pc0 s0 tr = Ok (mkout st' s1 v0 (tr ++ t1 ++ t0))).
  { intros pc0 s0 t0 w0 s1 v0 st pc1 st1 s2 t1 (n & st' & R & H) E. exists (Datatypes.S n), st'. split; auto. intros fuel tr L.
    destruct fuel; [lia|]. rewrite E, H, app_assoc by lia. auto. }
  assert (RNG : forall pc i, nth_error code pc = Some i -> i <> Finally ->
     (pc < nb)%nat /\ in_body body i \/ (nb < pc)%nat /\ in_fin body i).
  { intros p i N F. destruct (lt_eq_lt_dec p nb) as [[L|L]|L].
    - left. destruct (nth_body p L) as (i' & N' & B). rewrite N in N'. injection N' as <-. auto.
    - subst p. rewrite nth_nb in N. congruence.
    - right. split; auto. eapply nth_fin; eauto. }
  intros G; induction G; intros st K.
  - eapply OUT; [apply r_done|]. intros. cbn. rewrite H. rewrite app_nil_r. reflexivity.
  - eapply (STEP _ _ _ _ _ _ _ _ st _ [pc]); [apply IHG|intros; cbn; rewrite H; reflexivity].
    destruct (RNG _ _ H ltac:(discriminate)) as [[L _]|[L _]]; split; intros; try lia; apply K; lia.
  - eapply (STEP _ _ _ _ _ _ _ _ st _ [pc]); [apply IHG|intros; cbn; rewrite H; reflexivity].
    destruct (RNG _ _ H ltac:(discriminate)) as [[L B]|[L B]]; cbn in B; split; intros; try (apply K; lia);
      destruct (c s); lia.
  - destruct (RNG _ _ H ltac:(discriminate)) as [[L _]|[L B]]; [|destruct B].
    eapply OUT; [eapply r_yield; eauto|]. intros; cbn; rewrite H; reflexivity.
  - destruct (RNG _ _ H ltac:(discriminate)) as [[L _]|[L B]]; [|destruct B].
    eapply (STEP _ _ _ _ _ _ _ _ (line pc) _ [pc]); [apply IHG|intros; cbn; rewrite H, H0; reflexivity].
    split; [pose proof (line_pos pc); lia|lia].
  - destruct (RNG _ _ H ltac:(discriminate)) as [[L _]|[L B]]; [|destruct B].
    eapply OUT; [eapply r_await; eauto|]. intros; cbn; rewrite H, H0; reflexivity.
  - destruct (RNG _ _ H ltac:(discriminate)) as [[L _]|[L B]]; [|destruct B].
    eapply (STEP _ _ _ _ _ _ _ _ (line pc) _ [pc]).
    2:{ intros; cbn; rewrite H, H0, land_ldiff, H1. cbn. reflexivity. }
    apply IHG. split; [pose proof (line_pos pc); lia|lia].
  - destruct (RNG _ _ H ltac:(discriminate)) as [[L _]|[L B]]; [|destruct B].
    eapply OUT; [eapply r_call; eauto|]. intros; cbn; rewrite H, H0, land_ldiff.
    replace (Z.ldiff r bits =? 0) with false by lia. reflexivity.
  - (* return: goes nb starts with Finally *)
    inversion G; subst; rewrite nth_nb in *; try discriminate.
    destruct (IHG FINALLY) as (n & st' & R & Hn); [split; [lia|auto]|].
    exists (Datatypes.S (Datatypes.S n)), st'. split; auto. intros fuel tr' L. destruct fuel; [lia|]. cbn. rewrite H.
    rewrite stopped_pos by (apply K; auto). cbn. rewrite find_nb.
    pose proof (Hn (Datatypes.S fuel) (tr' ++ [pc]) ltac:(lia)) as E.
    cbn in E. rewrite nth_nb in E. rewrite E. rewrite <- app_assoc. reflexivity.
  - eapply OUT; [apply r_done|]. intros; cbn; rewrite H. pose proof (proj2 K H0) as ->. reflexivity.
  - eapply OUT; [apply r_finally|]. intros; cbn; rewrite H. rewrite stopped_pos by (apply K; auto). reflexivity.
  - eapply OUT; [apply r_done|]. intros; cbn; rewrite H. pose proof (proj2 K H0) as ->. reflexivity.
  - eapply (STEP _ _ _ _ _ _ _ _ FINALLY _ [pc]); [apply IHG|intros; cbn; rewrite H; reflexivity].
    destruct (lt_eq_lt_dec pc nb) as [[L|L]|L]; [|subst|].
    + destruct (nth_body pc L) as (i' & N' & B). rewrite H in N'. injection N' as <-. contradiction.
    + split; [lia|auto].
    + pose proof (nth_fin _ _ L H). contradiction.
Qed.
Lemma goes_resume st pc s t w s' v : repr st (Some pc) -> goes pc s t w s' v ->
  exists n st', repr st' w /\ forall fuel tr, (n <= fuel)%nat ->
    resume code fuel st s tr = Ok (mkout st' s' v (tr ++ t)).
Proof.
  intros R G. unfold resume.
  assert (L : forall p, (line p =? DONE) = false /\ (line p =? INIT) = false /\ (line p =? FINALLY) = false /\ Z.to_nat (line p - 1) = p).
  { intros p. unfold line, DONE, INIT, FINALLY. repeat split; try (apply Z.eqb_neq; lia); lia. }
  inversion R; subst.
  - cbn. eapply goes_run; eauto. split; unfold INIT; lia.
  - cbn. rewrite find_nb. inversion G; subst; rewrite nth_nb in *; try discriminate.
    match goal with H : Some Finally = Some Finally |- _ => clear H end.
    match goal with H : goes (Datatypes.S nb) _ _ _ _ _ |- _ => destruct (goes_run _ _ _ _ _ _ H FINALLY) as (n & st' & R' & Hn); [split; [lia|auto]|] end.
    exists n, st'. split; auto. intros fuel tr' Lf. rewrite (Hn fuel (tr' ++ [nb]) Lf), <- app_assoc. auto.
  - destruct (L p) as (-> & L1 & L2 & L3). rewrite L1, L2, L3, H2. eapply goes_run; eauto.
    split; [pose proof (line_pos p); lia|lia].
  - destruct (L pc) as (-> & L1 & L2 & L3). rewrite L1, L2, L3, H2. eapply goes_run; eauto.
    split; [pose proof (line_pos pc); lia|lia].
  - destruct (L pc) as (-> & L1 & L2 & L3). rewrite L1, L2, L3, H2. eapply goes_run; eauto.
    split; [pose proof (line_pos pc); lia|lia].
Qed.
End P.
