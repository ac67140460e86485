From Verif Require Import Base Cco_Model Cco_Spec Cco_Proofs.

Section P.
Context {S : Type}.
Variable body fin : list (instr S).
Notation code := (code body fin).
Notation nb := (nb body).
Notation goes := (goes body fin).
Notation lives := (lives body fin).
Notation repr := (repr body fin).
Hypothesis wf : proper body fin.

Notation lo := (Forall (fun p => (p < nb)%nat)).
Notation hi := (Forall (fun p => (nb < p)%nat)).

Lemma goes_shape pc s t w s' v : goes pc s t w s' v ->
  ((pc <= nb)%nat -> match w with Some p => lo t /\ (p <= nb)%nat
                     | None => exists t1 t3, t = t1 ++ nb :: t3 /\ lo t1 /\ hi t3 end) /\
  ((nb < pc)%nat -> w = None /\ hi t).
Proof.
  assert (NB : forall pc i, nth_error code pc = Some i -> i <> Finally -> pc <> nb).
  { intros p i N F ->. rewrite nth_nb in N. congruence. }
  assert (FB : forall pc, nth_error code pc = Some Finally -> pc = nb).
  { intros p N. destruct (lt_eq_lt_dec p nb) as [[L|L]|L]; auto.
    - destruct (nth_body body fin wf p L) as (i & N' & B). rewrite N in N'. injection N' as <-. contradiction.
    - pose proof (nth_fin body fin wf p _ L N). contradiction. }
  assert (CONS : forall pc pc1 t (w : option nat), pc <> nb ->
     ((pc < nb)%nat -> (pc1 <= nb)%nat) -> ((nb < pc)%nat -> (nb < pc1)%nat) ->
     ((pc1 <= nb)%nat -> match w with Some p => lo t /\ (p <= nb)%nat
                     | None => exists t1 t3, t = t1 ++ nb :: t3 /\ lo t1 /\ hi t3 end) /\
     ((nb < pc1)%nat -> w = None /\ hi t) ->
     ((pc <= nb)%nat -> match w with Some p => lo (pc :: t) /\ (p <= nb)%nat
                     | None => exists t1 t3, pc :: t = t1 ++ nb :: t3 /\ lo t1 /\ hi t3 end) /\
     ((nb < pc)%nat -> w = None /\ hi (pc :: t))).
  { intros p p1 t0 w0 N L1 L2 [A B]. split; intros H.
    - destruct w0; [destruct A as [A1 A2]; [lia|]; split; auto; constructor; auto; lia|].
      destruct A as (t1 & t3 & -> & A1 & A2); [lia|]. exists (p :: t1), t3. repeat split; auto. constructor; auto. lia.
    - destruct B as [-> B]; [lia|]. split; auto. }
  assert (JB : forall pc i, nth_error code pc = Some i -> (pc < nb)%nat -> in_body body i).
  { intros p i N L. destruct (nth_body body fin wf p L) as (i' & N' & B). rewrite N in N'. injection N' as <-. auto. }
  assert (SUS : forall pc i, nth_error code pc = Some i -> ~ in_fin body i -> i <> Finally -> (pc < nb)%nat).
  { intros p i N F F'. destruct (lt_eq_lt_dec p nb) as [[L|L]|L]; auto.
    - subst. rewrite nth_nb in N. congruence.
    - pose proof (nth_fin body fin wf p _ L N). contradiction. }
  intros G; induction G.
  - assert (nb < pc)%nat. { apply nth_error_None in H. pose proof (len_nb body fin). lia. }
    split; [lia|auto].
  - refine (CONS _ _ _ _ (NB _ _ H ltac:(discriminate)) _ _ IHG); lia.
  - refine (CONS _ _ _ _ (NB _ _ H ltac:(discriminate)) _ _ IHG).
    + intros L. pose proof (JB _ _ H L) as B. cbn in B. destruct (c s); lia.
    + intros L. pose proof (nth_fin body fin wf _ _ L H) as B. cbn in B. destruct (c s); lia.
  - pose proof (SUS _ _ H ltac:(cbn; tauto) ltac:(discriminate)) as L. split; [split; [constructor; auto|lia]|lia].
  - refine (CONS _ _ _ _ (NB _ _ H ltac:(discriminate)) _ _ IHG); lia.
  - pose proof (SUS _ _ H ltac:(cbn; tauto) ltac:(discriminate)) as L. split; [split; [constructor; auto|lia]|lia].
  - refine (CONS _ _ _ _ (NB _ _ H ltac:(discriminate)) _ _ IHG); lia.
  - pose proof (SUS _ _ H ltac:(cbn; tauto) ltac:(discriminate)) as L. split; [split; [constructor; auto|lia]|lia].
  - refine (CONS _ _ _ _ (NB _ _ H ltac:(discriminate)) _ _ IHG); lia.
  - split; [lia|auto].
  - split; [split; [constructor; auto|lia]|lia].
  - split; [lia|auto].
  - pose proof (FB _ H) as ->. destruct IHG as [_ B]. destruct B as [-> B]; [lia|]. split; [|lia].
    intros _. exists [], tr. repeat split; auto.
Qed.

Lemma repr_le st p : repr st (Some p) -> (p <= nb)%nat.
Proof. intros H; inversion H; subst; lia. Qed.

Definition Inv (x : life S) : Prop :=
  exists w, repr (lstate x) w /\ (w <> None -> lo (ltrace x)) /\ (w = None -> ordered body (ltrace x)).

Lemma inv_born s : Inv (born s).
Proof. exists (Some O). repeat split; [constructor|constructor|discriminate]. Qed.

Lemma repr_stop_any st w : repr st w -> exists w', repr (stopped st) w' /\ (w = None -> w' = None) /\
  (stopped st = DONE -> st = FINALLY \/ st = DONE).
Proof.
  intros H; inversion H; subst.
  - exists (Some nb). (split; [constructor|split; [discriminate|]]; try discriminate).
  - exists None. split; [constructor|split; auto].
  - exists None. split; [constructor|split; auto].
  - exists (Some nb). rewrite stopped_pos by (unfold line; lia). (split; [constructor|split; [discriminate|]]; try discriminate).
  - exists (Some nb). rewrite stopped_pos by (unfold line; lia). (split; [constructor|split; [discriminate|]]; try discriminate).
  - exists (Some nb). rewrite stopped_pos by (unfold line; lia). (split; [constructor|split; [discriminate|]]; try discriminate).
Qed.
Lemma lo_ordered t : lo t -> ordered body t.
Proof. intros H. exists t, []. rewrite app_nil_r. auto. Qed.

Lemma inv_step fuel x c y : Inv x -> cmd1 code fuel x c = Ok y -> Inv y.
Proof.
  intros (w & R & I1 & I2) E. destruct c; cbn in E.
  - destruct (resume code fuel (lstate x) (lmem x) (ltrace x)) as [o|] eqn:E2; [|discriminate].
    cbn in E. injection E as <-. destruct w as [pc|].
    + destruct (resume_goes body fin wf _ _ _ _ _ _ R E2) as (t & w & H1 & H2 & H3).
      exists w. cbn. split; auto. rewrite H2. pose proof (I1 ltac:(discriminate)) as L.
      destruct (goes_shape _ _ _ _ _ _ H1) as [A _]. specialize (A (repr_le _ _ R)).
      split; intros W.
      * destruct w; [|congruence]. apply Forall_app. tauto.
      * subst w. destruct A as (t1 & t3 & -> & A1 & A2). exists (ltrace x ++ t1), (nb :: t3).
        rewrite app_assoc. repeat split; [apply Forall_app; auto|]. right. eauto.
    + pose proof (repr_none _ _ _ R) as D. rewrite D in E2. cbn in E2. injection E2 as <-. cbn.
      exists None. cbn. split; [constructor|split; [congruence|auto]].
  - injection E as <-. destruct (repr_stop_any _ _ R) as (w' & R' & N & _). exists w'. cbn. split; auto.
    split; intros W.
    + apply I1. intros ->. apply W, N, eq_refl.
    + destruct w; [apply lo_ordered, I1; discriminate|auto].
  - injection E as <-. exists w. cbn. auto.
Qed.
Lemma inv_cmds fuel : forall l x y, Inv x -> cmds code fuel x l = Ok y -> Inv y.
Proof.
  induction l as [|c l IH]; intros x y I E; cbn in E; [injection E as <-; auto|].
  destruct (cmd1 code fuel x c) as [z|] eqn:E1; [|discriminate]. eapply IH; [|exact E]. eapply inv_step; eauto.
Qed.

Lemma count_lo t : lo t -> count_occ Nat.eq_dec t nb = O.
Proof. intros H. apply count_occ_not_In. intros K. rewrite Forall_forall in H. apply H in K. lia. Qed.
Lemma count_hi t : hi t -> count_occ Nat.eq_dec t nb = O.
Proof. intros H. apply count_occ_not_In. intros K. rewrite Forall_forall in H. apply H in K. lia. Qed.
Lemma ordered_once t : ordered body t -> (cleanups body t <= 1)%nat.
Proof.
  unfold cleanups. intros (t1 & t2 & -> & H1 & [->|(t3 & -> & H3)]); rewrite count_occ_app, (count_lo t1 H1); cbn; [lia|].
  destruct (Nat.eq_dec nb nb); [|congruence]. rewrite (count_hi _ H3). lia.
Qed.

(** Done is done. *)
Lemma done_step fuel x c y : lstate x = DONE -> cmd1 code fuel x c = Ok y ->
  lstate y = DONE /\ ltrace y = ltrace x /\ exists z, lrets y = lrets x ++ z /\ Forall (fun v => v = 0) z.
Proof.
  intros D E. destruct c; cbn in E; rewrite ?D in E; cbn in E; injection E as <-; cbn; repeat split; auto.
  - exists [0]. auto.
  - exists []. rewrite app_nil_r. auto.
  - exists []. rewrite app_nil_r. auto.
Qed.
Lemma done_cmds fuel : forall l x y, lstate x = DONE -> cmds code fuel x l = Ok y ->
  lstate y = DONE /\ ltrace y = ltrace x /\ exists z, lrets y = lrets x ++ z /\ Forall (fun v => v = 0) z.
Proof.
  induction l as [|c l IH]; intros x y D E; cbn in E.
  - injection E as <-. repeat split; auto. exists []. rewrite app_nil_r. auto.
  - destruct (cmd1 code fuel x c) as [x1|] eqn:E1; [|discriminate]. cbn in E.
    destruct (done_step _ _ _ _ D E1) as (D1 & T1 & z1 & Z1 & F1).
    destruct (IH _ _ D1 E) as (D2 & T2 & z2 & Z2 & F2). repeat split; auto; [congruence|].
    exists (z1 ++ z2). rewrite Z2, Z1, app_assoc. split; auto. apply Forall_app; auto.
Qed.

(** Exactly one cleanup at the end iff no stop came when cleanup was already due. *)
Definition Once (x : life S) : Prop := (lstate x = DONE -> cleanups body (ltrace x) = 1%nat).
Lemma once_step fuel x c y : Inv x -> Once x -> (c = Stop -> lstate x <> FINALLY) -> cmd1 code fuel x c = Ok y -> Once y.
Proof.
  intros (w & R & I1 & I2) O C E D. unfold Once in *. destruct c; cbn in E.
  - destruct (resume code fuel (lstate x) (lmem x) (ltrace x)) as [o|] eqn:E2; [|discriminate].
    cbn in E. injection E as <-. destruct w as [pc|].
    + destruct (resume_goes body fin wf _ _ _ _ _ _ R E2) as (t & w & H1 & H2 & H3). cbn in D |- *.
      rewrite D in H3. pose proof (repr_done _ _ _ H3). subst w. rewrite H2.
      destruct (goes_shape _ _ _ _ _ _ H1) as [A _]. specialize (A (repr_le _ _ R)).
      destruct A as (t1 & t3 & -> & A1 & A2). unfold cleanups.
      rewrite !count_occ_app. rewrite (count_lo _ (I1 ltac:(discriminate))), (count_lo _ A1). cbn.
      destruct (Nat.eq_dec nb nb); [|congruence]. rewrite (count_hi _ A2). lia.
    + pose proof (repr_none _ _ _ R) as D'. rewrite D' in E2. cbn in E2. injection E2 as <-. cbn. auto.
  - injection E as <-. cbn in *. destruct (repr_stop_any _ _ R) as (w' & _ & _ & N).
    destruct (N D) as [F|F]; [|auto]. exfalso. apply C; auto.
  - injection E as <-. cbn in *. auto.
Qed.
Lemma once_cmds fuel : forall l x y, Inv x -> Once x -> careful_from body fin fuel x l -> cmds code fuel x l = Ok y -> Once y.
Proof.
  induction l as [|c l IH]; intros x y I O C E; cbn in E; [injection E as <-; auto|].
  destruct (cmd1 code fuel x c) as [z|] eqn:E1; [|discriminate]. cbn in E.
  eapply IH; [| |eapply careful_step; eauto|exact E].
  - eapply inv_step; eauto.
  - eapply once_step; eauto. intros ->. apply (C [] l x eq_refl eq_refl).
Qed.
Lemma never_cleaned fuel l1 l2 s x y : cmds code fuel (born s) l1 = Ok x -> lstate x = FINALLY ->
  cmds code fuel (born s) (l1 ++ Stop :: l2) = Ok y -> lstate y = DONE /\ cleanups body (ltrace y) = O.
Proof.
  intros E F E'. rewrite cmds_app, E in E'. cbn in E'. rewrite F in E'.
  destruct (inv_cmds _ _ _ _ (inv_born s) E) as (w & R & I1 & _).
  apply done_cmds in E'; [|reflexivity]. destruct E' as (D & T & _). split; auto. rewrite T. apply count_lo, I1.
  intros ->. apply repr_none in R. rewrite F in R. discriminate.
Qed.

(** After a stop: only cleanup. *)
Definition Stopped (x : life S) : Prop := lstate x = FINALLY \/ lstate x = DONE.
Lemma stopped_step fuel x c y : Stopped x -> cmd1 code fuel x c = Ok y ->
  Stopped y /\ (c = Resume -> lstate y = DONE) /\ exists t, ltrace y = ltrace x ++ t /\ Forall (fun p => (nb <= p)%nat) t.
Proof.
  intros [F|F] E.
  - destruct c; cbn in E; rewrite ?F in E.
    + destruct (resume code fuel FINALLY (lmem x) (ltrace x)) as [o|] eqn:E2; [|discriminate].
      cbn in E. injection E as <-. cbn [lstate ltrace]. unfold resume in E2. cbn in E2. rewrite (find_nb body fin wf) in E2.
      apply (run_goes body fin wf) in E2; [|split; [lia|auto]]. destruct E2 as (t & w & H1 & H2 & H3).
      destruct (goes_shape _ _ _ _ _ _ H1) as [_ B]. destruct B as [-> B]; [lia|].
      apply repr_none in H3. split; [right; auto|split; [first [discriminate|auto]|]]. exists (nb :: t). rewrite H2, <- app_assoc. split; auto.
      constructor; [lia|]. eapply Forall_impl; [|exact B]. intros; cbn in *; lia.
    + injection E as <-. cbn. split; [right; reflexivity|split; [first [discriminate|auto]|]]. exists []. rewrite app_nil_r. auto.
    + injection E as <-. cbn. split; [left; auto|split; [first [discriminate|auto]|]]. exists []. rewrite app_nil_r. auto.
  - destruct (done_step _ _ _ _ F E) as (D & T & _). split; [right; auto|split; [first [discriminate|auto]|]]. exists []. rewrite app_nil_r. auto.
Qed.
Lemma stopped_cmds fuel : forall l x y, Stopped x -> cmds code fuel x l = Ok y ->
  (In Resume l -> lstate y = DONE) /\ exists t, ltrace y = ltrace x ++ t /\ Forall (fun p => (nb <= p)%nat) t.
Proof.
  induction l as [|c l IH]; intros x y I E; cbn in E.
  - injection E as <-. split; [intros []|]. exists []. rewrite app_nil_r. auto.
  - destruct (cmd1 code fuel x c) as [z|] eqn:E1; [|discriminate]. cbn in E.
    destruct (stopped_step _ _ _ _ I E1) as (I1 & D1 & t1 & T1 & F1).
    destruct (IH _ _ I1 E) as (D2 & t2 & T2 & F2). split.
    + intros [->|K]; [|auto]. eapply done_cmds in E; [apply E|auto].
    + exists (t1 ++ t2). rewrite T2, T1, app_assoc. split; auto. apply Forall_app; auto.
Qed.
Lemma stop_is_stopped st w : repr st w -> stopped st = FINALLY \/ stopped st = DONE.
Proof. unfold stopped. destruct (INIT <=? st); auto. Qed.

(** Polite owners are careful. *)
Lemma run_not_final : no_yield_final body -> forall fuel st pc s tr o, st_ok body st pc ->
  run code fuel st pc s tr = Ok o -> ostate o <> FINALLY.
Proof.
  intros NY. induction fuel as [|fuel IH]; intros st pc s tr o K E; [discriminate|]. cbn in E.
  destruct (nth_error code pc) as [i|] eqn:N; [|injection E as <-; cbn; unfold DONE, FINALLY; lia].
  assert (LN : forall p, line p <> FINALLY) by (intros; unfold line, FINALLY; lia).
  destruct (lt_eq_lt_dec pc nb) as [[L|L]|L].
  - destruct (nth_body body fin wf pc L) as (i' & N' & B). rewrite N in N'. injection N' as <-.
    pose proof (proj1 K L) as P.
    assert (K1 : forall st', 0 <= st' -> st_ok body st' (Datatypes.S pc)) by (intros; split; [auto|lia]).
    pose proof (line_pos pc) as LP.
    destruct i; cbn in B.
    + eapply IH; [|exact E]. auto.
    + eapply IH; [|exact E]. destruct (c s); [split; [auto|lia]|auto].
    + injection E as <-. apply LN.
    + destruct (c s); [eapply IH; [|exact E]; apply K1; lia|injection E as <-; apply LN].
    + destruct (f s) as [s1 r]. destruct (Z.land r (Z.lnot bits) =? 0); [eapply IH; [|exact E]; apply K1; lia|injection E as <-; apply LN].
    + rewrite stopped_pos, (find_nb body fin wf) in E by auto. cbn in E. eapply IH; [|exact E]. split; [lia|auto].
    + exfalso. unfold Cco_Spec.code in N. rewrite nth_error_app1 in N by exact L. apply nth_error_In in N.
      unfold no_yield_final in NY. rewrite Forall_forall in NY. apply (NY _ N).
    + contradiction.
  - subst pc. rewrite nth_nb in N. injection N as <-. eapply IH; [|exact E]. split; [lia|auto].
  - pose proof (nth_fin body fin wf pc i L N) as B. pose proof (proj2 K L) as ->.
    destruct i; cbn in B; try contradiction.
    + eapply IH; [|exact E]. split; [lia|auto].
    + eapply IH; [|exact E]. split; [destruct (c s); lia|auto].
    + cbn in E. injection E as <-. cbn; unfold DONE, FINALLY; lia.
    + injection E as <-. cbn; unfold DONE, FINALLY; lia.
Qed.
Lemma resume_not_final : no_yield_final body -> forall fuel st w s tr o, repr st w ->
  resume code fuel st s tr = Ok o -> ostate o <> FINALLY.
Proof.
  intros NY fuel st w s tr o R E. unfold resume in E.
  assert (L : forall p, (line p =? DONE) = false /\ (line p =? INIT) = false /\ (line p =? FINALLY) = false /\ Z.to_nat (line p - 1) = p).
  { intros p. unfold line, DONE, INIT, FINALLY. repeat split; try (apply Z.eqb_neq; lia); lia. }
  inversion R; subst.
  - cbn in E. eapply (run_not_final NY) in E; [exact E|]. split; unfold INIT; lia.
  - cbn in E. rewrite (find_nb body fin wf) in E. eapply (run_not_final NY) in E; [exact E|split; [lia|auto]].
  - cbn in E. injection E as <-. cbn; unfold DONE, FINALLY; lia.
  - destruct (L p) as (L0 & L1 & L2 & L3). rewrite L0, L1, L2, L3, H0 in E. eapply (run_not_final NY) in E; [exact E|].
    split; [pose proof (line_pos p); lia|lia].
  - destruct (L p) as (L0 & L1 & L2 & L3). rewrite L0, L1, L2, L3, H0 in E. eapply (run_not_final NY) in E; [exact E|].
    split; [pose proof (line_pos p); lia|lia].
  - destruct (L p) as (L0 & L1 & L2 & L3). rewrite L0, L1, L2, L3, H0 in E. eapply (run_not_final NY) in E; [exact E|].
    split; [pose proof (line_pos p); lia|lia].
Qed.
Lemma polite_careful : no_yield_final body -> forall fuel l may x, polite may l = true -> Inv x ->
  (may = true -> lstate x <> FINALLY) -> careful_from body fin fuel x l.
Proof.
  intros NY fuel. induction l as [|c l IH]; intros may x P I M l1 l2 y E C.
  - destruct l1; discriminate.
  - destruct l1 as [|c1 l1]; cbn in E.
    + injection E as -> <-. cbn in C. injection C as <-. cbn in P. apply andb_prop in P. tauto.
    + injection E as <- ->. cbn in C. destruct (cmd1 code fuel x c) as [z|] eqn:E1; [|discriminate]. cbn in C.
      pose proof (inv_step _ _ _ _ I E1) as I'.
      destruct c; cbn in P.
      * refine (IH true z P I' _ l1 l2 y eq_refl C). intros _. cbn in E1.
        destruct (resume code fuel (lstate x) (lmem x) (ltrace x)) as [o|] eqn:E2; [|discriminate].
        cbn in E1. injection E1 as <-. destruct I as (w & R & _). exact (resume_not_final NY _ _ _ _ _ _ R E2).
      * apply andb_prop in P. destruct P as [_ P]. refine (IH false z P I' _ l1 l2 y eq_refl C). discriminate.
      * cbn in E1. injection E1 as <-. exact (IH may _ P I' M l1 l2 y eq_refl C).
Qed.

(** The code follows the spec wherever it goes. *)
Lemma lives_cmds w s l t vs w' s' : lives w s l t vs w' s' -> forall x, repr (lstate x) w -> lmem x = s ->
  exists n, forall fuel, (n <= fuel)%nat -> careful_from body fin fuel x l ->
  exists st', cmds code fuel x l = Ok (mklife st' s' (ltrace x ++ t) (lrets x ++ vs)) /\ repr st' w'.
Proof.
  assert (MID : forall fuel x c l y, cmd1 code fuel x c = Ok y -> cmds code fuel x (c :: l) = cmds code fuel y l).
  { intros fuel x c l0 y E. cbn. rewrite E. reflexivity. }
  intros G; induction G; intros x R M.
  - exists O. intros fuel _ _. exists (lstate x). cbn. destruct x. cbn in *. subst. rewrite !app_nil_r. auto.
  - destruct (goes_resume body fin wf _ _ _ _ _ _ _ R H) as (n1 & st1 & R1 & E1).
    destruct (IHG (mklife st1 s1 (ltrace x ++ tr) (lrets x ++ [v])) R1 eq_refl) as (n2 & E2).
    exists (max n1 n2). intros fuel L C. assert (E : cmd1 code fuel x Resume = Ok (mklife st1 s1 (ltrace x ++ tr) (lrets x ++ [v]))).
    { cbn. rewrite M, E1 by lia. reflexivity. }
    rewrite (MID _ _ _ _ _ E). destruct (E2 fuel ltac:(lia) (careful_step _ _ _ _ _ _ _ C E)) as (st' & E' & R').
    exists st'. split; auto. rewrite E'. cbn. rewrite <- !app_assoc. reflexivity.
  - pose proof (repr_none _ _ _ R) as D.
    destruct (IHG (mklife DONE s (ltrace x) (lrets x ++ [0])) (r_done _ _) eq_refl) as (n & E1).
    exists n. intros fuel L C. assert (E : cmd1 code fuel x Resume = Ok (mklife DONE s (ltrace x) (lrets x ++ [0]))).
    { cbn. rewrite D, M. reflexivity. }
    rewrite (MID _ _ _ _ _ E). destruct (E1 fuel L (careful_step _ _ _ _ _ _ _ C E)) as (st' & E' & R').
    exists st'. split; auto. rewrite E'. cbn. rewrite <- !app_assoc. reflexivity.
  - destruct (IHG (mklife FINALLY s (ltrace x) (lrets x)) (r_finally _ _) eq_refl) as (n & E1).
    exists n. intros fuel L C.
    assert (E : cmd1 code fuel x Stop = Ok (mklife FINALLY s (ltrace x) (lrets x))).
    { cbn. rewrite (repr_stop _ _ _ _ R), M; [reflexivity|]. apply (C [] l x eq_refl eq_refl). }
    rewrite (MID _ _ _ _ _ E). destruct (E1 fuel L (careful_step _ _ _ _ _ _ _ C E)) as (st' & E' & R').
    exists st'. split; auto.
  - pose proof (repr_none _ _ _ R) as D.
    destruct (IHG (mklife DONE s (ltrace x) (lrets x)) (r_done _ _) eq_refl) as (n & E1).
    exists n. intros fuel L C.
    assert (E : cmd1 code fuel x Stop = Ok (mklife DONE s (ltrace x) (lrets x))).
    { cbn. rewrite D, M. reflexivity. }
    rewrite (MID _ _ _ _ _ E). destruct (E1 fuel L (careful_step _ _ _ _ _ _ _ C E)) as (st' & E' & R').
    exists st'. split; auto.
  - destruct (IHG (mklife (lstate x) (f s) (ltrace x) (lrets x)) R eq_refl) as (n & E1).
    exists n. intros fuel L C.
    assert (E : cmd1 code fuel x (Poke f) = Ok (mklife (lstate x) (f s) (ltrace x) (lrets x))).
    { cbn. rewrite M. reflexivity. }
    rewrite (MID _ _ _ _ _ E). destruct (E1 fuel L (careful_step _ _ _ _ _ _ _ C E)) as (st' & E' & R').
    exists st'. split; auto.
Qed.
End P.
