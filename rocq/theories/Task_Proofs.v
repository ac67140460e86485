(** The executor of coroutine.h runs tasks as a call stack. *)
From Verif Require Import Base Task_Model Task_Spec.

Section Proofs.
Context {S : Type}.
Variable code : nat -> list (instr S).
Notation world := (world S). Notation sp := (sp S).
Notation run := (run code). Notation act := (act code). Notation logs := (logs code).

Definition place_ok (u : nat) (st : Z) (p : place) : Prop :=
  match p with
  | Fresh => st = 0
  | Paused n => 0 < st /\ entry (code u) st = Some n
  | Closing | Unwound _ => st = -1
  | Over => st = -2
  end.
Definition same (w : world) (s : sp) : Prop := mem w = smem s /\ ferr (fb w) = err s /\ tr w = slog s.
Definition others (w : world) (s : sp) (self : nat) : Prop := forall u, u <> self -> place_ok u (tstate (tasks w u)) (pos s u).
Definition mode_ok (w : world) (self : nat) (m : mode) : Prop :=
  match m with
  | Body => 0 <= tstate (tasks w self)
  | Clean r => tstate (tasks w self) = -1 /\ match r with Some n => 0 < frec (fb w) /\ entry (code self) (frec (fb w)) = Some n | None => True end
  end.
Definition keep_fb (w w' : world) : Prop := fparent (fb w') = fparent (fb w) /\ fbits (fb w') = fbits (fb w) /\ frec (fb w') = frec (fb w).
Definition keeps (w w' : world) (u : nat) : Prop := tbits (tasks w' u) = tbits (tasks w u) /\ tparent (tasks w' u) = tparent (tasks w u).
Definition ends (self : nat) (w w' : world) (v : Z) (e : ending) : Prop :=
  match e with
  | End => v = 0 /\ tstate (tasks w' self) = -2 /\ ftask (fb w') = Some self /\ (forall u, keeps w w' u)
  | Pause n v0 => v = v0 /\ place_ok self (tstate (tasks w' self)) (Paused n) /\ ftask (fb w') = Some self /\ (forall u, keeps w w' u)
  | Final v0 => v = v0 /\ tstate (tasks w' self) = -1 /\ ftask (fb w') = Some self /\ (forall u, keeps w w' u)
  | Call t b n => t <> self -> v = CCO_NOOP /\ place_ok self (tstate (tasks w' self)) (Paused n) /\ ftask (fb w') = Some t /\
      tbits (tasks w' t) = b /\ tparent (tasks w' t) = Some self /\ (forall u, u <> t -> keeps w w' u)
  | Go t n => t <> self -> v = CCO_NOOP /\ place_ok self (tstate (tasks w' self)) (Paused n) /\ ftask (fb w') = Some t /\
      tbits (tasks w' t) = tbits (tasks w self) /\ tparent (tasks w' t) = tparent (tasks w self) /\ (forall u, u <> t -> keeps w w' u)
  end.

Lemma ends_trans self w w1 w' v e : (forall u, keeps w w1 u) -> ends self w1 w' v e -> ends self w w' v e.
Proof.
  intros K. assert (KK : forall u, keeps w1 w' u -> keeps w w' u). { intros u Q. unfold keeps in *. destruct (K u), Q. split; congruence. }
  unfold ends. destruct e.
  - intros (? & ? & ? & Q). auto 10.
  - intros (? & ? & ? & Q). auto 10.
  - intros Q Hn. destruct (Q Hn) as (? & ? & ? & ? & ? & R). auto 10.
  - intros Q Hn. destruct (Q Hn) as (? & ? & ? & E1 & E2 & R). destruct (K self). rewrite H2, H3 in *. auto 10.
  - intros (? & ? & ? & Q). auto 10.
Qed.

Lemma entry_line (c : list (instr S)) pc i : nth_error c pc = Some i ->
  entry c (line pc) = match i with Yield _ | AwaitTask _ _ | YieldTo _ => Some (Datatypes.S pc) | Await _ => Some pc | _ => None end.
Proof.
  intros H. unfold entry, line, INIT, FINALLY. rewrite (proj2 (Z.eqb_neq (Z.of_nat pc + 1) 0)) by lia. rewrite (proj2 (Z.eqb_neq (Z.of_nat pc + 1) (-1))) by lia.
  destruct (Z.ltb_spec (Z.of_nat pc + 1) 0); [lia|]. replace (Z.to_nat (Z.of_nat pc + 1 - 1)) with pc by lia. rewrite H. destruct i; reflexivity.
Qed.
Lemma busy_neq t busy self : existsb (Nat.eqb t) busy = false -> In self busy -> t <> self.
Proof. intros E Hi ->. rewrite <- not_true_iff_false in E. apply E. apply existsb_exists. exists self. split; [exact Hi|apply Nat.eqb_refl]. Qed.
Lemma upd_neq (w : world) t x u : u <> t -> tasks (set_task w t x) u = tasks w u.
Proof. intros H. cbn. destruct (Nat.eqb_spec u t); congruence. Qed.
Lemma upd_eq (w : world) t x : tasks (set_task w t x) t = x.
Proof. cbn. now rewrite Nat.eqb_refl. Qed.
Lemma keeps_state (w : world) t st u : keeps w (set_state w t st) u.
Proof. unfold keeps, set_state, set_task. cbn. destruct (Nat.eqb_spec u t); subst; auto. Qed.
Lemma state_eq (w : world) t st : tstate (tasks (set_state w t st) t) = st.
Proof. cbn. now rewrite Nat.eqb_refl. Qed.
Lemma state_neq (w : world) t st u : u <> t -> tasks (set_state w t st) u = tasks w u.
Proof. apply upd_neq. Qed.

Definition result busy self (w : world) (r : res (world * Z)) (s s' : sp) (e : ending) : Prop :=
  exists w' v, r = Ok (w', v) /\ same w' s' /\ others w' s' self /\ keep_fb w w' /\ ends self w w' v e /\ (forall u, In u busy -> pos s' u = pos s u).

Lemma result_trans busy self w w1 r s s1 s' e : (forall u, keeps w w1 u) -> keep_fb w w1 -> (forall u, In u busy -> pos s1 u = pos s u) ->
  result busy self w1 r s1 s' e -> result busy self w r s s' e.
Proof.
  intros K F P (w' & v & E & A & O & F' & D & Q). exists w', v. repeat split; auto; try apply A.
  - unfold keep_fb in *. intuition congruence.
  - unfold keep_fb in *. intuition congruence.
  - unfold keep_fb in *. intuition congruence.
  - eapply ends_trans; eauto.
  - intros u Hu. rewrite Q, P by assumption. reflexivity.
Qed.



Lemma act_ok fuel : forall busy self pc m s w s' e, In self busy -> act fuel busy self pc m s = Ok (s', e) ->
  ftask (fb w) = Some self -> same w s -> others w s self -> mode_ok w self m -> result busy self w (run fuel self pc w) s s' e.
Proof.
  induction fuel as [|fuel IH]; intros busy self pc m s w s' e Hb H Hf Hs Ho Hm; [discriminate|].
  cbn [act run Task_Spec.act Task_Model.run] in *.
  destruct (nth_error (code self) pc) as [i|] eqn:Ei.
  2:{ injection H as <- <-. exists (set_state w self DONE), CCO_DONE. split; [reflexivity|]. split; [exact Hs|]. split.
      { intros u Hu. rewrite state_neq by assumption. apply Ho, Hu. }
      split; [repeat split|]. split; [|auto]. cbn [ends]. rewrite state_eq. repeat split; auto; apply keeps_state. }
  set (s1 := mksp (pos s) (err s) (smem s) (slog s ++ [(self, pc)])) in *. set (w1 := log w self pc).
  assert (Hs1 : same w1 s1). { destruct Hs as (? & ? & Et). repeat split; auto. cbn. rewrite Et. reflexivity. }
  assert (Ho1 : others w1 s1 self) by exact Ho. assert (Hm1 : mode_ok w1 self m) by exact Hm. assert (Hf1 : ftask (fb w1) = Some self) by exact Hf.
  apply (result_trans _ _ w w1 _ s s1); [intros; split; reflexivity|repeat split|auto|]. clearbody s1 w1. clear Hs Ho Hm Hf s w. rename s1 into s, w1 into w, Hs1 into Hs, Ho1 into Ho, Hm1 into Hm, Hf1 into Hf.
  pose proof (entry_line (code self) pc i Ei) as El.
  assert (Lp : 0 < line pc) by (unfold line; lia).
  (* going on in the cleanup section *)
  assert (CL : forall s0 w0 r, In self busy -> tstate (tasks w0 self) = -1 -> ftask (fb w0) = Some self -> same w0 s0 -> others w0 s0 self ->
    match find_finally (code self) with Some k => act fuel busy self k (Clean None) s0 | None => Ok (s0, End) end = Ok (s', e) ->
    r = match entry (code self) (tstate (tasks w0 self)) with Some p => run fuel self p w0 | None => Ok (set_state w0 self DONE, CCO_DONE) end ->
    result busy self w0 r s0 s' e).
  { intros s0 w0 r _ St Hf0 Hs0 Ho0 Hc ->. rewrite St. cbn [entry]. change (entry (code self) (-1)) with (find_finally (code self)).
    destruct (find_finally (code self)) as [k|].
    - apply (IH busy self k (Clean None)); auto. cbn. auto.
    - injection Hc as <- <-. exists (set_state w0 self DONE), CCO_DONE. split; [reflexivity|]. split; [exact Hs0|]. split.
      { intros u Hu. rewrite state_neq by assumption. apply Ho0, Hu. }
      split; [repeat split|]. split; [|auto]. cbn [ends]. rewrite state_eq. repeat split; auto; apply keeps_state. }
  (* at the end of the cleanup section *)
  assert (OV : forall (w0 : world) s0 r, tstate (tasks w0 self) = -2 -> ftask (fb w0) = Some self -> same w0 s0 -> others w0 s0 self ->
    r = match entry (code self) (tstate (tasks w0 self)) with Some p => run fuel self p w0 | None => Ok (set_state w0 self DONE, CCO_DONE) end ->
    result busy self w0 r s0 s0 End).
  { intros w0 s0 r St Hf0 Hs0 Ho0 ->. rewrite St. change (entry (code self) (-2)) with (@None nat).
    exists (set_state w0 self DONE), CCO_DONE. split; [reflexivity|]. split; [exact Hs0|]. split.
    { intros u Hu. rewrite state_neq by assumption. apply Ho0, Hu. }
    split; [repeat split|]. split; [|auto]. cbn [ends]. rewrite state_eq. repeat split; auto; apply keeps_state. }
  assert (OS : forall st, others (set_state w self st) s self). { intros st u Hu. rewrite state_neq by assumption. apply Ho, Hu. }
  assert (PZ : forall st n, 0 < st -> entry (code self) st = Some n -> place_ok self (tstate (tasks (set_state w self st) self)) (Paused n)).
  { intros st n P Q. rewrite state_eq. cbn. auto. }
  destruct Hs as (Hmem & Herr & Htr).
  destruct i.
  - (* Act *) rewrite Hmem, Herr. eapply result_trans; [..|apply IH with (m := m); [exact Hb|exact H|exact Hf|..]];
      [intros; split; reflexivity|repeat split|reflexivity|repeat split; auto|exact Ho|exact Hm].
  - (* Jmp *) rewrite Hmem, Herr. eapply IH; eauto. repeat split; auto.
  - (* Yield *) destruct m; [|discriminate]. injection H as <- <-. exists (set_state w self (line pc)), v. split; [reflexivity|].
    split; [repeat split; auto|]. split; [apply OS|]. split; [repeat split|]. split; [|auto]. cbn [ends]. repeat split; auto; try apply keeps_state; rewrite state_eq; auto.
  - (* Await *) destruct m; [|discriminate]. rewrite Hmem. destruct (c (smem s)).
    + eapply result_trans; [..|apply IH with (m := Body); [exact Hb|exact H|exact Hf|..]]; [intros; apply keeps_state|repeat split|reflexivity|repeat split; auto|apply OS|].
      cbn [mode_ok]. rewrite state_eq. lia.
    + injection H as <- <-. exists (set_state w self (line pc)), CCO_AWAIT. split; [reflexivity|].
      split; [repeat split; auto|]. split; [apply OS|]. split; [repeat split|]. split; [|auto]. cbn [ends]. repeat split; auto; try apply keeps_state; rewrite state_eq; auto.
  - (* Return *) destruct m as [|r].
    + cbn in Hm. assert (Q : stopped (tstate (tasks w self)) = -1). { unfold stopped, INIT. destruct (Z.leb_spec 0 (tstate (tasks w self))); [reflexivity|lia]. }
      rewrite Q. eapply result_trans; [..|eapply CL; [exact Hb|..|exact H|reflexivity]]; [intros; apply keeps_state|repeat split|reflexivity|apply state_eq|exact Hf|repeat split; auto|apply OS].
    + destruct Hm as [Hm _]. injection H as <- <-. rewrite Hm. change (stopped (-1)) with (-2).
      eapply result_trans; [..|eapply OV; [..|reflexivity]]; [intros; apply keeps_state|repeat split|reflexivity|apply state_eq|exact Hf|repeat split; auto|apply OS].
  - (* YieldFinal *) destruct m; [|discriminate]. cbn in Hm. injection H as <- <-. assert (Q : stopped (tstate (tasks w self)) = -1). { unfold stopped, INIT. destruct (Z.leb_spec 0 (tstate (tasks w self))); [reflexivity|lia]. }
    rewrite Q. exists (set_state w self (-1)), v. split; [reflexivity|].
    split; [repeat split; auto|]. split; [apply OS|]. split; [repeat split|]. split; [|auto]. cbn [ends]. repeat split; auto; try apply keeps_state; rewrite state_eq; auto.
  - (* Finally *) assert (Q : exists r, act fuel busy self (Datatypes.S pc) (Clean r) s = Ok (s', e) /\ match r with Some n => 0 < frec (fb w) /\ entry (code self) (frec (fb w)) = Some n | None => True end).
    { destruct m as [|r]; [exists None; auto|exists r; destruct Hm; auto]. }
    clear H. destruct Q as (r & H & Hr). eapply result_trans; [..|apply IH with (m := Clean r); [exact Hb|exact H|exact Hf|..]]; [intros; apply keeps_state|repeat split|reflexivity|repeat split; auto|apply OS|].
    cbn [mode_ok]. rewrite state_eq. auto.
  - (* AwaitTask *) destruct m; [|discriminate]. injection H as <- <-. rewrite Hmem. eexists _, _. split; [reflexivity|]. split; [repeat split; auto|]. set (t0 := t (smem s)).
    split. { intros u Hu. rewrite state_neq by assumption. cbn [set_fb set_task tasks]. destruct (Nat.eqb_spec u t0) as [->|]; [cbn [tstate]|]; apply Ho; auto. }
    split; [repeat split|]. split; [|auto]. cbn [ends]. intros Hn. split; [reflexivity|]. split; [rewrite state_eq; cbn [place_ok]; auto|]. split; [reflexivity|].
    rewrite state_neq by assumption. cbn [set_fb tasks]. rewrite upd_eq. cbn [tbits tparent]. split; [reflexivity|]. split; [exact Hf|].
    intros u Hu. unfold keeps, set_state, set_task, set_fb. cbn. repeat (match goal with |- context [Nat.eqb ?a ?b] => destruct (Nat.eqb_spec a b) end; cbn); subst; try congruence; auto.
  - (* YieldTo *) destruct m; [|discriminate]. injection H as <- <-. rewrite Hmem, Hf. eexists _, _. split; [reflexivity|]. split; [repeat split; auto|]. set (t0 := t (smem s)).
    split. { intros u Hu. rewrite state_neq by assumption. cbn [set_fb set_task tasks]. destruct (Nat.eqb_spec u t0) as [->|]; [cbn [tstate]|]; apply Ho; auto. }
    split; [repeat split|]. split; [|auto]. cbn [ends]. intros Hn. split; [reflexivity|]. split; [rewrite state_eq; cbn [place_ok]; auto|]. split; [reflexivity|].
    rewrite state_neq by assumption. cbn [set_fb tasks]. rewrite upd_eq. cbn [tbits tparent]. split; [reflexivity|]. split; [reflexivity|].
    intros u Hu. unfold keeps, set_state, set_task, set_fb. cbn. repeat (match goal with |- context [Nat.eqb ?a ?b] => destruct (Nat.eqb_spec a b) end; cbn); subst; try congruence; auto.
  - (* Throw *) destruct m as [|r].
    + cbn in Hm. assert (Q : stopped (tstate (tasks w self)) = -1). { unfold stopped, INIT. destruct (Z.leb_spec 0 (tstate (tasks w self))); [reflexivity|lia]. }
      rewrite Q. eapply result_trans; [..|eapply CL; [exact Hb|..|exact H|reflexivity]]; [intros u; exact (keeps_state (set_fb w (with_err (fb w) e0)) self _ u)|repeat split|reflexivity|apply state_eq|exact Hf|repeat split; auto|].
      intros u Hu. rewrite state_neq by assumption. apply Ho, Hu.
    + destruct Hm as [Hm _]. injection H as <- <-. rewrite Hm. change (stopped (-1)) with (-2).
      eapply result_trans; [..|eapply OV; [..|reflexivity]]; [intros u; exact (keeps_state (set_fb w (with_err (fb w) e0)) self _ u)|repeat split|reflexivity|apply state_eq|exact Hf|repeat split; auto|].
      intros u Hu. rewrite state_neq by assumption. apply Ho, Hu.
  - (* Recover *) destruct m as [|[n|]]; try discriminate. destruct Hm as (Hm & P1 & P2). rewrite Hm. change (negb (-1 =? FINALLY)) with false. cbn match.
    cbn [set_fb tasks]. rewrite state_eq, P2.
    eapply result_trans; [..|apply IH with (m := Body); [exact Hb|exact H|exact Hf|..]]; [intros u; exact (keeps_state w self _ u)|repeat split|reflexivity|repeat split; auto| |].
    { intros u Hu. cbn [set_fb tasks]. rewrite state_neq by assumption. apply Ho, Hu. }
    cbn [mode_ok set_fb tasks]. rewrite state_eq. lia.
  - (* Reset *) rewrite Hmem. destruct (existsb (Nat.eqb (t (smem s))) busy) eqn:Eb; [discriminate|]. set (t0 := t (smem s)) in *. pose proof (busy_neq _ _ _ Eb Hb) as Hn.
    eapply result_trans; [..|apply IH with (m := m); [exact Hb|exact H|exact Hf|..]]; [intros; apply keeps_state|repeat split| |repeat split; auto| |].
    + intros u Hu. cbn. destruct (Nat.eqb_spec u t0) as [->|]; [|reflexivity]. exfalso. exact (busy_neq _ _ _ Eb Hu eq_refl).
    + intros u Hu. cbn [move pos]. destruct (Nat.eqb_spec u t0) as [->|]; [rewrite state_eq; reflexivity|]. rewrite state_neq by assumption. apply Ho, Hu.
    + unfold mode_ok in *. rewrite state_neq by congruence. exact Hm.
  - (* Stop *) rewrite Hmem. destruct (existsb (Nat.eqb (t (smem s))) busy) eqn:Eb; [discriminate|]. set (t0 := t (smem s)) in *. pose proof (busy_neq _ _ _ Eb Hb) as Hn.
    eapply result_trans; [..|apply IH with (m := m); [exact Hb|exact H|exact Hf|..]]; [intros; apply keeps_state|repeat split| |repeat split; auto| |].
    + intros u Hu. cbn. destruct (Nat.eqb_spec u t0) as [->|]; [|reflexivity]. exfalso. exact (busy_neq _ _ _ Eb Hu eq_refl).
    + intros u Hu. cbn [move pos]. destruct (Nat.eqb_spec u t0) as [->|]; [|rewrite state_neq by assumption; apply Ho, Hu].
      rewrite state_eq. pose proof (Ho t0 Hn) as P. unfold stopped, INIT. destruct (pos s t0); cbn [place_ok] in *; match type of P with _ /\ _ => destruct P as [P _] | _ => idtac end; destruct (Z.leb_spec 0 (tstate (tasks w t0))); unfold FINALLY, DONE; lia.
    + unfold mode_ok in *. rewrite state_neq by congruence. exact Hm.
Qed.

(** A step never puts a task into the state of being unwound. *)
Lemma act_unwound fuel : forall busy self pc m s s' e, act fuel busy self pc m s = Ok (s', e) -> forall u n, pos s' u = Unwound n -> pos s u = Unwound n.
Proof.
  induction fuel as [|fuel IH]; intros busy self pc m s s' e H u n Hu; [discriminate|]. cbn [Task_Spec.act] in H.
  destruct (nth_error (code self) pc) as [i|]; [|injection H as <- <-; exact Hu].
  assert (CL : forall s0, match find_finally (code self) with Some k => act fuel busy self k (Clean None) s0 | None => Ok (s0, End) end = Ok (s', e) -> pos s0 u = Unwound n).
  { intros s0. destruct (find_finally (code self)); [|intros [= <- <-]; exact Hu]. intros Q. eapply IH; eauto. }
  destruct i.
  - eapply IH in H; eauto.
  - eapply IH in H; eauto.
  - destruct m; [injection H as <- <-; exact Hu|discriminate].
  - destruct m; [|discriminate]. destruct (c _); [eapply IH in H; eauto|injection H as <- <-; exact Hu].
  - destruct m; [apply CL in H; exact H|injection H as <- <-; exact Hu].
  - destruct m; [injection H as <- <-; exact Hu|discriminate].
  - destruct m; eapply IH in H; eauto.
  - destruct m; [injection H as <- <-; exact Hu|discriminate].
  - destruct m; [injection H as <- <-; exact Hu|discriminate].
  - destruct m; [apply CL in H; exact H|injection H as <- <-; exact Hu].
  - destruct m as [|[]]; try discriminate. eapply IH in H; eauto.
  - cbn [smem] in H. destruct (existsb _ busy); [discriminate|]. eapply IH in H; eauto. cbn in H. destruct (Nat.eqb u _); [discriminate|exact H].
  - cbn [smem] in H. destruct (existsb _ busy); [discriminate|]. eapply IH in H; eauto. cbn in H. destruct (Nat.eqb_spec u (t (smem s))) as [->|]; [|exact H]. destruct (pos s _); discriminate.
Qed.

Lemma activate_ok fuel busy t s w s' e : In t busy -> activate code fuel busy t s = Ok (s', e) -> ftask (fb w) = Some t -> same w s ->
  (forall u, place_ok u (tstate (tasks w u)) (pos s u)) -> (forall n, pos s t = Unwound n -> 0 < frec (fb w) /\ entry (code t) (frec (fb w)) = Some n) ->
  result busy t w (call code fuel t w) s s' e /\ (forall u n, pos s' u = Unwound n -> pos s u = Unwound n).
Proof.
  intros Hb H Hf Hs Hp Hr. unfold activate in H. unfold call. pose proof (Hp t) as Pt. assert (Ho : others w s t) by (intros u _; apply Hp).
  assert (EN : forall r, tstate (tasks w t) = -1 -> match find_finally (code t) with Some k => act fuel busy t k (Clean r) s | None => Ok (s, End) end = Ok (s', e) ->
    match r with Some n => 0 < frec (fb w) /\ entry (code t) (frec (fb w)) = Some n | None => True end ->
    result busy t w (if tstate (tasks w t) =? DONE then Ok (w, CCO_DONE) else match entry (code t) (tstate (tasks w t)) with Some p => run fuel t p w | None => Ok (set_state w t DONE, CCO_DONE) end) s s' e
    /\ (forall u n, pos s' u = Unwound n -> pos s u = Unwound n)).
  { intros r St H0 Q. rewrite St. change (-1 =? DONE) with false. cbn match. change (entry (code t) (-1)) with (find_finally (code t)).
    destruct (find_finally (code t)) as [k|].
    - split; [apply (act_ok fuel busy t k (Clean r)); auto; cbn; auto|eapply act_unwound; eauto].
    - injection H0 as <- <-. split; [|auto]. exists (set_state w t DONE), CCO_DONE. split; [reflexivity|]. split; [exact Hs|]. split.
      { intros u Hu. rewrite state_neq by assumption. apply Ho, Hu. }
      split; [repeat split|]. split; [|auto]. cbn [ends]. rewrite state_eq. repeat split; auto; apply keeps_state. }
  destruct (pos s t) eqn:Ep; cbn [place_ok] in Pt.
  - rewrite Pt. change (0 =? DONE) with false. cbn match. change (entry (code t) 0) with (Some O). split; [|eapply act_unwound; eauto].
    apply (act_ok fuel busy t O Body); auto. cbn. lia.
  - destruct Pt as [P1 P2]. destruct (Z.eqb_spec (tstate (tasks w t)) DONE) as [E|_]; [unfold DONE in E; lia|]. rewrite P2. split; [|eapply act_unwound; eauto].
    apply (act_ok fuel busy t n Body); auto. cbn. lia.
  - apply (EN None); auto.
  - apply (EN (Some n)); auto.
  - injection H as <- <-. rewrite Pt. split; [|auto]. exists w, CCO_DONE. split; [reflexivity|]. split; [exact Hs|]. split; [exact Ho|]. split; [repeat split|]. split; [|auto].
    cbn [ends]. repeat split; auto.
Qed.

(** The parents of the tasks on the stack are the stack. *)
Definition top (stk : list (nat * Z)) : option nat := match stk with [] => None | (t, _) :: _ => Some t end.
Fixpoint chain (w : world) (stk : list (nat * Z)) : Prop :=
  match stk with [] => True | (t, b) :: rest => tbits (tasks w t) = b /\ tparent (tasks w t) = top rest /\ chain w rest end.
Record inv (w : world) (s : sp) (stk : list (nat * Z)) : Prop := {
  i_same : same w s;
  i_place : forall u, place_ok u (tstate (tasks w u)) (pos s u);
  i_nodup : NoDup (map fst stk);
  i_chain : chain w stk;
  i_top : ftask (fb w) = top stk;
  i_unw : forall u n, pos s u = Unwound n -> top stk = Some u /\ 0 < frec (fb w) /\ entry (code u) (frec (fb w)) = Some n }.

Lemma chain_ext w w' stk : (forall u, In u (map fst stk) -> keeps w w' u) -> chain w stk -> chain w' stk.
Proof.
  induction stk as [|[t b] rest IH]; cbn; auto. intros K (H1 & H2 & H3). destruct (K t (or_introl eq_refl)) as [K1 K2]. repeat split; try congruence. apply IH; auto.
Qed.
Lemma not_busy t (stk : list (nat * Z)) : existsb (Nat.eqb t) (map fst stk) = false -> ~ In t (map fst stk).
Proof. intros E Hi. exact (busy_neq _ _ _ E Hi eq_refl). Qed.

Lemma turn_ok fuel : forall stk n s w stk' s' v, inv w s stk -> (length stk <= n)%nat -> turn code fuel stk s = Ok (stk', s', v) ->
  exists w', resume_current code fuel n w = Ok (w', v) /\ inv w' s' stk' /\ (forall u m, pos s' u <> Unwound m).
Proof.
  induction stk as [|[t b] rest IH]; intros n s w stk' s' v I Hn H; [discriminate|]. destruct I as [Is Ip In_ Ic It Iu]. destruct n as [|n]; [cbn in Hn; lia|].
  cbn [turn] in H. cbn [resume_current]. cbn [top] in It. rewrite It. destruct Ic as (Cb & Cp & Cr).
  set (w0 := set_fb w _). destruct (activate code fuel (map fst ((t, b) :: rest)) t s) as [[s1 e]|] eqn:Ea; cbn [bind] in H; [|discriminate].
  destruct (activate_ok fuel (map fst ((t, b) :: rest)) t s w0 s1 e (or_introl eq_refl) Ea eq_refl) as ((w1 & v1 & -> & Hs1 & Ho1 & Hk & He & Hpos) & Hun).
  { destruct Is as (? & ? & ?). repeat split; auto. } { exact Ip. } { intros m Hm. destruct (Iu t m Hm) as (_ & Q). exact Q. }
  cbn [bind]. destruct Hk as (K1 & K2 & K3). change (fparent (fb w0)) with (tparent (tasks w t)) in K1. change (fbits (fb w0)) with (tbits (tasks w t)) in K2. rewrite Cp in K1. rewrite Cb in K2.
  cbn [ferr fparent fbits]. destruct Hs1 as (M1 & M2 & M3). rewrite M2, K1, K2.
  assert (ND : ~ In t (map fst rest) /\ NoDup (map fst rest)) by (cbn in In_; inversion In_; auto). destruct ND as [ND1 ND2].
  assert (NU : forall u m, pos s1 u = Unwound m -> u = t). { intros u m Hu. apply Hun in Hu. destruct (Iu u m Hu) as ([= ->] & _). reflexivity. }
  assert (PL : forall p u, place_ok t (tstate (tasks w1 t)) p -> place_ok u (tstate (tasks w1 u)) (pos (move s1 t p) u)).
  { intros p u Q. cbn. destruct (Nat.eqb_spec u t) as [->|Hu]; [exact Q|apply Ho1, Hu]. }
  assert (NW : forall p u m, (forall q, p <> Unwound q) -> pos (move s1 t p) u <> Unwound m).
  { intros p u m Q. cbn. destruct (Nat.eqb_spec u t) as [->|Hu]; [apply Q|]. intros E. apply NU in E. congruence. }
  destruct (negb (err s1 =? 0)).
  - destruct e; try discriminate. cbn [ends] in He. destruct He as (-> & E2 & E3 & E4). destruct rest as [|[p bp] rest2].
    + injection H as <- <- <-. cbn [top]. eexists. split; [reflexivity|]. split; [|intros; apply NW; discriminate].
      constructor; [repeat split; auto|intros u; apply PL; exact E2|constructor|exact Logic.I|reflexivity|intros u m Hu; exfalso; revert Hu; apply NW; discriminate].
    + cbn [top]. destruct (pos s1 p) as [|k| | |] eqn:Epp; try discriminate.
      assert (Hpt : p <> t). { intros ->. apply ND1. left. reflexivity. }
      pose proof (Ho1 p Hpt) as Pp. rewrite Epp in Pp. destruct Pp as [Pp1 Pp2].
      set (w2 := set_state _ p _). apply (IH n (move (move s1 t Over) p (Unwound k)) w2); [|cbn in *; lia|exact H].
      constructor.
      * repeat split; auto.
      * intros u. unfold w2. destruct (Nat.eq_dec u p) as [->|Hu].
        { rewrite state_eq. cbn. rewrite Nat.eqb_refl. unfold stopped, INIT. destruct (Z.leb_spec 0 (tstate (tasks w1 p))); [reflexivity|lia]. }
        rewrite state_neq by assumption. cbn [set_fb tasks]. cbn [move pos]. destruct (Nat.eqb_spec u p); [congruence|]. apply (PL Over). exact E2.
      * exact ND2.
      * apply (chain_ext w); [|exact Cr]. intros u _. destruct (E4 u) as [Q1 Q2]. unfold w2, keeps, set_state, set_task, set_fb in *. cbn in *. destruct (Nat.eqb_spec u p); subst; auto.
      * reflexivity.
      * intros u m Hu. cbn in Hu. destruct (Nat.eqb_spec u p) as [->|Hup].
        -- injection Hu as <-. split; [reflexivity|]. cbn. auto.
        -- destruct (Nat.eqb_spec u t); [discriminate|]. apply NU in Hu. congruence.
  - (* no error *)
    assert (RT : forall p, (forall q, p <> Unwound q) -> place_ok t (tstate (tasks w1 t)) p -> ftask (fb w1) = Some t -> (forall u, keeps w0 w1 u) ->
      (let stk2 := if returns v1 b then rest else (t, b) :: rest in Ok (stk2, move s1 t p, match stk2 with [] => Finished | _ => Again end)) = Ok (stk', s', v) ->
      exists w', (if Z.land v1 (Z.lnot b) =? 0 then Ok (set_fb w1 (with_task (mkf (ftask (fb w1)) (top rest) (frec (fb w1)) b v1 (err s1)) (top rest)), match top rest with None => Finished | Some _ => Again end)
        else Ok (set_fb w1 (mkf (ftask (fb w1)) (top rest) (frec (fb w1)) b v1 (err s1)), Again)) = Ok (w', v) /\ inv w' s' stk' /\ (forall u m, pos s' u <> Unwound m)).
    { intros p Pn Pp Pf Pk E. cbn zeta in E. unfold returns in E. destruct (Z.land v1 (Z.lnot b) =? 0).
      - injection E as <- <- <-. eexists. split; [f_equal; f_equal; destruct rest as [|[]]; reflexivity|]. split; [|intros; apply NW; exact Pn].
        constructor; [repeat split; auto|intros u; apply PL; exact Pp|exact ND2|apply (chain_ext w); [intros u _; apply Pk|exact Cr]|reflexivity|intros u m Hu; exfalso; revert Hu; apply NW; exact Pn].
      - injection E as <- <- <-. eexists. split; [reflexivity|]. split; [|intros; apply NW; exact Pn].
        constructor; [repeat split; auto|intros u; apply PL; exact Pp|exact In_|apply (chain_ext w); [intros u _; apply Pk|cbn; auto]|exact Pf|intros u m Hu; exfalso; revert Hu; apply NW; exact Pn]. }
    assert (NB : returns CCO_NOOP b = false -> Z.land CCO_NOOP (Z.lnot b) =? 0 = false) by auto.
    destruct e; cbn [ends] in He.
    + destruct He as (-> & E2 & E3 & E4). apply (RT (Paused n0)); auto. discriminate.
    + destruct He as (-> & E2 & E3 & E4). apply (RT Closing); auto. discriminate.
    + destruct (existsb (Nat.eqb t0) (map fst ((t, b) :: rest)) || returns CCO_NOOP b) eqn:Eb; [discriminate|]. apply orb_false_iff in Eb as [Eb1 Eb2]. apply not_busy in Eb1.
      injection H as <- <- <-. destruct He as (-> & E2 & E3 & E4 & E5 & E6); [intros ->; apply Eb1; left; reflexivity|]. rewrite (NB Eb2). eexists. split; [reflexivity|].
      split; [|intros; apply NW; discriminate]. constructor; [repeat split; auto|intros u; apply PL; exact E2|constructor; auto| |exact E3|intros u m Hu; exfalso; revert Hu; apply NW; discriminate].
      split; [exact E4|]. split; [exact E5|]. apply (chain_ext w); [|cbn; auto]. intros u Hu. apply E6. congruence.
    + destruct (existsb (Nat.eqb t0) (map fst ((t, b) :: rest)) || returns CCO_NOOP b) eqn:Eb; [discriminate|]. apply orb_false_iff in Eb as [Eb1 Eb2]. apply not_busy in Eb1.
      injection H as <- <- <-. destruct He as (-> & E2 & E3 & E4 & E5 & E6); [intros ->; apply Eb1; left; reflexivity|]. rewrite (NB Eb2). eexists. split; [reflexivity|].
      split; [|intros; apply NW; discriminate]. constructor; [repeat split; auto|intros u; apply PL; exact E2| | |exact E3|intros u m Hu; exfalso; revert Hu; apply NW; discriminate].
      * cbn [map fst] in Eb1 |- *. constructor; [intros Q; apply Eb1; right; exact Q|exact ND2].
      * change (tbits (tasks w0 t)) with (tbits (tasks w t)) in E4. change (tparent (tasks w0 t)) with (tparent (tasks w t)) in E5. cbn [chain set_fb tasks]. rewrite E4, E5. split; [exact Cb|]. split; [exact Cp|].
        apply (chain_ext w); [|exact Cr]. intros u Hu. apply E6. intros ->. apply Eb1. right. exact Hu.
    + destruct He as (-> & E2 & E3 & E4). apply (RT Over); auto. discriminate.
Qed.

Lemma turn_length fuel : forall stk s stk' s' v, turn code fuel stk s = Ok (stk', s', v) -> (length stk' <= Datatypes.S (length stk))%nat.
Proof.
  induction stk as [|[t b] rest IH]; intros s stk' s' v H; [discriminate|]. cbn [turn] in H.
  destruct (activate code fuel (map fst ((t, b) :: rest)) t s) as [[s1 e]|]; cbn [bind] in H; [|discriminate]. destruct (negb (err s1 =? 0)).
  - destruct e; try discriminate. destruct rest as [|[p bp] rest2]; [injection H as <- _ _; cbn; lia|]. destruct (pos s1 p); try discriminate. apply IH in H. cbn [length] in *. lia.
  - destruct e.
    + destruct (returns v0 b); injection H as <- _ _; cbn [length]; lia.
    + destruct (returns v0 b); injection H as <- _ _; cbn [length]; lia.
    + destruct (existsb (Nat.eqb t0) (map fst ((t, b) :: rest)) || returns CCO_NOOP b); [discriminate|]; injection H as <- _ _; cbn [length]; lia.
    + destruct (existsb (Nat.eqb t0) (map fst ((t, b) :: rest)) || returns CCO_NOOP b); [discriminate|]; injection H as <- _ _; cbn [length]; lia.
    + destruct (returns CCO_DONE b); injection H as <- _ _; cbn [length]; lia.
Qed.
Lemma turns_ok fuel n : forall k stk s w stk' s' v, inv w s stk -> (length stk + k <= n)%nat -> turns code fuel k stk s = Ok (stk', s', v) ->
  exists w', rounds code fuel n k w = Ok (w', v) /\ inv w' s' stk'.
Proof.
  induction k as [|k IH]; intros stk s w stk' s' v I Hn H; cbn [turns rounds] in *; [injection H as <- <- <-; eauto|].
  destruct (turn code fuel stk s) as [[[stk1 s1] v1]|] eqn:E; cbn [bind] in H; [|discriminate]. pose proof (turn_length _ _ _ _ _ _ E) as L.
  destruct (turn_ok fuel stk n s w stk1 s1 v1 I ltac:(lia) E) as (w1 & -> & I1 & _). cbn [bind fst snd].
  destruct v1.
  - apply (IH stk1 s1 w1); auto. lia.
  - injection H as <- <- <-. eauto.
  - injection H as <- <- <-. eauto.
Qed.
Lemma inv_start root m : inv (start root m) (begin m) [(root, 0)].
Proof.
  constructor; cbn; auto; [repeat split|constructor; [intros []|constructor]|discriminate].
Qed.

(** What an activation executes belongs to its task and starts where it is. *)
Lemma act_log fuel : forall busy self pc m s s' e, act fuel busy self pc m s = Ok (s', e) ->
  exists l, slog s' = slog s ++ l /\ Forall (fun x => fst x = self) l /\ (nth_error (code self) pc <> None -> exists l', l = (self, pc) :: l').
Proof.
  induction fuel as [|fuel IH]; intros busy self pc m s s' e H; [discriminate|]. cbn [Task_Spec.act] in H.
  destruct (nth_error (code self) pc) as [i|]; [|injection H as <- <-; exists []; rewrite app_nil_r; split; [reflexivity|split; [constructor|congruence]]].
  assert (G : (exists l, slog s' = (slog s ++ [(self, pc)]) ++ l /\ Forall (fun x => fst x = self) l) ->
    exists l, slog s' = slog s ++ l /\ Forall (fun x => fst x = self) l /\ (Some i <> None -> exists l', l = (self, pc) :: l')).
  { intros (l & El & Fl). exists ((self, pc) :: l). rewrite El, <- app_assoc. split; [reflexivity|]. split; [constructor; auto|eauto]. }
  apply G. clear G.
  assert (Z0 : slog s' = slog s ++ [(self, pc)] -> exists l, slog s' = (slog s ++ [(self, pc)]) ++ l /\ Forall (fun x => fst x = self) l) by (intros Q; exists []; rewrite app_nil_r; auto).
  assert (I0 : forall p m0 s0, slog s0 = slog s ++ [(self, pc)] -> act fuel busy self p m0 s0 = Ok (s', e) -> exists l, slog s' = (slog s ++ [(self, pc)]) ++ l /\ Forall (fun x => fst x = self) l).
  { intros p m0 s0 Q H0. apply IH in H0 as (l & El & Fl & _). exists l. rewrite El, Q. auto. }
  assert (CL : forall s0, slog s0 = slog s ++ [(self, pc)] -> match find_finally (code self) with Some k => act fuel busy self k (Clean None) s0 | None => Ok (s0, End) end = Ok (s', e) ->
    exists l, slog s' = (slog s ++ [(self, pc)]) ++ l /\ Forall (fun x => fst x = self) l).
  { intros s0 Q. destruct (find_finally (code self)); [eauto|intros [= <- <-]; auto]. }
  destruct i.
  - eapply I0 in H; eauto.
  - eapply I0 in H; eauto.
  - destruct m; [injection H as <- <-; auto|discriminate].
  - destruct m; [|discriminate]. destruct (c _); [eapply I0 in H; eauto|injection H as <- <-; auto].
  - destruct m; [apply CL in H; auto|injection H as <- <-; auto].
  - destruct m; [injection H as <- <-; auto|discriminate].
  - destruct m; eapply I0 in H; eauto.
  - destruct m; [injection H as <- <-; auto|discriminate].
  - destruct m; [injection H as <- <-; auto|discriminate].
  - destruct m; [apply CL in H; auto|injection H as <- <-; auto].
  - destruct m as [|[]]; try discriminate. eapply I0 in H; eauto.
  - cbn [smem] in H. destruct (existsb _ busy); [discriminate|]. eapply I0 in H; eauto.
  - cbn [smem] in H. destruct (existsb _ busy); [discriminate|]. eapply I0 in H; eauto.
Qed.
Lemma find_finally_nth (c : list (instr S)) k : find_finally c = Some k -> nth_error c k = Some Finally.
Proof.
  revert k. induction c as [|i c IH]; intros k H; [discriminate|]. cbn [find_finally] in H.
  destruct i; try (destruct (find_finally c) as [k'|]; [|discriminate]; injection H as <-; cbn; apply IH; reflexivity). injection H as <-. reflexivity.
Qed.
Lemma activate_log fuel busy t s s' e : activate code fuel busy t s = Ok (s', e) ->
  exists l, slog s' = slog s ++ l /\ Forall (fun x => fst x = t) l /\ (forall n k, pos s t = Unwound n -> find_finally (code t) = Some k -> exists l', l = (t, k) :: l').
Proof.
  intros H. unfold activate in H.
  assert (N : slog s' = slog s -> exists l, slog s' = slog s ++ l /\ Forall (fun x => fst x = t) l /\ l = []) by (intros Q; exists []; rewrite app_nil_r; auto).
  destruct (pos s t) eqn:Ep.
  - apply act_log in H as (l & ? & ? & _). exists l. repeat split; auto. discriminate.
  - apply act_log in H as (l & ? & ? & _). exists l. repeat split; auto. discriminate.
  - destruct (find_finally (code t)) as [k|].
    + apply act_log in H as (l & ? & ? & _). exists l. repeat split; auto. discriminate.
    + injection H as <- <-. exists []. rewrite app_nil_r. repeat split; auto; discriminate.
  - destruct (find_finally (code t)) as [k|] eqn:Ek.
    + apply act_log in H as (l & ? & ? & Q). exists l. repeat split; auto. intros _ k' _ [= <-]. apply Q. rewrite (find_finally_nth _ _ Ek). discriminate.
    + injection H as <- <-. exists []. rewrite app_nil_r. repeat split; auto; discriminate.
  - injection H as <- <-. exists []. rewrite app_nil_r. repeat split; auto; discriminate.
Qed.

Lemma turn_logs fuel : forall stk s stk' s' v, turn code fuel stk s = Ok (stk', s', v) ->
  exists run rest l, stk = run ++ rest /\ slog s' = slog s ++ l /\ logs run l /\ (forall e, v = Exit e -> rest = [] /\ e = err s') /\
    (forall t b n k tl, stk = (t, b) :: tl -> pos s t = Unwound n -> find_finally (code t) = Some k -> exists l', l = (t, k) :: l').
Proof.
  induction stk as [|[t b] rest IH]; intros s stk' s' v H; [discriminate|]. cbn [turn] in H.
  destruct (activate code fuel (map fst ((t, b) :: rest)) t s) as [[s1 e]|] eqn:Ea; cbn [bind] in H; [|discriminate].
  destruct (activate_log _ _ _ _ _ _ Ea) as (l & El & Fl & Hl).
  assert (ONE : slog s' = slog s1 -> (forall e0, v = Exit e0 -> rest = [] /\ e0 = err s') -> exists run rst l, (t, b) :: rest = run ++ rst /\ slog s' = slog s ++ l /\ logs run l /\ (forall e, v = Exit e -> rst = [] /\ e = err s') /\
    (forall t0 b0 n k tl, (t, b) :: rest = (t0, b0) :: tl -> pos s t0 = Unwound n -> find_finally (code t0) = Some k -> exists l', l = (t0, k) :: l')).
  { intros Q Qe. exists [(t, b)], rest, l. split; [reflexivity|]. split; [congruence|]. split; [constructor; exact Fl|]. split; [exact Qe|]. intros t0 b0 n k tl [= <- <- <-]. apply Hl. }
  destruct (negb (err s1 =? 0)) eqn:Er.
  - destruct e; try discriminate. destruct rest as [|[p bp] rest2].
    + injection H as <- <- <-. apply ONE; [reflexivity|]. intros e0 [= <-]. auto.
    + destruct (pos s1 p) eqn:Epp; try discriminate. destruct (IH _ _ _ _ H) as (run & rst & m & Es & Em & Lm & Xm & Um). exists ((t, b) :: run), rst, (l ++ m).
      split; [cbn; rewrite Es; reflexivity|]. split; [rewrite Em; cbn [move slog]; rewrite El, app_assoc; reflexivity|]. split.
      * destruct run as [|[p' bp'] run2]; [inversion Lm|]. cbn in Es. injection Es as <- <- ->. constructor; auto. intros k Hk. apply (Um p bp n k (run2 ++ rst)); auto. cbn. rewrite Nat.eqb_refl. reflexivity.
      * split; [exact Xm|]. intros t0 b0 n0 k tl [= <- <- _] Hu Hk. destruct (Hl n0 k Hu Hk) as [l' ->]. cbn. eauto.
  - assert (R : forall p v0, Ok (if returns v0 b then rest else (t, b) :: rest, move s1 t p, match (if returns v0 b then rest else (t, b) :: rest) with [] => Finished | _ :: _ => Again end) = Ok (stk', s', v) ->
      slog s' = slog s1 /\ (forall e0, v = Exit e0 -> rest = [] /\ e0 = err s')).
    { intros p v0 Q. injection Q as Q1 Q2 Q3. split; [rewrite <- Q2; reflexivity|]. intros e0 ->. destruct (if returns v0 b then rest else (t, b) :: rest); discriminate. }
    assert (C : forall stk0 p, Ok (stk0, move s1 t p, Again) = Ok (stk', s', v) -> slog s' = slog s1 /\ (forall e0, v = Exit e0 -> rest = [] /\ e0 = err s')).
    { intros stk0 p Q. injection Q as Q1 Q2 Q3. split; [rewrite <- Q2; reflexivity|]. intros e0 ->. discriminate. }
    destruct e.
    + apply R in H as [R1 R2]. exact (ONE R1 R2).
    + apply R in H as [R1 R2]. exact (ONE R1 R2).
    + destruct (existsb (Nat.eqb t0) (map fst ((t, b) :: rest)) || returns CCO_NOOP b); [discriminate|]. apply C in H as [R1 R2]. exact (ONE R1 R2).
    + destruct (existsb (Nat.eqb t0) (map fst ((t, b) :: rest)) || returns CCO_NOOP b); [discriminate|]. apply C in H as [R1 R2]. exact (ONE R1 R2).
    + apply R in H as [R1 R2]. exact (ONE R1 R2).
Qed.
End Proofs.
