(** The spans of a class: sorting and merging keeps what they denote. *)
From Coq Require Import Permutation Sorted.
From Verif Require Import Base Utf8_Tab Utf8_Model Regex_Model Regex_Spec Recomp_Model Recomp_Spec.

Notation span := (Z * Z)%type.
Definition starts_le (p : span) (l : list span) : Prop := Forall (fun q => fst p <= fst q) l.
Lemma bubble_ok : forall rest p dn p' l', bubble p rest dn = (p', l') -> starts_le p dn ->
  Permutation (p :: dn ++ rest) (p' :: l') /\ starts_le p' l'.
Proof.
  induction rest as [|q rest IH]; intros p dn p' l' H HD; cbn [bubble] in H; [injection H as <- <-; rewrite app_nil_r; split; [reflexivity|exact HD]|].
  destruct (Z.ltb_spec (fst q) (fst p)) as [Hlt|Hge].
  - apply IH in H; [|apply Forall_app; split; [eapply Forall_impl; [|exact HD]; cbn; intros x Hx; lia|repeat constructor; lia]]. destruct H as [H1 H2]. split; [|exact H2].
    etransitivity; [|exact H1]. rewrite <- app_assoc. cbn [app]. transitivity (p :: q :: dn ++ rest); [constructor; symmetry; apply Permutation_middle|]. transitivity (q :: p :: dn ++ rest); [constructor|]. constructor. apply Permutation_middle.
  - apply IH in H; [|apply Forall_app; split; [exact HD|repeat constructor; lia]]. destruct H as [H1 H2]. split; [|exact H2]. etransitivity; [|exact H1]. now rewrite <- app_assoc.
Qed.
Lemma xsort_ok : forall n l, (length l <= n)%nat -> Permutation l (xsort n l) /\ StronglySorted (fun p q => fst p <= fst q) (xsort n l).
Proof.
  induction n as [|n IH]; intros l Hn; [destruct l; [|cbn in Hn; lia]; cbn; split; constructor|]. destruct l as [|p rest]; [cbn; split; constructor|]. cbn [xsort length] in *.
  destruct (bubble p rest []) as [p' l'] eqn:E. apply bubble_ok in E; [|constructor]. cbn [app] in E. destruct E as [E1 E2].
  assert (HL : (length l' <= n)%nat) by (apply Permutation_length in E1; cbn in E1; lia). destruct (IH l' HL) as [I1 I2]. split; [etransitivity; [exact E1|]; now constructor|].
  constructor; [exact I2|]. eapply Permutation_Forall; [exact I1|exact E2].
Qed.
(** The union of the spans. *)
Definition cover (sp : list span) (r : Z) : Prop := exists a b, In (a, b) sp /\ a <= r <= b.
Lemma cover_cons p l r : cover (p :: l) r <-> fst p <= r <= snd p \/ cover l r.
Proof.
  split.
  - intros (a & b & [->|H] & Hr); [left; exact Hr|right; exists a, b; auto].
  - intros [H|(a & b & H & Hr)]; [exists (fst p), (snd p); split; [left; now destruct p|exact H]|exists a, b; split; [now right|exact Hr]].
Qed.
Lemma merge_cover r : forall l cur, StronglySorted (fun p q => fst p <= fst q) (cur :: l) -> cover (merge cur l) r <-> cover (cur :: l) r.
Proof.
  induction l as [|p l IH]; intros cur H; cbn [merge]; [reflexivity|]. inversion H as [|? ? S1 F1]; subst. inversion F1 as [|? ? F2 F3]; subst. inversion S1 as [|? ? S2 F4]; subst.
  destruct (Z.leb_spec (fst p) (snd cur)).
  - rewrite IH by (constructor; [exact S2|exact F3]). rewrite !cover_cons. cbn [fst snd]. split; [intros [X|X]|intros [X|[X|X]]]; try tauto; lia.
  - rewrite cover_cons, (IH p S1), (cover_cons cur). reflexivity.
Qed.
Lemma merge_single orig a : forall l cur, StronglySorted (fun p q => fst p <= fst q) (cur :: l) -> (forall x, In (x, x) l -> In (x, x) orig) -> (fst cur = snd cur -> In cur orig) ->
  In (a, a) (merge cur l) -> In (a, a) orig.
Proof.
  induction l as [|p l IH]; intros cur H HO HC HI; cbn [merge] in HI; [destruct HI as [->|[]]; now apply HC|]. inversion H as [|? ? S1 F1]; subst. inversion F1 as [|? ? F2 F3]; subst. inversion S1 as [|? ? S2 F4]; subst.
  destruct (Z.leb_spec (fst p) (snd cur)).
  - apply IH in HI; [exact HI|constructor; [exact S2|exact F3]|intros x Hx; apply HO; now right|]. cbn [fst snd]. intros E. assert (E2 : snd cur = fst cur) by lia. assert (E3 : Z.max (snd cur) (snd p) = snd cur) by lia. rewrite E3. rewrite <- surjective_pairing. apply HC. congruence.
  - destruct HI as [->|HI]; [now apply HC|]. apply (IH p); auto; [intros x Hx; apply HO; now right|]. intros E. destruct p as [x y]. cbn in E. subst y. apply HO. now left.
Qed.
Definition alone (a : Z) (sp : list span) : Prop := forall x y, In (x, y) sp -> x <= a <= y -> x = a /\ y = a.
Lemma alone_cons a p l : alone a (p :: l) <-> (fst p <= a <= snd p -> p = (a, a)) /\ alone a l.
Proof.
  split.
  - intros H. split; [intros Hp; destruct p as [x y]; destruct (H x y (or_introl eq_refl) Hp) as [-> ->]; reflexivity|intros x y HI; apply H; now right].
  - intros [H1 H2] x y [->|HI] Hr; [specialize (H1 Hr); injection H1; auto|now apply H2].
Qed.
Lemma merge_alone a : forall l cur, StronglySorted (fun p q => fst p <= fst q) (cur :: l) -> alone a (cur :: l) -> alone a (merge cur l).
Proof.
  induction l as [|p l IH]; intros cur H HA; cbn [merge]; [exact HA|]. inversion H as [|? ? S1 F1]; subst. inversion F1 as [|? ? F2 F3]; subst. inversion S1 as [|? ? S2 F4]; subst.
  apply alone_cons in HA as [A1 HA]. pose proof HA as HA'. apply alone_cons in HA as [A2 HA]. destruct (Z.leb_spec (fst p) (snd cur)).
  - apply IH; [constructor; [exact S2|exact F3]|]. apply alone_cons. split; [|exact HA]. cbn [fst snd]. intros Hr. destruct cur as [c0 c1]. destruct p as [p0 p1]. cbn [fst snd] in *.
    destruct (Z_le_gt_dec a c1) as [L|G].
    + injection (A1 ltac:(lia)) as -> ->. destruct (Z_le_gt_dec a p1) as [L1|G1]; [injection (A2 ltac:(lia)) as -> ->|]; f_equal; lia.
    + injection (A2 ltac:(lia)) as -> ->. lia.
  - apply alone_cons. split; [exact A1|]. apply IH; assumption.
Qed.
(** * make_spans *)
Lemma make_cover sp r : cover (make_spans sp) r <-> cover sp r.
Proof.
  unfold make_spans. destruct (xsort_ok (length sp) sp (le_n _)) as [HP HS]. destruct (xsort (length sp) sp) as [|c l] eqn:E.
  - apply Permutation_sym, Permutation_nil in HP. subst sp. reflexivity.
  - rewrite merge_cover by exact HS. split; intros (a & b & HI & Hr); exists a, b; (split; [|exact Hr]); eapply Permutation_in; try eassumption; now apply Permutation_sym.
Qed.
Lemma make_single sp a : In (a, a) (make_spans sp) -> In (a, a) sp.
Proof.
  unfold make_spans. destruct (xsort_ok (length sp) sp (le_n _)) as [HP HS]. destruct (xsort (length sp) sp) as [|c l] eqn:E; [intros []|]. intros HI. apply Permutation_sym in HP. eapply Permutation_in; [exact HP|].
  apply (merge_single (c :: l) a l c HS); [intros x Hx; now right|intros _; now left|exact HI].
Qed.
Lemma make_alone sp a : alone a sp -> In (a, a) sp -> In (a, a) (make_spans sp).
Proof.
  intros HA HI. assert (HC : cover (make_spans sp) a) by (apply make_cover; exists a, a; split; [exact HI|lia]). revert HC. unfold make_spans. destruct (xsort_ok (length sp) sp (le_n _)) as [HP HS]. destruct (xsort (length sp) sp) as [|c l] eqn:E.
  - intros (x & y & [] & _).
  - intros (x & y & HX & Hr). assert (A : alone a (c :: l)). { intros x0 y0 H0. apply HA. eapply Permutation_in; [apply Permutation_sym; exact HP|exact H0]. }
    apply merge_alone in A; [|exact HS]. destruct (A x y HX Hr) as [-> ->]. exact HX.
Qed.
Theorem make_spans_same rm sp r : (forall a, In (a, a) sp -> (forall x, rm a x = Ok true -> x = a) \/ alone a sp) ->
  in_spans rm (make_spans sp) r <-> in_spans rm sp r.
Proof.
  intros HO. split; intros (a & b & HI & [Hr|[-> Hr]]).
  - destruct (proj1 (make_cover sp r)) as (x & y & H1 & H2); [exists a, b; auto|]. exists x, y. auto.
  - apply make_single in HI. exists b, b. auto.
  - destruct (proj2 (make_cover sp r)) as (x & y & H1 & H2); [exists a, b; auto|]. exists x, y. auto.
  - destruct (HO b HI) as [Hx|HA]; [|exists b, b; split; [now apply make_alone|auto]]. rewrite (Hx r Hr). destruct (proj2 (make_cover sp b)) as (x & y & H1 & H2); [exists b, b; split; [exact HI|lia]|]. exists x, y. auto.
Qed.
(** The result is sorted and its spans are disjoint, unless a range was written backwards. *)
Lemma merge_disjoint : forall l cur, StronglySorted (fun p q => fst p <= fst q) (cur :: l) -> Sorted (fun p q => snd p < fst q) (merge cur l) /\ exists b t, merge cur l = (fst cur, b) :: t /\ snd cur <= b.
Proof.
  induction l as [|p l IH]; intros cur H; cbn [merge]; [split; [repeat constructor|exists (snd cur), []; split; [now destruct cur|lia]]|]. inversion H as [|? ? S1 F1]; subst. inversion F1 as [|? ? F2 F3]; subst. inversion S1 as [|? ? S2 F4]; subst.
  destruct (Z.leb_spec (fst p) (snd cur)).
  - destruct (IH (fst cur, Z.max (snd cur) (snd p)) ltac:(constructor; [exact S2|exact F3])) as [I1 (b & t & I2 & I3)]. split; [exact I1|]. exists b, t. split; [exact I2|]. cbn [snd] in I3. lia.
  - destruct (IH p S1) as [I1 (b & t & I2 & I3)]. split; [constructor; [exact I1|rewrite I2; constructor; cbn [fst]; lia]|]. exists (snd cur), (merge p l). split; [now destruct cur|lia].
Qed.
Lemma make_disjoint sp : Sorted (fun p q => snd p < fst q) (make_spans sp).
Proof. unfold make_spans. destruct (xsort_ok (length sp) sp (le_n _)) as [_ HS]. destruct (xsort (length sp) sp) as [|c l]; [constructor|]. now apply merge_disjoint. Qed.
Lemma make_length sp : (length (make_spans sp) <= length sp)%nat.
Proof.
  unfold make_spans. destruct (xsort_ok (length sp) sp (le_n _)) as [HP _]. apply Permutation_length in HP. destruct (xsort (length sp) sp) as [|c l]; [cbn; lia|].
  assert (X : forall l c, (length (merge c l) <= S (length l))%nat). { clear. induction l as [|p l IH]; intros c; cbn [merge]; [cbn; lia|]. destruct (fst p <=? snd c); [specialize (IH (fst c, Z.max (snd c) (snd p)))|specialize (IH p)]; cbn [length]; lia. } specialize (X l c). cbn [length] in HP. lia.
Qed.
