From Verif Require Import Base Fiber_Model Fiber_Spec Fiber_Proofs.

(** * Who is alive and who is finished *)
Record Books (s : sched) : Prop := mkBooks {
  bk_q : NoDup (q s); bk_f : NoDup (fin s);
  bk_disj : forall x, In x (q s) -> ~ In x (fin s);
  bk_all : forall x, In x (q s) \/ In x (fin s) <-> (x < nm s)%nat }.

Lemma in_behinds ts : forall n q x, ok_targets ts n q ->
  (In x (behinds ts n q) <-> In x q \/ (n <= x < n + length ts)%nat).
Proof.
  induction ts as [|t ts IH]; intros n q x O; cbn in *; [intuition lia|].
  destruct O as [O1 O2]. rewrite (IH _ _ _ O2), in_behind. split; [intuition lia|].
  intros [H|H]; [tauto|]. destruct (Nat.eq_dec x n); [tauto|]. right. lia.
Qed.
Lemma behinds_nodup ts : forall n q, NoDup q -> (forall x, In x q -> (x < n)%nat) -> NoDup (behinds ts n q).
Proof.
  induction ts as [|t ts IH]; intros n q D L; cbn; auto. apply IH.
  - apply behind_nodup; auto. intros H. apply L in H. lia.
  - intros x. rewrite in_behind. intros [H|[-> _]]; [apply L in H; lia|lia].
Qed.
Lemma in_rotate q x : In x (rotate q) <-> In x q.
Proof. destruct q; cbn; [tauto|]. rewrite in_app_iff. cbn. tauto. Qed.
Lemma rotate_nodup q : NoDup q -> NoDup (rotate q).
Proof. destruct q; cbn; auto. apply nodup_rot. Qed.

Lemma books_step s b : Books s -> (q s <> [] -> ok_targets (fst b) (nm s) (q s)) -> Books (turn1 s b).
Proof.
  intros K O. unfold turn1. destruct (q s) as [|a r] eqn:Q; [exact K|]. specialize (O ltac:(discriminate)).
  destruct K as [K1 K2 K3 K4]. rewrite Q in *.
  assert (LT : forall x, In x (a :: r) -> (x < nm s)%nat). { intros x H. apply K4. auto. }
  assert (ND : NoDup (behinds (fst b) (nm s) (a :: r))) by (apply behinds_nodup; auto).
  destruct (behinds_hd (fst b) (nm s) a r) as (q' & H').
  pose proof (fun x => in_behinds (fst b) (nm s) (a :: r) x O) as IB. rewrite H' in *.
  unfold turn. rewrite H'. destruct (snd b); constructor; cbn [q nm tr fin tl rotate].
  - apply rotate_nodup. inversion ND; auto.
  - eapply Permutation.Permutation_NoDup; [apply Permutation.Permutation_cons_append|].
    constructor; auto. apply K3. left; auto.
  - intros x. rewrite in_rotate, in_app_iff. intros Hx [F|[<-|[]]].
    + assert (Y : In x (a :: q')) by (right; auto). apply IB in Y. destruct Y as [Y|Y]; [exact (K3 _ Y F)|].
      assert (x < nm s)%nat by (apply K4; auto). lia.
    + inversion ND; auto.
  - intros x. rewrite in_rotate, in_app_iff. specialize (IB x). specialize (K4 x). cbn in *.
    split.
    + intros [H|[H|[<-|[]]]].
      * destruct IB as [IB _]. destruct IB as [IB|IB]; auto; [|lia]. assert (x < nm s)%nat by (apply K4; tauto). lia.
      * assert (x < nm s)%nat by (apply K4; tauto). lia.
      * assert (a < nm s)%nat by (apply K4; tauto). lia.
    + intros L. destruct (Nat.lt_ge_cases x (nm s)) as [Y|Y].
      * apply K4 in Y. destruct Y as [Y|Y]; [|tauto]. assert (Z : a = x \/ In x q') by (apply IB; auto). tauto.
      * assert (Z : a = x \/ In x q') by (apply IB; right; lia). tauto.
  - apply (nodup_rot a q'); auto.
  - auto.
  - intros x. rewrite (in_rotate (a :: q')). intros H F. apply IB in H. destruct H as [H|H]; [exact (K3 _ H F)|].
    assert (x < nm s)%nat by (apply K4; auto). lia.
  - intros x. rewrite (in_rotate (a :: q')). rewrite IB. specialize (K4 x).
    split; [intros [[H|H]|H]; [|lia|]; assert (x < nm s)%nat by (apply K4; tauto); lia|].
    intros L. destruct (Nat.lt_ge_cases x (nm s)) as [Y|Y]; [apply K4 in Y; tauto|left; right; lia].
Qed.
Lemma turns_nil s bs : q s = [] -> turns s bs = s.
Proof. destruct bs; cbn; intros ->; reflexivity. Qed.
Lemma turns_cons s b bs : turns s (b :: bs) = if q s then s else turns (turn1 s b) bs.
Proof. cbn. destruct (q s); reflexivity. Qed.
Lemma turn1_nil s b : q s = [] -> turn1 s b = s.
Proof. unfold turn1. intros ->. reflexivity. Qed.
Lemma turns_cons' s b bs : turns s (b :: bs) = turns (turn1 s b) bs.
Proof.
  rewrite turns_cons. destruct (q s) eqn:E; auto. rewrite turn1_nil, turns_nil; auto.
Qed.
Lemma ok_acts_cons s b bs : ok_acts s (b :: bs) -> (q s <> [] -> ok_act (q s) (nm s) b) /\ ok_acts (turn1 s b) bs.
Proof.
  cbn. destruct (q s) eqn:E.
  - intros _. split; [congruence|]. rewrite turn1_nil by auto. destruct bs; cbn; rewrite E; exact I.
  - intros [H1 H2]. auto.
Qed.
Lemma books_turns bs : forall s, Books s -> ok_acts s bs -> Books (turns s bs).
Proof.
  induction bs as [|b bs IH]; intros s K O.
  - cbn. destruct (q s); auto.
  - rewrite turns_cons'. apply ok_acts_cons in O. destruct O as [O1 O2]. apply IH; auto. apply books_step; auto.
    intros H. apply O1; auto.
Qed.
Lemma books_start : Books (start O).
Proof.
  constructor; cbn.
  - constructor; [intros []|constructor].
  - constructor.
  - auto.
  - intros x. split; [intros [[<-|[]]|[]]; lia|]. intros. left. left. lia.
Qed.

(** * Round robin *)
Lemma tr_turn1 s b : exists e, tr (turn1 s b) = tr s ++ e.
Proof. unfold turn1. destruct (q s); [exists []; rewrite app_nil_r; auto|cbn; eauto]. Qed.
Lemma tr_turns bs : forall s, exists e, tr (turns s bs) = tr s ++ e.
Proof.
  induction bs as [|b bs IH]; intros s.
  - exists []. rewrite app_nil_r. cbn. destruct (q s); reflexivity.
  - rewrite turns_cons'. destruct (IH (turn1 s b)) as (e & ->). destruct (tr_turn1 s b) as (e' & ->).
    exists (e' ++ e). rewrite app_assoc. reflexivity.
Qed.
(** Spawning keeps the order around [a]. *)
Lemma behind_around t n l a r : t <> n -> NoDup (l ++ a :: r) -> (forall x, In x (l ++ a :: r) -> x <> n) ->
  exists l' r', behind t n (l ++ a :: r) = l' ++ a :: r' /\ incl l l' /\ incl r r'.
Proof.
  intros N D F. destruct (in_dec Nat.eq_dec t (l ++ a :: r)) as [I|I].
  2:{ rewrite behind_absent by auto. exists l, r. repeat split; auto using incl_refl. }
  induction l as [|y l IH]; cbn in *.
  - destruct (Nat.eqb_spec a t).
    + exists [], (n :: r). repeat split; auto using incl_refl, incl_tl.
    + exists [], (behind t n r). repeat split; auto using incl_refl. intros x H. apply in_behind; auto.
  - destruct (Nat.eqb_spec y t) as [->|E].
    + exists (t :: n :: l), r. repeat split; auto using incl_refl. intros x [H|H]; [left; auto|right; right; auto].
    + inversion D; subst. destruct IH as (l' & r' & -> & I1 & I2); auto; [destruct I; [congruence|auto]|].
      exists (y :: l'), r'. repeat split; auto. intros x [H|H]; [left; auto|right; auto].
Qed.
Lemma behinds_around ts : forall n l a r, ok_targets ts n (l ++ a :: r) -> NoDup (l ++ a :: r) -> (forall x, In x (l ++ a :: r) -> (x < n)%nat) ->
  exists l' r', behinds ts n (l ++ a :: r) = l' ++ a :: r' /\ incl l l' /\ incl r r'.
Proof.
  induction ts as [|t ts IH]; intros n l a r O D L; cbn in *.
  - exists l, r. repeat split; auto using incl_refl.
  - destruct O as [O1 O2].
    assert (D1 : NoDup (behind t n (l ++ a :: r))) by (apply behind_nodup; auto; intros H; apply L in H; lia).
    assert (L1 : forall x, In x (behind t n (l ++ a :: r)) -> (x < S n)%nat).
    { intros x. rewrite in_behind. intros [H|[-> _]]; [apply L in H; lia|lia]. }
    destruct (behind_around t n l a r) as (l1 & r1 & E & I1 & I2); auto.
    + apply L in O1. lia.
    + intros x H. apply L in H. lia.
    + rewrite E in *. destruct (IH (S n) l1 a r1) as (l2 & r2 & E2 & J1 & J2); auto.
      exists l2, r2. repeat split; auto; eapply incl_tran; eauto.
Qed.

Lemma round bs : forall s rem passed a ex olds, Books s -> ok_acts s bs -> Forall (fun b => snd b = false) bs ->
  q s = rem ++ a :: passed -> incl ex passed -> NoDup ex -> incl olds (ex ++ rem) ->
  forall ex1 ex2, tr (turns s bs) = tr s ++ ex1 ++ a :: ex2 -> ~ In a ex1 -> NoDup (ex ++ ex1) /\ incl olds (ex ++ ex1).
Proof.
  induction bs as [|b bs IH]; intros s rem passed a ex olds K O ND Q IE DE IO ex1 ex2 T NA.
  - exfalso. cbn in T. assert (tr s = tr s ++ ex1 ++ a :: ex2) as E by (destruct (q s); exact T).
    apply (f_equal (@length _)) in E. rewrite !app_length in E. cbn in E. lia.
  - rewrite turns_cons' in T. apply ok_acts_cons in O. destruct O as [O1 O2]. inversion ND as [|? ? NB ND']; subst.
    assert (NE : q s <> []) by (rewrite Q; destruct rem; discriminate). specialize (O1 NE).
    pose proof (books_step s b K (fun _ => proj1 O1)) as K'.
    destruct rem as [|r rem].
    + cbn in Q. destruct (tr_turns bs (turn1 s b)) as (e & He). rewrite He in T.
      unfold turn1 in T. rewrite Q in T. cbn in T. rewrite <- app_assoc in T. apply app_inv_head in T. cbn in T.
      destruct ex1 as [|y ex1]; [rewrite app_nil_r in *; auto|]. cbn in T. injection T as <- _. exfalso. apply NA. left; auto.
    + assert (Hq : exists rem' passed', q (turn1 s b) = rem' ++ a :: passed' ++ [r] /\ incl rem rem' /\ incl passed passed').
      { unfold turn1. rewrite Q. cbn [q]. rewrite <- Q. unfold turn. rewrite NB.
        destruct O1 as [O1 _]. destruct K as [K1 K2 K3 K4].
        destruct (behinds_around (fst b) (nm s) (r :: rem) a passed) as (l' & r' & E & I1 & I2).
        - rewrite <- Q. cbn [app]. exact O1.
        - rewrite <- Q; auto.
        - intros x H. apply K4. left. rewrite Q. exact H.
        - rewrite Q. rewrite E.
          assert (HH : exists l2, l' = r :: l2).
          { destruct (behinds_hd (fst b) (nm s) r (rem ++ a :: passed)) as (q' & Eh). cbn [app] in E. rewrite Eh in E.
            destruct l' as [|y l2]; [exfalso; exact (in_nil (I1 r (or_introl eq_refl)))|]. cbn in E. injection E as <- _. eauto. }
          destruct HH as (l2 & ->). cbn. exists l2, r'. rewrite <- app_assoc. repeat split; auto.
          intros x H. destruct (I1 x (or_intror H)) as [->|]; auto.
          exfalso. rewrite Q in K1. inversion K1; subst. apply H2, in_or_app. auto. }
      destruct Hq as (rem' & passed' & Hq & I1 & I2).
      assert (Tr : tr (turn1 s b) = tr s ++ [r]) by (unfold turn1; rewrite Q; reflexivity).
      destruct (tr_turns bs (turn1 s b)) as (e & He). pose proof T as T'. rewrite He, Tr, <- app_assoc in T'.
      apply app_inv_head in T'. cbn in T'.
      destruct ex1 as [|y ex1].
      { cbn in T'. injection T' as -> _. exfalso. destruct K as [K1 _ _ _]. rewrite Q in K1. inversion K1; subst.
        apply H1, in_or_app. right; left; auto. }
      cbn in T'. injection T' as <- T'.
      assert (NR : ~ In r ex). { intros H. apply IE in H. destruct K as [K1 _ _ _]. rewrite Q in K1. inversion K1; subst. apply H2, in_or_app. right; right; auto. }
      destruct (IH (turn1 s b) rem' (passed' ++ [r]) a (ex ++ [r]) olds K' O2 ND' Hq) with (ex1 := ex1) (ex2 := ex2) as [R1 R2].
      * apply incl_app; [eapply incl_tran; [exact IE|]; eapply incl_tran; [exact I2|]; apply incl_appl, incl_refl|apply incl_appr, incl_refl].
      * eapply Permutation.Permutation_NoDup; [apply Permutation.Permutation_cons_append|]. constructor; auto.
      * intros x Hx. apply IO in Hx. rewrite !in_app_iff in *. cbn in Hx. cbn. intuition.
      * rewrite T, Tr, <- app_assoc. reflexivity.
      * intros H. apply NA. right; auto.
      * rewrite <- app_assoc in R1, R2. auto.
Qed.

(** * Nobody waits forever when nobody is spawned *)
Lemma turn_nospawn s d a r : q s = a :: r -> turn1 s ([], d) = mks (if d then rotate r else r ++ [a]) (nm s) (tr s ++ [a]) (if d then fin s ++ [a] else fin s).
Proof. intros Q. unfold turn1. rewrite Q. unfold turn. cbn. rewrite Nat.add_0_r. reflexivity. Qed.

Fixpoint tri (n : nat) : nat := match n with O => O | S k => (n + tri k)%nat end.
Lemma waits : forall n bs s l x r, q s = l ++ x :: r -> (length (q s) <= n)%nat -> Forall (fun b => fst b = []) bs ->
  (length l + 1 + tri (n - 1) <= length bs)%nat -> exists e, tr (turns s bs) = tr s ++ e /\ In x e.
Proof.
  induction n as [|n IHn]; intros bs s l x r Q L F B.
  { rewrite Q, app_length in L. cbn in L. lia. }
  revert bs s r Q L F B. induction l as [|a l IHl]; intros bs s r Q L F B.
  - destruct bs as [|b bs]; [cbn in B; lia|]. rewrite turns_cons'. destruct (tr_turns bs (turn1 s b)) as (e & He).
    rewrite He. unfold turn1. rewrite Q. cbn. rewrite <- app_assoc. eexists. split; [reflexivity|]. left; auto.
  - destruct bs as [|b bs]; [cbn in B; lia|]. rewrite turns_cons'. inversion F as [|? ? F1 F2]; subst.
    destruct b as [ts d]. cbn in F1. subst ts. cbn [app] in Q. rewrite (turn_nospawn _ _ _ _ Q).
    set (s1 := mks (if d then rotate (l ++ x :: r) else (l ++ x :: r) ++ [a]) (nm s) (tr s ++ [a]) (if d then fin s ++ [a] else fin s)).
    assert (G : exists e, tr (turns s1 bs) = tr s1 ++ e /\ In x e).
    2:{ destruct G as (e & -> & I). exists (a :: e). cbn. rewrite <- app_assoc. split; auto. }
    rewrite Q in L. cbn in L. rewrite app_length in L. cbn in L, B.
    destruct d.
    + destruct l as [|c l]; cbn [app rotate] in s1.
      * (* x is skipped: to the end of a shorter queue *)
        apply (IHn bs s1 r x []); auto.
        -- cbn. rewrite app_length. cbn in *. lia.
        -- cbn in *. destruct n; [lia|]. cbn in *. rewrite Nat.sub_0_r in *. lia.
      * apply (IHn bs s1 l x (r ++ [c])); auto.
        -- cbn. rewrite <- app_assoc. reflexivity.
        -- cbn. rewrite !app_length. cbn in *. lia.
        -- cbn in *. destruct n; [lia|]. cbn in *. rewrite Nat.sub_0_r in *. lia.
    + apply (IHl bs s1 (r ++ [a])); auto.
      * cbn. rewrite <- app_assoc. reflexivity.
      * cbn. rewrite !app_length. cbn in *. lia.
      * cbn in *. lia.
Qed.
Lemma waits' s x bs : In x (q s) -> Forall (fun b => fst b = []) bs -> (tri (length (q s)) <= length bs)%nat ->
  exists e, tr (turns s bs) = tr s ++ e /\ In x e.
Proof.
  intros I F B. destruct (in_split _ _ I) as (l & r & Q). apply (waits (length (q s)) bs s l x r); auto.
  assert (length l + 1 <= length (q s))%nat by (rewrite Q, app_length; cbn; lia).
  destruct (length (q s)) as [|n]; [lia|]. cbn in *. rewrite Nat.sub_0_r. lia.
Qed.
