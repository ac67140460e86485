(** The grammar has one reading of a token list, and the compiler finds it. *)
From Verif Require Import Base Utf8_Tab Utf8_Model Utf8_Spec Regex_Model Regex_Spec Recomp_Model Recomp_Spec Recomp_Proofs Recomp_Proofs2 Recomp_Proofs3 Recomp_Proofs4 Recomp_Proofs5 Recomp_Proofs6 Recomp_Proofs7 Recomp_Proofs8.

Scheme p_alt_mut := Induction for p_alt Sort Prop with p_cat_mut := Induction for p_cat Sort Prop with p_post_mut := Induction for p_post Sort Prop.
Combined Scheme p_mut from p_alt_mut, p_cat_mut, p_post_mut.

(** * Unambiguous *)
Fixpoint dep (ts : list token) : Z :=
  match ts with [] => 0 | t :: ts => (match t with KAtor ALbra => 1 | KRbra => -1 | _ => 0 end) + dep ts end.
Lemma dep_app a b : dep (a ++ b) = dep a + dep b.
Proof. induction a as [|t a IH]; cbn [app dep]; [lia|]. rewrite IH. lia. Qed.
Definition bal (ts : list token) : Prop := (forall a b, ts = a ++ b -> 0 <= dep a) /\ dep ts = 0.
Definition is_posttok (t : token) : Prop := match t with KAtor a => is_post a | _ => False end.
(** No | outside brackets. *)
Definition noor (ts : list token) : Prop := forall a b, ts = a ++ KAtor AOr :: b -> 0 < dep a.
Definition starts (ts : list token) : Prop := exists t r, ts = t :: r /\ ~ is_posttok t.
(** Outside brackets and behind the first token come only closures. *)
Definition onepost (ts : list token) : Prop := forall a b, ts = a ++ b -> a <> [] -> dep a = 0 -> Forall is_posttok b.
Lemma app_cases {A} (a b c d : list A) : a ++ b = c ++ d -> (exists m, c = a ++ m /\ b = m ++ d) \/ (exists m, a = c ++ m /\ d = m ++ b).
Proof.
  revert c. induction a as [|x a IH]; intros c H; cbn in H; [left; exists c; auto|]. destruct c as [|y c]; cbn in H; [right; exists (x :: a); auto|].
  injection H as -> H. destruct (IH _ H) as [(m & -> & ->)|(m & -> & ->)]; [left|right]; exists m; auto.
Qed.
Lemma app_in {A} (a b c : list A) x d : a ++ b = c ++ x :: d -> (exists m, a = c ++ x :: m /\ d = m ++ b) \/ (exists m, c = a ++ m /\ b = m ++ x :: d).
Proof.
  intros H. destruct (app_cases _ _ _ _ H) as [(m & -> & ->)|(m & -> & E)]; [right; eauto|]. destruct m as [|y m]; cbn in E.
  - right. exists []. rewrite !app_nil_r. split; [reflexivity|]. cbn. congruence.
  - injection E as <- ->. left. eauto.
Qed.
Lemma bal_app a b : bal a -> bal b -> bal (a ++ b).
Proof.
  intros [A1 A2] [B1 B2]. split; [|rewrite dep_app; lia]. intros x y H. destruct (app_cases _ _ _ _ H) as [(m & -> & E)|(m & E & _)]; [|eauto].
  rewrite dep_app. specialize (B1 _ _ E). lia.
Qed.
Lemma bal_one t : (t <> KAtor ALbra) -> t <> KRbra -> bal [t].
Proof.
  intros H1 H2. assert (D : dep [t] = 0) by (destruct t as [| |a|]; try destruct a; try reflexivity; congruence). split; [|exact D].
  intros [|x a] b H; [cbn; lia|]. injection H as <- H. symmetry in H. apply app_eq_nil in H. destruct H as [-> _]. lia.
Qed.
Lemma bal_grp ts : bal ts -> bal (KAtor ALbra :: ts ++ [KRbra]).
Proof.
  intros [A1 A2]. split; [|cbn [dep]; rewrite dep_app; cbn [dep]; lia]. intros [|x a] b H; [cbn; lia|]. injection H as <- H. cbn [dep].
  destruct (app_cases _ _ _ _ H) as [(m & -> & E)|(m & E & _)]; [|specialize (A1 _ _ E); lia]. rewrite dep_app, A2. destruct m as [|y m]; [cbn; lia|]. injection E as <- E. symmetry in E. apply app_eq_nil in E. destruct E as [-> _]. cbn. lia.
Qed.
Lemma noor_app a b : bal a -> noor a -> noor b -> noor (a ++ b).
Proof.
  intros [_ A2] HA HB x y H. destruct (app_in _ _ _ _ _ H) as [(m & E & _)|(m & -> & E)]; [eauto|]. specialize (HB _ _ E). rewrite dep_app. lia.
Qed.
Lemma noor_one t : t <> KAtor AOr -> noor [t].
Proof. intros Ht [|x a] b H; [injection H as H _; congruence|]. injection H as _ H. destruct a; discriminate H. Qed.
Lemma noor_grp ts : bal ts -> noor (KAtor ALbra :: ts ++ [KRbra]).
Proof.
  intros HB [|x a] b H; [discriminate H|]. injection H as <- H. cbn [dep]. destruct HB as [B1 B2]. destruct (app_in _ _ _ _ _ H) as [(m & E & _)|(m & -> & E)].
  - specialize (B1 _ _ E). lia.
  - destruct m as [|y m]; [discriminate E|]. injection E as _ E. destruct m; discriminate E.
Qed.
Lemma starts_app a b : starts a -> starts (a ++ b).
Proof. intros (t & r & -> & H). exists t, (r ++ b). auto. Qed.
Lemma starts_ne a : starts a -> a <> []. Proof. intros (t & r & -> & _). discriminate. Qed.
Lemma onepost_snoc ts a : starts ts -> bal ts -> onepost ts -> is_post a -> onepost (ts ++ [KAtor a]).
Proof.
  intros HS HB HO Ha x y H Hx Hd. destruct (app_cases _ _ _ _ H) as [(m & -> & E)|(m & E & ->)].
  - destruct m as [|z m]; [cbn in E; subst y; repeat constructor; exact Ha|]. injection E as _ E. symmetry in E. apply app_eq_nil in E. destruct E as [_ ->]. constructor.
  - apply Forall_app. split; [eapply HO; eassumption|]. repeat constructor. exact Ha.
Qed.
Lemma p_shape :
  (forall k ts e k', p_alt k ts e k' -> bal ts /\ starts ts) /\
  (forall k ts e k', p_cat k ts e k' -> bal ts /\ starts ts /\ noor ts) /\
  (forall k ts e k', p_post k ts e k' -> bal ts /\ starts ts /\ noor ts /\ onepost ts).
Proof.
  apply p_mut; intros.
  - tauto.
  - destruct H as [B1 S1], H0 as (B2 & S2 & N2). split; [|now apply starts_app]. apply bal_app; [exact B1|]. change (KAtor AOr :: ts2) with ([KAtor AOr] ++ ts2). apply bal_app; [|exact B2]. apply bal_one; discriminate.
  - tauto.
  - destruct H as (B1 & S1 & N1), H0 as (B2 & S2 & N2 & O2). split; [now apply bal_app|]. split; [now apply starts_app|]. now apply noor_app.
  - split; [apply bal_one; discriminate|]. split; [eexists _, _; split; [reflexivity|cbn; tauto]|]. split; [apply noor_one; discriminate|].
    intros [|x b] c H Hb _; [congruence|]. injection H as _ H. symmetry in H. apply app_eq_nil in H. destruct H as [_ ->]. constructor.
  - destruct H as [B1 S1]. split; [now apply bal_grp|]. split; [eexists _, _; split; [reflexivity|cbn; tauto]|]. split; [now apply noor_grp|].
    intros [|x b] c H Hb Hd; [congruence|]. injection H as <- H. cbn [dep] in Hd. destruct B1 as [B1 B2]. destruct (app_cases _ _ _ _ H) as [(m & -> & E)|(m & E & _)]; [|specialize (B1 _ _ E); lia].
    destruct m as [|y m]; [rewrite app_nil_r in Hd; lia|]. injection E as _ E. symmetry in E. apply app_eq_nil in E. destruct E as [_ ->]. constructor.
  - destruct H as (B & S & N & O). split; [apply bal_app; [exact B|apply bal_one; discriminate]|]. split; [now apply starts_app|]. split; [apply noor_app; auto; apply noor_one; discriminate|]. apply onepost_snoc; cbn; auto.
  - destruct H as (B & S & N & O). split; [apply bal_app; [exact B|apply bal_one; discriminate]|]. split; [now apply starts_app|]. split; [apply noor_app; auto; apply noor_one; discriminate|]. apply onepost_snoc; cbn; auto.
  - destruct H as (B & S & N & O). split; [apply bal_app; [exact B|apply bal_one; discriminate]|]. split; [now apply starts_app|]. split; [apply noor_app; auto; apply noor_one; discriminate|]. apply onepost_snoc; cbn; auto.
Qed.
Definition sh_alt k ts e k' H := proj1 p_shape k ts e k' H.
Definition sh_cat k ts e k' H := proj1 (proj2 p_shape) k ts e k' H.
Definition sh_post k ts e k' H := proj2 (proj2 p_shape) k ts e k' H.
(** A concatenation splits in one way only. *)
Lemma cat_split t1 t2 u1 u2 : t1 ++ t2 = u1 ++ u2 -> bal t1 -> bal u1 -> t1 <> [] -> u1 <> [] -> onepost t2 -> onepost u2 -> starts t2 -> starts u2 -> t1 = u1 /\ t2 = u2.
Proof.
  intros E B1 B2 N1 N2 O1 O2 S1 S2.
  assert (X : forall x z m, onepost (m ++ z) -> bal x -> bal (x ++ m) -> starts z -> m = []).
  { intros x z m O [_ D1] [_ D2] (t & r & -> & Hn). destruct m as [|y m]; [reflexivity|]. exfalso. rewrite dep_app in D2. specialize (O (y :: m) (t :: r) eq_refl ltac:(discriminate) ltac:(lia)). inversion O; subst. contradiction. }
  destruct (app_cases _ _ _ _ E) as [(m & -> & ->)|(m & -> & ->)].
  - rewrite (X t1 u2 m); auto. rewrite app_nil_r. auto.
  - rewrite (X u1 t2 m); auto. rewrite app_nil_r. auto.
Qed.
Lemma p_unique n :
  (forall ts, (length ts < n)%nat -> forall k e1 k1 e2 k2, p_alt k ts e1 k1 -> p_alt k ts e2 k2 -> e1 = e2 /\ k1 = k2) /\
  (forall ts, (length ts < n)%nat -> forall k e1 k1 e2 k2, p_cat k ts e1 k1 -> p_cat k ts e2 k2 -> e1 = e2 /\ k1 = k2) /\
  (forall ts, (length ts < n)%nat -> forall k e1 k1 e2 k2, p_post k ts e1 k1 -> p_post k ts e2 k2 -> e1 = e2 /\ k1 = k2).
Proof.
  induction n as [|n IH]; [repeat split; intros; lia|]. destruct IH as (IA & IC & IP).
  assert (UP : forall ts, (length ts < S n)%nat -> forall k e1 k1 e2 k2, p_post k ts e1 k1 -> p_post k ts e2 k2 -> e1 = e2 /\ k1 = k2).
  { intros ts Hl k e1 k1 e2 k2 H1 H2.
    assert (LT : forall (l : list token) x, (length (l ++ [x]) < S n)%nat -> (length l < n)%nat) by (intros l x; rewrite app_length; cbn; lia).
    inversion H1 as [? o Ho|? t e k' P|? t e k' P|? t e k' P|? t e k' P]; subst; inversion H2 as [? o' Ho'|? t' e' k'' P'|? t' e' k'' P'|? t' e' k'' P'|? t' e' k'' P']; subst;
      try (match goal with H : ?l ++ [_] = ?l' ++ [_] |- _ => apply app_inj_tail in H; destruct H as [-> E] end; try discriminate E; destruct (IP _ (LT _ _ Hl) _ _ _ _ _ P P') as [-> ->]; auto; fail);
      try (match goal with H : ?l ++ [_] = [_] |- _ => destruct l as [|? [|? ?]]; discriminate H end);
      try (match goal with H : [_] = ?l ++ [_] |- _ => destruct l as [|? [|? ?]]; discriminate H end);
      try (match goal with H : ?x :: ?l' ++ [_] = ?l ++ [_] |- _ => change (x :: l' ++ [KRbra]) with ((x :: l') ++ [KRbra]) in H; apply app_inj_tail in H; destruct H as [_ H]; discriminate H end);
      try (match goal with H : ?l ++ [_] = ?x :: ?l' ++ [_] |- _ => change (x :: l' ++ [KRbra]) with ((x :: l') ++ [KRbra]) in H; apply app_inj_tail in H; destruct H as [_ H]; discriminate H end);
      auto.
    match goal with H : ?l ++ [_] = ?l' ++ [_] |- _ => apply app_inj_tail in H; destruct H as [-> _] end. destruct (IA t ltac:(cbn in Hl; rewrite app_length in Hl; cbn in Hl; lia) _ _ _ _ _ P P') as [-> ->]. auto. }
  assert (UC : forall ts, (length ts < S n)%nat -> forall k e1 k1 e2 k2, p_cat k ts e1 k1 -> p_cat k ts e2 k2 -> e1 = e2 /\ k1 = k2).
  { assert (NO : forall k ts1 e1 k1 ts2 e2 k2 e3 k3, p_cat k ts1 e1 k1 -> p_post k1 ts2 e2 k2 -> p_post k (ts1 ++ ts2) e3 k3 -> False).
    { intros k ts1 e1 k1 ts2 e2 k2 e3 k3 A B C. destruct (sh_cat _ _ _ _ A) as (B1 & S1 & _). destruct (sh_post _ _ _ _ B) as (_ & (t & r & -> & Hn) & _). destruct (sh_post _ _ _ _ C) as (_ & _ & _ & O).
      specialize (O _ _ eq_refl (starts_ne _ S1) (proj2 B1)). inversion O; subst. contradiction. }
    intros ts Hl k e1 k1 e2 k2 H1 H2. inversion H1 as [? ? ? ? P1|? ts1 f1 j1 ts2 f2 j2 P1 P2]; subst; inversion H2 as [? ? ? ? Q1|? us1 g1 i1 us2 g2 i2 Q1 Q2 E1 E2 E3 E4]; subst.
    - eapply UP; eassumption.
    - exfalso. eapply NO; eassumption.
    - exfalso. eapply NO; eassumption.
    - destruct (sh_cat _ _ _ _ P1) as (X1 & X2 & _), (sh_cat _ _ _ _ Q1) as (Y1 & Y2 & _), (sh_post _ _ _ _ P2) as (X3 & X4 & _ & X5), (sh_post _ _ _ _ Q2) as (Y3 & Y4 & _ & Y5).
      destruct (cat_split _ _ _ _ E2 Y1 X1 (starts_ne _ Y2) (starts_ne _ X2) Y5 X5 Y4 X4) as [-> ->]. rewrite app_length in Hl.
      pose proof (starts_ne _ X2) as N1. pose proof (starts_ne _ X4) as N2. assert (length ts1 <> 0)%nat by (destruct ts1; cbn; congruence). assert (length ts2 <> 0)%nat by (destruct ts2; cbn; congruence).
      destruct (IC ts1 ltac:(lia) _ _ _ _ _ P1 Q1) as [-> ->]. destruct (IP ts2 ltac:(lia) _ _ _ _ _ P2 Q2) as [-> ->]. auto. }
  split; [|split; [exact UC|exact UP]].
  assert (NO : forall k ts1 e1 k1 ts2 e3 k3, p_alt k ts1 e1 k1 -> p_cat k (ts1 ++ KAtor AOr :: ts2) e3 k3 -> False).
  { intros k ts1 e1 k1 ts2 e3 k3 A C. destruct (sh_alt _ _ _ _ A) as ((_ & D) & _). destruct (sh_cat _ _ _ _ C) as (_ & _ & N). specialize (N _ _ eq_refl). lia. }
  intros ts Hl k e1 k1 e2 k2 H1 H2. inversion H1 as [? ? ? ? P1|? ts1 f1 j1 ts2 f2 j2 P1 P2]; subst; inversion H2 as [? ? ? ? Q1|? us1 g1 i1 us2 g2 i2 Q1 Q2 E1 E2 E3 E4]; subst.
  - eapply UC; eassumption.
  - exfalso. eapply NO; eassumption.
  - exfalso. eapply NO; eassumption.
  - assert (X : us1 = ts1 /\ us2 = ts2).
    { destruct (sh_alt _ _ _ _ P1) as ((_ & X1) & _), (sh_alt _ _ _ _ Q1) as ((_ & Y1) & _), (sh_cat _ _ _ _ P2) as (_ & _ & X2), (sh_cat _ _ _ _ Q2) as (_ & _ & Y2).
      destruct (app_cases _ _ _ _ E2) as [(m & -> & E)|(m & -> & E)]; (destruct m as [|t m]; cbn in E; [rewrite app_nil_r; injection E as ->; auto|]); injection E as <- ->; exfalso; rewrite dep_app in *; cbn [dep] in *.
      - specialize (Y2 m _ eq_refl). lia.
      - specialize (X2 m _ eq_refl). lia. }
    destruct X as [-> ->]. rewrite app_length in Hl. cbn in Hl. destruct (IA ts1 ltac:(lia) _ _ _ _ _ P1 Q1) as [-> ->]. destruct (IC ts2 ltac:(lia) _ _ _ _ _ P2 Q2) as [-> ->]. auto.
Qed.
Lemma parses_unique ts e1 k1 e2 k2 : parses ts e1 k1 -> parses ts e2 k2 -> e1 = e2 /\ k1 = k2.
Proof.
  intros [H1|(-> & -> & ->)] [H2|(E & -> & ->)]; auto.
  - eapply (proj1 (p_unique (S (length ts)))); try eassumption. lia.
  - subst. destruct (sh_alt _ _ _ _ H1) as [_ S]. now apply starts_ne in S.
  - destruct (sh_alt _ _ _ _ H2) as [_ S]. now apply starts_ne in S.
Qed.
