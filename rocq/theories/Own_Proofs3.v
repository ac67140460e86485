(** Histories: the containers refine lists. *)
From Verif Require Import Base Slots Own_Model Own_Spec Own_Proofs Own_Proofs2.

Section Proofs.
Context {A : Type}.
Notation elem := (@elem A).
Notation heap := (@heap A).
Notation world := (@world A).
Variable place : nat -> heap -> Z -> Z.
Variable stay : nat -> heap -> Z -> Z -> bool.
Variable keyclone : A -> A.
Hypothesis place_free : forall t h n, look h (place t h n) = None.
Hypothesis place_ok : forall t h n, 0 < n -> place t h n <> 0.

Definition dataof (v : var) : Z := match v with Dead => 0 | Live c => data c end.
Definition rel (k : kind) (h : heap) (v : var) (o : option (list elem)) : Prop :=
  match v, o with
  | Dead, None => True
  | Live c, Some l => stores h c l /\ (k = KVec -> solid c)
  | _, _ => False
  end.
Record vok (k : kind) (h : heap) (vs : list var) (qs : list (option (list elem))) : Prop := mkvok {
  v_len : zlen vs = zlen qs;
  v_rel : forall i v o, aget vs i = Ok v -> aget qs i = Ok o -> rel k h v o;
  v_disj : forall i j v v', i <> j -> aget vs i = Ok v -> aget vs j = Ok v' -> dataof v <> 0 -> dataof v <> dataof v';
  v_own : forall p b, look h p = Some b -> exists i v, aget vs i = Ok v /\ dataof v = p
}.

Lemma rel_look k h v o : rel k h v o -> dataof v <> 0 -> exists b, look h (dataof v) = Some b.
Proof.
  destruct v as [|c], o as [l|]; cbn; try tauto; try congruence. intros ((_ & [(H & _)|(b & E & _)]) & _) Hd; [congruence|eauto].
Qed.
Lemma rel_moves k h h' d d' v o : moves h h' d d' -> dataof v <> d \/ dataof v = 0 -> rel k h v o -> rel k h' v o.
Proof.
  destruct v as [|c], o as [l|]; cbn; try tauto. intros M Hd (S & Q). split; [eapply moves_stores; eauto|exact Q].
Qed.

Lemma vok_both k h vs qs i v : vok k h vs qs -> aget vs i = Ok v -> exists o, aget qs i = Ok o /\ rel k h v o.
Proof.
  intros V E. pose proof (aget_ok_range _ _ _ E) as Hr. rewrite (v_len _ _ _ _ V) in Hr. destruct (aget_some qs i Hr) as [o Eo].
  exists o. split; [exact Eo|]. eapply v_rel; eauto.
Qed.

Lemma vok_set k h h' vs qs vs' qs' i v v' o' : vok k h vs qs -> aget vs i = Ok v -> moves h h' (dataof v) (dataof v') -> rel k h' v' o' ->
  aset vs i v' = Ok vs' -> aset qs i o' = Ok qs' -> vok k h' vs' qs'.
Proof.
  intros V Ei M R Es Eq. split.
  - rewrite (aset_zlen _ _ _ _ Es), (aset_zlen _ _ _ _ Eq). apply V.
  - intros j u o Ej Eo. destruct (Z.eq_dec j i) as [->|Hj].
    + rewrite (aget_aset_same _ _ _ _ Es) in Ej. rewrite (aget_aset_same _ _ _ _ Eq) in Eo. injection Ej as <-. injection Eo as <-. exact R.
    + rewrite (aget_aset_other _ _ _ _ j Es Hj) in Ej. rewrite (aget_aset_other _ _ _ _ j Eq Hj) in Eo.
      pose proof (v_rel _ _ _ _ V j u o Ej Eo) as Rj. eapply rel_moves; eauto.
      destruct (Z.eq_dec (dataof u) 0); [now right|]. left. eapply (v_disj _ _ _ _ V j i); eauto.
  - assert (Hd : forall j u, j <> i -> aget vs j = Ok u -> dataof u <> 0 -> dataof u <> dataof v').
    { intros j u Hj Ej Hu Heq. destruct (vok_both _ _ _ _ _ _ V Ej) as (o & _ & Rj). destruct (rel_look _ _ _ _ Rj Hu) as [b Eb].
      destruct M as (_ & [N|N] & _); [|congruence]. rewrite N in Heq. exact (v_disj _ _ _ _ V j i u v Hj Ej Ei Hu Heq). }
    intros j1 j2 u1 u2 Hn E1 E2 H1. destruct (Z.eq_dec j1 i) as [->|Hj1].
    + rewrite (aget_aset_same _ _ _ _ Es) in E1. injection E1 as <-. rewrite (aget_aset_other _ _ _ _ j2 Es) in E2 by congruence.
      intros Heq. rewrite Heq in H1. exact (Hd j2 u2 ltac:(congruence) E2 H1 (eq_sym Heq)).
    + rewrite (aget_aset_other _ _ _ _ j1 Es Hj1) in E1. destruct (Z.eq_dec j2 i) as [->|Hj2].
      * rewrite (aget_aset_same _ _ _ _ Es) in E2. injection E2 as <-. eapply Hd; eauto.
      * rewrite (aget_aset_other _ _ _ _ j2 Es Hj2) in E2. eapply (v_disj _ _ _ _ V j1 j2); eauto.
  - intros p b Ep. destruct (Z.eq_dec p (dataof v')) as [->|Hp].
    + exists i, v'. split; [|reflexivity]. eapply aget_aset_same; eauto.
    + destruct M as (F & N & G). destruct (Z.eq_dec p (dataof v)) as [->|Hp']; [rewrite G in Ep by exact Hp; discriminate|].
      rewrite F in Ep by assumption. destruct (v_own _ _ _ _ V p b Ep) as (j & u & Ej & <-).
      exists j, u. split; [|reflexivity]. rewrite (aget_aset_other _ _ _ _ j Es); [exact Ej|]. intros ->. congruence.
Qed.

(** moving the contents of [j] to the dead variable [i] *)
Lemma vok_move k h vs qs vs' qs' i j c l : vok k h vs qs -> aget vs i = Ok Dead -> aget vs j = Ok (Live c) -> aget qs j = Ok (Some l) ->
  zlen vs' = zlen qs' ->
  (forall x, aget vs' x = if x =? i then Ok (Live c) else if x =? j then Ok (Live zero) else aget vs x) ->
  (forall x, aget qs' x = if x =? i then Ok (Some l) else if x =? j then Ok (Some []) else aget qs x) ->
  vok k h vs' qs'.
Proof.
  intros V Ei Ej Eq Hz Hv Hq. assert (Hij : i <> j) by (intros ->; congruence).
  pose proof (v_rel _ _ _ _ V j _ _ Ej Eq) as Rc. split; [exact Hz| | |].
  - intros x v o. rewrite Hv, Hq. destruct (Z.eqb_spec x i); [intros [= <-] [= <-]; exact Rc|].
    destruct (Z.eqb_spec x j); [intros [= <-] [= <-]; cbn; split; [apply stores_zero|intros _ _; reflexivity]|]. apply V.
  - intros x y v v' Hxy. rewrite !Hv. destruct (Z.eqb_spec x i).
    + intros [= <-]. destruct (Z.eqb_spec y i); [congruence|]. destruct (Z.eqb_spec y j); [intros [= <-]; auto|]. intros Ey. eapply (v_disj _ _ _ _ V j y); eauto.
    + destruct (Z.eqb_spec x j); [intros [= <-]; cbn; congruence|]. intros Ex. destruct (Z.eqb_spec y i).
      * intros [= <-]. eapply (v_disj _ _ _ _ V x j); eauto.
      * destruct (Z.eqb_spec y j); [intros [= <-]; auto|]. eapply (v_disj _ _ _ _ V); eauto.
  - intros p b Ep. destruct (v_own _ _ _ _ V p b Ep) as (x & v & Ex & Hx). destruct (Z.eq_dec x j) as [->|].
    + exists i, (Live c). rewrite Hv, Z.eqb_refl. rewrite Ej in Ex. injection Ex as <-. auto.
    + exists x, v. rewrite Hv. destruct (Z.eqb_spec x i); [subst x; rewrite Ei in Ex; injection Ex as <-; subst p; discriminate|].
      destruct (Z.eqb_spec x j); [congruence|]. auto.
Qed.

Record sim (k : kind) (s : state) (a : astate) : Prop := mksim {
  s_vars : vok k (hp (wd s)) (vars s) (aseqs a);
  s_mine : mine s = amine a;
  s_made : made (wd s) = amade a;
  s_gone : gone (wd s) = agone a
}.

Lemma get_live (s : @state A) i c : get s i = Some c -> aget (vars s) i = Ok (Live c).
Proof. unfold get. destruct (aget (vars s) i) as [[|?]|]; congruence. Qed.
Lemma dead_dead (s : @state A) i : dead s i = true -> aget (vars s) i = Ok Dead.
Proof. unfold dead. destruct (aget (vars s) i) as [[|?]|]; congruence. Qed.

Lemma sim_live k s a i c : sim k s a -> get s i = Some c ->
  exists l, aget (aseqs a) i = Ok (Some l) /\ aget_var a i = Some l /\ stores (hp (wd s)) c l /\ (k = KVec -> solid c).
Proof.
  intros H E. apply get_live in E. destruct (vok_both _ _ _ _ _ _ (s_vars _ _ _ H) E) as (o & Eo & R). destruct o as [l|]; [|contradiction].
  exists l. unfold aget_var. rewrite Eo. cbn in R. repeat split; try apply R; auto.
Qed.
Lemma sim_dead k s a i : sim k s a -> dead s i = true -> aget (aseqs a) i = Ok None.
Proof.
  intros H E. apply dead_dead in E. destruct (vok_both _ _ _ _ _ _ (s_vars _ _ _ H) E) as (o & Eo & R). destruct o as [l|]; [contradiction|exact Eo].
Qed.

(** what setting a variable does on both sides *)
Lemma sim_set k s a i v w' v' o' : sim k s a -> aget (vars s) i = Ok v -> moves (hp (wd s)) (hp w') (dataof v) (dataof v') -> rel k (hp w') v' o' ->
  exists vs' qs', aset (vars s) i v' = Ok vs' /\ aset (aseqs a) i o' = Ok qs' /\ vok k (hp w') vs' qs'.
Proof.
  intros H Ei M R. pose proof (aget_ok_range _ _ _ Ei) as Hr. destruct (aset_some (vars s) i v' Hr) as [vs' Es].
  rewrite (v_len _ _ _ _ (s_vars _ _ _ H)) in Hr. destruct (aset_some (aseqs a) i o' Hr) as [qs' Eq].
  exists vs', qs'. split; [exact Es|]. split; [exact Eq|]. eapply vok_set; eauto. apply H.
Qed.

(** a dead variable gets a container *)
Lemma sim_free k s a i w' c' f d : sim k s a -> dead s i = true -> moves (hp (wd s)) (hp w') 0 (data c') -> stores (hp w') c' f -> (k = KVec -> solid c') ->
  made w' = made (wd s) + d -> gone w' = gone (wd s) ->
  exists s' a', set s w' i (Live c') = Ok s' /\ afree a i f d = Some a' /\ sim k s' a'.
Proof.
  intros H D M S Q Em Eg. destruct (sim_set k s a i Dead w' (Live c') (Some f) H (dead_dead _ _ D) M (conj S Q)) as (vs' & qs' & Es & Eq & V).
  unfold set, afree, aset_var. rewrite (sim_dead _ _ _ _ H D), Es, Eq. cbn [bind]. eexists _, _. split; [reflexivity|]. split; [reflexivity|].
  cbn [aseqs amine amade agone]. split; cbn; [exact V|apply H| |]; [rewrite Em|rewrite Eg]; [rewrite (s_made _ _ _ H)|rewrite (s_gone _ _ _ H)]; reflexivity.
Qed.

(** a live variable changes; [m] is what the client owns afterwards *)
Lemma sim_change k s a i c w' c' l' d x m : sim k s a -> get s i = Some c -> moves (hp (wd s)) (hp w') (data c) (data c') -> stores (hp w') c' l' -> (k = KVec -> solid c') ->
  made w' = made (wd s) + d -> gone w' = gone (wd s) ++ x ->
  exists s' a', taking m (set s w' i (Live c')) = Ok s' /\ achange (mka (aseqs a) m (amade a) (agone a)) i l' d x = Some a' /\ sim k s' a'.
Proof.
  intros H D M S Q Em Eg. destruct (sim_set k s a i (Live c) w' (Live c') (Some l') H (get_live _ _ _ D) M (conj S Q)) as (vs' & qs' & Es & Eq & V).
  unfold taking, set, achange, aset_var. cbn [aseqs amine amade agone]. rewrite Es, Eq. cbn [bind]. eexists _, _. split; [reflexivity|]. split; [reflexivity|].
  cbn [aseqs amine amade agone]. split; cbn; [exact V|reflexivity| |]; [rewrite Em|rewrite Eg]; [rewrite (s_made _ _ _ H)|rewrite (s_gone _ _ _ H)]; reflexivity.
Qed.
Lemma sim_change0 k s a i c w' c' l' d x : sim k s a -> get s i = Some c -> moves (hp (wd s)) (hp w') (data c) (data c') -> stores (hp w') c' l' -> (k = KVec -> solid c') ->
  made w' = made (wd s) + d -> gone w' = gone (wd s) ++ x ->
  exists s' a', set s w' i (Live c') = Ok s' /\ achange a i l' d x = Some a' /\ sim k s' a'.
Proof.
  intros H D M S Q Em Eg. destruct (sim_change k s a i c w' c' l' d x (mine s) H D M S Q Em Eg) as (s' & a' & E1 & E2 & G).
  exists s', a'. split; [|split; [|exact G]].
  - unfold taking, set in *. destruct (aset (vars s) i (Live c')); cbn [bind] in *; [|discriminate]. exact E1.
  - rewrite (s_mine _ _ _ H) in E2. destruct a; exact E2.
Qed.
(** nothing visible changes *)
Lemma sim_same k s a i c w' c' l : sim k s a -> get s i = Some c -> aget (aseqs a) i = Ok (Some l) -> moves (hp (wd s)) (hp w') (data c) (data c') -> stores (hp w') c' l -> (k = KVec -> solid c') ->
  made w' = made (wd s) -> gone w' = gone (wd s) -> exists s', set s w' i (Live c') = Ok s' /\ sim k s' a.
Proof.
  intros H D El M S Q Em Eg. destruct (sim_change0 k s a i c w' c' l 0 [] H D M S Q) as (s' & a' & E1 & E2 & G); [lia|rewrite app_nil_r; exact Eg|].
  exists s'. split; [exact E1|]. unfold achange, aset_var in E2. destruct (aset (aseqs a) i (Some l)) as [qs|] eqn:E; [|discriminate].
  assert (qs = aseqs a) as ->.
  { apply aget_ext; [eapply aset_zlen; eauto|]. intros j _. destruct (Z.eq_dec j i) as [->|Hj]; [rewrite (aget_aset_same _ _ _ _ E); now rewrite El|eapply aget_aset_other; eauto]. }
  cbn in E2. rewrite Z.add_0_r, app_nil_r in E2. destruct a; injection E2 as <-. exact G.
Qed.

Lemma last_case (l : list elem) : l = [] \/ exists l' y, l = l' ++ [y].
Proof. destruct l as [|x t]; [now left|]. right. destruct (exists_last (l := x :: t)) as (l' & y & ->); [discriminate|eauto]. Qed.

Lemma drop_zero k (w : world) : drop k w zero = Ok w.
Proof. destruct k; reflexivity. Qed.

Lemma step_ok k s a o r : sim k s a -> step place stay keyclone k s o = Some r ->
  exists s' a', r = Ok s' /\ astep keyclone k a o = Some a' /\ sim k s' a'.
Proof.
  intros H E. destruct o; cbn [step astep] in *.
  - (* Init *) destruct (dead s i) eqn:D; [|discriminate]. injection E as <-.
    apply (sim_free k s a i (wd s) zero [] 0 H D); auto using moves_refl, stores_zero; [intros _ _; reflexivity|lia].
  - (* WithCapacity *) destruct (dead s i) eqn:D; [|discriminate]. cbn [andb] in E. destruct (Z.leb_spec 0 n); [|discriminate]. injection E as <-.
    destruct (with_capacity_ok place stay place_free place_ok k (wd s) n) as (w' & c' & -> & S & M & Em & Eg & Q); [lia|]. cbn [bind].
    apply (sim_free k s a i w' c' [] 0 H D); auto. lia.
  - (* WithSize *) destruct (dead s i) eqn:D; [|discriminate]. cbn [andb] in E. destruct (Z.leb_spec 0 n); [|discriminate]. injection E as <-.
    destruct (with_size_ok place stay place_free place_ok k (wd s) n x) as (w' & c' & -> & S & M & Em & Eg & Q); [lia|]. cbn [bind].
    apply (sim_free k s a i w' c' _ 0 H D); auto. lia.
  - (* FromN *) destruct (dead s i) eqn:D; [|discriminate]. injection E as <-.
    destruct (put_n_ok place stay place_free place_ok k xs (wd s) zero [] (stores_zero _)) as (w' & c' & -> & S & M & Em & Eg & Q). cbn [bind].
    rewrite <- (s_made _ _ _ H). apply (sim_free k s a i w' c' _ (zlen xs) H D); auto. intros _. apply Q. intros _. reflexivity.
  - (* New *) injection E as <-. eexists _, _. split; [reflexivity|]. split; [reflexivity|].
    split; cbn; [apply H| | |apply H]; rewrite ?(s_made _ _ _ H), ?(s_mine _ _ _ H); reflexivity.
  - (* Free *) rewrite <- (s_mine _ _ _ H). destruct (pick k0 (mine s)) as [[y m]|] eqn:P; [|discriminate]. injection E as <-.
    eexists _, _. split; [reflexivity|]. split; [reflexivity|]. rewrite destroy_eq. split; cbn; [apply H|reflexivity|apply H|]. now rewrite (s_gone _ _ _ H).
  - (* Push *) destruct (get s i) as [c|] eqn:D; [|discriminate]. destruct (sim_live _ _ _ _ _ H D) as (l & El & Ev & S & Q).
    rewrite Ev, <- (s_mine _ _ _ H). destruct (pick k0 (mine s)) as [[y m]|] eqn:P; [|discriminate]. injection E as <-.
    destruct (push_ok place stay place_free place_ok k (wd s) c l y S) as (w' & c' & -> & S' & M & Em & Eg & Q'). cbn [bind].
    apply (sim_change k s a i c w' c' (l ++ [y]) 0 [] m H D); auto; [lia|now rewrite app_nil_r].
  - (* PutN *) destruct (get s i) as [c|] eqn:D; [|discriminate]. destruct (sim_live _ _ _ _ _ H D) as (l & El & Ev & S & Q). rewrite Ev. injection E as <-.
    destruct (put_n_ok place stay place_free place_ok k xs (wd s) c l S) as (w' & c' & -> & S' & M & Em & Eg & Q'). cbn [bind].
    rewrite <- (s_made _ _ _ H). apply (sim_change0 k s a i c w' c' _ (zlen xs) [] H D); auto. now rewrite app_nil_r.
  - (* Pop *) destruct (get s i) as [c|] eqn:D; [|discriminate]. destruct (sim_live _ _ _ _ _ H D) as (l & El & Ev & S & Q). rewrite Ev.
    destruct (last_case l) as [->|(l' & y & ->)]; [destruct S as (Hs & _); rewrite Hs in E; discriminate|].
    destruct (back_ok _ _ _ _ S) as (Hs & L & S'). unfold pop in E. rewrite (proj2 (Z.eqb_neq _ _) Hs), L in E. cbn [bind] in E. injection E as <-.
    rewrite last_of_app, destroy_eq. apply (sim_change0 k s a i c _ _ l' 0 (ids [y]) H D); cbn [hp made gone data]; auto using moves_refl. lia.
  - (* Pull *) destruct (get s i) as [c|] eqn:D; [|discriminate]. destruct (sim_live _ _ _ _ _ H D) as (l & El & Ev & S & Q). rewrite Ev.
    destruct (last_case l) as [->|(l' & y & ->)]; [destruct S as (Hs & _); rewrite Hs in E; discriminate|].
    destruct (back_ok _ _ _ _ S) as (Hs & L & S'). unfold pull in E. rewrite (proj2 (Z.eqb_neq _ _) Hs), L in E. cbn [bind] in E. injection E as <-.
    rewrite last_of_app, <- (s_mine _ _ _ H). apply (sim_change k s a i c _ _ l' 0 [] _ H D); cbn [hp made gone data]; auto using moves_refl; [lia|now rewrite app_nil_r].
  - (* EraseN *) destruct k; [|discriminate]. destruct (get s i) as [c|] eqn:D; [|discriminate]. destruct (sim_live _ _ _ _ _ H D) as (l & El & Ev & S & Q). rewrite Ev.
    destruct (stores_size _ _ _ S) as [Hs _]. rewrite Hs in E.
    destruct (Z.leb_spec 0 idx); [|discriminate]. destruct (Z.leb_spec 0 n); [|discriminate]. destruct (Z.leb_spec (idx + n) (zlen l)); [|discriminate].
    cbn [andb] in *. injection E as <-. destruct (erase_n_ok (wd s) c l idx n S) as (w' & c' & -> & S' & M & Em & Eg & Hd & Hc); try assumption. cbn [bind].
    apply (sim_change0 KVec s a i c w' c' _ 0 _ H D); auto; [|lia]. intros _ Hz. rewrite Hd. apply Q; congruence.
  - (* Resize *) destruct k; [|discriminate]. destruct (get s i) as [c|] eqn:D; [|discriminate]. destruct (sim_live _ _ _ _ _ H D) as (l & El & Ev & S & Q). rewrite Ev.
    destruct (Z.leb_spec 0 n); [|discriminate]. injection E as <-.
    destruct (resize_ok place stay place_free place_ok (wd s) c l n x S) as (w' & c' & ok & -> & S' & M & Em & Eg & Q'); [assumption|]. cbn [bind].
    apply (sim_change0 KVec s a i c w' c' _ 0 _ H D); auto. lia.
  - (* Clear *) destruct (get s i) as [c|] eqn:D; [|discriminate]. destruct (sim_live _ _ _ _ _ H D) as (l & El & Ev & S & Q). rewrite Ev. injection E as <-.
    destruct (clear_ok (wd s) c l S) as (c' & -> & S' & Hd & Hc). cbn [bind].
    apply (sim_change0 k s a i c _ c' [] 0 _ H D); cbn [hp made gone]; auto; [rewrite Hd; apply moves_refl| |lia]. intros Hk Hz. rewrite Hd. apply Q; congruence.
  - (* Drop *) destruct (get s i) as [c|] eqn:D; [|discriminate]. destruct (sim_live _ _ _ _ _ H D) as (l & El & Ev & S & Q). rewrite Ev. injection E as <-.
    destruct (drop_ok k (wd s) c l S Q) as (w' & -> & M & Em & Eg). cbn [bind].
    destruct (sim_set k s a i (Live c) w' Dead None H (get_live _ _ _ D) M Logic.I) as (vs' & qs' & Es & Eq & V).
    unfold set, achange, aset_var. rewrite Es. cbn [bind]. pose proof (aget_ok_range _ _ _ El) as Hr. destruct (aset_some (aseqs a) i (Some []) Hr) as [q1 E1].
    rewrite E1. cbn [aseqs amine amade agone].
    assert (E2 : aset q1 i None = Ok qs').
    { destruct (aset_some q1 i None) as [q2 E2]; [rewrite (aset_zlen _ _ _ _ E1); exact Hr|]. rewrite E2. f_equal.
      apply aget_ext; [rewrite (aset_zlen _ _ _ _ E2), (aset_zlen _ _ _ _ E1), (aset_zlen _ _ _ _ Eq); reflexivity|]. intros j _.
      destruct (Z.eq_dec j i) as [->|Hj]; [now rewrite (aget_aset_same _ _ _ _ E2), (aget_aset_same _ _ _ _ Eq)|].
      now rewrite (aget_aset_other _ _ _ _ j E2 Hj), (aget_aset_other _ _ _ _ j E1 Hj), (aget_aset_other _ _ _ _ j Eq Hj). }
    rewrite E2. eexists _, _. split; [reflexivity|]. split; [reflexivity|]. split; cbn; [exact V|apply H| |].
    + rewrite Em, (s_made _ _ _ H). lia.
    + rewrite Eg, (s_gone _ _ _ H). reflexivity.
  - (* Move *) destruct (dead s i) eqn:Di; [|discriminate]. destruct (get s j) as [c|] eqn:D; [|discriminate].
    destruct (sim_live _ _ _ _ _ H D) as (l & El & Ev & S & Q). rewrite Ev, (sim_dead _ _ _ _ H Di). injection E as <-.
    apply dead_dead in Di. apply get_live in D. pose proof (aget_ok_range _ _ _ Di) as Ri. pose proof (aget_ok_range _ _ _ D) as Rj.
    assert (Hij : i <> j) by (intros ->; congruence). pose proof (v_len _ _ _ _ (s_vars _ _ _ H)) as Hz.
    destruct (aset_some (vars s) j (Live zero) Rj) as [v1 E1]. destruct (aset_some v1 i (Live c)) as [v2 E2]; [rewrite (aset_zlen _ _ _ _ E1); exact Ri|].
    destruct (aset_some (aseqs a) j (Some [])) as [q1 F1]; [lia|]. destruct (aset_some q1 i (Some l)) as [q2 F2]; [rewrite (aset_zlen _ _ _ _ F1); lia|].
    unfold set, achange, aset_var. rewrite E1. cbn [bind vars]. rewrite E2, F1. cbn [bind aseqs]. rewrite F2. cbn [bind].
    eexists _, _. split; [reflexivity|]. split; [reflexivity|]. split; cbn; [|apply H|rewrite (s_made _ _ _ H); lia|rewrite app_nil_r; apply H].
    apply (vok_move k _ _ _ v2 q2 i j c l (s_vars _ _ _ H) Di D El).
    + rewrite (aset_zlen _ _ _ _ E2), (aset_zlen _ _ _ _ E1), (aset_zlen _ _ _ _ F2), (aset_zlen _ _ _ _ F1). exact Hz.
    + intros x. rewrite (aget_aset _ _ _ _ x E2), (aget_aset _ _ _ _ x E1). reflexivity.
    + intros x. rewrite (aget_aset _ _ _ _ x F2), (aget_aset _ _ _ _ x F1). reflexivity.
  - (* Take *) destruct (get s i) as [c0|] eqn:Di; [|discriminate]. destruct (get s j) as [c|] eqn:D; [|discriminate].
    destruct (sim_live _ _ _ _ _ H Di) as (l0 & El0 & Ev0 & S0 & Q0). destruct (sim_live _ _ _ _ _ H D) as (l & El & Ev & S & Q). rewrite Ev, Ev0. injection E as <-.
    apply get_live in D. apply get_live in Di. pose proof (aget_ok_range _ _ _ Di) as Ri. pose proof (aget_ok_range _ _ _ D) as Rj.
    pose proof (v_len _ _ _ _ (s_vars _ _ _ H)) as Hz.
    destruct (aset_some (vars s) j (Live zero) Rj) as [v1 E1]. destruct (aset_some v1 i (Live c)) as [v2 E2]; [rewrite (aset_zlen _ _ _ _ E1); exact Ri|].
    unfold set at 1. rewrite E1. cbn [bind]. unfold get. cbn [vars]. destruct (Z.eqb_spec i j) as [<-|Hij].
    + rewrite (aget_aset_same _ _ _ _ E1), drop_zero. cbn [bind]. unfold set. cbn [vars mine]. rewrite E2. cbn [bind].
      assert (v2 = vars s) as ->.
      { apply aget_ext; [rewrite (aset_zlen _ _ _ _ E2), (aset_zlen _ _ _ _ E1); reflexivity|]. intros x _.
        rewrite (aget_aset _ _ _ _ x E2), (aget_aset _ _ _ _ x E1). destruct (Z.eqb_spec x i) as [->|]; [now rewrite D|reflexivity]. }
      exists s, a. split; [destruct s; reflexivity|]. split; [reflexivity|exact H].
    + rewrite (aget_aset_other _ _ _ _ i E1 Hij), Di. destruct (drop_ok k (wd s) c0 l0 S0 Q0) as (w' & -> & M & Em & Eg). cbn [bind].
      unfold set. cbn [vars mine]. rewrite E2. cbn [bind].
      destruct (sim_set k s a i (Live c0) w' Dead None H Di M Logic.I) as (vs1 & qs1 & Es & Eq & V).
      destruct (aset_some (aseqs a) j (Some [])) as [q1 F1]; [lia|]. destruct (aset_some q1 i (Some l)) as [q2 F2]; [rewrite (aset_zlen _ _ _ _ F1); lia|].
      unfold achange, aset_var. rewrite F1. cbn [aseqs amine amade agone]. rewrite F2. cbn [aseqs amine amade agone].
      eexists _, _. split; [reflexivity|]. split; [reflexivity|]. split; cbn; [|apply H|rewrite Em, (s_made _ _ _ H); lia|rewrite Eg, app_nil_r, (s_gone _ _ _ H); reflexivity].
      apply (vok_move k _ _ _ v2 q2 i j c l V).
      * exact (aget_aset_same _ _ _ _ Es).
      * rewrite (aget_aset_other _ _ _ _ j Es) by congruence. exact D.
      * rewrite (aget_aset_other _ _ _ _ j Eq) by congruence. exact El.
      * rewrite (aset_zlen _ _ _ _ E2), (aset_zlen _ _ _ _ E1), (aset_zlen _ _ _ _ F2), (aset_zlen _ _ _ _ F1). exact Hz.
      * intros x. rewrite (aget_aset _ _ _ _ x E2), (aget_aset _ _ _ _ x E1), (aget_aset _ _ _ _ x Es). destruct (x =? i), (x =? j); reflexivity.
      * intros x. rewrite (aget_aset _ _ _ _ x F2), (aget_aset _ _ _ _ x F1), (aget_aset _ _ _ _ x Eq). destruct (x =? i), (x =? j); reflexivity.
  - (* Clone *) destruct (dead s i) eqn:Di; [|discriminate]. destruct (get s j) as [c|] eqn:D; [|discriminate].
    destruct (sim_live _ _ _ _ _ H D) as (l & El & Ev & S & Q). rewrite Ev. injection E as <-.
    destruct (clone_ok place stay keyclone place_free place_ok k (wd s) c l S) as (w' & c' & -> & S' & M & Em & Eg & Q'). cbn [bind].
    rewrite <- (s_made _ _ _ H). apply (sim_free k s a i w' c' _ _ H Di); auto.
  - (* Copy *) destruct (get s i) as [c|] eqn:Di; [|discriminate]. destruct (get s j) as [o|] eqn:D; [|discriminate].
    destruct (sim_live _ _ _ _ _ H Di) as (l0 & El0 & Ev0 & S0 & Q0). destruct (sim_live _ _ _ _ _ H D) as (l & El & Ev & S & Q). rewrite Ev, Ev0. injection E as <-.
    destruct (Z.eqb_spec i j) as [<-|Hij].
    + rewrite Di in D. injection D as <-. unfold copy. rewrite Z.eqb_refl. cbn [bind].
      destruct (sim_same k s a i c (wd s) c l0 H Di El0) as (s' & E1 & G); auto using moves_refl. exists s', a. auto.
    + destruct (copy_ok place stay keyclone place_free place_ok k (wd s) c l0 o l S0 S) as (w' & c' & -> & S' & M & Em & Eg & Q'); auto.
      { destruct (Z.eq_dec (data o) 0); [now right|]. left. apply (v_disj _ _ _ _ (s_vars _ _ _ H) j i (Live o) (Live c)); auto using get_live. }
      cbn [bind]. rewrite <- (s_made _ _ _ H). apply (sim_change0 k s a i c w' c' _ _ _ H Di); auto.
  - (* Reserve *) destruct (get s i) as [c|] eqn:D; [|discriminate]. destruct (sim_live _ _ _ _ _ H D) as (l & El & Ev & S & Q). rewrite Ev.
    destruct (Z.leb_spec 0 n); [|discriminate]. injection E as <-.
    destruct (reserve_ok place stay place_free place_ok (wd s) c l n S) as (w' & c' & -> & S' & M & Em & Eg & _ & _ & Q'); [assumption|]. cbn [bind].
    destruct (sim_same k s a i c w' c' l H D El) as (s' & E1 & G); auto. exists s', a. auto.
  - (* Shrink *) destruct (get s i) as [c|] eqn:D; [|discriminate]. destruct (sim_live _ _ _ _ _ H D) as (l & El & Ev & S & Q). rewrite Ev. injection E as <-.
    destruct (stores_size _ _ _ S) as [Hs Hl].
    destruct (reserve_ok place stay place_free place_ok (wd s) c l (size c) S) as (w' & c' & -> & S' & M & Em & Eg & _ & _ & Q'); [lia|]. cbn [bind].
    destruct (sim_same k s a i c w' c' l H D El) as (s' & E1 & G); auto. exists s', a. auto.
Qed.

(** what the list specification allows is a legal call *)
Lemma no_get k s a i l : sim k s a -> aget_var a i = Some l -> get s i <> None.
Proof.
  unfold aget_var, get. intros H E. destruct (aget (aseqs a) i) as [[l'|]|] eqn:Eq; try discriminate.
  pose proof (aget_ok_range _ _ _ Eq) as Hr. rewrite <- (v_len _ _ _ _ (s_vars _ _ _ H)) in Hr. destruct (aget_some (vars s) i Hr) as [v Ev]. rewrite Ev.
  pose proof (v_rel _ _ _ _ (s_vars _ _ _ H) i v _ Ev Eq). destruct v; [contradiction|discriminate].
Qed.
Lemma is_dead k s a i : sim k s a -> aget (aseqs a) i = Ok None -> dead s i = true.
Proof.
  unfold dead. intros H Eq.
  pose proof (aget_ok_range _ _ _ Eq) as Hr. rewrite <- (v_len _ _ _ _ (s_vars _ _ _ H)) in Hr. destruct (aget_some (vars s) i Hr) as [v Ev]. rewrite Ev.
  pose proof (v_rel _ _ _ _ (s_vars _ _ _ H) i v _ Ev Eq). destruct v; [reflexivity|contradiction].
Qed.
Lemma afree_none (a : @astate A) i f d a' : afree a i f d = Some a' -> aget (aseqs a) i = Ok None.
Proof. unfold afree. destruct (aget (aseqs a) i) as [[|]|]; congruence. Qed.
Ltac live H i := let l := fresh "l" in let E := fresh "Ev" in let c := fresh "c" in let D := fresh "D" in
  destruct (aget_var _ i) as [l|] eqn:E; [|discriminate]; destruct (get _ i) as [c|] eqn:D; [|exfalso; eapply no_get; eauto].
Ltac isdead H E := apply afree_none in E; rewrite (is_dead _ _ _ _ H E).
Lemma step_legal k s a o a' : sim k s a -> astep keyclone k a o = Some a' -> step place stay keyclone k s o <> None.
Proof.
  intros H E. destruct o; cbn [step astep] in *; rewrite <- ?(s_mine _ _ _ H) in E.
  - isdead H E. discriminate.
  - destruct (0 <=? n); [|discriminate]. isdead H E. discriminate.
  - destruct (0 <=? n); [|discriminate]. isdead H E. discriminate.
  - isdead H E. discriminate.
  - discriminate.
  - destruct (pick k0 (mine s)) as [[]|]; [discriminate|discriminate].
  - live H i. destruct (pick k0 (mine s)) as [[]|]; discriminate.
  - live H i. discriminate.
  - live H i. destruct (sim_live _ _ _ _ _ H D) as (l' & _ & Ev' & S & _). rewrite Ev in Ev'. injection Ev' as <-.
    destruct (last_case l) as [->|(l' & y & ->)]; [discriminate|]. destruct (back_ok _ _ _ _ S) as (Hs & _). rewrite (proj2 (Z.eqb_neq _ _) Hs). discriminate.
  - live H i. destruct (sim_live _ _ _ _ _ H D) as (l' & _ & Ev' & S & _). rewrite Ev in Ev'. injection Ev' as <-.
    destruct (last_case l) as [->|(l' & y & ->)]; [discriminate|]. destruct (back_ok _ _ _ _ S) as (Hs & _). rewrite (proj2 (Z.eqb_neq _ _) Hs). discriminate.
  - destruct k; [|discriminate]. live H i. destruct (sim_live _ _ _ _ _ H D) as (l' & _ & Ev' & S & _). rewrite Ev in Ev'. injection Ev' as <-.
    destruct (stores_size _ _ _ S) as [-> _]. destruct ((0 <=? idx) && (0 <=? n) && (idx + n <=? zlen l)); discriminate.
  - destruct k; [|discriminate]. live H i. destruct (0 <=? n); discriminate.
  - live H i. discriminate.
  - live H i. discriminate.
  - destruct (aget (aseqs a) i) as [[|]|] eqn:Ei; try discriminate. rewrite (is_dead _ _ _ _ H Ei). live H j. discriminate.
  - live H i. live H j. discriminate.
  - live H j. isdead H E. discriminate.
  - live H i. live H j. discriminate.
  - live H i. destruct (0 <=? n); discriminate.
  - live H i. discriminate.
Qed.
Lemma run_legal k ops : forall s a a', sim k s a -> arun keyclone k a ops = Some a' -> run place stay keyclone k s ops <> None.
Proof.
  induction ops as [|o t IH]; intros s a a' H E; cbn [run arun] in *; [discriminate|].
  destruct (astep keyclone k a o) as [a1|] eqn:E1; [|discriminate]. pose proof (step_legal k s a o a1 H E1) as L.
  destruct (step place stay keyclone k s o) as [r1|] eqn:Es; [|congruence]. destruct (step_ok k s a o r1 H Es) as (s1 & a2 & -> & E2 & H1).
  rewrite E1 in E2. injection E2 as <-. eapply IH; eauto.
Qed.

Lemma sim_start k n : sim k (start n) (astart n).
Proof.
  split; cbn; try reflexivity. split.
  - unfold zlen. now rewrite !repeat_length.
  - intros i v o Ev Eo. apply aget_nth in Ev as [_ Ev]. apply aget_nth in Eo as [_ Eo].
    apply nth_error_In, repeat_spec in Ev. apply nth_error_In, repeat_spec in Eo. subst. exact Logic.I.
  - intros i j v v' _ Ev _. apply aget_nth in Ev as [_ Ev]. apply nth_error_In, repeat_spec in Ev. subst. cbn. congruence.
  - intros p b E. unfold look in E. destruct (p =? 0); discriminate.
Qed.

Lemma run_ok k ops : forall s a r, sim k s a -> run place stay keyclone k s ops = Some r ->
  exists s' a', r = Ok s' /\ arun keyclone k a ops = Some a' /\ sim k s' a'.
Proof.
  induction ops as [|o t IH]; intros s a r H E; cbn [run arun] in *.
  - injection E as <-. exists s, a. auto.
  - destruct (step place stay keyclone k s o) as [r1|] eqn:E1; [|discriminate]. destruct (step_ok k s a o r1 H E1) as (s1 & a1 & -> & -> & H1).
    exact (IH s1 a1 r H1 E).
Qed.
End Proofs.

