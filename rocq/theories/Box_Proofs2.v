(** Proofs about the box model, continued: the simulation. *)
From Verif Require Import Base Box_Model Box_Spec Box_Proofs.
From Coq Require Import Permutation.

Section P.
Context {A : Type}.

Definition holdsr (h : Z -> option (Z * A)) (p : Z) (x : A) : Prop := p <> 0 /\ exists id, h p = Some (id, x).
Definition fly (T : list (Z * avar A)) : list var := map (fun t => Box (fst t)) T.
(** [T]: pointers held by neither the variables nor the client, with what they stand for. *)
Record sim (g : state A) (a : astate A) (T : list (Z * avar A)) : Prop := mksim {
  s_core : core (heap g) (made g) (gone g) (flat_map owned (vars g) ++ flat_map owned (fly T) ++ raws g);
  s_vars : Forall2 (holds (heap g)) (vars g) (avars a);
  s_fly : Forall (fun t => holds (heap g) (Box (fst t)) (snd t)) T;
  s_raws : Forall2 (holdsr (heap g)) (raws g) (araws a) }.

Lemma aget_split {B} (l : list B) i x : aget l i = Ok x ->
  exists l1 l2, l = l1 ++ x :: l2 /\ zlen l1 = i /\ forall y, aset l i y = Ok (l1 ++ y :: l2).
Proof.
  intros Hg. assert (Hr := aget_ok_range _ _ _ Hg). apply aget_nth in Hg. destruct Hg as [H0 Hg].
  apply nth_split_eq in Hg. exists (firstn (Z.to_nat i) l), (skipn (S (Z.to_nat i)) l).
  split; [exact Hg|]. split.
  - unfold zlen in *. rewrite firstn_length. lia.
  - intros y. rewrite aset_ok by assumption. f_equal. apply upd_split. unfold zlen in Hr. lia.
Qed.
Lemma aget_mid {B} (l1 l2 : list B) x i : zlen l1 = i -> aget (l1 ++ x :: l2) i = Ok x.
Proof. intro Hi. rewrite aget_app2 by lia. rewrite aget_cons. replace (i - zlen l1 =? 0) with true by lia. reflexivity. Qed.
Lemma aset_mid {B} (l1 l2 : list B) x y i : zlen l1 = i -> aset (l1 ++ x :: l2) i y = Ok (l1 ++ y :: l2).
Proof.
  intro Hi. rewrite aset_ok by (rewrite zlen_app, zlen_cons; pose proof (zlen_nonneg l1); pose proof (zlen_nonneg l2); lia).
  f_equal. subst i. unfold zlen. rewrite Nat2Z.id. clear. induction l1; cbn; congruence.
Qed.

Lemma F2_length {B C} (R : B -> C -> Prop) l m : Forall2 R l m -> length l = length m.
Proof. induction 1; cbn; congruence. Qed.
Lemma var_split g a T i v : sim g a T -> aget (vars g) i = Ok v ->
  exists l1 l2 m1 m2 av, vars g = l1 ++ v :: l2 /\ avars a = m1 ++ av :: m2 /\ zlen l1 = i /\ zlen m1 = i /\
    holds (heap g) v av /\ Forall2 (holds (heap g)) l1 m1 /\ Forall2 (holds (heap g)) l2 m2.
Proof.
  intros S Hg. destruct (aget_split _ _ _ Hg) as (l1 & l2 & E & Hz & _).
  pose proof (s_vars _ _ _ S) as F. rewrite E in F. apply Forall2_app_inv_l in F. destruct F as (m1 & m' & F1 & F2 & Em).
  inversion F2; subst. exists l1, l2, m1, l', y. repeat split; try assumption.
  unfold zlen. f_equal. symmetry. eapply F2_length; eauto.
Qed.

Lemma set_get g i v g' : set_var g i v = Ok g' -> aget (@vars A g') i = Ok v.
Proof. unfold set_var. intro E. apply bind_ok in E. destruct E as (vs & E1 & E2). injection E2 as <-. cbn [vars]. eapply aget_aset_same; eauto. Qed.

(** A pointer leaves a variable. *)
Lemma S_out g a T i p w aw : sim g a T -> aget (vars g) i = Ok (Box p) ->
  owned w = [] -> (forall h, holds h w aw) ->
  exists g' a' av, set_var g i w = Ok g' /\ aget (avars a) i = Ok av /\ av <> ADead /\ holds (heap g) (Box p) av /\
    aset_var a i aw = Some a' /\ sim g' a' ((p, av) :: T).
Proof.
  intros S Hg Hw Hh. destruct (var_split _ _ _ _ _ S Hg) as (l1 & l2 & m1 & m2 & av & E & Ea & Hz & Hza & Hv & F1 & F2).
  destruct S. unfold set_var, aset_var. rewrite E, Ea in *. rewrite !aset_mid by assumption. cbn [bind].
  do 3 eexists. split; [reflexivity|]. split; [apply aget_mid; assumption|]. split; [intros ->; exact Hv|]. split; [exact Hv|].
  split; [reflexivity|]. constructor; cbn [vars heap made gone raws avars araws].
  - eapply core_perm; [exact s_core0|]. rewrite !flat_map_app. cbn [flat_map fly map fst]. rewrite Hw.
    rewrite <- !app_assoc. apply Permutation_app_head. rewrite app_nil_l. rewrite !app_assoc. do 2 apply Permutation_app_tail. apply Permutation_app_comm.
  - apply Forall2_app; [assumption|]. constructor; [apply Hh|assumption].
  - constructor; assumption.
  - assumption.
Qed.
(** A pointer enters a variable that holds nothing. *)
Lemma S_in g a T i p av w : sim g a ((p, av) :: T) -> aget (vars g) i = Ok w -> owned w = [] ->
  exists g' a', set_var g i (Box p) = Ok g' /\ aset_var a i av = Some a' /\ sim g' a' T.
Proof.
  intros S Hg Hw. destruct (var_split _ _ _ _ _ S Hg) as (l1 & l2 & m1 & m2 & av0 & E & Ea & Hz & Hza & Hv & F1 & F2).
  destruct S. unfold set_var, aset_var. rewrite E, Ea in *. rewrite !aset_mid by assumption. cbn [bind].
  do 2 eexists. split; [reflexivity|]. split; [reflexivity|].
  inversion s_fly0; subst. constructor; cbn [vars heap made gone raws avars araws].
  - eapply core_perm; [exact s_core0|]. rewrite !flat_map_app. cbn [flat_map fly map fst]. rewrite Hw.
    rewrite <- !app_assoc. apply Permutation_app_head. rewrite app_nil_l. rewrite !app_assoc. do 2 apply Permutation_app_tail. apply Permutation_app_comm.
  - apply Forall2_app; [assumption|]. constructor; assumption.
  - assumption.
  - assumption.
Qed.
Lemma S_null g a T : sim g a T -> sim g a ((0, ANull) :: T).
Proof. intros []. constructor; try assumption. constructor; [reflexivity|assumption]. Qed.
Lemma S_unnull g a T v : sim g a ((0, v) :: T) -> sim g a T.
Proof. intros []. constructor; try assumption. inversion s_fly0; assumption. Qed.

Lemma In_owned p (v : var) : In p (owned v) <-> v = Box p /\ p <> 0.
Proof.
  destruct v as [|q]; cbn; [split; [contradiction|intros [? _]; discriminate]|].
  destruct (Z.eqb_spec q 0) as [->|n]; cbn; split; try contradiction.
  - intros [E Hp]. injection E as <-. contradiction.
  - intros [->|[]]. auto.
  - intros [E _]. injection E as ->. auto.
Qed.
Lemma holds_setf (h : Z -> option (Z * A)) q y v av : holds h v av -> (forall p, In p (owned v) -> p <> q) -> holds (setf h q y) v av.
Proof.
  destruct v as [|p], av; cbn; auto. intros [Hp (id & E)] Hn. split; [assumption|]. exists id. rewrite setf_other; [assumption|].
  apply Hn. destruct (Z.eqb_spec p 0); [contradiction|left; reflexivity].
Qed.
Lemma Forall2_holds_setf (h : Z -> option (Z * A)) q y vs avs : Forall2 (holds h) vs avs -> ~ In q (flat_map owned vs) -> Forall2 (holds (setf h q y)) vs avs.
Proof.
  induction 1 as [|v av vs avs Hv F IH]; intro Hn; [constructor|]. cbn in Hn. rewrite in_app_iff in Hn. constructor.
  - apply holds_setf; [assumption|]. intros p Hp ->. tauto.
  - apply IH. tauto.
Qed.
Lemma Forall_fly_setf (h : Z -> option (Z * A)) q y T : Forall (fun t => holds h (Box (fst t)) (snd t)) T -> ~ In q (flat_map owned (fly T)) ->
  Forall (fun t => holds (setf h q y) (Box (fst t)) (snd t)) T.
Proof.
  induction 1 as [|t T Ht F IH]; intro Hn; [constructor|]. cbn [fly map flat_map] in Hn. rewrite in_app_iff in Hn. constructor.
  - apply holds_setf; [assumption|]. intros p Hp ->. tauto.
  - apply IH. unfold fly. tauto.
Qed.
Lemma Forall2_raws_setf (h : Z -> option (Z * A)) q y rs ars : Forall2 (holdsr h) rs ars -> ~ In q rs -> Forall2 (holdsr (setf h q y)) rs ars.
Proof.
  induction 1 as [|p x rs ars [Hp (id & E)] F IH]; intro Hn; [constructor|]. cbn in Hn. constructor.
  - split; [assumption|]. exists id. rewrite setf_other; [assumption|intros ->; tauto].
  - apply IH. tauto.
Qed.

(** A pointer in flight is dropped. *)
Lemma S_kill g a T p av : sim g a ((p, av) :: T) ->
  exists g', drop g p = Ok g' /\ sim g' a T /\ vars g' = vars g /\ raws g' = raws g.
Proof.
  intros S. unfold drop. destruct (Z.eqb_spec p 0) as [->|n].
  - exists g. split; [reflexivity|]. split; [eapply S_unnull; eauto|auto].
  - destruct S. inversion s_fly0; subst.
    assert (C : core (heap g) (made g) (gone g) (p :: flat_map owned (vars g) ++ flat_map owned (fly T) ++ raws g)).
    { eapply core_perm; [exact s_core0|]. cbn [fly map flat_map fst owned]. destruct (Z.eqb_spec p 0); [contradiction|].
      change (flat_map owned (vars g) ++ p :: (flat_map owned (fly T) ++ raws g)) with (flat_map owned (vars g) ++ [p] ++ (flat_map owned (fly T) ++ raws g)).
      symmetry. apply (Permutation_middle (flat_map owned (vars g)) (flat_map owned (fly T) ++ raws g) p). }
    pose proof (c_nodup _ _ _ _ C) as N. inversion N; subst. rewrite !in_app_iff in H3.
    destruct (core_destroy _ _ _ _ _ C) as (id & x & E & C'). rewrite E. eexists. split; [reflexivity|]. split; [|auto].
    constructor; cbn [vars heap made gone raws].
    + exact C'.
    + apply Forall2_holds_setf; [assumption|tauto].
    + apply Forall_fly_setf; [assumption|tauto].
    + apply Forall2_raws_setf; [assumption|tauto].
Qed.
Lemma S_new g a T q x : sim g a T -> fresh g q = true -> sim (create g q x) a ((q, AVal x) :: T).
Proof.
  intros [] Hf. unfold fresh in Hf. apply andb_true_iff in Hf. destruct Hf as [H0 Hf]. apply Z.ltb_lt in H0.
  assert (E : heap g q = None) by (destruct (heap g q); [discriminate|reflexivity]).
  assert (Nq : ~ In q (flat_map owned (vars g) ++ flat_map owned (fly T) ++ raws g)) by (rewrite (c_iff _ _ _ _ s_core0); congruence).
  rewrite !in_app_iff in Nq. constructor; cbn [vars heap made gone raws create].
  - eapply core_perm; [apply core_new; eassumption|]. cbn [fly map flat_map fst owned]. destruct (Z.eqb_spec q 0); [lia|].
    apply (Permutation_middle (flat_map owned (vars g)) (flat_map owned (fly T) ++ raws g) q).
  - apply Forall2_holds_setf; [assumption|tauto].
  - constructor; [cbn; split; [lia|exists (made g); apply setf_same]|]. apply Forall_fly_setf; [assumption|tauto].
  - apply Forall2_raws_setf; [assumption|tauto].
Qed.
Lemma pick2 (h : Z -> option (Z * A)) k rs ars p r : Forall2 (holdsr h) rs ars -> pick k rs = Some (p, r) ->
  exists x ar, pick k ars = Some (x, ar) /\ holdsr h p x /\ Forall2 (holdsr h) r ar /\ Permutation rs (p :: r).
Proof.
  intros F. revert k p r. induction F as [|q x rs ars Hq F IH]; intros [|k] p r E; cbn in *; try discriminate.
  - injection E as <- <-. exists x, ars. auto.
  - destruct (pick k rs) as [[y t]|] eqn:E1; [|discriminate]. injection E as <- <-.
    destruct (IH _ _ _ E1) as (x' & ar & -> & Hp & F' & P). exists x', (x :: ar). split; [reflexivity|]. split; [assumption|]. split; [constructor; assumption|].
    eapply perm_trans; [apply perm_skip; exact P|apply perm_swap].
Qed.
Lemma S_raw_out g a T k p r : sim g a T -> pick k (raws g) = Some (p, r) ->
  exists x ar, pick k (araws a) = Some (x, ar) /\ p <> 0 /\ sim (set_raws g r) (mka (avars a) ar) ((p, AVal x) :: T).
Proof.
  intros [] Hp. destruct (pick2 _ _ _ _ _ _ s_raws0 Hp) as (x & ar & E & Hh & F & P). exists x, ar. split; [assumption|]. split; [apply Hh|].
  constructor; cbn [vars heap made gone raws avars araws set_raws]; try assumption.
  - eapply core_perm; [exact s_core0|]. apply Permutation_app_head. cbn [fly map flat_map fst owned].
    destruct (Z.eqb_spec p 0); [destruct Hh; contradiction|]. rewrite P. cbn. symmetry. apply Permutation_middle.
  - constructor; [exact Hh|assumption].
Qed.
Lemma S_raw_in g a T p x : sim g a ((p, AVal x) :: T) -> sim (set_raws g (p :: raws g)) (mka (avars a) (x :: araws a)) T.
Proof.
  intros []. inversion s_fly0; subst. destruct H1 as [Hp He]. cbn [fst snd] in *. constructor; cbn [vars heap made gone raws avars araws set_raws]; try assumption.
  - eapply core_perm; [exact s_core0|]. apply Permutation_app_head. cbn [fly map flat_map fst owned].
    destruct (Z.eqb_spec p 0); [contradiction|]. cbn. apply Permutation_middle.
  - constructor; [split; assumption|assumption].
Qed.

Lemma set_set g i v w g' : set_var g i v = Ok g' -> @set_var A g' i w = set_var g i w.
Proof.
  unfold set_var. intro E. apply bind_ok in E. destruct E as (vs & E1 & E2). injection E2 as <-. cbn [vars heap made gone raws].
  destruct (aset_inv _ _ _ _ E1) as (Hr & Hl). 
  destruct (aget_some _ _ Hr) as (x & Hx). destruct (aget_split _ _ _ Hx) as (l1 & l2 & El & Hz & Hs).
  rewrite Hs in E1. injection E1 as <-. rewrite Hs. rewrite aset_mid by assumption. reflexivity.
Qed.
Lemma set_drop g i v g' p : set_var g i v = Ok g' -> (let* g1 := drop g p in set_var g1 i v) = @drop A g' p.
Proof.
  unfold set_var, drop. intro E. apply bind_ok in E. destruct E as (vs & E1 & E2). injection E2 as <-. cbn [vars heap made gone raws].
  destruct (p =? 0); cbn [bind]; [rewrite E1; reflexivity|]. destruct (heap g p) as [[id x]|]; cbn [bind vars heap made gone raws]; [rewrite E1; reflexivity|reflexivity].
Qed.
(** Drop what variable [i] holds, and let it hold the pointer in flight. *)
Lemma S_replace g a T i p q aq : sim g a ((q, aq) :: T) -> aget (vars g) i = Ok (Box p) ->
  exists g' a', (let* g1 := drop g p in set_var g1 i (Box q)) = Ok g' /\ aset_var a i aq = Some a' /\ sim g' a' T.
Proof.
  intros S Hg. destruct (S_out _ _ _ i p (Box 0) ANull S Hg) as (g0 & a0 & av & E1 & E2 & E3 & E4 & E5 & S0); [reflexivity|reflexivity|].
  destruct (S_kill _ _ _ _ _ S0) as (g1 & D & S1 & V & _).
  destruct (S_in _ _ _ i q aq (Box 0) S1) as (g' & a' & F1 & F2 & S'); [rewrite V; eapply set_get; eauto|reflexivity|].
  exists g', a'. split; [|split; [|exact S']].
  - rewrite <- (set_drop _ _ _ _ p E1) in D. apply bind_ok in D. destruct D as (gd & D1 & D2). rewrite D1. cbn [bind].
    rewrite <- (set_set _ _ _ (Box q) _ D2). exact F1.
  - unfold aset_var in *. destruct (aset (avars a) i ANull) as [vs|] eqn:Ea; [|discriminate]. injection E5 as <-. cbn [avars araws] in F2.
    destruct (aget_split _ _ _ E2) as (l1 & l2 & El & Hz & Hs). rewrite Hs in Ea. injection Ea as <-. rewrite aset_mid in F2 by assumption.
    rewrite Hs. exact F2.
Qed.
End P.
