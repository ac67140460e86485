(** The array of nodes represents an index tree; skew, split and rebalancing on the array
    do what they do on the tree. *)
From Verif Require Import Base Slots Smap_Model Smap_Tree.

Section Sim.
Context {K V : Type}.
Implicit Types (d : slots (node K V)) (t l r : tree) (n : node K V).

Definition vof d (i : Z) : option (K * V) := match aget d i with Ok (Some n) => val n | _ => None end.
Fixpoint reps d t : Prop :=
  match t with
  | E => True
  | N i lv l r => 0 < i /\ 1 <= lv /\ (exists o, aget d i = Ok (Some (mknode (rt l) (rt r) lv o))) /\ reps d l /\ reps d r
  end.
Definition good0 d : Prop := aget d 0 = Ok (Some node0).
(** Only nodes in [S] were written, and no value was. *)
Definition chg (S : list Z) d d' : Prop :=
  zlen d' = zlen d /\ (forall i, ~ In i S -> aget d' i = aget d i) /\ (forall i, vof d' i = vof d i).

Lemma chg_refl S d : chg S d d.
Proof. unfold chg. auto. Qed.
Lemma chg_trans S1 S2 S d1 d2 d3 : chg S1 d1 d2 -> chg S2 d2 d3 -> incl S1 S -> incl S2 S -> chg S d1 d3.
Proof.
  intros (A & B & C) (A2 & B2 & C2) I1 I2. split; [lia|]. split.
  - intros i Hi. rewrite B2, B; auto.
  - intros i. now rewrite C2.
Qed.
Lemma chg_incl S1 S d1 d2 : chg S1 d1 d2 -> incl S1 S -> chg S d1 d2.
Proof. intros H I. apply (chg_trans S1 S1 S d1 d2 d2); auto. apply chg_refl. Qed.

Lemma reps_frame d d' t : (forall i, In i (inord t) -> aget d' i = aget d i) -> reps d t -> reps d' t.
Proof.
  induction t as [|i lv l IHl r IHr]; [auto|]. cbn [inord reps]. intros F (A & B & (o & C) & D1 & D2).
  split; [exact A|]. split; [exact B|]. split.
  - exists o. rewrite F; [exact C|]. apply in_or_app. right. now left.
  - split; [apply IHl; auto; intros; apply F, in_or_app; auto|apply IHr; auto; intros; apply F, in_or_app; right; now right].
Qed.
Lemma reps_chg S d d' t : chg S d d' -> (forall i, In i (inord t) -> ~ In i S) -> reps d t -> reps d' t.
Proof. intros (_ & B & _) H. apply reps_frame. auto. Qed.
Lemma reps_pos d t i : reps d t -> In i (inord t) -> 0 < i < zlen d.
Proof.
  induction t as [|j lv l IHl r IHr]; [intros _ []|]. cbn [inord reps]. intros (A & B & (o & C) & D1 & D2) H.
  apply in_app_or in H as [H|[->|H]]; auto. apply aget_ok_range in C. lia.
Qed.
Lemma good0_chg S d d' t : good0 d -> chg S d d' -> reps d t -> incl S (inord t) -> good0 d'.
Proof.
  intros H (_ & B & _) R I. unfold good0. rewrite B; [exact H|]. intros X. apply I in X. apply (reps_pos d t 0 R) in X. lia.
Qed.

Lemma reps_rt d t : reps d t -> t = E \/ (0 < rt t /\ In (rt t) (inord t)).
Proof.
  destruct t; [auto|]. cbn [reps inord rt]. intros (A & _). right. split; [exact A|]. apply in_or_app. right. now left.
Qed.
Lemma rt_zero d t : reps d t -> rt t = 0 <-> t = E.
Proof. intros H. split; [|now intros ->]. intros H0. destruct (reps_rt _ _ H); [auto|lia]. Qed.

(** Reading the root of a subtree (the null node if it is empty). *)
Lemma rd_rt d t : reps d t -> good0 d ->
  exists n, rd d (rt t) = Ok n /\ aget d (rt t) = Ok (Some n) /\ lev n = lvl t /\ lk0 n = rt (lft t) /\ lk1 n = rt (rgt t).
Proof.
  intros R G. destruct t as [|i lv l r]; cbn [rt].
  - exists node0. unfold rd. rewrite G. cbn. auto.
  - destruct R as (_ & _ & (o & C) & _). eexists. unfold rd. rewrite C. cbn. eauto 6.
Qed.

Lemma set_link_ok d i b x n : aget d i = Ok (Some n) ->
  exists d', set_link d i b x = Ok d' /\ aget d' i = Ok (Some (with_link b x n)) /\ chg [i] d d'.
Proof.
  intros H. unfold set_link, rd. rewrite H. cbn [bind]. unfold wr. pose proof (aget_ok_range _ _ _ H) as Hr.
  destruct (aset_some d i (Some (with_link b x n)) Hr) as [d' E1]. exists d'. split; [exact E1|]. split; [exact (aget_aset_same _ _ _ _ E1)|].
  split; [exact (aset_zlen _ _ _ _ E1)|]. split.
  - intros j Hj. apply (aget_aset_other _ _ _ _ _ E1). intros ->. apply Hj. now left.
  - intros j. unfold vof. rewrite (aget_aset _ _ _ _ j E1). destruct (Z.eqb_spec j i) as [->|]; [|reflexivity]. rewrite H. destruct b; reflexivity.
Qed.
Lemma set_lev_ok d i x n : aget d i = Ok (Some n) ->
  exists d', set_lev d i x = Ok d' /\ aget d' i = Ok (Some (with_lev x n)) /\ chg [i] d d'.
Proof.
  intros H. unfold set_lev, rd. rewrite H. cbn [bind]. unfold wr. pose proof (aget_ok_range _ _ _ H) as Hr.
  destruct (aset_some d i (Some (with_lev x n)) Hr) as [d' E1]. exists d'. split; [exact E1|]. split; [exact (aget_aset_same _ _ _ _ E1)|].
  split; [exact (aset_zlen _ _ _ _ E1)|]. split.
  - intros j Hj. apply (aget_aset_other _ _ _ _ _ E1). intros ->. apply Hj. now left.
  - intros j. unfold vof. rewrite (aget_aset _ _ _ _ j E1). destruct (Z.eqb_spec j i) as [->|]; [|reflexivity]. rewrite H. reflexivity.
Qed.

Lemma nodup_app {A} (a b : list A) : NoDup (a ++ b) <-> NoDup a /\ NoDup b /\ (forall x, In x a -> ~ In x b).
Proof.
  induction a as [|x a IH]; cbn [app].
  - split; [intros H; repeat split; auto; constructor|tauto].
  - rewrite !NoDup_cons_iff, IH, in_app_iff. split.
    + intros (H1 & H2 & H3 & H4). repeat split; auto. intros y [<-|Hy]; auto.
    + intros ((H1 & H2) & H3 & H4). repeat split; auto; [|intros; apply H4; now right].
      intros [X|X]; [auto|]. apply (H4 x); [now left|exact X].
Qed.
(** NoDup of the parts of a tree *)
Lemma nd_node i lv l r : NoDup (inord (N i lv l r)) ->
  NoDup (inord l) /\ NoDup (inord r) /\ ~ In i (inord l) /\ ~ In i (inord r) /\ (forall x, In x (inord l) -> ~ In x (inord r)).
Proof.
  cbn [inord]. rewrite nodup_app, NoDup_cons_iff. intros (H1 & (H2 & H3) & H4). repeat split; auto.
  - intros X. apply (H4 i X). now left.
  - intros x X Y. apply (H4 x X). now right.
Qed.

(** Replacing the right subtree. *)
Lemma right_sim S d d1 i lv l r r' : reps d (N i lv l r) -> NoDup (inord (N i lv l r)) ->
  chg S d d1 -> incl S (inord r) -> reps d1 r' ->
  (forall x, In x (inord r') -> In x (inord r)) ->
  exists d2, set_link d1 i true (rt r') = Ok d2 /\ reps d2 (N i lv l r') /\ chg (inord (N i lv l r)) d d2.
Proof.
  intros R ND C I R' Sub. pose proof R as (P & L & (o & G) & Rl & Rr). destruct (nd_node _ _ _ _ ND) as (Nl & Nr & Il & Ir & Dis).
  assert (G1 : aget d1 i = Ok (Some (mknode (rt l) (rt r) lv o))) by (rewrite (proj1 (proj2 C)); auto).
  destruct (set_link_ok d1 i true (rt r') _ G1) as (d2 & E2 & G2 & C2). exists d2. split; [exact E2|]. split.
  - cbn [reps]. split; [exact P|]. split; [exact L|]. split; [exists o; exact G2|]. split.
    + apply (reps_chg [i] d1 d2 l C2). { intros x Hx [->|[]]. auto. }
      apply (reps_chg S d d1 l C); auto. intros x Hx Y. exact (Dis x Hx (I _ Y)).
    + apply (reps_chg [i] d1 d2 r' C2); auto. intros x Hx [->|[]]. auto.
  - apply (chg_trans S [i] _ d d1 d2 C C2); cbn [inord].
    + intros x Hx. apply in_or_app. right. right. auto.
    + intros x [->|[]]. apply in_or_app. right. now left.
Qed.
Lemma left_sim S d d1 i lv l r l' : reps d (N i lv l r) -> NoDup (inord (N i lv l r)) ->
  chg S d d1 -> incl S (inord l) -> reps d1 l' ->
  (forall x, In x (inord l') -> In x (inord l)) ->
  exists d2, set_link d1 i false (rt l') = Ok d2 /\ reps d2 (N i lv l' r) /\ chg (inord (N i lv l r)) d d2.
Proof.
  intros R ND C I R' Sub. pose proof R as (P & L & (o & G) & Rl & Rr). destruct (nd_node _ _ _ _ ND) as (Nl & Nr & Il & Ir & Dis).
  assert (G1 : aget d1 i = Ok (Some (mknode (rt l) (rt r) lv o))) by (rewrite (proj1 (proj2 C)); auto).
  destruct (set_link_ok d1 i false (rt l') _ G1) as (d2 & E2 & G2 & C2). exists d2. split; [exact E2|]. split.
  - cbn [reps]. split; [exact P|]. split; [exact L|]. split; [exists o; exact G2|]. split.
    + apply (reps_chg [i] d1 d2 l' C2); auto. intros x Hx [->|[]]. auto.
    + apply (reps_chg [i] d1 d2 r C2). { intros x Hx [->|[]]. auto. }
      apply (reps_chg S d d1 r C); auto. intros x Hx Y. exact (Dis x (I _ Y) Hx).
  - apply (chg_trans S [i] _ d d1 d2 C C2); cbn [inord].
    + intros x Hx. apply in_or_app. left. auto.
    + intros x [->|[]]. apply in_or_app. right. now left.
Qed.

Lemma skew_sim d t : reps d t -> good0 d -> NoDup (inord t) ->
  exists d', skew d (rt t) = Ok (d', rt (skewT t)) /\ reps d' (skewT t) /\ chg (inord t) d d'.
Proof.
  intros R G ND. unfold skew. destruct t as [|i lv l r]; [exists d; cbn; repeat split; auto|].
  pose proof R as (P & L & (o & Gi) & Rl & Rr). destruct (nd_node _ _ _ _ ND) as (Nl & Nr & Il & Ir & Dis).
  cbn [rt]. destruct (Z.eqb_spec i 0); [lia|]. unfold rd at 1. rewrite Gi. cbn [bind lk0].
  destruct (rd_rt d l Rl G) as (m & E1 & _ & E2 & E3 & E4). rewrite E1. cbn [bind lev]. rewrite E2, E4.
  destruct l as [|j lj a b].
  { cbn [lvl]. destruct (Z.eqb_spec 0 lv); [lia|]. exists d. split; [reflexivity|]. split; [exact R|apply chg_refl]. }
  cbn [lvl skewT rt rgt]. destruct (Z.eqb_spec lj lv) as [->|Nlv].
  2:{ exists d. split; [reflexivity|]. split; [exact R|apply chg_refl]. }
  pose proof Rl as (P' & L' & (o' & Gj) & Ra & Rb). destruct (nd_node _ _ _ _ Nl) as (Na & Nb & Ia & Ib & Disab).
  destruct (set_link_ok d i false (rt b) _ Gi) as (d1 & F1 & G1 & C1). rewrite F1. cbn [bind].
  assert (Hji : j <> i). { intros ->. apply Il. cbn. apply in_or_app. right. now left. }
  assert (Gj1 : aget d1 j = Ok (Some (mknode (rt a) (rt b) lv o'))).
  { rewrite (proj1 (proj2 C1)); [exact Gj|]. intros [->|[]]. auto. }
  destruct (set_link_ok d1 j true i _ Gj1) as (d2 & F2 & G2 & C2). rewrite F2. cbn [bind].
  exists d2. split; [reflexivity|].
  assert (Sa : forall x, In x (inord a) -> ~ In x [i; j]).
  { intros x Hx [->|[->|[]]]; auto. apply Il. cbn. apply in_or_app. auto. }
  assert (Sb : forall x, In x (inord b) -> ~ In x [i; j]).
  { intros x Hx [->|[->|[]]]; auto. apply Il. cbn. apply in_or_app. right. now right. }
  assert (Sr : forall x, In x (inord r) -> ~ In x [i; j]).
  { intros x Hx [->|[->|[]]]; auto. apply (Dis x); auto. cbn. apply in_or_app. right. now left. }
  assert (C : chg [i; j] d d2). { apply (chg_trans [i] [j] _ d d1 d2); auto; intros x [->|[]]; cbn; auto. }
  split.
  - cbn [reps rt]. split; [exact P'|]. split; [exact L'|]. split; [exists o'; exact G2|]. split; [eapply reps_chg; eauto|].
    split; [exact P|]. split; [exact L|]. split; [|split; eapply reps_chg; eauto].
    exists o. rewrite (proj1 (proj2 C2)); [exact G1|]. intros [->|[]]. auto.
  - apply (chg_incl [i; j]); auto. intros x [->|[->|[]]]; cbn; apply in_or_app; [right; now left|left; apply in_or_app; right; now left].
Qed.

Lemma split_sim d t : reps d t -> good0 d -> NoDup (inord t) -> t <> E ->
  exists d', split d (rt t) = Ok (d', rt (splitT t)) /\ reps d' (splitT t) /\ chg (inord t) d d'.
Proof.
  intros R G ND HE. unfold split. destruct t as [|i lv l r]; [congruence|].
  pose proof R as (P & L & (o & Gi) & Rl & Rr). destruct (nd_node _ _ _ _ ND) as (Nl & Nr & Il & Ir & Dis).
  cbn [rt]. unfold rd at 1. rewrite Gi. cbn [bind lk1].
  destruct (rd_rt d r Rr G) as (m & E1 & _ & E2 & E3 & E4). rewrite E1. cbn [bind]. rewrite E4.
  assert (Rc : reps d (rgt r)). { destruct r; [exact I|]. apply Rr. }
  destruct (rd_rt d (rgt r) Rc G) as (q & E5 & _ & E6 & _). rewrite E5. cbn [bind lev]. rewrite E6.
  destruct r as [|j lj b c].
  { cbn [lvl rgt splitT]. destruct (Z.eqb_spec 0 lv); [lia|]. exists d. split; [reflexivity|]. split; [exact R|apply chg_refl]. }
  cbn [rgt splitT rt lft] in *. destruct (Z.eqb_spec (lvl c) lv) as [Ec|Nc].
  2:{ exists d. split; [reflexivity|]. split; [exact R|apply chg_refl]. }
  pose proof Rr as (P' & L' & (o' & Gj) & Rb & _). destruct (nd_node _ _ _ _ Nr) as (Nb & Nc & Ib & Ic & Disbc).
  rewrite E3. destruct (set_link_ok d i true (rt b) _ Gi) as (d1 & F1 & G1 & C1). rewrite F1. cbn [bind].
  assert (Hji : j <> i). { intros ->. apply Ir. cbn. apply in_or_app. right. now left. }
  assert (Gj1 : aget d1 j = Ok (Some (mknode (rt b) (rt c) lj o'))).
  { rewrite (proj1 (proj2 C1)); [exact Gj|]. intros [->|[]]. auto. }
  destruct (set_link_ok d1 j false i _ Gj1) as (d2 & F2 & G2 & C2). rewrite F2. cbn [bind].
  unfold rd at 1. rewrite G2. cbn [bind lev with_link].
  destruct (set_lev_ok d2 j (lj + 1) _ G2) as (d3 & F3 & G3 & C3). cbn [with_link lev] in F3. rewrite F3. cbn [bind].
  exists d3. split; [reflexivity|].
  assert (Sl : forall x, In x (inord l) -> ~ In x [i; j]).
  { intros x Hx [->|[->|[]]]; auto. apply (Dis x); auto. cbn. apply in_or_app. right. now left. }
  assert (Sb : forall x, In x (inord b) -> ~ In x [i; j]).
  { intros x Hx [->|[->|[]]]; auto. apply Ir. cbn. apply in_or_app. auto. }
  assert (Sc : forall x, In x (inord c) -> ~ In x [i; j]).
  { intros x Hx [->|[->|[]]]; auto. apply Ir. cbn. apply in_or_app. right. now right. }
  assert (C : chg [i; j] d d3).
  { apply (chg_trans [i; j] [j] _ d d2 d3); auto; try apply incl_refl; [|intros x [->|[]]; cbn; auto].
    apply (chg_trans [i] [j] _ d d1 d2); auto; intros x [->|[]]; cbn; auto. }
  split.
  - cbn [reps rt]. split; [exact P'|]. split; [lia|]. split; [exists o'; exact G3|].
    split; [|eapply reps_chg; eauto].
    split; [exact P|]. split; [exact L|]. split; [|split; eapply reps_chg; eauto].
    exists o. rewrite (proj1 (proj2 C3)) by (intros [->|[]]; auto). rewrite (proj1 (proj2 C2)); [exact G1|]. intros [->|[]]. auto.
  - apply (chg_incl [i; j]); auto. intros x [->|[->|[]]]; cbn; apply in_or_app; right; [now left|right; apply in_or_app; right; now left].
Qed.

Lemma rebal_sim d t : reps d t -> good0 d -> NoDup (inord t) -> pre_del t ->
  exists d', rebal d (rt t) = Ok (d', rt (rebalT t)) /\ reps d' (rebalT t) /\ chg (inord t) d d'.
Proof.
  intros R G ND Pre. destruct t as [|i lv l r].
  { exists d. unfold rebal, rd. cbn [rt]. rewrite G. cbn [bind lk1 lk0 node0]. rewrite G. cbn [bind lev node0].
    cbn. split; [reflexivity|]. split; [exact I|apply chg_refl]. }
  unfold rebal. pose proof R as (P & L & (o & Gi) & Rl & Rr). destruct (nd_node _ _ _ _ ND) as (Nl & Nr & Il & Ir & Dis).
  cbn [rt]. unfold rd at 1. rewrite Gi. cbn [bind lk1 lk0 lev].
  destruct (rd_rt d l Rl G) as (a & A1 & _ & A2 & _). rewrite A1. cbn [bind].
  destruct (rd_rt d r Rr G) as (b & B1 & Bg & B2 & B3 & B4). rewrite B1. cbn [bind]. rewrite A2, B2.
  destruct ((lvl l <? lv - 1) || (lvl r <? lv - 1)) eqn:EC.
  2:{ exists d. cbn [rebalT]. rewrite EC. split; [reflexivity|]. split; [exact R|apply chg_refl]. }
  assert (Hn : needs (N i lv l r)).
  { cbn. apply orb_true_iff in EC. rewrite !Z.ltb_lt in EC. exact EC. }
  destruct (rebal_steps _ Pre Hn) as (Q1 & Q2 & Q3 & Et & _). cbn zeta in Et. rewrite Et.
  set (T := inord (N i lv l r)) in *.
  (* levels *)
  assert (Hlev : exists d2, (let* d := set_lev d i (lv - 1) in
       if lvl r >? lv - 1 then set_lev d (rt r) (lv - 1) else Ok d) = Ok d2 /\
       reps d2 (N i (lv - 1) l (if lvl r >? lv - 1 then set_lvl (lv - 1) r else r)) /\ chg T d d2).
  { destruct (set_lev_ok d i (lv - 1) _ Gi) as (d1 & F1 & G1 & C1). rewrite F1. cbn [bind].
    destruct Pre as (Al & Ar & _ & Hl & Hr & Hs & Hd).
    assert (L2 : 1 <= lv - 1). { pose proof (aa_lvl _ Al). pose proof (aa_lvl _ Ar). cbn in Hn. lia. }
    assert (Rl1 : reps d1 l). { apply (reps_chg [i] d d1 l C1); auto. intros x Hx [->|[]]. auto. }
    assert (Rr1 : reps d1 r). { apply (reps_chg [i] d d1 r C1); auto. intros x Hx [->|[]]. auto. }
    assert (I1 : incl [i] T). { intros x [->|[]]. unfold T. cbn. apply in_or_app. right. now left. }
    destruct (lvl r >? lv - 1) eqn:Er.
    - destruct r as [|j lj c e]; [cbn in Er; lia|]. cbn [rt set_lvl].
      destruct Rr1 as (P' & L' & (o' & Gj) & Rc & Re). destruct (nd_node _ _ _ _ Nr) as (Nc & Ne & Ic & Ie & Disce).
      destruct (set_lev_ok d1 j (lv - 1) _ Gj) as (d2 & F2 & G2 & C2). rewrite F2. exists d2. split; [reflexivity|].
      assert (Hji : j <> i). { intros ->. apply Ir. cbn. apply in_or_app. right. now left. }
      split.
      + cbn [reps rt]. split; [exact P|]. split; [lia|]. split.
        { exists o. rewrite (proj1 (proj2 C2)); [exact G1|]. intros [->|[]]. auto. }
        split. { apply (reps_chg [j] d1 d2 l C2); auto. intros x Hx [->|[]]. apply (Dis x); auto. cbn. apply in_or_app. right. now left. }
        split; [exact P'|]. split; [lia|]. split; [exists o'; exact G2|].
        split; apply (reps_chg [j] d1 d2 _ C2); auto; intros x Hx [->|[]]; auto.
      + apply (chg_trans [i] [j] T d d1 d2); auto. intros x [->|[]]. unfold T. cbn. apply in_or_app. right. right. apply in_or_app. right. now left.
    - exists d1. split; [reflexivity|]. split; [|apply (chg_incl [i]); auto].
      cbn [reps]. split; [exact P|]. split; [lia|]. split; [exists o; exact G1|auto]. }
  destruct Hlev as (d2 & F2 & R2 & C2).
  destruct (set_lev d i (lv - 1)) as [d1|] eqn:F1; [|discriminate]. cbn [bind] in F2 |- *. rewrite F2. cbn [bind]. clear F1 F2 d1.
  set (t0 := N i (lv - 1) l (if lvl r >? lv - 1 then set_lvl (lv - 1) r else r)) in *.
  assert (T0 : inord t0 = T). { unfold t0, T. cbn [inord]. destruct (lvl r >? lv - 1); now rewrite ?inord_set_lvl. }
  assert (G2 : good0 d2). { apply (good0_chg T d d2 (N i lv l r)); auto. apply incl_refl. }
  (* first skew *)
  destruct (skew_sim d2 t0 R2 G2) as (d3 & F3 & R3 & C3); [now rewrite T0|].
  change (rt t0) with i in F3. rewrite F3. cbn [bind fst snd].
  change (skewT t0) with (rebal1 (N i lv l r)) in *. set (t1 := rebal1 (N i lv l r)) in *.
  rewrite T0 in C3. assert (T1 : inord t1 = T) by (unfold t1; now rewrite inord_rebal1).
  assert (G3 : good0 d3). { apply (good0_chg T d2 d3 t0); auto. rewrite T0. apply incl_refl. }
  clearbody t1. clear Et EC Hn t0 T0 R2.
  (* skew of the right child *)
  destruct t1 as [|i1 lv1 l1 r1]; [now cbn in Q1|]. cbn [rgt onright rt] in *.
  assert (N1 : NoDup (inord (N i1 lv1 l1 r1))) by now rewrite T1.
  pose proof R3 as (_ & _ & (o1 & Gi1) & Rl1 & Rr1). destruct (nd_node _ _ _ _ N1) as (Nl1 & Nr1 & Il1 & Ir1 & Dis1).
  unfold rd at 1. rewrite Gi1. cbn [bind lk1].
  destruct (skew_sim d3 r1 Rr1 G3 Nr1) as (d4 & F4 & R4 & C4). rewrite F4. cbn [bind fst snd].
  destruct (right_sim (inord r1) d3 d4 i1 lv1 l1 r1 (skewT r1) R3 N1 C4 (incl_refl _) R4) as (d5 & F5 & R5 & C5).
  { intros x. now rewrite inord_skew. }
  rewrite F5. cbn [bind]. rewrite T1 in C5.
  assert (T2 : inord (N i1 lv1 l1 (skewT r1)) = T) by (rewrite <- T1; cbn [inord]; now rewrite inord_skew).
  assert (G5 : good0 d5). { apply (good0_chg T d3 d5 (N i1 lv1 l1 r1)); auto. rewrite T1. apply incl_refl. }
  set (r2 := skewT r1) in *. clearbody r2. clear R4 F4 C4 F5 d4 T1 Rr1 Nr1 Ir1 Dis1 Gi1 R3 N1 Q1 r1.
  assert (N2 : NoDup (inord (N i1 lv1 l1 r2))) by now rewrite T2.
  (* skew of the right grandchild *)
  destruct r2 as [|j2 lj2 a2 b2]; [congruence|]. cbn [rt onright] in *.
  pose proof R5 as (_ & _ & _ & _ & Rr2). destruct (nd_node _ _ _ _ N2) as (_ & Nr2 & _ & _ & _).
  pose proof Rr2 as (_ & _ & (o2 & Gj2) & Ra2 & Rb2). destruct (nd_node _ _ _ _ Nr2) as (_ & Nb2 & _ & _ & _).
  unfold rd at 1. rewrite Gj2. cbn [bind lk1].
  destruct (skew_sim d5 b2 Rb2 G5 Nb2) as (d6 & F6 & R6 & C6). rewrite F6. cbn [bind fst snd].
  destruct (right_sim (inord b2) d5 d6 j2 lj2 a2 b2 (skewT b2) Rr2 Nr2 C6 (incl_refl _) R6) as (d7 & F7 & R7 & C7).
  { intros x. now rewrite inord_skew. }
  rewrite F7. cbn [bind].
  assert (Tr : inord (N j2 lj2 a2 (skewT b2)) = inord (N j2 lj2 a2 b2)) by (cbn [inord]; now rewrite inord_skew).
  set (r3 := N j2 lj2 a2 (skewT b2)) in *. set (r2 := N j2 lj2 a2 b2) in *.
  assert (R7' : reps d7 (N i1 lv1 l1 r3)).
  { pose proof R5 as (P1 & L1 & (o1' & Gi1) & Rl2 & _). destruct (nd_node _ _ _ _ N2) as (_ & _ & Il2 & Ir2 & Dis2).
    cbn [reps]. split; [exact P1|]. split; [exact L1|]. split.
    - exists o1'. rewrite (proj1 (proj2 C7)) by exact Ir2. exact Gi1.
    - split; [|exact R7]. apply (reps_chg _ _ _ _ C7); auto. }
  assert (T3 : inord (N i1 lv1 l1 r3) = T) by (rewrite <- T2; cbn [inord]; now rewrite Tr).
  assert (C7' : chg T d5 d7). { apply (chg_incl (inord r2)); auto. rewrite <- T2. cbn [inord]. intros x Hx. apply in_or_app. right. now right. }
  assert (G7 : good0 d7). { apply (good0_chg T d5 d7 (N i1 lv1 l1 r2)); auto. rewrite T2. apply incl_refl. }
  set (t3 := N i1 lv1 l1 r3) in *.
  (* splits *)
  destruct (split_sim d7 t3 R7' G7) as (d8 & F8 & R8 & C8); [now rewrite T3|discriminate|].
  change (rt t3) with i1 in F8. rewrite F8. cbn [bind fst snd]. rewrite T3 in C8.
  assert (T4 : inord (splitT t3) = T) by now rewrite inord_split.
  assert (G8 : good0 d8). { apply (good0_chg T d7 d8 t3); auto. rewrite T3. apply incl_refl. }
  set (t4 := splitT t3) in *. clearbody t4. destruct t4 as [|i4 lv4 l4 r4]; [now cbn in Q3|]. cbn [rgt onright rt] in *.
  assert (N4 : NoDup (inord (N i4 lv4 l4 r4))) by now rewrite T4.
  pose proof R8 as (_ & _ & (o4 & Gi4) & _ & Rr4). destruct (nd_node _ _ _ _ N4) as (_ & Nr4 & _ & _ & _).
  unfold rd at 1. rewrite Gi4. cbn [bind lk1].
  destruct (split_sim d8 r4 Rr4 G8 Nr4 Q3) as (d9 & F9 & R9 & C9). rewrite F9. cbn [bind fst snd].
  destruct (right_sim (inord r4) d8 d9 i4 lv4 l4 r4 (splitT r4) R8 N4 C9 (incl_refl _) R9) as (d10 & F10 & R10 & C10).
  { intros x. now rewrite inord_split. }
  rewrite F10. cbn [bind]. exists d10. split; [reflexivity|]. split; [exact R10|]. rewrite T4 in C10.
  pose proof (incl_refl T) as IT.
  eapply chg_trans; [exact C2| |exact IT|exact IT]. eapply chg_trans; [exact C3| |exact IT|exact IT].
  eapply chg_trans; [exact C5| |exact IT|exact IT]. eapply chg_trans; [exact C7'| |exact IT|exact IT].
  eapply chg_trans; [exact C8|exact C10|exact IT|exact IT].
Qed.
End Sim.
