(** smap: erasure of one key on the node array. *)
From Verif Require Import Base Slots Smap_Model Smap_Spec Smap_Tree Smap_Sim Smap_Proofs.
From Verif Require Hmap_Proofs.

Section Erase.
Context {K V : Type}.
Variable cmp : K -> K -> Z.
Hypothesis CO : cmp_ok cmp.
Implicit Types (d : slots (node K V)) (t l r : tree) (n : node K V) (es : list (K * V)).

Lemma rebal_noop d t : reps d t -> good0 d -> aa t -> rebal d (rt t) = Ok (d, rt t).
Proof.
  intros R G A. unfold rebal. destruct t as [|i lv l r].
  { cbn [rt]. unfold rd. rewrite G. cbn [bind lk1 lk0 node0]. rewrite !G. cbn [bind lev node0]. rewrite ?G. cbn [bind lev node0]. reflexivity. }
  destruct (reps_rd _ _ _ _ _ R) as (o & E1 & _). cbn [rt]. rewrite E1. cbn [bind lk0 lk1 lev].
  destruct R as (_ & _ & _ & Rl & Rr). destruct (rd_rt _ _ Rl G) as (a & Ea & _ & La & _). destruct (rd_rt _ _ Rr G) as (b & Eb & _ & Lb & _).
  rewrite Ea, Eb. cbn [bind]. rewrite La, Lb. cbn in A. destruct A as (A1 & A2 & A3 & _).
  destruct (Z.ltb_spec (lvl l) (lv - 1)); [lia|]. destruct (Z.ltb_spec (lvl r) (lv - 1)); [lia|]. reflexivity.
Qed.

Lemma set_link_id d i b n : aget d i = Ok (Some n) -> set_link d i b (link b n) = Ok d.
Proof.
  intros H. unfold set_link, rd. rewrite H. cbn [bind]. unfold wr. apply Hmap_Proofs.aset_same. rewrite H. destruct n, b; reflexivity.
Qed.

Lemma go_right_ok d fuel : forall t es, reps d t -> t <> E -> ents d (inord t) es -> height t <= Z.of_nat fuel ->
  exists x e es0, go_right fuel d (rt t) = Ok x /\ vof d x = Some e /\ In x (inord t) /\ es = es0 ++ [e].
Proof.
  induction fuel as [|fuel IH]; intros t es R HE H Hf.
  { destruct t as [|i lv l r]; [congruence|]. cbn [height] in Hf. pose proof (height_nonneg l). lia. }
  destruct t as [|i lv l r]; [congruence|]. destruct (reps_rd _ _ _ _ _ R) as (o & E1 & _). cbn [go_right rt]. rewrite E1. cbn [bind lk1].
  cbn [height] in Hf. pose proof (height_nonneg l). cbn [inord] in *. apply ents_mid in H as (el & e & er & -> & Hl & He & Hr).
  destruct R as (P & L & _ & Rl & Rr). destruct r as [|j lj a b].
  - cbn [rt]. cbn [inord] in Hr. destruct er; [|discriminate]. exists i, e, el. cbn. split; [reflexivity|]. split; [exact He|]. split; [|reflexivity].
    apply in_or_app; right; now left.
  - set (r := N j lj a b) in *. destruct (IH r er Rr) as (x & e' & es0 & F & Hx & Hi & ->); [discriminate|exact Hr|lia|].
    assert (Hz : (rt r =? 0) = false) by (destruct Rr as (Rr & _); cbn; lia). rewrite Hz. cbn [negb].
    exists x, e', (el ++ e :: es0). rewrite F. split; [reflexivity|]. split; [exact Hx|]. split; [apply in_or_app; right; now right|].
    now rewrite <- app_assoc.
Qed.
Lemma go_left_ok d fuel : forall t es, reps d t -> t <> E -> ents d (inord t) es -> height t <= Z.of_nat fuel ->
  exists x e es0, go_left fuel d (rt t) = Ok x /\ vof d x = Some e /\ In x (inord t) /\ es = e :: es0.
Proof.
  induction fuel as [|fuel IH]; intros t es R HE H Hf.
  { destruct t as [|i lv l r]; [congruence|]. cbn [height] in Hf. pose proof (height_nonneg l). lia. }
  destruct t as [|i lv l r]; [congruence|]. destruct (reps_rd _ _ _ _ _ R) as (o & E1 & _). cbn [go_left rt]. rewrite E1. cbn [bind lk0].
  cbn [height] in Hf. cbn [inord] in *. apply ents_mid in H as (el & e & er & -> & Hl & He & Hr).
  destruct R as (P & L & _ & Rl & Rr). destruct l as [|j lj a b].
  - cbn [rt]. cbn [inord] in Hl. destruct el; [|discriminate]. exists i, e, er. cbn. auto.
  - set (l := N j lj a b) in *. destruct (IH l el Rl) as (x & e' & es0 & F & Hx & Hi & ->); [discriminate|exact Hl|lia|].
    assert (Hz : (rt l =? 0) = false) by (destruct Rl as (Rl & _); cbn; lia). rewrite Hz. cbn [negb].
    exists x, e', (es0 ++ e :: er). rewrite F. split; [reflexivity|]. split; [exact Hx|]. split; [apply in_or_app; now left|]. reflexivity.
Qed.

(** What an erasure in subtree [t] does: node [f] is unlinked and put in front of the disposed
    list, the entries [es'] remain. *)
Definition del_res d d1 t t' (f dp : Z) es' : Prop :=
  reps d1 t' /\ post_del t t' /\ Permutation (f :: inord t') (inord t) /\ ents d1 (inord t') es' /\ zlen d1 = zlen d /\
  (forall i, ~ In i (inord t) -> aget d1 i = aget d i) /\ (exists n, aget d1 f = Ok (Some n) /\ lk1 n = dp).

Lemma good0_fr d d1 t : good0 d -> reps d t -> (forall i, ~ In i (inord t) -> aget d1 i = aget d i) -> good0 d1.
Proof. intros G R F. unfold good0. rewrite F; [exact G|]. intros X. pose proof (reps_pos _ _ _ R X). lia. Qed.

Lemma fin_left d d1 i lv l r l' f dp e el' er : reps d (N i lv l r) -> good0 d -> NoDup (inord (N i lv l r)) -> aa (N i lv l r) ->
  vof d i = Some e -> ents d (inord r) er -> del_res d d1 l l' f dp el' ->
  exists d2 d3 t', set_link d1 i false (rt l') = Ok d2 /\ rebal d2 i = Ok (d3, rt t') /\
    del_res d d3 (N i lv l r) t' f dp (el' ++ e :: er).
Proof.
  intros R G ND A He Her (R1 & PD & PM & EN & ZL & FR & (n & Gf & Lf)).
  destruct (nd_node _ _ _ _ ND) as (Nl & Nr & Il & Ir & Dis).
  pose proof R as (P & L & (o & Gi) & Rl & Rr).
  assert (Gi1 : aget d1 i = Ok (Some (mknode (rt l) (rt r) lv o))) by (rewrite FR; auto).
  destruct (set_link_ok d1 i false (rt l') _ Gi1) as (d2 & F2 & Gi2 & C2).
  assert (Sub : forall x, In x (inord l') -> In x (inord l)) by (intros x Hx; apply (Permutation_in _ PM); now right).
  assert (Fl : In f (inord l)) by (apply (Permutation_in _ PM); now left).
  assert (R2 : reps d2 (N i lv l' r)).
  { cbn [reps]. split; [exact P|]. split; [exact L|]. split; [exists o; exact Gi2|]. split.
    - apply (reps_chg [i] d1 d2 l' C2); auto. intros x Hx [<-|[]]. auto.
    - apply (reps_chg [i] d1 d2 r C2). { intros x Hx [<-|[]]. auto. }
      apply (reps_frame d d1 r); auto. intros x Hx. apply FR. intros Y. exact (Dis x Y Hx). }
  assert (ND1 : NoDup (f :: inord l')) by (apply (Permutation_NoDup (Permutation_sym PM)); exact Nl).
  apply NoDup_cons_iff in ND1 as (Nf & Nl').
  assert (PM2 : Permutation (f :: inord (N i lv l' r)) (inord (N i lv l r))) by (cbn [inord]; rewrite <- PM; reflexivity).
  assert (ND2 : NoDup (f :: inord (N i lv l' r))) by (apply (Permutation_NoDup (Permutation_sym PM2)); exact ND).
  apply NoDup_cons_iff in ND2 as (Nf2 & ND2).
  destruct (del_left _ _ _ _ _ A PD) as (PRE & PD').
  assert (G1 : good0 d1) by exact (good0_fr _ _ _ G Rl FR).
  assert (G2 : good0 d2). { unfold good0. rewrite (proj1 (proj2 C2)); [exact G1|]. intros [X|[]]. lia. }
  destruct (rebal_sim d2 _ R2 G2 ND2 PRE) as (d3 & F3 & R3 & C3). cbn [rt] in F3.
  exists d2, d3, (rebalT (N i lv l' r)). split; [exact F2|]. split; [exact F3|].
  split; [exact R3|]. split; [exact PD'|]. rewrite inord_rebal. split; [exact PM2|].
  destruct C2 as (Z2 & X2 & V2). destruct C3 as (Z3 & X3 & V3).
  split; [|split; [lia|split]].
  - cbn [inord]. apply ents_mid. exists el', e, er. split; [reflexivity|]. split; [|split].
    + apply (ents_ext d1); auto. intros x _. now rewrite V3, V2.
    + rewrite V3, V2. rewrite (vof_aget d d1); auto.
    + apply (ents_ext d); auto. intros x Hx. rewrite V3, V2. apply vof_aget, FR. intros Y. exact (Dis x Y Hx).
  - intros x Hx. rewrite X3, X2, FR; auto.
    + intros Y. apply Hx. cbn [inord]. apply in_or_app; auto.
    + intros [<-|[]]. apply Hx. cbn [inord]. apply in_or_app; right; now left.
    + intros Y. apply Hx. apply (Permutation_in _ PM2). now right.
  - exists n. split; [|exact Lf]. rewrite X3, X2; auto. intros [<-|[]]. auto.
Qed.
Lemma fin_right d d1 i lv l r r' f dp e el er' : reps d (N i lv l r) -> good0 d -> NoDup (inord (N i lv l r)) -> aa (N i lv l r) ->
  vof d i = Some e -> ents d (inord l) el -> del_res d d1 r r' f dp er' ->
  exists d2 d3 t', set_link d1 i true (rt r') = Ok d2 /\ rebal d2 i = Ok (d3, rt t') /\
    del_res d d3 (N i lv l r) t' f dp (el ++ e :: er').
Proof.
  intros R G ND A He Hel (R1 & PD & PM & EN & ZL & FR & (n & Gf & Lf)).
  destruct (nd_node _ _ _ _ ND) as (Nl & Nr & Il & Ir & Dis).
  pose proof R as (P & L & (o & Gi) & Rl & Rr).
  assert (Gi1 : aget d1 i = Ok (Some (mknode (rt l) (rt r) lv o))) by (rewrite FR; auto).
  destruct (set_link_ok d1 i true (rt r') _ Gi1) as (d2 & F2 & Gi2 & C2).
  assert (Sub : forall x, In x (inord r') -> In x (inord r)) by (intros x Hx; apply (Permutation_in _ PM); now right).
  assert (Fl : In f (inord r)) by (apply (Permutation_in _ PM); now left).
  assert (R2 : reps d2 (N i lv l r')).
  { cbn [reps]. split; [exact P|]. split; [exact L|]. split; [exists o; exact Gi2|]. split.
    - apply (reps_chg [i] d1 d2 l C2). { intros x Hx [<-|[]]. auto. }
      apply (reps_frame d d1 l); auto.
    - apply (reps_chg [i] d1 d2 r' C2); auto. intros x Hx [<-|[]]. auto. }
  assert (ND1 : NoDup (f :: inord r')) by (apply (Permutation_NoDup (Permutation_sym PM)); exact Nr).
  apply NoDup_cons_iff in ND1 as (Nf & Nr').
  assert (PM2 : Permutation (f :: inord (N i lv l r')) (inord (N i lv l r))).
  { cbn [inord]. rewrite <- PM. rewrite (Permutation_middle (inord l) (i :: inord r') f). apply Permutation_app_head. constructor. }
  assert (ND2 : NoDup (f :: inord (N i lv l r'))) by (apply (Permutation_NoDup (Permutation_sym PM2)); exact ND).
  apply NoDup_cons_iff in ND2 as (Nf2 & ND2).
  destruct (del_right _ _ _ _ _ A PD) as (PRE & PD').
  assert (G1 : good0 d1) by exact (good0_fr _ _ _ G Rr FR).
  assert (G2 : good0 d2). { unfold good0. rewrite (proj1 (proj2 C2)); [exact G1|]. intros [X|[]]. lia. }
  destruct (rebal_sim d2 _ R2 G2 ND2 PRE) as (d3 & F3 & R3 & C3). cbn [rt] in F3.
  exists d2, d3, (rebalT (N i lv l r')). split; [exact F2|]. split; [exact F3|].
  split; [exact R3|]. split; [exact PD'|]. rewrite inord_rebal. split; [exact PM2|].
  destruct C2 as (Z2 & X2 & V2). destruct C3 as (Z3 & X3 & V3).
  split; [|split; [lia|split]].
  - cbn [inord]. apply ents_mid. exists el, e, er'. split; [reflexivity|]. split; [|split].
    + apply (ents_ext d); auto. intros x Hx. rewrite V3, V2. apply vof_aget, FR. exact (Dis x Hx).
    + rewrite V3, V2. rewrite (vof_aget d d1); auto.
    + apply (ents_ext d1); auto. intros x _. now rewrite V3, V2.
  - intros x Hx. rewrite X3, X2, FR; auto.
    + intros Y. apply Hx. cbn [inord]. apply in_or_app; right; now right.
    + intros [<-|[]]. apply Hx. cbn [inord]. apply in_or_app; right; now left.
    + intros Y. apply Hx. apply (Permutation_in _ PM2). now right.
  - exists n. split; [|exact Lf]. rewrite X3, X2; auto. intros [<-|[]]. auto.
Qed.

Lemma set_val_ok d i e n : aget d i = Ok (Some n) ->
  exists d', set_val d i e = Ok d' /\ aget d' i = Ok (Some (with_val (Some e) n)) /\ zlen d' = zlen d /\
    (forall j, j <> i -> aget d' j = aget d j) /\ vof d' i = Some e.
Proof.
  intros H. unfold set_val, rd. rewrite H. cbn [bind]. unfold wr. pose proof (aget_ok_range _ _ _ H) as Hr.
  destruct (aset_some d i (Some (with_val (Some e) n)) Hr) as [d' E1]. exists d'. split; [exact E1|].
  pose proof (aget_aset_same _ _ _ _ E1) as E2. split; [exact E2|].
  split; [exact (aset_zlen _ _ _ _ E1)|]. split.
  - intros j Hj. apply (aget_aset_other _ _ _ _ _ E1). auto.
  - unfold vof. rewrite E2. reflexivity.
Qed.
Lemma reps_set_val d d' i lv l r e n : reps d (N i lv l r) -> NoDup (inord (N i lv l r)) -> aget d i = Ok (Some n) ->
  aget d' i = Ok (Some (with_val (Some e) n)) -> (forall j, j <> i -> aget d' j = aget d j) -> reps d' (N i lv l r).
Proof.
  intros (P & L & (o & Gi) & Rl & Rr) ND Hn Hn' F. destruct (nd_node _ _ _ _ ND) as (Nl & Nr & Il & Ir & Dis).
  cbn [reps]. split; [exact P|]. split; [exact L|]. rewrite Gi in Hn. injection Hn as <-. split; [eexists; exact Hn'|].
  split; [apply (reps_frame d d' l); auto|apply (reps_frame d d' r); auto]; intros x Hx; apply F; intros ->; auto.
Qed.

Lemma erase_ok fuel : forall t d dp k er es, reps d t -> good0 d -> NoDup (inord t) -> aa t -> ents d (inord t) es ->
  increasing cmp es -> height t < Z.of_nat fuel -> height t <= zlen d -> 0 <= er ->
  match lookup cmp k es with
  | None => erase_r cmp fuel d dp (rt t) k er = Ok (d, dp, rt t, er, [])
  | Some e => exists d' t' f er', erase_r cmp fuel d dp (rt t) k er = Ok (d', f, rt t', er', if er =? 0 then value_drop e else []) /\
      er < er' /\ del_res d d' t t' f dp (remove cmp k es)
  end.
Proof.
  induction fuel as [|fuel IH]; intros t d dp k er es R G ND A EN INC Hf Hz Her; [pose proof (height_nonneg t); lia|].
  cbn [erase_r]. destruct t as [|i lv l r].
  { cbn [inord] in EN. destruct es; [|discriminate]. reflexivity. }
  destruct (reps_rd _ _ _ _ _ R) as (o & Erd & Gi). pose proof R as (P & L & _ & Rl & Rr). pose proof A as (_ & _ & _ & Al & Ar).
  destruct (nd_node _ _ _ _ ND) as (Nl & Nr & Il & Ir & Dis).
  pose proof EN as EN0. cbn [inord] in EN. apply ents_mid in EN as (el & e & er0 & -> & Hl & He & Hr).
  pose proof INC as INC'. apply inc_mid in INC' as (Incl & Incr & _).
  cbn [height] in Hf, Hz. pose proof (height_nonneg l). pose proof (height_nonneg r).
  cbn [rt]. destruct (Z.eqb_spec i 0); [lia|]. rewrite Erd. cbn [bind]. rewrite (get_val_ok _ _ _ He). cbn [bind].
  destruct (Z.eqb_spec (cmp (fst e) k) 0) as [C0|C0]; cbn [negb].
  - (* found here *)
    rewrite (lookup_m cmp CO) by auto. rewrite (remove_m cmp CO) by auto. cbn [lk0 lk1].
    assert (Hlz : (rt l =? 0) = match l with E => true | _ => false end).
    { destruct l; [reflexivity|]. destruct Rl as (? & _). cbn. lia. }
    assert (Hrz : (rt r =? 0) = match r with E => true | _ => false end).
    { destruct r; [reflexivity|]. destruct Rr as (? & _). cbn. lia. }
    destruct (negb (rt l =? 0) && negb (rt r =? 0)) eqn:Both.
    + assert (HlE : l <> E) by (intros ->; discriminate).
      destruct (go_right_ok d (length d) l el Rl HlE Hl) as (x & v & el0 & Fx & Hx & Hxi & ->); [unfold zlen in Hz; lia|].
      rewrite Fx. cbn [bind]. rewrite (get_val_ok _ _ _ Hx). cbn [bind].
      destruct (set_val_ok d i v _ Gi) as (d1 & F1 & Gi1 & Z1 & X1 & V1). rewrite F1. cbn [bind].
      assert (R1 : reps d1 (N i lv l r)) by (apply (reps_set_val d d1 i lv l r v _ R ND Gi Gi1 X1)).
      assert (G1 : good0 d1) by (unfold good0; rewrite X1 by lia; exact G).
      assert (Hl1 : ents d1 (inord l) (el0 ++ [v])).
      { apply (ents_ext d); auto. intros y Hy. apply vof_aget, X1. intros ->. auto. }
      assert (Hr1 : ents d1 (inord r) er0).
      { apply (ents_ext d); auto. intros y Hy. apply vof_aget, X1. intros ->. auto. }
      pose proof (IH l d1 dp (fst v) (er + 1) _ (proj1 (proj2 (proj2 (proj2 R1)))) G1 Nl Al Hl1 Incl ltac:(lia) ltac:(lia) ltac:(lia)) as IHl.
      rewrite (lookup_m cmp CO) in IHl by (auto using (co_refl _ CO)).
      rewrite (remove_m cmp CO) in IHl by (auto using (co_refl _ CO)). rewrite app_nil_r in IHl.
      destruct IHl as (d2 & l' & f & er' & F2 & Her' & DR). rewrite F2. cbn [bind].
      destruct (fin_left d1 d2 i lv l r l' f dp v el0 er0 R1 G1 ND A V1 Hr1 DR) as (d3 & d4 & t' & F3 & F4 & DR').
      rewrite F3. cbn [bind]. rewrite F4. cbn [bind fst snd].
      exists d4, t', f, er'. destruct (Z.eqb_spec (er + 1) 0); [lia|]. rewrite app_nil_r. split; [reflexivity|]. split; [lia|].
      destruct DR' as (Q1 & Q2 & Q3 & Q4 & Q5 & Q6 & Q7). split; [exact Q1|]. split; [exact Q2|]. split; [exact Q3|].
      split; [rewrite <- app_assoc; exact Q4|]. split; [lia|]. split; [|exact Q7].
      intros y Hy. rewrite Q6 by exact Hy. apply X1. intros ->. apply Hy. cbn [inord]. apply in_or_app; right; now left.
    + assert (Hor : l = E \/ r = E). { rewrite Hlz, Hrz in Both. destruct l; [auto|]. destruct r; [auto|discriminate]. }
      destruct (set_link_ok d i true dp _ Gi) as (d1 & F1 & Gi1 & (Z1 & X1 & V1)). rewrite F1. cbn [bind].
      set (t' := match l with E => r | _ => l end).
      assert (Ht' : (if rt l =? 0 then rt r else rt l) = rt t') by (rewrite Hlz; unfold t'; destruct l; reflexivity).
      rewrite Ht'. destruct (del_unlink i lv l r A Hor) as (At' & PD). fold t' in At', PD.
      assert (Hin : inord l ++ inord r = inord t'). { unfold t'. destruct Hor as [->| ->]; [reflexivity|]. cbn [inord]. rewrite app_nil_r. destruct l; reflexivity. }
      assert (R1 : reps d1 t').
      { assert (W : reps d t') by (unfold t'; destruct l; auto). apply (reps_frame d d1 t'); auto.
        intros y Hy. apply X1. intros [<-|[]]. rewrite <- Hin in Hy. apply in_app_or in Hy. tauto. }
      assert (G1 : good0 d1) by (unfold good0; rewrite X1; [exact G|intros [X|[]]; lia]).
      rewrite (rebal_noop _ _ R1 G1 At'). cbn [bind fst snd].
      exists d1, t', i, (er + 1). split; [reflexivity|]. split; [lia|]. split; [exact R1|]. split; [exact PD|].
      split; [rewrite <- Hin; cbn [inord]; apply Permutation_middle|].
      split; [rewrite <- Hin; apply ents_app; exists el, er0; split; [reflexivity|]; split; eapply ents_ext; eauto|].
      split; [exact Z1|]. split.
      * intros y Hy. apply X1. intros [<-|[]]. apply Hy. cbn [inord]. apply in_or_app; right; now left.
      * eexists. split; [exact Gi1|]. reflexivity.
  - destruct (Z.ltb_spec (cmp (fst e) k) 0) as [C1|C1].
    + cbn [link lk1]. rewrite (lookup_r cmp CO) by auto. rewrite (remove_r cmp CO) by auto.
      pose proof (IH r d dp k er _ Rr G Nr Ar Hr Incr ltac:(lia) ltac:(lia) Her) as IHr. destruct (lookup cmp k er0) as [e'|].
      * destruct IHr as (d2 & r' & f & er' & F2 & Her' & DR). rewrite F2. cbn [bind].
        destruct (fin_right d d2 i lv l r r' f dp e el _ R G ND A He Hl DR) as (d3 & d4 & t' & F3 & F4 & DR').
        rewrite F3. cbn [bind]. rewrite F4. cbn [bind fst snd]. exists d4, t', f, er'. auto.
      * rewrite IHr. cbn [bind]. pose proof (set_link_id d i true _ Gi) as F3. cbn [link lk1] in F3. rewrite F3. cbn [bind].
        pose proof (rebal_noop d _ R G A) as F4. cbn [rt] in F4. rewrite F4. reflexivity.
    + cbn [link lk0]. rewrite (lookup_l cmp CO) by (auto; lia). rewrite (remove_l cmp CO) by (auto; lia).
      pose proof (IH l d dp k er _ Rl G Nl Al Hl Incl ltac:(lia) ltac:(lia) Her) as IHl. destruct (lookup cmp k el) as [e'|].
      * destruct IHl as (d2 & l' & f & er' & F2 & Her' & DR). rewrite F2. cbn [bind].
        destruct (fin_left d d2 i lv l r l' f dp e _ er0 R G ND A He Hr DR) as (d3 & d4 & t' & F3 & F4 & DR').
        rewrite F3. cbn [bind]. rewrite F4. cbn [bind fst snd]. exists d4, t', f, er'. auto.
      * rewrite IHl. cbn [bind]. pose proof (set_link_id d i false _ Gi) as F3. cbn [link lk0] in F3. rewrite F3. cbn [bind].
        pose proof (rebal_noop d _ R G A) as F4. cbn [rt] in F4. rewrite F4. reflexivity.
Qed.
End Erase.
