(** Histories of arcs. *)
From Verif Require Import Base Arc_Model Arc_Spec Arc_Proofs.
From Coq Require Import Permutation.

Section Run.
Variables w OFFSET REP VAL EXTRA : Z.
Hypothesis Hw : 0 < w.
Hypothesis Hlay : layout OFFSET REP VAL.
Hypothesis Hext : 0 < EXTRA.
Notation inv := (inv w OFFSET REP VAL EXTRA).
Notation step := (step w OFFSET REP VAL EXTRA).
Definition Inv (g : state) : Prop := exists cs rp, inv (blocks g) (ctr g) (obj g) (made g) (gone g) (handles g) (clients g) (unfinished g) cs rp.
(** the handles, client objects and unfinished drops of the threads other than one *)
Record ctx := mkctx { ch : list handle; cr : list Z; cp : list (handle * stage) }.
Definition Holds bs ct ob md gn (x : ctx) (t : thread) : Prop :=
  exists cs rp, inv bs ct ob md gn (hs t ++ ch x) (raws t ++ cr x) (pend t ++ cp x) cs rp.
Lemma flat_mid {B C} (f : B -> list C) a t b : Permutation (flat_map f (a ++ t :: b)) (f t ++ flat_map f (a ++ b)).
Proof. rewrite !flat_map_app. cbn. rewrite !app_assoc. apply Permutation_app_tail. apply Permutation_app_comm. Qed.
Lemma focus g i t : Inv g -> aget (thr g) i = Ok t -> exists x, Holds (blocks g) (ctr g) (obj g) (made g) (gone g) x t /\ zlen (handles g) = zlen (hs t) + zlen (ch x) /\
  (forall bs ct ob md gn t', Holds bs ct ob md gn x t' -> exists g', with_thr (mks bs ct ob md gn (thr g)) i t' = Ok g' /\ Inv g').
Proof.
  intros (cs & rp & I) Ht. destruct (thr_split (thr g) i t t Ht) as (a & b & E & _). exists (mkctx (flat_map hs (a ++ b)) (flat_map raws (a ++ b)) (flat_map pend (a ++ b))). split; [|split].
  - exists cs, rp. cbn. eapply inv_perm; eauto; unfold handles, clients, unfinished; rewrite ?E; auto using flat_mid.
  - cbn. unfold handles. rewrite E. unfold zlen. rewrite (Permutation_length (flat_mid hs a t b)), app_length. lia.
  - intros bs ct ob md gn t' (cs' & rp' & I'). destruct (thr_split (thr g) i t t' Ht) as (a' & b' & E' & S'). unfold with_thr. cbn [thr]. rewrite S'. cbn [bind]. eexists. split; [reflexivity|].
    exists cs', rp'. unfold handles, clients, unfinished. cbn. cbn in I'. assert (X : forall {C} (f : thread -> list C), Permutation (f t' ++ flat_map f (a ++ b)) (flat_map f (a' ++ t' :: b'))).
    { intros C f. rewrite (flat_mid f a' t' b'). apply Permutation_app_head. rewrite E' in E. clear - E. 
      apply Permutation_app_inv_l with (l := f t). rewrite <- !flat_mid. now rewrite E. }
    eapply inv_perm; eauto.
Qed.
Lemma cellof bs ct ob md gn H R P cs rp h H' : inv bs ct ob md gn H R P cs rp -> Permutation H (h :: H') -> uc h <> 0 ->
  exists c cs', Permutation cs (c :: cs') /\ cph c = None /\ hd c = h.
Proof.
  intros I HP Hu. destruct (i_hs _ _ _ _ _ _ _ _ _ _ _ _ _ _ _ I h) as [X|(c & Hc & E1 & E2)]; [eapply Permutation_in; [symmetry; exact HP|now left]|congruence|]. apply in_split in Hc as (l1 & l2 & ->). exists c, (l1 ++ l2). split; [symmetry; apply Permutation_middle|auto].
Qed.
Lemma count_le h l : count h l <= zlen l.
Proof. unfold count, zlen. pose proof (count_occ_bound handle_dec h l). lia. Qed.
Ltac lay := destruct Hlay as (L1 & L2 & L3).

Lemma step_ok g i o r : Inv g -> zlen (handles g) <= 2 ^ w -> step g i o = Some r -> exists g', r = Ok g' /\ Inv g'.
Proof.
  intros HI HB. lay. unfold Arc_Model.step. destruct (aget (thr g) i) as [t|] eqn:Et; [|discriminate]. destruct (focus g i t HI Et) as (x & (cs & rp & I) & HZ & W). 
  assert (W0 : forall t', Holds (blocks g) (ctr g) (obj g) (made g) (gone g) x t' -> exists g', with_thr g i t' = Ok g' /\ Inv g') by (intros t' Ht'; destruct (W _ _ _ _ _ _ Ht') as (g' & E & I'); exists g'; split; [unfold with_thr in *; exact E|exact I']).
  destruct o as [|p|a|k a|k|k|k|k|k j].
  - intros [= <-]. destruct (W0 (mkt (null :: hs t) (raws t) (pend t))) as (g' & E & I'); [|eauto]. exists cs, rp. cbn. apply L_null; auto.
  - destruct (place (blocks g) p VAL) eqn:EP; [|discriminate]. intros [= <-]. destruct (W ((p, VAL) :: blocks g) (ctr g) (setf (obj g) p (Some (made g))) (made g + 1) (gone g) (mkt (hs t) (p :: raws t) (pend t))) as (g' & E & I'); [|eauto].
    exists cs, ((p, made g) :: rp). cbn. apply L_alloc; auto.
  - destruct (place (blocks g) a REP) eqn:EP; [|discriminate]. intros [= <-].
    destruct (W ((a, REP) :: blocks g) (setf (ctr g) a (Some 1)) (setf (obj g) (a + OFFSET) (Some (made g))) (made g + 1) (gone g) (mkt (mkh (a + OFFSET) a :: hs t) (raws t) (pend t))) as (g' & E & I'); [|eauto].
    eexists _, rp. cbn. apply L_make; eauto.
  - destruct (pick k (raws t)) as [[p rs]|] eqn:Ek; [|discriminate]. destruct (place (blocks g) a (OFFSET + EXTRA)) eqn:EP; [|discriminate]. intros [= <-]. apply pick_perm in Ek.
    assert (HR : Permutation (raws t ++ cr x) (p :: rs ++ cr x)) by (rewrite Ek; reflexivity).
    assert (Hin : In p (map fst rp)) by (eapply Permutation_in; [rewrite <- (i_raws _ _ _ _ _ _ _ _ _ _ _ _ _ _ _ I); symmetry; exact HR|now left]). apply in_map_iff in Hin as ([p' id] & Ep & Hp). cbn in Ep. subst p'. apply in_split in Hp as (r1 & r2 & ->).
    assert (I2 : inv (blocks g) (ctr g) (obj g) (made g) (gone g) (hs t ++ ch x) (p :: rs ++ cr x) (pend t ++ cp x) cs ((p, id) :: r1 ++ r2)) by (eapply inv_perm; eauto; symmetry; apply Permutation_middle).
    destruct (W ((a, OFFSET + EXTRA) :: blocks g) (setf (ctr g) a (Some 1)) (obj g) (made g) (gone g) (mkt (mkh p a :: hs t) rs (pend t))) as (g' & E & I'); [|eauto].
    eexists _, (r1 ++ r2). cbn. apply L_from; eauto.
  - destruct (pick k (hs t)) as [[h rest]|] eqn:Ek; [|discriminate]. apply pick_perm in Ek. destruct (Z.eqb_spec (uc h) 0) as [U|U].
    + intros [= <-]. destruct (W0 (mkt (h :: hs t) (raws t) (pend t))) as (g' & E & I'); [|eauto]. exists cs, rp. cbn. apply L_null; auto.
    + intros [= <-]. assert (HH : Permutation (hs t ++ ch x) (h :: rest ++ ch x)) by (rewrite Ek; reflexivity). destruct (cellof _ _ _ _ _ _ _ _ _ _ _ _ I HH U) as (c & cs' & Pc & Ec & Eh).
      assert (I2 : inv (blocks g) (ctr g) (obj g) (made g) (gone g) (hs t ++ ch x) (raws t ++ cr x) (pend t ++ cp x) (c :: cs') rp) by (eapply inv_perm; eauto).
      destruct (L_load w OFFSET REP VAL EXTRA L1 L2 L3 Hext _ _ _ _ _ _ _ _ _ _ _ I2 Ec) as (X1 & X2 & X3 & _). pose proof (L_clone w OFFSET REP VAL EXTRA Hw L1 L2 L3 Hext _ _ _ _ _ _ _ _ _ _ _ I2 Ec) as I3. subst h.
      unfold load. cbn [uc hd]. rewrite X1, X3. cbn [bind]. match goal with |- exists g', with_thr (mks ?a ?b ?c ?d ?e _) _ ?tt = _ /\ _ => destruct (W a b c d e tt) as (g' & E & I'); [|eauto] end. exists (c :: cs'), rp. cbn. exact I3.
  - destruct (pick k (hs t)) as [[h rest]|] eqn:Ek; [|discriminate]. apply pick_perm in Ek. intros [= <-]. destruct (W0 (mkt (h :: null :: rest) (raws t) (pend t))) as (g' & E & I'); [|eauto]. exists cs, rp. cbn.
    eapply inv_perm; [exact (proj1 (L_null w OFFSET REP VAL EXTRA L1 L2 L3 Hext _ _ _ _ _ _ _ _ _ _ null eq_refl) I)|..]; try reflexivity. rewrite Ek. cbn. apply perm_swap.
  - destruct (pick k (hs t)) as [[h rest]|] eqn:Ek; [|discriminate]. apply pick_perm in Ek. assert (HH : Permutation (hs t ++ ch x) (h :: rest ++ ch x)) by (rewrite Ek; reflexivity). destruct (Z.eqb_spec (uc h) 0) as [U|U].
    + intros [= <-]. destruct (W0 (mkt rest (raws t) (pend t))) as (g' & E & I'); [|eauto]. exists cs, rp. cbn. refine (proj2 (L_null w OFFSET REP VAL EXTRA L1 L2 L3 Hext _ _ _ _ _ _ _ _ _ _ h U) _). eapply inv_perm; eauto.
    + intros [= <-]. destruct (cellof _ _ _ _ _ _ _ _ _ _ _ _ I HH U) as (c & cs' & Pc & Ec & Eh). subst h.
      assert (I2 : inv (blocks g) (ctr g) (obj g) (made g) (gone g) (hd c :: rest ++ ch x) (raws t ++ cr x) (pend t ++ cp x) (c :: cs') rp) by (eapply inv_perm; eauto).
      destruct (L_load w OFFSET REP VAL EXTRA L1 L2 L3 Hext _ _ _ _ _ _ _ _ _ _ _ I2 Ec) as (X1 & X2 & X3 & _).
      assert (Hle : count (hd c) (hd c :: rest ++ ch x) <= 2 ^ w). { eapply Z.le_trans; [apply count_le|]. eapply Z.le_trans; [|exact HB]. rewrite HZ. unfold zlen. apply Permutation_length in HH. rewrite <- HH, app_length. lia. }
      pose proof (L_drop w OFFSET REP VAL EXTRA Hw L1 L2 L3 Hext _ _ _ _ _ _ _ _ _ _ _ I2 Ec Hle) as I3. cbv zeta in I3.
      unfold load. cbn [uc hd]. cbn [uc hd] in X3. rewrite X1, X3. cbn [bind]. 
      match goal with |- exists g', with_thr (mks ?a ?b ?c ?d ?e _) _ ?tt = _ /\ _ => destruct (W a b c d e tt) as (g' & E & I'); [|eauto] end.
      destruct (wrap w (wrap w (count (hd c) (hd c :: rest ++ ch x)) - 1) =? 0); eexists _, rp; cbn; exact I3.
  - destruct (pick k (pend t)) as [[[h s] rest]|] eqn:Ek; [|discriminate]. apply pick_perm in Ek. assert (HP : Permutation (pend t ++ cp x) ((h, s) :: rest ++ cp x)) by (rewrite Ek; reflexivity).
    destruct (pend_cell cs h s (rest ++ cp x)) as (c & cs' & Pc & Eh & Ec); [rewrite <- HP; apply (i_pend _ _ _ _ _ _ _ _ _ _ _ _ _ _ _ I)|]. subst h.
    assert (I2 : inv (blocks g) (ctr g) (obj g) (made g) (gone g) (hs t ++ ch x) (raws t ++ cr x) ((hd c, s) :: rest ++ cp x) (c :: cs') rp) by (eapply inv_perm; eauto).
    destruct s; intros [= <-].
    + destruct (L_destroy w OFFSET REP VAL EXTRA L1 L2 L3 Hext _ _ _ _ _ _ _ _ _ _ _ I2 Ec) as (X1 & X2 & I3). cbn [get hd]. rewrite X1, X2.
      match goal with |- exists g', with_thr (mks ?a ?b ?c ?d ?e _) _ ?tt = _ /\ _ => destruct (W a b c d e tt) as (g' & E & I'); [|eauto] end. eexists _, rp. cbn. exact I3.
    + pose proof (L_free w OFFSET REP VAL EXTRA L1 L2 Hext _ _ _ _ _ _ _ _ _ _ _ I2 Ec) as I3. cbn [get uc hd]. destruct (cu c + OFFSET =? cg c); destruct I3 as (bs' & -> & I3); cbn [bind];
      (match goal with |- exists g', with_thr (mks ?a ?b ?c ?d ?e _) _ ?tt = _ /\ _ => destruct (W a b c d e tt) as (g' & E & I'); [|eauto] end); eexists _, rp; cbn; exact I3.
    + destruct (L_free2 w OFFSET REP VAL EXTRA _ _ _ _ _ _ _ _ _ _ _ I2 Ec) as (bs' & E & I3). cbn [get hd]. rewrite E. cbn [bind].
      match goal with |- exists g', with_thr (mks ?a ?b ?c ?d ?e _) _ ?tt = _ /\ _ => destruct (W a b c d e tt) as (g' & E' & I'); [|eauto] end. eexists _, rp. cbn. exact I3.
  - destruct (pick k (hs t)) as [[h rest]|] eqn:Ek; [|discriminate]. apply pick_perm in Ek. unfold with_thr at 1.
    destruct (thr_split (thr g) i t (mkt rest (raws t) (pend t)) Et) as (a & b & Ea & Sa). rewrite Sa. cbn [bind thr]. destruct (aget (a ++ mkt rest (raws t) (pend t) :: b) j) as [t2|] eqn:E2; [|discriminate]. intros [= <-].
    destruct (thr_split _ j t2 (mkt (h :: hs t2) (raws t2) (pend t2)) E2) as (a2 & b2 & Ea2 & Sa2). unfold with_thr. cbn [thr]. rewrite Sa2. cbn [bind]. eexists. split; [reflexivity|].
    destruct HI as (cs0 & rp0 & I0). exists cs0, rp0. unfold handles, clients, unfinished in *. cbn [blocks ctr obj made gone thr]. eapply inv_perm with (1 := I0); try reflexivity; rewrite Ea.
    + rewrite (flat_mid hs a2). cbn [hs app]. rewrite <- (flat_mid hs a2 t2 b2), <- Ea2, (flat_mid hs a), (flat_mid hs a). cbn [hs]. rewrite Ek. reflexivity.
    + rewrite (flat_mid raws a2). cbn [raws]. rewrite <- (flat_mid raws a2 t2 b2), <- Ea2, (flat_mid raws a), (flat_mid raws a). reflexivity.
    + rewrite (flat_mid pend a2). cbn [pend]. rewrite <- (flat_mid pend a2 t2 b2), <- Ea2, (flat_mid pend a), (flat_mid pend a). reflexivity.
Qed.
Lemma Inv_start n : Inv (start n).
Proof.
  assert (F : forall {C} (f : thread -> list C), f (mkt [] [] []) = [] -> flat_map f (repeat (mkt [] [] []) n) = []) by (intros C f H; induction n; cbn; [reflexivity|]; now rewrite H, IHn).
  exists [], []. unfold handles, clients, unfinished, start. cbn [blocks ctr obj made gone thr]. rewrite !F by reflexivity. constructor; cbn; auto; try reflexivity. intros h [].
Qed.
Lemma run_ok : forall l g r, Inv g -> bounded w OFFSET REP VAL EXTRA (2 ^ w) g l -> run w OFFSET REP VAL EXTRA g l = Some r -> exists g', r = Ok g' /\ Inv g'.
Proof.
  induction l as [|[i o] l IH]; intros g r HI HB; cbn [run].
  - intros [= <-]. eauto.
  - destruct HB as [HB1 HB2]. destruct (step g i o) as [[g1|e]|] eqn:E; [| |discriminate].
    + intros HR. destruct (step_ok g i o _ HI HB1 E) as (g' & [= <-] & I'). eapply IH; eauto.
    + destruct (step_ok g i o _ HI HB1 E) as (g' & X & _). discriminate X.
Qed.
Lemma owners_count h l : owners h l = count h l.
Proof.
  induction l as [|x l IH]; [reflexivity|]. cbn [owners]. rewrite count_cons, IH. f_equal. destruct x as [gx ux], h as [gh uh]. cbn [get uc]. destruct (handle_dec _ _) as [X|X], (Z.eqb_spec gx gh), (Z.eqb_spec ux uh); cbn [andb]; congruence.
Qed.
Lemma Inv_owner g h : Inv g -> zlen (handles g) < 2 ^ w -> In h (handles g) -> uc h <> 0 ->
  use_count g h = Ok (owners h (handles g)) /\ inside (blocks g) (get h) = true /\ exists id, obj g (get h) = Some id /\ 0 <= id < made g /\ ~ In id (gone g).
Proof.
  intros (cs & rp & I) HB Hh HU. lay. destruct (i_hs _ _ _ _ _ _ _ _ _ _ _ _ _ _ _ I h Hh) as [X|(c & Hc & E1 & <-)]; [congruence|]. apply in_split in Hc as (l1 & l2 & ->).
  assert (I2 : inv (blocks g) (ctr g) (obj g) (made g) (gone g) (handles g) (clients g) (unfinished g) (c :: l1 ++ l2) rp) by (eapply inv_perm; eauto; symmetry; apply Permutation_middle).
  destruct (L_load w OFFSET REP VAL EXTRA L1 L2 L3 Hext _ _ _ _ _ _ _ _ _ _ _ I2 E1) as (X1 & X2 & X3 & X4 & X5 & X6). unfold use_count, load. cbn [uc get hd] in *. destruct (Z.eqb_spec (cu c) 0); [lia|]. rewrite X1, X3. split; [|split; [exact X2|]].
  - f_equal. rewrite owners_count. change (mkh (cg c) (cu c)) with (hd c). unfold wrap. apply Z.mod_small. pose proof (count_le (hd c) (handles g)). unfold count in *. lia.
  - exists (cid c). split; [exact X4|]. split; [|exact X5]. apply upto_In. eapply Permutation_in; [apply (i_ids _ _ _ _ _ _ _ _ _ _ _ _ _ _ _ I2)|]. cbn. unfold id_of at 1. rewrite E1. now left.
Qed.
Lemma Inv_ids g : Inv g -> NoDup (gone g) /\ (forall id, In id (gone g) -> 0 <= id < made g) /\
  (forall id, 0 <= id < made g -> In id (gone g) \/ exists p, obj g p = Some id /\ ((exists h, In h (handles g) /\ uc h <> 0 /\ get h = p) \/ (exists h, In (h, SDestroy) (unfinished g) /\ get h = p) \/ In p (clients g))).
Proof.
  intros (cs & rp & I). lay. pose proof (i_ids _ _ _ _ _ _ _ _ _ _ _ _ _ _ _ I) as D. split; [|split].
  - assert (ND : NoDup (flat_map id_of cs ++ map snd rp ++ gone g)) by (eapply Permutation_NoDup; [symmetry; exact D|apply upto_NoDup]). clear - ND. revert ND. generalize (flat_map id_of cs) as l, (map snd rp) as m. intros l m. rewrite app_assoc. induction (l ++ m); cbn; [auto|]. intros H. inversion H; auto.
  - intros id Hid. apply upto_In. eapply Permutation_in; [exact D|]. apply in_or_app. right. apply in_or_app. now right.
  - intros id Hid. apply upto_In in Hid. assert (Hin : In id (flat_map id_of cs ++ map snd rp ++ gone g)) by (eapply Permutation_in; [symmetry; exact D|exact Hid]). apply in_app_or in Hin as [Hin|Hin]; [|apply in_app_or in Hin as [Hin|Hin]; [|now left]]; right.
    + apply in_flat_map in Hin as (c & Hc & Hi). pose proof (i_cells _ _ _ _ _ _ _ _ _ _ _ _ _ _ _ I) as J. rewrite Forall_forall in J. destruct (J c Hc) as (K1 & K2 & K3). unfold id_of in Hi. exists (cg c). destruct (cph c) as [[]|] eqn:E; try destruct Hi as [<-|[]]; try destruct Hi; (split; [exact K2|]).
      * right. left. exists (hd c). split; [|reflexivity]. eapply Permutation_in; [symmetry; apply (i_pend _ _ _ _ _ _ _ _ _ _ _ _ _ _ _ I)|]. apply in_flat_map. exists c. split; [exact Hc|]. unfold pend_of. rewrite E. now left.
      * left. exists (hd c). split; [|split; [|reflexivity]].
        -- destruct K3 as [K3 _]. unfold count in K3. apply (count_occ_In handle_dec). lia.
        -- apply in_split in Hc as (l1 & l2 & ->). assert (I2 : inv (blocks g) (ctr g) (obj g) (made g) (gone g) (handles g) (clients g) (unfinished g) (c :: l1 ++ l2) rp) by (eapply inv_perm; eauto; symmetry; apply Permutation_middle).
           destruct (L_load w OFFSET REP VAL EXTRA L1 L2 L3 Hext _ _ _ _ _ _ _ _ _ _ _ I2 E) as (_ & _ & _ & _ & _ & X). cbn. lia.
    + apply in_map_iff in Hin as ([p id'] & <- & Hr). pose proof (i_raw _ _ _ _ _ _ _ _ _ _ _ _ _ _ _ I) as J. rewrite Forall_forall in J. exists p. split; [apply (J _ Hr)|]. right. right. eapply Permutation_in; [symmetry; apply (i_raws _ _ _ _ _ _ _ _ _ _ _ _ _ _ _ I)|]. apply in_map_iff. now exists (p, id').
Qed.
Lemma Inv_end g : Inv g -> (forall h, In h (handles g) -> uc h = 0) -> unfinished g = [] -> clients g = [] -> blocks g = [] /\ Permutation (gone g) (upto (made g)).
Proof.
  intros (cs & rp & I) HH HU HC. lay. assert (Hcs : cs = []).
  { destruct cs as [|c cs]; [reflexivity|exfalso]. destruct (cph c) as [s|] eqn:E.
    - pose proof (i_pend _ _ _ _ _ _ _ _ _ _ _ _ _ _ _ I) as X. rewrite HU in X. cbn in X. unfold pend_of in X at 1. rewrite E in X. apply Permutation_nil in X. discriminate.
    - destruct (L_load w OFFSET REP VAL EXTRA L1 L2 L3 Hext _ _ _ _ _ _ _ _ _ _ _ I E) as (_ & _ & _ & _ & _ & X). pose proof (i_cells _ _ _ _ _ _ _ _ _ _ _ _ _ _ _ I) as J. inversion J as [|? ? (_ & _ & K3) _]; subst. rewrite E in K3. destruct K3 as [K3 _]. unfold count in K3.
      assert (HI : In (hd c) (handles g)) by (apply (count_occ_In handle_dec); lia). apply HH in HI. cbn in HI. lia. }
  assert (Hrp : rp = []) by (pose proof (i_raws _ _ _ _ _ _ _ _ _ _ _ _ _ _ _ I) as X; rewrite HC in X; apply Permutation_nil in X; destruct rp; [reflexivity|discriminate]). subst. split.
  - pose proof (i_blocks _ _ _ _ _ _ _ _ _ _ _ _ _ _ _ I) as X. cbn in X. symmetry in X. now apply Permutation_nil in X.
  - apply (i_ids _ _ _ _ _ _ _ _ _ _ _ _ _ _ _ I).
Qed.
End Run.
