(** Every call the sequences allow runs and keeps the correspondence. *)
From Coq Require Import Permutation.
From Verif Require Import Base List_Model List_Spec List_Proofs List_Proofs2 Lown_Model Lown_Spec Lown_Proofs Lown_Proofs2.

Section Steps.
Context {A : Type}.
Variable eqb : A -> A -> bool.
Variable keyclone : A -> A.
Notation elem := (@elem A).
Notation state := (@state A).
Notation astate := (@astate A).
Implicit Types (f : Z -> list (Z * elem)) (h : heap elem) (s : state) (a : astate).

Lemma drop_ok s last cs : lst (hp s) last cs ->
  exists h', drop_at s last = Ok (destroyed (with_heap s h') (map snd cs)) /\ heap_ok h' /\ only (hp s) (addrs cs) h' [].
Proof. intros H. destruct (drop_spec (hp s) last cs H) as (h' & E & Ho & Hon). exists h'. unfold drop_at. rewrite E. auto. Qed.
Lemma set_ok s i v : 0 <= i < zlen (vars s) -> exists vs', aset (vars s) i v = Ok vs' /\ set s i v = Ok (mks (hp s) vs' (mine s) (nodes s) (made s) (gone s)).
Proof. intros Hi. destruct (aset_some (vars s) i v Hi) as [vs' E]. exists vs'. unfold set. rewrite E. auto. Qed.
Lemma circ_nil h : circular h 0 [].
Proof. split; [constructor|]. split; [exact I|reflexivity]. Qed.
Lemma disj s a f i j p : sim s a f -> i <> j -> In p (addrs (f i)) -> ~ In p (addrs (f j)).
Proof. intros S. apply (s_mem _ _ _ S). Qed.
Lemma part_live s a f i p : sim s a f -> In p (addrs (f i)) -> live (hp s) p.
Proof. intros S. apply (s_mem _ _ _ S). Qed.
Lemma part_nodup s a f i : sim s a f -> NoDup (addrs (f i)).
Proof. intros S. apply (s_mem _ _ _ S). Qed.
Lemma sim_twol s a f i j l1 l2 c1 c2 : sim s a f -> i <> j -> lst (hp s) l1 (f i) -> lst (hp s) l2 (f j) -> f i = c1 -> f j = c2 -> two (hp s) l1 c1 l2 c2.
Proof.
  intros S Hij (H1 & H2) (_ & H3) <- <-. split; [exact H1|]. split; [exact H2|]. split; [exact H3|].
  apply nodup_app_intro; [eapply part_nodup; eauto|eapply part_nodup; eauto|]. intros p. now apply (disj s a f).
Qed.

(** two variables set one after the other *)
Lemma set2_get {X} (l : list X) i vi j vj l1 l2 : aset l i vi = Ok l1 -> aset l1 j vj = Ok l2 -> i <> j ->
  zlen l2 = zlen l /\ aget l2 i = Ok vi /\ aget l2 j = Ok vj /\ (forall k, k <> i -> k <> j -> aget l2 k = aget l k).
Proof.
  intros E1 E2 Hij. split; [rewrite (aset_zlen _ _ _ _ E2); eapply aset_zlen; eauto|]. split; [|split].
  - rewrite (aget_aset_other _ _ _ _ i E2 Hij). eapply aget_aset_same; eauto.
  - eapply aget_aset_same; eauto.
  - intros k H1 H2. rewrite (aget_aset_other _ _ _ _ k E2 H2). eapply aget_aset_other; eauto.
Qed.

(** [j] becomes [cj] and [i] becomes [ci] in the specification, which sets [j] first *)
Lemma two_ok s a f i j h' vi ci oi vj cj oj x b a' vs1 vs' : sim s a f -> i <> j -> 0 <= i < zlen (vars s) -> 0 <= j < zlen (vars s) ->
  (aset (vars s) i vi = Ok vs1 /\ aset vs1 j vj = Ok vs' \/ aset (vars s) j vj = Ok vs1 /\ aset vs1 i vi = Ok vs') ->
  achange a j oj (amine a) (anodes a) 0 [] = Some b -> achange b i oi (amine b) (anodes b) 0 x = Some a' ->
  heap_ok h' -> only (hp s) (addrs (f i) ++ addrs (f j)) h' (addrs ci ++ addrs cj) -> NoDup (addrs ci ++ addrs cj) -> vrel h' vi ci oi -> vrel h' vj cj oj ->
  sim (mks h' vs' (mine s) (nodes s) (made s) (gone s ++ map fst x)) a' (fupd (fupd f i ci) j cj).
Proof.
  intros S Hij Hi Hj Hvs Eb Ea Ho Hon Hnd Ri Rj. apply achange_inv in Eb as (q1 & Q1 & ->). apply achange_inv in Ea as (q2 & Q2 & ->).
  cbn [aseqs amine anodes amade agone] in *. assert (Hji : j <> i) by congruence. destruct (set2_get _ _ _ _ _ _ _ Q1 Q2 Hji) as (L1 & G1 & G2 & G3).
  rewrite !Z.add_0_r, app_nil_r, (s_made _ _ _ S), (s_gone _ _ _ S). fold (ids x).
  assert (V : zlen vs' = zlen (vars s) /\ aget vs' i = Ok vi /\ aget vs' j = Ok vj /\ (forall k, k <> i -> k <> j -> aget vs' k = aget (vars s) k)).
  { destruct Hvs as [[V1 V2]|[V1 V2]]; [exact (set2_get _ _ _ _ _ _ _ V1 V2 Hij)|].
    destruct (set2_get _ _ _ _ _ _ _ V1 V2 Hji) as (? & ? & ? & ?). auto. }
  destruct V as (L2 & G4 & G5 & G6).
  eapply (sim_two s a f i j h' vi ci oi vj cj oj); eauto.
Qed.

Lemma step_ok s a f o a' : sim s a f -> astep eqb keyclone a o = Some a' -> exists s' f', lstep eqb keyclone s o = Ok s' /\ sim s' a' f'.
Proof.
  intros S E. destruct o; cbn [astep lstep] in *.
  - (* LInit *) destruct (adead a i) eqn:D; [|discriminate]. destruct (sim_dead s a f i S D) as (Ev & Ed & Ef & Hi & Eq). rewrite Ed. cbn [bind].
    apply achange_inv in E as (q & Q & ->). destruct (set_ok s i (Some 0) Hi) as (vs' & V & ->). eexists _, (fupd f i []). split; [reflexivity|].
    rewrite Z.add_0_r, app_nil_r, (s_mine _ _ _ S), <- (s_made _ _ _ S), <- (s_gone _ _ _ S).
    eapply (sim_one s a f i (hp s) (Some 0) []); eauto; [apply (s_ok _ _ _ S)|rewrite Ef; apply only_refl; intros ? []|]. split; [apply circ_nil|reflexivity].
  - (* LFromN *) destruct (adead a i) eqn:D; [|discriminate]. destruct (sim_dead s a f i S D) as (Ev & Ed & Ef & Hi & Eq). rewrite Ed. cbn [bind]. unfold put_n.
    destruct (push_all_ok s a f i 0 [] (news (made s) xs) (fresh (amade a) xs) a' (zlen xs) [] S Hi) as (r & s' & f' & E1 & E2 & S'); auto.
    { apply lst_nil, (s_ok _ _ _ S). } { now rewrite Ef. } { cbn. now rewrite news_fresh, (s_made _ _ _ S). }
    rewrite E1. cbn [bind]. eauto.
  - (* LPutN *) destruct (aget_var a i) as [l|] eqn:El; [|discriminate]. destruct (sim_live s a f i l S El) as (last & Ev & Eg & Hl & Em & Eq & Hi). rewrite Eg. cbn [bind]. unfold put_n.
    destruct (push_all_ok s a f i last (f i) (news (made s) xs) (l ++ fresh (amade a) xs) a' (zlen xs) [] S Hi) as (r & s' & f' & E1 & E2 & S'); auto.
    { now rewrite Em, news_fresh, (s_made _ _ _ S). }
    rewrite E1. cbn [bind]. eauto.
  - (* LNew *) injection E as <-. eexists _, f. split; [reflexivity|]. destruct S as [S1 S2 S3 S4 S5 S6 S7 S8 S9 S10].
    constructor; cbn; auto; congruence.
  - (* LFree *) rewrite (s_mine _ _ _ S). destruct (pick k (amine a)) as [[y m]|]; [|discriminate]. injection E as <-. eexists _, f. split; [reflexivity|].
    destruct S as [S1 S2 S3 S4 S5 S6 S7 S8 S9 S10]. constructor; cbn; auto; congruence.
  - (* LPush *) destruct (aget_var a i) as [l|] eqn:El; [|discriminate]. destruct (pick k (amine a)) as [[y m]|] eqn:P; [|discriminate].
    eapply (call_with_ok eqb s a f i l k y m PushBack); eauto. exact I.
  - (* LPushFront *) destruct (aget_var a i) as [l|] eqn:El; [|discriminate]. destruct (pick k (amine a)) as [[y m]|] eqn:P; [|discriminate].
    eapply (call_with_ok eqb s a f i l k y m PushFront); eauto. exact I.
  - (* LInsert *) destruct (aget_var a i) as [l|] eqn:El; [|discriminate]. destruct (pick k (amine a)) as [[y m]|] eqn:P; [|discriminate].
    destruct (Nat.leb_spec p (length l)); [|discriminate]. eapply (call_with_ok eqb s a f i l k y m (InsertAt p)); eauto.
  - (* LEraseAt *) destruct (aget_var a i) as [l|] eqn:El; [|discriminate]. destruct (Nat.ltb_spec p (length l)); [|discriminate].
    eapply (call_put_ok eqb s a f i l (EraseAt p)); eauto.
  - (* LEraseRange *) destruct (aget_var a i) as [l|] eqn:El; [|discriminate].
    destruct ((p <=? q)%nat && (q <=? length l)%nat && (1 <=? length l)%nat) eqn:C; [|discriminate]. rewrite !andb_true_iff, !Nat.leb_le in C.
    eapply (call_put_ok eqb s a f i l (EraseRange p q)); eauto. cbn. split; [lia|]. intros ->. cbn in C. lia.
  - (* LPopFront *) destruct (aget_var a i) as [[|x l]|] eqn:El; try discriminate. eapply (call_put_ok eqb s a f i (x :: l) PopFront); eauto. cbn. discriminate.
  - (* LRemove *) destruct (aget_var a i) as [l|] eqn:El; [|discriminate]. eapply (call_put_ok eqb s a f i l (Remove (0, raw))); eauto. exact I.
  - (* LReverse *) destruct (aget_var a i) as [l|] eqn:El; [|discriminate]. eapply (call_put_ok eqb s a f i l Reverse); eauto. exact I.
  - (* LClear *) destruct (aget_var a i) as [l|] eqn:El; [|discriminate]. eapply (call_put_ok eqb s a f i l Clear); eauto. exact I.
  - (* LDrop *) destruct (aget_var a i) as [l|] eqn:El; [|discriminate]. destruct (sim_live s a f i l S El) as (last & Ev & Eg & Hl & Em & Eq & Hi). rewrite Eg. cbn [bind].
    destruct (drop_ok s last (f i) Hl) as (h' & -> & Ho & Hon). cbn [bind]. apply achange_inv in E as (q & Q & ->).
    destruct (set_ok (destroyed (with_heap s h') (map snd (f i))) i None Hi) as (vs' & V & ->). cbn [hp vars mine nodes made gone destroyed with_heap] in *.
    eexists _, (fupd f i []). split; [reflexivity|]. rewrite Em, Z.add_0_r, (s_mine _ _ _ S), <- (s_made _ _ _ S), <- (s_gone _ _ _ S).
    eapply (sim_one s a f i h' None []); eauto. reflexivity.
  - (* LMove *) destruct (aget_var a j) as [l|] eqn:El; [|discriminate]. destruct (adead a i) eqn:D; [|discriminate]. destruct (sim_dead s a f i S D) as (Ev & Ed & Ef & Hi & Eq).
    destruct (sim_live s a f j l S El) as (last & Ev' & Eg & Hl & Em & Eq' & Hj). rewrite Ed, Eg. cbn [bind]. destruct (aput a j [] []) as [b|] eqn:Eb; [|discriminate].
    assert (Hij : i <> j) by (intros ->; congruence).
    destruct (set_ok s j (Some 0) Hj) as (vs1 & V1 & ->). cbn [bind].
    destruct (set_ok (mks (hp s) vs1 (mine s) (nodes s) (made s) (gone s)) i (Some last)) as (vs' & V2 & ->); [cbn [vars]; rewrite (aset_zlen _ _ _ _ V1); exact Hi|].
    cbn [hp vars mine nodes made gone] in *. eexists _, (fupd (fupd f i (f j)) j []). split; [reflexivity|].
    pose proof (two_ok s a f i j (hp s) (Some last) (f j) (Some l) (Some 0) [] (Some []) [] b a' vs1 vs' S Hij Hi Hj (or_intror (conj V1 V2)) Eb E (s_ok _ _ _ S)) as T.
    cbn [map] in T. rewrite (app_nil_r (gone s)) in T. apply T.
    + rewrite Ef. cbn [addrs map app]. rewrite app_nil_r. apply only_refl. intros p. eapply part_live; eauto.
    + cbn [addrs map]. rewrite app_nil_r. eapply part_nodup; eauto.
    + split; [apply Hl|exact Em].
    + split; [apply circ_nil|reflexivity].
  - (* LTake *) destruct (aget_var a i) as [l0|] eqn:El0; [|discriminate]. destruct (aget_var a j) as [l|] eqn:El; [|discriminate].
    destruct (sim_live s a f i l0 S El0) as (last0 & Ev0 & Eg0 & Hl0 & Em0 & Eq0 & Hi).
    destruct (sim_live s a f j l S El) as (last & Ev & Eg & Hl & Em & Eq & Hj). rewrite Eg. cbn [bind].
    destruct (set_ok s j (Some 0) Hj) as (vs1 & V1 & ->). cbn [bind]. unfold get at 1. cbn [vars].
    destruct (Z.eqb_spec i j) as [<-|Hij].
    + injection E as <-. rewrite (aget_aset_same _ _ _ _ V1). cbn [bind].
      destruct (drop_ok (mks (hp s) vs1 (mine s) (nodes s) (made s) (gone s)) 0 []) as (h' & -> & Ho & Hon); [apply lst_nil, (s_ok _ _ _ S)|]. cbn [bind hp] in *.
      destruct (set_ok (destroyed (with_heap (mks (hp s) vs1 (mine s) (nodes s) (made s) (gone s)) h') (map snd (@nil (Z * elem)))) i (Some last)) as (vs' & V2 & ->);
        [cbn [vars destroyed with_heap]; rewrite (aset_zlen _ _ _ _ V1); exact Hi|]. cbn [hp vars mine nodes made gone destroyed with_heap map] in *.
      eexists _, (fupd f i (f i)). split; [reflexivity|].
      assert (Evs : vs' = vars s).
      { apply aget_ext; [rewrite (aset_zlen _ _ _ _ V2); eapply aset_zlen; eauto|]. intros k _. rewrite (aget_aset _ _ _ _ k V2). destruct (Z.eqb_spec k i) as [->|Hk]; [now rewrite Ev|].
        now rewrite (aget_aset_other _ _ _ _ k V1 Hk). }
      assert (Vs : aset (vars s) i (Some last) = Ok (vars s)).
      { destruct (aset_some (vars s) i (Some last) Hi) as [w W]. rewrite W. f_equal. apply aget_ext; [eapply aset_zlen; eauto|]. intros k _. rewrite (aget_aset _ _ _ _ k W).
        destruct (Z.eqb_spec k i) as [->|Hk]; [now rewrite Ev|reflexivity]. }
      assert (Qs : aset (aseqs a) i (Some l) = Ok (aseqs a)).
      { destruct (aset_some (aseqs a) i (Some l)) as [w W]; [rewrite <- (s_len _ _ _ S); exact Hi|]. rewrite W. f_equal. apply aget_ext; [eapply aset_zlen; eauto|]. intros k _. rewrite (aget_aset _ _ _ _ k W).
        destruct (Z.eqb_spec k i) as [->|Hk]; [now rewrite Eq|reflexivity]. }
      rewrite Evs, app_nil_r. destruct a as [q m n ma go]. cbn [aseqs] in *. pose proof (s_mine _ _ _ S) as Z1. pose proof (s_made _ _ _ S) as Z2. pose proof (s_gone _ _ _ S) as Z3. cbn in Z1, Z2, Z3. rewrite Z1, Z2, Z3.
      assert (Hon' : only (hp s) (addrs (f i)) h' (addrs (f i))).
      { apply (only_frame _ [] _ []); [exact Hon|]. intros p Hp. split; [eapply part_live; eauto|tauto]. }
      eapply (sim_one s (mka q m n ma go) f i h' (Some last) (f i)); eauto. split; [|exact Em].
      apply (circular_same (hp s)); [|apply Hl]. intros p Hp. apply Hon; [eapply part_live; eauto|tauto].
    + rewrite (aget_aset_other _ _ _ _ i V1 Hij), Ev0. cbn [bind]. destruct (aput a j [] []) as [b|] eqn:Eb; [|discriminate].
      destruct (drop_ok (mks (hp s) vs1 (mine s) (nodes s) (made s) (gone s)) last0 (f i) Hl0) as (h' & -> & Ho & Hon). cbn [bind hp] in *.
      destruct (set_ok (destroyed (with_heap (mks (hp s) vs1 (mine s) (nodes s) (made s) (gone s)) h') (map snd (f i))) i (Some last)) as (vs' & V2 & ->);
        [cbn [vars destroyed with_heap]; rewrite (aset_zlen _ _ _ _ V1); exact Hi|]. cbn [hp vars mine nodes made gone destroyed with_heap] in *.
      eexists _, (fupd (fupd f i (f j)) j []). split; [reflexivity|]. rewrite Em0.
      apply (two_ok s a f i j h' (Some last) (f j) (Some l) (Some 0) [] (Some []) l0 b a' vs1 vs' S Hij Hi Hj (or_intror (conj V1 V2)) Eb E Ho).
      * cbn [addrs map]. rewrite app_nil_r. apply (only_frame _ _ _ []); [exact Hon|]. intros p Hp. split; [eapply part_live; eauto|]. intros Hp'. now apply (disj s a f i j p).
      * cbn [addrs map]. rewrite app_nil_r. eapply part_nodup; eauto.
      * split; [|exact Em]. apply (circular_same (hp s)); [|apply Hl]. intros p Hp. apply Hon; [eapply part_live; eauto|]. intros Hp'. now apply (disj s a f i j p).
      * split; [apply circ_nil|reflexivity].
  - (* LClone *) destruct (aget_var a j) as [l|] eqn:El; [|discriminate]. destruct (adead a i) eqn:D; [|discriminate]. destruct (sim_dead s a f i S D) as (Ev & Ed & Ef & Hi & Eq).
    destruct (sim_live s a f j l S El) as (last & Ev' & Eg & Hl & Em & Eq' & Hj). rewrite Ed, Eg. cbn [bind]. unfold clone_to. rewrite (each_spec _ _ _ Hl), Em. cbn [bind].
    destruct (push_all_ok s a f i 0 [] (clones keyclone (made s) l) (fresh (amade a) (map (fun e => keyclone (snd e)) l)) a' (zlen l) [] S Hi) as (r & s' & f' & E1 & E2 & S'); auto.
    { apply lst_nil, (s_ok _ _ _ S). } { now rewrite Ef. } { cbn. unfold clones. now rewrite news_fresh, (s_made _ _ _ S). }
    rewrite E1. cbn [bind]. eauto.
  - (* LCopy *) destruct (aget_var a i) as [l0|] eqn:El0; [|discriminate]. destruct (aget_var a j) as [l|] eqn:El; [|discriminate].
    destruct (sim_live s a f i l0 S El0) as (last0 & Ev0 & Eg0 & Hl0 & Em0 & Eq0 & Hi).
    destruct (sim_live s a f j l S El) as (last & Ev & Eg & Hl & Em & Eq & Hj). rewrite Eg0, Eg. cbn [bind].
    destruct (Z.eqb_spec i j) as [<-|Hij]; [injection E as <-; assert (last0 = last) as -> by congruence; rewrite Z.eqb_refl; eauto|].
    apply achange_inv in E as (q & Q & ->). destruct (Z.eqb_spec last0 last) as [->|Hne].
    + assert (f i = [] /\ f j = []) as [Fi Fj].
      { pose proof (lst_zero _ _ _ Hl0) as Z1. pose proof (lst_zero _ _ _ Hl) as Z2. destruct (f i) as [|c t] eqn:Ei; destruct (f j) as [|c' t'] eqn:Ej; auto; try congruence. exfalso.
        pose proof (proj2 (proj2 (proj2 Hl0))) as P1. pose proof (proj2 (proj2 (proj2 Hl))) as P2.
        apply (disj s a f i j last S Hij); [rewrite Ei, P1; apply last_addr_In; discriminate|rewrite Ej, P2; apply last_addr_In; discriminate]. }
      rewrite Fi in Em0. rewrite Fj in Em. cbn in Em0, Em. subst l0 l. exists s, f. split; [reflexivity|].
      cbn [map fresh zlen length ids]. change (zlen (@nil elem)) with 0. rewrite Z.add_0_r, app_nil_r.
      assert (q = aseqs a) as ->.
      { apply aget_ext; [eapply aset_zlen; eauto|]. intros k _. rewrite (aget_aset _ _ _ _ k Q). destruct (Z.eqb_spec k i) as [->|Hk]; [now rewrite Eq0|reflexivity]. }
      destruct a; exact S.
    + destruct (drop_ok s last0 (f i) Hl0) as (h1 & -> & Ho & Hon). cbn [bind]. unfold clone_to. cbn [hp made destroyed with_heap].
      assert (Hl1 : lst h1 last (f j)).
      { split; [exact Ho|]. apply (circular_same (hp s)); [|apply Hl]. intros p Hp. apply Hon; [eapply part_live; eauto|]. intros Hp'. now apply (disj s a f i j p). }
      rewrite (each_spec _ _ _ Hl1), Em. cbn [bind].
      destruct (push_all_spec (clones keyclone (made s) l) h1 0 [] (lst_nil h1 Ho)) as (h2 & last' & new & -> & Hl2 & En & Hon2). cbn [bind fst snd app] in *.
      destruct (set_ok (making (with_heap (destroyed (with_heap s h1) (map snd (f i))) h2) (zlen l)) i (Some last') Hi) as (vs' & V & ->). cbn [hp vars mine nodes made gone destroyed with_heap making] in *.
      eexists _, (fupd f i new). split; [reflexivity|]. rewrite Em0, (s_mine _ _ _ S), <- (s_made _ _ _ S), <- (s_gone _ _ _ S). fold (ids l0).
      eapply (sim_one s a f i h2 (Some last') new); eauto; [apply Hl2|eapply only_trans; eauto|]. split; [apply Hl2|]. rewrite En. unfold clones. now rewrite news_fresh, (s_made _ _ _ S).
  - (* LSplice *) destruct (aget_var a i) as [l|] eqn:El0; [|discriminate]. destruct (aget_var a j) as [l2|] eqn:El; [|discriminate].
    destruct (sim_live s a f i l S El0) as (last0 & Ev0 & Eg0 & Hl0 & Em0 & Eq0 & Hi).
    destruct (sim_live s a f j l2 S El) as (last & Ev & Eg & Hl & Em & Eq & Hj). rewrite Eg0, Eg. cbn [bind].
    destruct ((i =? j) || negb (p <=? length l)%nat) eqn:C; [discriminate|]. apply orb_false_iff in C as [C1 C2]. apply Z.eqb_neq in C1. apply negb_false_iff, Nat.leb_le in C2.
    destruct (aput a j [] []) as [b|] eqn:Eb; [|discriminate]. assert (Hp : (p <= length (f i))%nat) by (rewrite <- Em0, map_length in C2; exact C2).
    rewrite (at_index_spec _ _ _ p Hl0 Hp). cbn [bind].
    pose proof (sim_twol s a f i j last0 last _ _ S C1 Hl0 Hl (eq_sym (firstn_skipn p (f i))) eq_refl) as T.
    destruct (splice_spec (hp s) last0 (firstn p (f i)) (skipn p (f i)) last (f j) T) as (h' & last' & it' & -> & Hl' & Hon). cbn [bind].
    destruct (set_ok (with_heap s h') i (Some last') Hi) as (vs1 & V1 & ->). cbn [bind].
    destruct (set_ok (mks (hp (with_heap s h')) vs1 (mine (with_heap s h')) (nodes (with_heap s h')) (made (with_heap s h')) (gone (with_heap s h'))) j (Some 0)) as (vs' & V2 & ->);
      [cbn [vars]; rewrite (aset_zlen _ _ _ _ V1); exact Hj|].
    cbn [hp vars mine nodes made gone with_heap] in *. eexists _, (fupd (fupd f i (firstn p (f i) ++ f j ++ skipn p (f i))) j []). split; [reflexivity|].
    pose proof (two_ok s a f i j h' (Some last') (firstn p (f i) ++ f j ++ skipn p (f i)) (Some (firstn p l ++ l2 ++ skipn p l)) (Some 0) [] (Some []) [] b a' vs1 vs' S C1 Hi Hj (or_introl (conj V1 V2)) Eb E (proj1 Hl')) as R.
    cbn [map] in R. rewrite (app_nil_r (gone s)) in R. apply R.
    + change (addrs []) with (@nil Z). rewrite app_nil_r, firstn_skipn in *. exact Hon.
    + change (addrs []) with (@nil Z). rewrite app_nil_r. apply Hl'.
    + split; [apply Hl'|]. rewrite !map_app, map_firstn, map_skipn, Em0, Em. reflexivity.
    + split; [apply circ_nil|reflexivity].
  - (* LSplit *) destruct (aget_var a j) as [l|] eqn:El; [|discriminate]. destruct (adead a i && (p <=? q)%nat && (q <=? length l)%nat) eqn:C; [|discriminate].
    rewrite !andb_true_iff, !Nat.leb_le in C. destruct C as ((D & C1) & C2). destruct (sim_dead s a f i S D) as (Ev & Ed & Ef & Hi & Eq).
    destruct (sim_live s a f j l S El) as (last & Ev' & Eg & Hl & Em & Eq' & Hj). rewrite Ed, Eg. cbn [bind]. destruct (aput a j _ []) as [b|] eqn:Eb; [|discriminate].
    assert (Hij : i <> j) by (intros ->; congruence). assert (Hq : (q <= length (f j))%nat) by (rewrite <- Em, map_length in C2; exact C2).
    rewrite (at_index_spec _ _ _ p Hl) by lia. rewrite (at_index_spec _ _ _ q Hl) by lia. cbn [bind].
    destruct (cut_range (f j) p q (conj C1 Hq)) as (K1 & K2 & K3). rewrite K2, K3.
    set (c1 := firstn p (f j)) in *. set (mid := firstn (q - p) (skipn p (f j))) in *. set (c2 := skipn q (f j)) in *.
    assert (Hl2 : lst (hp s) last (c1 ++ mid ++ c2)) by (rewrite <- K1; exact Hl).
    destruct (split_off_spec (hp s) last c1 mid c2 Hl2) as (h' & last' & olast & -> & (Ho & T1 & T2 & T3) & Hon). cbn [bind].
    destruct (set_ok (with_heap s h') j (Some last') Hj) as (vs1 & V1 & ->). cbn [bind].
    destruct (set_ok (mks (hp (with_heap s h')) vs1 (mine (with_heap s h')) (nodes (with_heap s h')) (made (with_heap s h')) (gone (with_heap s h'))) i (Some olast)) as (vs' & V2 & ->);
      [cbn [vars]; rewrite (aset_zlen _ _ _ _ V1); exact Hi|].
    cbn [hp vars mine nodes made gone with_heap] in *. eexists _, (fupd (fupd f i mid) j (c1 ++ c2)). split; [reflexivity|].
    pose proof (two_ok s a f i j h' (Some olast) mid (Some (firstn (q - p) (skipn p l))) (Some last') (c1 ++ c2) (Some (firstn p l ++ skipn q l)) [] b a' vs1 vs' S Hij Hi Hj (or_intror (conj V1 V2)) Eb E Ho) as R.
    cbn [map] in R. rewrite (app_nil_r (gone s)) in R. apply R.
    + rewrite Ef. change (addrs []) with (@nil Z). cbn [app]. rewrite <- K1 in Hon. revert Hon. apply only_perm; intros x; [tauto|]. rewrite !in_app_iff. tauto.
    + eapply Permutation_NoDup; [apply Permutation_app_comm|exact T3].
    + split; [exact T2|]. unfold mid. rewrite map_firstn, map_skipn, Em. reflexivity.
    + split; [exact T1|]. unfold c1, c2. rewrite map_app, map_firstn, map_skipn, Em. reflexivity.
  - (* LSpliceRange *) destruct (aget_var a i) as [l|] eqn:El0; [|discriminate]. destruct (aget_var a j) as [l2|] eqn:El; [|discriminate].
    destruct (sim_live s a f i l S El0) as (last0 & Ev0 & Eg0 & Hl0 & Em0 & Eq0 & Hi).
    destruct (sim_live s a f j l2 S El) as (last & Ev & Eg & Hl & Em & Eq & Hj). rewrite Eg0, Eg. cbn [bind].
    destruct (negb (i =? j) && (p <=? length l)%nat && (q <=? r)%nat && (r <=? length l2)%nat) eqn:C; [|discriminate].
    rewrite !andb_true_iff, !Nat.leb_le, negb_true_iff, Z.eqb_neq in C. destruct C as (((Hij & C1) & C2) & C3).
    destruct (aput a j _ []) as [b|] eqn:Eb; [|discriminate].
    assert (Hp : (p <= length (f i))%nat) by (rewrite <- Em0, map_length in C1; exact C1). assert (Hr : (r <= length (f j))%nat) by (rewrite <- Em, map_length in C3; exact C3).
    pose proof (sim_twol s a f i j last0 last _ _ S Hij Hl0 Hl eq_refl eq_refl) as T.
    destruct (splice_range_spec (hp s) last0 (f i) last (f j) p q r T Hp (conj C2 Hr)) as (it & it1 & it2 & h' & last' & olast' & it' & -> & -> & -> & Es & (Ho & T1 & T2 & T3) & Hon).
    cbn [bind]. rewrite Es. cbn [bind].
    destruct (set_ok (with_heap s h') i (Some last') Hi) as (vs1 & V1 & ->). cbn [bind].
    destruct (set_ok (mks (hp (with_heap s h')) vs1 (mine (with_heap s h')) (nodes (with_heap s h')) (made (with_heap s h')) (gone (with_heap s h'))) j (Some olast')) as (vs' & V2 & ->);
      [cbn [vars]; rewrite (aset_zlen _ _ _ _ V1); exact Hj|].
    set (ci := firstn p (f i) ++ firstn (r - q) (skipn q (f j)) ++ skipn p (f i)) in *. set (cj := firstn q (f j) ++ skipn r (f j)) in *.
    cbn [hp vars mine nodes made gone with_heap] in *. eexists _, (fupd (fupd f i ci) j cj). split; [reflexivity|].
    pose proof (two_ok s a f i j h' (Some last') ci (Some (firstn p l ++ firstn (r - q) (skipn q l2) ++ skipn p l)) (Some olast') cj (Some (firstn q l2 ++ skipn r l2)) [] b a' vs1 vs' S Hij Hi Hj (or_introl (conj V1 V2)) Eb E Ho) as R.
    cbn [map] in R. rewrite (app_nil_r (gone s)) in R. apply R.
    + revert Hon. apply only_perm; intros x; [tauto|]. destruct (cut_range (f j) q r (conj C2 Hr)) as (K1 & _ & _).
      rewrite <- (firstn_skipn p (f i)) at 1. rewrite K1 at 1. unfold ci, cj. rewrite !addrs_app, !in_app_iff. tauto.
    + exact T3.
    + split; [exact T1|]. unfold ci. rewrite !map_app, !map_firstn, !map_skipn, Em0, Em. reflexivity.
    + split; [exact T2|]. unfold cj. rewrite !map_app, !map_firstn, !map_skipn, Em. reflexivity.
  - (* LUnlink *) destruct (aget_var a i) as [[|x l]|] eqn:El; try discriminate. destruct (sim_live s a f i (x :: l) S El) as (last & Ev & Eg & Hl & Em & Eq & Hi). rewrite Eg. cbn [bind].
    destruct (f i) as [|[n x'] cs] eqn:Ef; [discriminate|]. cbn [map snd] in Em. injection Em as -> Em.
    destruct (unlink_front_spec (hp s) last n x cs Hl) as (h' & last' & -> & Hl' & Hq & Hni & Hfr & Hlv). cbn [bind].
    apply achange_inv in E as (q & Q & ->).
    destruct (set_ok (with_nodes (with_heap s h') (n :: nodes s)) i (Some last') Hi) as (vs' & V & ->). cbn [hp vars mine nodes made gone with_heap with_nodes] in *.
    assert (Hi1 : i <> -1) by lia.
    eexists _, (fupd (fupd f i cs) (-1) ((n, x) :: f (-1))). split; [reflexivity|]. rewrite Z.add_0_r, app_nil_r, <- (s_made _ _ _ S), <- (s_gone _ _ _ S).
    rewrite (proj1 (s_nodes _ _ _ S)), (proj2 (s_nodes _ _ _ S)). change (n :: addrs (f (-1))) with (addrs ((n, x) :: f (-1))). change (x :: map snd (f (-1))) with (map snd ((n, x) :: f (-1))).
    assert (Nn : forall p, In p (addrs (f (-1))) -> ~ In p (n :: addrs cs)).
    { intros p Hp Hp'. apply (disj s a f (-1) i p S); [auto|exact Hp|]. rewrite Ef. exact Hp'. }
    eapply (sim_node s a f i h' (Some last') cs); eauto.
    + apply Hl'.
    + rewrite Ef. cbn [addrs map fst app]. fold (addrs cs). fold (addrs (f (-1))). apply only_same_nodes; [|intros p Hp; apply Hfr; intros Hp'; apply Hp; rewrite app_comm_cons; apply in_or_app; auto|exact Hlv].
      intros p. cbn [In]. rewrite !in_app_iff. cbn [In]. tauto.
    + cbn [addrs map fst]. fold (addrs (f (-1))). apply (Permutation_NoDup (Permutation_middle _ _ _)). constructor.
      * rewrite in_app_iff. intros [Hp|Hp]; [auto|]. apply (Nn n Hp). now left.
      * apply nodup_app_intro; [apply Hl'|eapply part_nodup; eauto|]. intros p Hp Hp'. apply (Nn p Hp'). now right.
    + split; [apply Hl'|exact Em].
    + intros p y [[= <- <-]|Hp]; [exact Hq|]. destruct (s_vals _ _ _ S p y Hp) as (q0 & E0). exists q0. rewrite Hfr; [exact E0|]. apply Nn. change p with (fst (p, y)). now apply in_map.
  - (* LPushNode *) destruct (aget_var a i) as [l|] eqn:El; [|discriminate]. destruct (sim_live s a f i l S El) as (last & Ev & Eg & Hl & Em & Eq & Hi). rewrite Eg.
    rewrite (proj1 (s_nodes _ _ _ S)). rewrite (proj2 (s_nodes _ _ _ S)) in E. unfold addrs at 1. rewrite pick_map in E. rewrite pick_map. destruct (pick k (f (-1))) as [[[n y] ns]|] eqn:P; [|discriminate].
    cbn [fst snd bind] in *. apply achange_inv in E as (q & Q & ->). apply pick_split in P as (n1 & n2 & Fn & ->). assert (Hi1 : i <> -1) by lia.
    assert (Hn : ~ In n (addrs (f i))).
    { intros Hp. apply (disj s a f i (-1) n S); [exact Hi1|exact Hp|]. rewrite Fn, addrs_app. apply in_or_app. right. now left. }
    destruct (push_node_spec (hp s) last (f i) n y Hl) as (h' & -> & Hl' & Hfr & Hlv); [apply (s_vals _ _ _ S); rewrite Fn; apply in_or_app; right; now left|exact Hn|]. cbn [bind fst snd].
    match goal with |- context [set ?x i _] => destruct (set_ok x i (Some n) Hi) as (vs' & V & ->) end. cbn [hp vars mine nodes made gone with_heap with_nodes] in *.
    eexists _, (fupd (fupd f i (f i ++ [(n, y)])) (-1) (n1 ++ n2)). split; [reflexivity|]. rewrite Z.add_0_r, app_nil_r, <- (s_made _ _ _ S), <- (s_gone _ _ _ S). fold (addrs (n1 ++ n2)).
    pose proof (part_nodup s a f (-1) S) as Nn. rewrite Fn, addrs_app in Nn. cbn [addrs map fst] in Nn. pose proof (NoDup_remove_1 _ _ _ Nn) as N1. pose proof (NoDup_remove_2 _ _ _ Nn) as N2. fold (addrs n1) (addrs n2) in N1, N2.
    assert (Dj : forall p, In p (addrs (n1 ++ n2)) -> ~ In p (n :: addrs (f i))).
    { intros p Hp [<-|Hp']; [rewrite addrs_app in Hp; auto|]. apply (disj s a f i (-1) p S Hi1 Hp'). rewrite Fn, addrs_app in *. rewrite in_app_iff in *. cbn [addrs map fst In] in *. tauto. }
    eapply (sim_node s a f i h' (Some n) (f i ++ [(n, y)])); eauto.
    + apply Hl'.
    + apply only_same_nodes; [|intros p Hp; apply Hfr; intros [<-|Hp']; apply Hp; rewrite in_app_iff; auto; right; rewrite Fn, addrs_app; apply in_or_app; right; now left|exact Hlv].
      intros p. rewrite Fn, !addrs_app, !in_app_iff. cbn [addrs map fst In]. tauto.
    + rewrite addrs_app. cbn [addrs map fst]. fold (addrs (n1 ++ n2)). rewrite <- app_assoc. cbn [app]. apply (Permutation_NoDup (Permutation_middle _ _ _)). constructor.
      * rewrite in_app_iff. intros [Hp|Hp]; [auto|]. rewrite addrs_app in Hp. auto.
      * apply nodup_app_intro; [apply Hl|rewrite addrs_app; exact N1|]. intros p Hp Hp'. apply (Dj p Hp'). now right.
    + split; [apply Hl'|]. rewrite map_app, Em. reflexivity.
    + intros p x Hp. destruct (s_vals _ _ _ S p x) as (q0 & E0); [rewrite Fn; rewrite in_app_iff in *; cbn [In]; tauto|]. exists q0. rewrite Hfr; [exact E0|]. apply Dj. change p with (fst (p, x)). now apply in_map.
  - (* LPushFrontNode *) destruct (aget_var a i) as [l|] eqn:El; [|discriminate]. destruct (sim_live s a f i l S El) as (last & Ev & Eg & Hl & Em & Eq & Hi). rewrite Eg.
    rewrite (proj1 (s_nodes _ _ _ S)). rewrite (proj2 (s_nodes _ _ _ S)) in E. unfold addrs at 1. rewrite pick_map in E. rewrite pick_map. destruct (pick k (f (-1))) as [[[n y] ns]|] eqn:P; [|discriminate].
    cbn [fst snd bind] in *. apply achange_inv in E as (q & Q & ->). apply pick_split in P as (n1 & n2 & Fn & ->). assert (Hi1 : i <> -1) by lia.
    assert (Hn : ~ In n (addrs (f i))).
    { intros Hp. apply (disj s a f i (-1) n S); [exact Hi1|exact Hp|]. rewrite Fn, addrs_app. apply in_or_app. right. now left. }
    destruct (insert_node_spec (hp s) last (f i) n y (proj1 Hl) (proj2 Hl)) as (h' & last' & -> & Ho & Hc & _ & Hfr & Hlv); [apply (s_vals _ _ _ S); rewrite Fn; apply in_or_app; right; now left|exact Hn|]. cbn [bind fst snd].
    match goal with |- context [set ?x i _] => destruct (set_ok x i (Some last') Hi) as (vs' & V & ->) end. cbn [hp vars mine nodes made gone with_heap with_nodes] in *.
    eexists _, (fupd (fupd f i ((n, y) :: f i)) (-1) (n1 ++ n2)). split; [reflexivity|]. rewrite Z.add_0_r, app_nil_r, <- (s_made _ _ _ S), <- (s_gone _ _ _ S). fold (addrs (n1 ++ n2)).
    pose proof (part_nodup s a f (-1) S) as Nn. rewrite Fn, addrs_app in Nn. cbn [addrs map fst] in Nn. pose proof (NoDup_remove_1 _ _ _ Nn) as N1. pose proof (NoDup_remove_2 _ _ _ Nn) as N2. fold (addrs n1) (addrs n2) in N1, N2.
    assert (Dj : forall p, In p (addrs (n1 ++ n2)) -> ~ In p (n :: addrs (f i))).
    { intros p Hp [<-|Hp']; [rewrite addrs_app in Hp; auto|]. apply (disj s a f i (-1) p S Hi1 Hp'). rewrite Fn, addrs_app in *. rewrite in_app_iff in *. cbn [addrs map fst In] in *. tauto. }
    eapply (sim_node s a f i h' (Some last') ((n, y) :: f i)); eauto.
    + apply only_same_nodes; [|intros p Hp; apply Hfr; intros [<-|Hp']; apply Hp; rewrite in_app_iff; auto; right; rewrite Fn, addrs_app; apply in_or_app; right; now left|exact Hlv].
      intros p. change (addrs ((n, y) :: f i)) with (n :: addrs (f i)). rewrite Fn, !addrs_app. cbn [In app]. rewrite !in_app_iff. cbn [addrs map fst In]. tauto.
    + change (addrs ((n, y) :: f i)) with (n :: addrs (f i)). cbn [app]. constructor.
      * rewrite in_app_iff. intros [Hp|Hp]; [auto|]. rewrite addrs_app in Hp. auto.
      * apply nodup_app_intro; [apply Hl|rewrite addrs_app; exact N1|]. intros p Hp Hp'. apply (Dj p Hp'). now right.
    + split; [exact Hc|]. cbn [map snd]. now rewrite Em.
    + intros p x Hp. destruct (s_vals _ _ _ S p x) as (q0 & E0); [rewrite Fn; rewrite in_app_iff in *; cbn [In]; tauto|]. exists q0. rewrite Hfr; [exact E0|]. apply Dj. change p with (fst (p, x)). now apply in_map.
  - (* LFreeNode *) rewrite (proj1 (s_nodes _ _ _ S)). rewrite (proj2 (s_nodes _ _ _ S)) in E. unfold addrs at 1. rewrite pick_map in E. rewrite pick_map. destruct (pick k (f (-1))) as [[[n y] ns]|] eqn:P; [|discriminate].
    cbn [fst snd] in *. injection E as <-. apply pick_split in P as (n1 & n2 & Fn & ->).
    destruct (s_vals _ _ _ S n y) as (q & Hq); [rewrite Fn; apply in_or_app; right; now left|]. assert (Hln : live (hp s) n) by (unfold live; congruence).
    destruct (heap_ok_brk _ _ (s_ok _ _ _ S) Hln) as [Hn0 _]. rewrite (val_of_some _ _ _ _ Hn0 Hq). cbn [bind]. rewrite (free_some _ _ _ Hn0 Hq). cbn [bind].
    eexists _, (fupd f (-1) (n1 ++ n2)). split; [reflexivity|].
    pose proof (part_nodup s a f (-1) S) as Nn. rewrite Fn, addrs_app in Nn. cbn [addrs map fst] in Nn. pose proof (NoDup_remove_1 _ _ _ Nn) as N1. pose proof (NoDup_remove_2 _ _ _ Nn) as N2. fold (addrs n1) (addrs n2) in N1, N2.
    apply (sim_upd s a f _ _ _ [-1] S); cbn [hp vars aseqs nodes anodes mine amine made amade gone agone destroyed with_nodes with_heap].
    + apply heap_ok_free; [apply (s_ok _ _ _ S)|exact Hln].
    + intros j Hj. apply fupd_other. intros ->. apply Hj. now left.
    + unfold parts. cbn [flat_map]. rewrite fupd_same, !app_nil_r, Fn, !addrs_app. cbn [addrs map fst]. fold (addrs n1) (addrs n2). split.
      * intros p Hp Hp'. rewrite node_setn_other by (intros ->; apply Hp'; apply in_or_app; right; now left). split; [reflexivity|]. rewrite in_app_iff in *. cbn [In] in Hp'. tauto.
      * intros p Hp. destruct (Z.eq_dec p n) as [->|Hpn]; [unfold live in Hp; rewrite node_setn_same in Hp; congruence|]. unfold live in Hp. rewrite node_setn_other in Hp by exact Hpn.
        destruct (in_dec Z.eq_dec p (addrs n1 ++ addrs n2)) as [Hin|Hin]; [auto|]. right. split; [exact Hp|]. rewrite in_app_iff in *. cbn [In]. intuition congruence.
    + unfold parts. cbn [flat_map]. rewrite fupd_same, !app_nil_r, addrs_app. exact N1.
    + reflexivity.
    + reflexivity.
    + auto.
    + intros j [<-|[]]. congruence.
    + now rewrite fupd_same.
    + now rewrite fupd_same.
    + intros _ p x Hp. rewrite fupd_same in Hp. destruct (s_vals _ _ _ S p x) as (q0 & E0); [rewrite Fn; rewrite in_app_iff in *; cbn [In]; tauto|]. exists q0.
      rewrite node_setn_other; [exact E0|]. intros ->. apply N2. rewrite <- addrs_app. change n with (fst (n, x)). now apply in_map.
    + apply (s_mine _ _ _ S).
    + apply (s_made _ _ _ S).
    + now rewrite (s_gone _ _ _ S).
Qed.

Lemma run_ok ops : forall s a f a', sim s a f -> arun eqb keyclone a ops = Some a' -> exists s' f', lrun eqb keyclone s ops = Ok s' /\ sim s' a' f'.
Proof.
  induction ops as [|o t IH]; intros s a f a' S E; cbn [arun lrun] in *; [injection E as <-; eauto|].
  destruct (astep eqb keyclone a o) as [b|] eqn:Eb; [|discriminate]. destruct (step_ok s a f o b S Eb) as (s1 & f1 & -> & S1). cbn [bind]. eauto.
Qed.
Lemma sim_start n : sim (A := A) (lstart n) (astart n) (fun _ => []).
Proof.
  assert (D : forall p, ~ live (@empty_heap elem) p) by (intros p Hp; apply Hp; reflexivity).
  constructor; cbn; auto.
  - split; [cbn; lia|]. intros p Hp. destruct (D p Hp).
  - split; [intros; constructor|]. split; [auto|]. split; [intros ? ? []|]. intros p Hp. destruct (D p Hp).
  - unfold zlen. now rewrite !repeat_length.
  - intros i v o Ev Eo. apply aget_In, repeat_spec in Ev as ->. apply aget_In, repeat_spec in Eo as ->. reflexivity.
  - intros ? ? [].
Qed.
End Steps.
