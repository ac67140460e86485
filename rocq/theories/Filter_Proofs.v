(** Proofs about filter pipelines. *)
From Verif Require Import Base Filter_Model Filter_Spec.

Section Abs.
Context {A : Type}.
(** A machine in which each stage has its own counter and flag. *)
Definition ast : Type := (stage A * (Z * bool)).
Fixpoint astep (sts : list ast) (v : A * Z) : list ast * option (A * Z) * bool :=
  match sts with
  | [] => ([], Some v, false)
  | (s, (c, f)) :: t =>
      let go s' v' d := let '(t', o, d') := astep t v' in (s' :: t', o, d || d') in
      match s with
      | Pred p => if p (fst v) then go (s, (c, f)) v false else ((s, (c, f)) :: t, None, false)
      | Counter => go (s, (c + 1, f)) (fst v, c + 1) false
      | Skip n => if n <? c + 1 then go (s, (c + 1, f)) (fst v, c + 1) false else ((s, (c + 1, f)) :: t, None, false)
      | Take n => if 0 <? n then go (s, (c + 1, f)) (fst v, c + 1) (n <=? c + 1) else ((s, (c + 1, f)) :: t, None, n <=? c + 1)
      | SkipWhile p => let f' := f || negb (p (fst v)) in if f' then go (s, (c, f')) v false else ((s, (c, f')) :: t, None, false)
      | TakeWhile p => let f' := f || negb (p (fst v)) in if negb f' then go (s, (c, f')) v f' else ((s, (c, f')) :: t, None, f')
      | Map g => go (s, (c, f)) (g (fst v), snd v) false
      end
  end.
(** What is left to do. *)
Definition residual (a : ast) (l : list (A * Z)) : list (A * Z) :=
  let '(s, (c, f)) := a in
  match s with
  | Pred p => filter (fun x => p (fst x)) l
  | Counter => number c l
  | Skip n => skipn (Z.to_nat (n - c)) (number c l)
  | Take n => firstn (Z.to_nat (n - c)) (number c l)
  | SkipWhile p => if f then l else skip_while (fun x => p (fst x)) l
  | TakeWhile p => if f then [] else take_while (fun x => p (fst x)) l
  | Map g => map (fun x => (g (fst x), snd x)) l
  end.
Definition rpipe (sts : list ast) (l : list (A * Z)) : list (A * Z) := fold_left (fun l a => residual a l) sts l.
Lemma residual_nil a : residual a [] = [].
Proof. destruct a as [[p| |n|n|p|p|g] [c f]]; cbn; try reflexivity; try (destruct f; reflexivity); now rewrite ?skipn_nil, ?firstn_nil. Qed.
Lemma rpipe_nil sts : rpipe sts [] = [].
Proof. unfold rpipe. induction sts as [|a t IH]; cbn [fold_left]; [reflexivity|]. rewrite residual_nil. exact IH. Qed.
Definition cnt_ok (a : ast) : Prop := 0 <= fst (snd a) /\ match fst a with Take n => fst (snd a) < n \/ n <= 0 | _ => True end.

Lemma astep_ok : forall sts v sts' o d, Forall cnt_ok sts -> astep sts v = (sts', o, d) ->
  (forall l, rpipe sts (v :: l) = olist o ++ rpipe sts' l) /\ (d = true -> forall l, rpipe sts' l = []) /\ (d = false -> Forall cnt_ok sts').
Proof.
  induction sts as [|[s [c f]] t IH]; intros [a k] sts' o d HC E.
  - cbn in E. injection E as <- <- <-. split; [reflexivity|]. split; [discriminate|auto].
  - inversion HC as [|? ? HC1 HC2]; subst. assert (GO : forall s' v' d0 (HH : forall l, residual (s, (c, f)) ((a, k) :: l) = v' :: residual s' l) (HD : d0 = true -> forall l, residual s' l = []) (HK : d0 = false -> cnt_ok s'),
      (let '(t', o, d') := astep t v' in (s' :: t', o, d0 || d')) = (sts', o, d) ->
      (forall l, rpipe ((s, (c, f)) :: t) ((a, k) :: l) = olist o ++ rpipe sts' l) /\ (d = true -> forall l, rpipe sts' l = []) /\ (d = false -> Forall cnt_ok sts')).
    { intros s' v' d0 HH HD HK E'. destruct (astep t v') as [[t' o'] d'] eqn:Et. injection E' as <- <- <-. destruct (IH _ _ _ _ HC2 Et) as (I1 & I2 & I3). split; [|split].
      - intros l. unfold rpipe in *. cbn [fold_left]. rewrite HH. apply I1.
      - intros Hd l. unfold rpipe in *. cbn [fold_left]. destruct d0; [|now apply I2]. rewrite HD by reflexivity. apply rpipe_nil.
      - intros Hd. apply orb_false_iff in Hd as [D1 D2]. constructor; auto. }
    assert (STOP : forall s' d0 (HH : forall l, residual (s, (c, f)) ((a, k) :: l) = residual s' l) (HD : d0 = true -> forall l, residual s' l = []) (HK : d0 = false -> cnt_ok s'),
      (s' :: t, None, d0) = (sts', o, d) -> (forall l, rpipe ((s, (c, f)) :: t) ((a, k) :: l) = olist o ++ rpipe sts' l) /\ (d = true -> forall l, rpipe sts' l = []) /\ (d = false -> Forall cnt_ok sts')).
    { intros s' d0 HH HD HK E'. injection E' as <- <- <-. split; [|split].
      - intros l. unfold rpipe. cbn [fold_left olist app]. now rewrite HH.
      - intros Hd l. unfold rpipe. cbn [fold_left]. rewrite HD by exact Hd. apply rpipe_nil.
      - intros Hd. constructor; auto. }
    destruct HC1 as [HC0 HC1]. cbn [fst snd] in HC0, HC1.
    assert (KC : forall s' c' f', 0 <= c' -> (match s' with Take n => c' < n \/ n <= 0 | _ => True end) -> cnt_ok (s', (c', f'))) by (intros; split; assumption).
    cbn [astep fst snd] in E. destruct s as [p| |n|n|p|p|g].
    + destruct (p a) eqn:Ep.
      * refine (GO _ _ false _ _ _ E); [|discriminate|auto]. intros l. cbn. now rewrite Ep.
      * refine (STOP _ false _ _ _ E); [|discriminate|auto]. intros l. cbn. now rewrite Ep.
    + refine (GO _ _ false _ _ _ E); [|discriminate|intros; apply KC; auto; lia]. reflexivity.
    + destruct (Z.ltb_spec n (c + 1)).
      * refine (GO _ _ false _ _ _ E); [|discriminate|intros; apply KC; auto; lia]. intros l. cbn. replace (Z.to_nat (n - c)) with 0%nat by lia. now replace (Z.to_nat (n - (c + 1))) with 0%nat by lia.
      * refine (STOP _ false _ _ _ E); [|discriminate|intros; apply KC; auto; lia]. intros l. cbn. now replace (Z.to_nat (n - c)) with (S (Z.to_nat (n - (c + 1)))) by lia.
    + destruct (Z.ltb_spec 0 n).
      * refine (GO _ _ (n <=? c + 1) _ _ _ E).
        -- intros l. cbn. now replace (Z.to_nat (n - c)) with (S (Z.to_nat (n - (c + 1)))) by lia.
        -- intros Hd l. cbn. apply Z.leb_le in Hd. now replace (Z.to_nat (n - (c + 1))) with 0%nat by lia.
        -- intros Hd. apply Z.leb_gt in Hd. apply KC; [lia|]. left. lia.
      * refine (STOP _ (n <=? c + 1) _ _ _ E).
        -- intros l. cbn. replace (Z.to_nat (n - c)) with 0%nat by lia. now replace (Z.to_nat (n - (c + 1))) with 0%nat by lia.
        -- intros Hd l. cbn. now replace (Z.to_nat (n - (c + 1))) with 0%nat by lia.
        -- intros Hd. apply KC; [lia|]. right. lia.
    + destruct f; cbn [orb] in E.
      * refine (GO _ _ false _ _ _ E); [|discriminate|auto]. reflexivity.
      * destruct (p a) eqn:Ep; cbn [negb] in E.
        -- refine (STOP _ false _ _ _ E); [|discriminate|auto]. intros l. cbn. now rewrite Ep.
        -- refine (GO _ _ false _ _ _ E); [|discriminate|auto]. intros l. cbn. now rewrite Ep.
    + destruct f; cbn [orb negb] in E.
      * refine (STOP _ true _ _ _ E); [reflexivity|reflexivity|discriminate].
      * destruct (p a) eqn:Ep; cbn [negb] in E.
        -- refine (GO _ _ false _ _ _ E); [|discriminate|auto]. intros l. cbn. now rewrite Ep.
        -- refine (STOP _ true _ _ _ E); [|reflexivity|discriminate]. intros l. cbn. now rewrite Ep.
    + refine (GO _ _ false _ _ _ E); [|discriminate|auto]. reflexivity.
Qed.
End Abs.

Section Conc.
Context {A : Type}.
Inductive kind := KC | KF | KN.
Definition kind_of (s : stage A) : kind :=
  match s with Counter | Skip _ | Take _ => KC | SkipWhile _ | TakeWhile _ => KF | _ => KN end.
Fixpoint rep (sts : list (@ast A)) (k j : Z) (sn : list Z) (sb : list bool) : Prop :=
  match sts with
  | [] => True
  | (s, (c, f)) :: t =>
      match kind_of s with
      | KC => aget sn (k + 1) = Ok c /\ rep t (k + 1) j sn sb
      | KF => aget sb j = Ok f /\ rep t k (j + 1) sn sb
      | KN => rep t k j sn sb
      end
  end.
Lemma rep_ext : forall sts k j sn sb sn' sb', (forall i, k < i -> aget sn' i = aget sn i) -> (forall i, j <= i -> aget sb' i = aget sb i) -> rep sts k j sn sb -> rep sts k j sn' sb'.
Proof.
  induction sts as [|[s [c f]] t IH]; intros k j sn sb sn' sb' H1 H2 HR; [exact I|]. cbn [rep] in *. destruct (kind_of s).
  - destruct HR as [E HR]. split; [rewrite H1 by lia; exact E|]. eapply IH; [| |exact HR]; intros; [apply H1|apply H2]; lia.
  - destruct HR as [E HR]. split; [rewrite H2 by lia; exact E|]. eapply IH; [| |exact HR]; intros; [apply H1|apply H2]; lia.
  - eapply IH; eauto.
Qed.
Lemma counters_cons s t : counters (s :: t) = ((match kind_of s with KC => 1 | _ => 0 end) + @counters A t)%nat.
Proof. unfold counters. cbn [filter]. destruct s; reflexivity. Qed.
Lemma flags_cons s t : flags (s :: t) = ((match kind_of s with KF => 1 | _ => 0 end) + @flags A t)%nat.
Proof. unfold flags. cbn [filter]. destruct s; reflexivity. Qed.
Definition below (m : Z) (a : @ast A) : Prop := 0 <= fst (snd a) <= m.

Definition good (sts : list (@ast A)) (b : base) : Prop :=
  rep sts (sn_top b) (sb_top b) (sn b) (sb b) /\ zlen (sn b) = 20 /\ zlen (sb b) = 20 /\ 0 <= sn_top b /\ 0 <= sb_top b /\
  sn_top b + Z.of_nat (counters (map fst sts)) <= 19 /\ sb_top b + Z.of_nat (flags (map fst sts)) <= 20.
Definition after (sts sts' : list (@ast A)) (b b' : base) (m : Z) (d : bool) : Prop :=
  rep sts' (sn_top b) (sb_top b) (sn b') (sb b') /\ zlen (sn b') = 20 /\ zlen (sb b') = 20 /\ done b' = done b || d /\
  (forall i, i <= sn_top b -> aget (sn b') i = aget (sn b) i) /\ (forall i, i < sb_top b -> aget (sb b') i = aget (sb b) i) /\
  map fst sts' = map fst sts /\ Forall (below (m + 1)) sts'.

Lemma counter_ok s c f t b m : good ((s, (c, f)) :: t) b -> kind_of s = KC -> 0 <= c <= m -> m < 4294967295 ->
  exists sn', counter b = Ok (mkb (sn_top b + 1) (sb_top b) (done b) (sb b) sn', c + 1) /\ zlen sn' = 20 /\ (forall i, i <> sn_top b + 1 -> aget sn' i = aget (sn b) i) /\ aget sn' (sn_top b + 1) = Ok (c + 1) /\
  good t (mkb (sn_top b + 1) (sb_top b) (done b) (sb b) sn').
Proof.
  intros (HR & L1 & L2 & G1 & G2 & G3 & G4) Hk Hc Hm. cbn [map fst] in G3, G4. rewrite counters_cons, Hk in G3. rewrite flags_cons, Hk in G4. cbn [rep] in HR. rewrite Hk in HR. destruct HR as [E HR].
  unfold counter. rewrite Z.mod_small by lia. rewrite E. cbn [bind]. rewrite (Z.mod_small (c + 1)) by lia. destruct (aset_some (sn b) (sn_top b + 1) (c + 1)) as [s' Es]; [lia|]. rewrite Es. cbn [bind].
  exists s'. split; [reflexivity|]. split; [apply aset_zlen in Es; lia|]. assert (HO : forall i, i <> sn_top b + 1 -> aget s' i = aget (sn b) i) by (intros; eapply aget_aset_other; eauto).
  split; [exact HO|]. split; [eapply aget_aset_same; eauto|]. unfold good. cbn [sn_top sb_top sn sb]. split; [eapply rep_ext; [| |exact HR]; intros; auto; apply HO; lia|]. apply aset_zlen in Es. lia.
Qed.
Lemma flag_ok s c f t b np : good ((s, (c, f)) :: t) b -> kind_of s = KF ->
  exists sb', flag b np = Ok (mkb (sn_top b) (sb_top b + 1) (done b) sb' (sn b), f || np) /\ zlen sb' = 20 /\ (forall i, i <> sb_top b -> aget sb' i = aget (sb b) i) /\ aget sb' (sb_top b) = Ok (f || np) /\
  good t (mkb (sn_top b) (sb_top b + 1) (done b) sb' (sn b)).
Proof.
  intros (HR & L1 & L2 & G1 & G2 & G3 & G4) Hk. cbn [map fst] in G3, G4. rewrite counters_cons, Hk in G3. rewrite flags_cons, Hk in G4. cbn [rep] in HR. rewrite Hk in HR. destruct HR as [E HR].
  unfold flag. rewrite E. cbn [bind]. destruct (aset_some (sb b) (sb_top b) (f || np)) as [s' Es]; [lia|]. rewrite Es. cbn [bind]. rewrite Z.mod_small by lia.
  exists s'. split; [reflexivity|]. split; [apply aset_zlen in Es; lia|]. assert (HO : forall i, i <> sb_top b -> aget s' i = aget (sb b) i) by (intros; eapply aget_aset_other; eauto).
  split; [exact HO|]. split; [eapply aget_aset_same; eauto|]. unfold good. cbn [sn_top sb_top sn sb]. split; [eapply rep_ext; [| |exact HR]; intros; auto; apply HO; lia|]. apply aset_zlen in Es. lia.
Qed.
Lemma none_ok s c f t b : kind_of s = KN -> good ((s, (c, f)) :: t) b -> good t b.
Proof.
  intros Hk (HR & L1 & L2 & G1 & G2 & G3 & G4). cbn [map fst] in G3, G4. rewrite counters_cons, Hk in G3. rewrite flags_cons, Hk in G4. cbn [rep] in HR. rewrite Hk in HR. unfold good. repeat (split; [assumption || lia|]). lia.
Qed.
Lemma below_mono m sts : Forall (below m) sts -> Forall (below (m + 1)) sts.
Proof. apply Forall_impl. unfold below. intros; lia. Qed.

Lemma eval_ok m : m < 4294967295 -> forall sts b v sts' o d, Forall (below m) sts -> good sts b -> aget (sn b) (sn_top b) = Ok (snd v) -> astep sts v = (sts', o, d) ->
  exists b', eval (map fst sts) b (fst v) = Ok (b', o) /\ after sts sts' b b' m d.
Proof.
  intros Hm. induction sts as [|[s [c f]] t IH]; intros b [a k] sts' o d HB HG HN E.
  - cbn in E. injection E as <- <- <-. exists b. cbn [map eval fst]. unfold getcount. rewrite HN. cbn [bind snd]. split; [reflexivity|]. destruct HG as (HR & L1 & L2 & _). unfold after. rewrite orb_false_r. do 7 (split; [assumption || reflexivity || auto|]). constructor.
  - inversion HB as [|? ? HB1 HB2]; subst. unfold below in HB1. cbn [fst snd] in HB1.
    assert (GOC : forall d0 b1 v', kind_of s = KC -> sn_top b1 = sn_top b + 1 -> sb_top b1 = sb_top b -> done b1 = done b || d0 -> sb b1 = sb b -> zlen (sn b1) = 20 -> (forall i, i <> sn_top b + 1 -> aget (sn b1) i = aget (sn b) i) -> aget (sn b1) (sn_top b + 1) = Ok (c + 1) ->
      good t b1 -> aget (sn b1) (sn_top b1) = Ok (snd v') -> (let '(t', o, d') := astep t v' in ((s, (c + 1, f)) :: t', o, d0 || d')) = (sts', o, d) ->
      exists b', eval (map fst t) b1 (fst v') = Ok (b', o) /\ after ((s, (c, f)) :: t) sts' b b' m d).
    { intros d0 b1 v' Hk T1 T2 T3 T4 T5 T6 T7 G1 N1 E'. destruct (astep t v') as [[t' o'] d'] eqn:Et. injection E' as <- <- <-. destruct (IH _ _ _ _ _ HB2 G1 N1 Et) as (b' & Eb & A1 & A2 & A3 & A4 & A5 & A6 & A7 & A8).
      exists b'. split; [exact Eb|]. unfold after. cbn [rep map fst]. rewrite Hk. rewrite T1, T2, T4 in *. split; [split; [rewrite A5 by lia; exact T7|exact A1]|]. do 2 (split; [assumption|]). split; [rewrite A4, T3, orb_assoc; reflexivity|].
      split; [intros i Hi; rewrite A5 by lia; apply T6; lia|]. split; [intros; apply A6; lia|]. split; [f_equal; exact A7|]. constructor; [unfold below; cbn; lia|exact A8]. }
    assert (STC : forall d0 b1, kind_of s = KC -> done b1 = done b || d0 -> sb b1 = sb b -> zlen (sn b1) = 20 -> (forall i, i <> sn_top b + 1 -> aget (sn b1) i = aget (sn b) i) -> aget (sn b1) (sn_top b + 1) = Ok (c + 1) ->
      ((s, (c + 1, f)) :: t, None, d0) = (sts', o, d) -> exists b', Ok (b1, None) = Ok (b', o) /\ after ((s, (c, f)) :: t) sts' b b' m d).
    { intros d0 b1 Hk T3 T4 T5 T6 T7 E'. injection E' as <- <- <-. exists b1. split; [reflexivity|]. destruct HG as (HR & L1 & L2 & _). unfold after. cbn [rep map fst] in *. rewrite Hk in *. destruct HR as [HR1 HR]. rewrite T4 in *.
      split; [split; [exact T7|]; eapply rep_ext; [| |exact HR]; intros; auto; apply T6; lia|]. do 2 (split; [assumption|]). split; [exact T3|]. split; [intros; apply T6; lia|]. do 2 (split; [reflexivity|]). constructor; [unfold below; cbn; lia|now apply below_mono]. }
    assert (GOF : forall d0 f' b1, kind_of s = KF -> sn_top b1 = sn_top b -> sb_top b1 = sb_top b + 1 -> done b1 = done b || d0 -> sn b1 = sn b -> zlen (sb b1) = 20 -> (forall i, i <> sb_top b -> aget (sb b1) i = aget (sb b) i) -> aget (sb b1) (sb_top b) = Ok f' ->
      good t b1 -> (let '(t', o, d') := astep t (a, k) in ((s, (c, f')) :: t', o, d0 || d')) = (sts', o, d) ->
      exists b', eval (map fst t) b1 a = Ok (b', o) /\ after ((s, (c, f)) :: t) sts' b b' m d).
    { intros d0 f' b1 Hk T1 T2 T3 T4 T5 T6 T7 G1 E'. destruct (astep t (a, k)) as [[t' o'] d'] eqn:Et. injection E' as <- <- <-.
      assert (HN' : aget (sn b1) (sn_top b1) = Ok (snd (a, k))) by (rewrite T4, T1; exact HN).
      destruct (IH b1 _ _ _ _ HB2 G1 HN' Et) as (b' & Eb & A1 & A2 & A3 & A4 & A5 & A6 & A7 & A8).
      exists b'. split; [exact Eb|]. unfold after. cbn [rep map fst]. rewrite Hk. rewrite T1, T2, T4 in *. split; [split; [rewrite A6 by lia; exact T7|exact A1]|]. do 2 (split; [assumption|]). split; [rewrite A4, T3, orb_assoc; reflexivity|].
      split; [intros i Hi; apply A5; lia|]. split; [intros i Hi; rewrite A6 by lia; apply T6; lia|]. split; [f_equal; exact A7|]. constructor; [unfold below; cbn; lia|exact A8]. }
    assert (STF : forall d0 f' b1, kind_of s = KF -> done b1 = done b || d0 -> sn b1 = sn b -> zlen (sb b1) = 20 -> (forall i, i <> sb_top b -> aget (sb b1) i = aget (sb b) i) -> aget (sb b1) (sb_top b) = Ok f' ->
      ((s, (c, f')) :: t, None, d0) = (sts', o, d) -> exists b', Ok (b1, None) = Ok (b', o) /\ after ((s, (c, f)) :: t) sts' b b' m d).
    { intros d0 f' b1 Hk T3 T4 T5 T6 T7 E'. injection E' as <- <- <-. exists b1. split; [reflexivity|]. destruct HG as (HR & L1 & L2 & _). unfold after. cbn [rep map fst] in *. rewrite Hk in *. destruct HR as [HR1 HR]. rewrite T4 in *.
      split; [split; [exact T7|]; eapply rep_ext; [| |exact HR]; intros; auto; apply T6; lia|]. do 2 (split; [assumption|]). split; [exact T3|]. split; [reflexivity|]. split; [intros; apply T6; lia|]. split; [reflexivity|]. constructor; [unfold below; cbn; lia|now apply below_mono]. }
    assert (GON : forall v', kind_of s = KN -> snd v' = k -> (let '(t', o, d') := astep t v' in ((s, (c, f)) :: t', o, false || d')) = (sts', o, d) ->
      exists b', eval (map fst t) b (fst v') = Ok (b', o) /\ after ((s, (c, f)) :: t) sts' b b' m d).
    { intros v' Hk Hv E'. destruct (astep t v') as [[t' o'] d'] eqn:Et. injection E' as <- <- <-. pose proof (none_ok _ _ _ _ _ Hk HG) as G1.
      assert (HN' : aget (sn b) (sn_top b) = Ok (snd v')) by (rewrite Hv; exact HN).
      destruct (IH b _ _ _ _ HB2 G1 HN' Et) as (b' & Eb & A1 & A2 & A3 & A4 & A5 & A6 & A7 & A8).
      exists b'. split; [exact Eb|]. unfold after. cbn [rep map fst]. rewrite Hk. do 6 (split; [assumption|]). split; [f_equal; exact A7|]. constructor; [unfold below; cbn; lia|exact A8]. }
    cbn [astep fst snd] in E. cbn [map fst eval]. destruct s as [p| |n|n|p|p|g].
    + destruct (p a).
      * apply (GON (a, k)); auto.
      * injection E as <- <- <-. exists b. split; [reflexivity|]. destruct HG as (HR & L1 & L2 & _). unfold after. rewrite orb_false_r. do 7 (split; [assumption || reflexivity || auto|]). constructor; [unfold below; cbn; lia|now apply below_mono].
    + destruct (counter_ok _ _ _ _ _ m HG eq_refl HB1 Hm) as (sn' & Ec & C1 & C2 & C3 & C4). rewrite Ec. cbn [bind fst snd]. destruct (Z.eqb_spec (c + 1) 0); [lia|].
      apply (GOC false _ (a, c + 1)); cbn [sn_top sb_top done sb sn fst snd]; auto. now rewrite orb_false_r.
    + destruct (counter_ok _ _ _ _ _ m HG eq_refl HB1 Hm) as (sn' & Ec & C1 & C2 & C3 & C4). rewrite Ec. cbn [bind fst snd]. destruct (n <? c + 1).
      * apply (GOC false _ (a, c + 1)); cbn [sn_top sb_top done sb sn fst snd]; auto. now rewrite orb_false_r.
      * apply (STC false); cbn [sn_top sb_top done sb sn fst snd]; auto. now rewrite orb_false_r.
    + destruct (counter_ok _ _ _ _ _ m HG eq_refl HB1 Hm) as (sn' & Ec & C1 & C2 & C3 & C4). unfold flt_take. rewrite Ec. cbn [bind fst snd sn_top sb_top done sb sn]. destruct (0 <? n).
      * apply (GOC (n <=? c + 1) _ (a, c + 1)); cbn [sn_top sb_top done sb sn fst snd]; auto.
      * apply (STC (n <=? c + 1)); cbn [sn_top sb_top done sb sn fst snd]; auto.
    + destruct (flag_ok _ _ _ _ _ (negb (p a)) HG eq_refl) as (sb' & Ec & C1 & C2 & C3 & C4). rewrite Ec. cbn [bind fst snd]. destruct (f || negb (p a)).
      * apply (GOF false true); cbn [sn_top sb_top done sb sn fst snd]; auto. now rewrite orb_false_r.
      * apply (STF false false); cbn [sn_top sb_top done sb sn fst snd]; auto. now rewrite orb_false_r.
    + destruct (flag_ok _ _ _ _ _ (negb (p a)) HG eq_refl) as (sb' & Ec & C1 & C2 & C3 & C4). unfold flt_takewhile. rewrite Ec. cbn [bind fst snd sn_top sb_top done sb sn]. destruct (f || negb (p a)); cbn [negb] in *.
      * apply (STF true true); cbn [sn_top sb_top done sb sn fst snd]; auto.
      * apply (GOF false false); cbn [sn_top sb_top done sb sn fst snd]; auto.
    + apply (GON (g a, k)); auto.
Qed.

Lemma good_reset sts sts' b b' m d : sn_top b = 0 -> sb_top b = 0 -> good sts b -> after sts sts' b b' m d -> good sts' (reset b').
Proof.
  intros T1 T2 (HR & L1 & L2 & G1 & G2 & G3 & G4) (A1 & A2 & A3 & A4 & A5 & A6 & A7 & A8). unfold good, reset. cbn [sn_top sb_top sn sb done]. rewrite T1, T2 in *. rewrite A7. repeat (split; [assumption || lia|]). lia.
Qed.
Lemma loop_ok : forall l sts b m, m + zlen l < 4294967296 -> Forall (below m) sts -> Forall cnt_ok sts -> good sts b -> sn_top b = 0 -> sb_top b = 0 -> aget (sn b) 0 = Ok 0 -> done b = false ->
  loop (map fst sts) b l = Ok (rpipe sts (map (fun a => (a, 0)) l)).
Proof.
  induction l as [|a l IH]; intros sts b m Hm HB HC HG T1 T2 T3 T4.
  - cbn. now rewrite rpipe_nil.
  - cbn [loop]. rewrite T4. rewrite zlen_cons in Hm. pose proof (zlen_nonneg l). destruct (astep sts (a, 0)) as [[sts' o] d] eqn:Es. destruct (astep_ok _ _ _ _ _ HC Es) as (S1 & S2 & S3).
    destruct (eval_ok m ltac:(lia) sts b (a, 0) sts' o d HB HG) as (b' & Eb & HA); [now rewrite T1|exact Es|]. cbn [fst] in Eb. rewrite Eb. cbn [bind fst snd map]. rewrite S1.
    pose proof (good_reset _ _ _ _ _ _ T1 T2 HG HA) as G'. destruct HA as (A1 & A2 & A3 & A4 & A5 & A6 & A7 & A8). rewrite T4 in A4. cbn [orb] in A4. rewrite <- A7. destruct d.
    + rewrite S2 by reflexivity. assert (E0 : loop (map fst sts') (reset b') l = Ok []). { destruct l; cbn [loop]; [reflexivity|]. unfold reset at 1. cbn [done]. now rewrite A4. } rewrite E0. cbn [bind]. reflexivity.
    + rewrite (IH sts' (reset b') (m + 1)); auto; [lia|]. unfold reset. cbn [sn]. rewrite T1 in A5. rewrite A5 by lia. exact T3.
Qed.
Lemma rep_init : forall (sts : list (stage A)) k j sn sb, (forall i, k < i <= k + Z.of_nat (counters sts) -> aget sn i = Ok 0) -> (forall i, j <= i < j + Z.of_nat (flags sts) -> aget sb i = Ok false) ->
  rep (map (fun s => (s, (0, false))) sts) k j sn sb.
Proof.
  induction sts as [|s t IH]; intros k j sn sb H1 H2; [exact I|]. cbn [map rep]. rewrite counters_cons in H1. rewrite flags_cons in H2. destruct (kind_of s).
  - split; [apply H1; lia|]. apply IH; intros; [apply H1|apply H2]; lia.
  - split; [apply H2; lia|]. apply IH; intros; [apply H1|apply H2]; lia.
  - apply IH; intros; [apply H1|apply H2]; lia.
Qed.
Lemma rpipe_init (sts : list (stage A)) : forall l, rpipe (map (fun s => (s, (0, false))) sts) l = fold_left (fun l s => meaning s l) sts l.
Proof.
  unfold rpipe. induction sts as [|s t IH]; intros l; [reflexivity|]. cbn [map fold_left]. rewrite IH. f_equal. destruct s; cbn [residual meaning]; rewrite ?Z.sub_0_r; reflexivity.
Qed.
Lemma filter_ok (sts : list (stage A)) (l : list A) : args_ok sts -> (counters sts <= 19)%nat -> (flags sts <= 20)%nat -> zlen l < 4294967296 -> c_filter sts l = Ok (pipe sts l).
Proof.
  intros HA H1 H2 HL. unfold c_filter, pipe. rewrite <- rpipe_init.
  assert (EM : map fst (map (fun s : stage A => (s, (0, false))) sts) = sts) by (rewrite map_map; cbn [fst]; apply map_id).
  rewrite <- EM at 1. apply loop_ok with (m := 0); cbn [sn_top sb_top sn sb done init]; try reflexivity; try lia.
  - apply Forall_forall. intros x Hx. apply in_map_iff in Hx as (s & <- & _). unfold below. cbn. lia.
  - apply Forall_forall. intros x Hx. apply in_map_iff in Hx as (s & <- & Hs). split; [cbn; lia|]. cbn. unfold args_ok in HA. rewrite Forall_forall in HA. specialize (HA _ Hs). destruct s; auto. lia.
  - unfold good. cbn [sn_top sb_top sn sb init]. rewrite EM. split; [|repeat split; try reflexivity; lia].
    apply rep_init; intros i Hi; [apply (aget_repeat 0 20)|apply (aget_repeat false 20)]; lia.
Qed.
End Conc.
Lemma loop2_loop {A B} (sts : list (stage (A * B))) : forall l1 l2 b, loop2 sts b l1 l2 = loop sts b (combine l1 l2).
Proof.
  induction l1 as [|x l1 IH]; intros [|y l2] b; try reflexivity. cbn [combine loop loop2]. destruct (done b); [reflexivity|]. destruct (eval sts b (x, y)) as [q|e]; [|reflexivity]. cbn [bind]. now rewrite IH.
Qed.
(** With c_flt_skip(0), 2^32 - 1 values pass and the next one does not. *)
Lemma skip0_loop {A} sb0 rest : forall (l1 l2 : list A) c, 0 <= c -> c + zlen l1 <= 4294967295 -> exists l', length l' = length l1 /\
  loop [Skip 0] (mkb 0 0 false sb0 (0 :: c :: rest)) (l1 ++ l2) = (let* r := loop [Skip 0] (mkb 0 0 false sb0 (0 :: c + zlen l1 :: rest)) l2 in Ok (l' ++ r)).
Proof.
  induction l1 as [|x l1 IH]; intros l2 c Hc Hl.
  - exists []. split; [reflexivity|]. cbn [app]. replace (c + zlen (@nil A)) with c by (unfold zlen; cbn; lia). destruct (loop _ _ l2); reflexivity.
  - rewrite zlen_cons in *. pose proof (zlen_nonneg l1).
    assert (E : eval [Skip 0] (mkb 0 0 false sb0 (0 :: c :: rest)) x = Ok (mkb 1 0 false sb0 (0 :: c + 1 :: rest), Some (x, c + 1))).
    { cbn [eval]. unfold counter. cbn [sn_top sb_top done sb sn]. change ((0 + 1) mod 256) with 1. change (aget (0 :: c :: rest) 1) with (@Ok Z c). cbn [bind]. rewrite Z.mod_small by lia. rewrite aset_ok by (rewrite !zlen_cons; pose proof (zlen_nonneg rest); lia). cbn [bind fst snd].
      destruct (Z.ltb_spec 0 (c + 1)); [|lia]. reflexivity. }
    cbn [app loop done]. rewrite E. cbn [bind fst snd reset done sb sn]. destruct (IH l2 (c + 1)) as (l' & L & El); [lia|lia|].
    exists ((x, c + 1) :: l'). split; [cbn; lia|]. unfold reset. cbn [done sb sn]. rewrite El. replace (c + 1 + zlen l1) with (c + (1 + zlen l1)) by lia. match goal with |- context [loop ?a ?b l2] => destruct (loop a b l2); reflexivity end.
Qed.
Lemma number_length {A} : forall (l : list (A * Z)) c, length (number c l) = length l.
Proof. induction l as [|[a k] t IH]; intros c; cbn; auto. Qed.
Lemma skip0_last {A} (l1 : list A) x : zlen l1 = 4294967295 -> c_filter [Skip 0] (l1 ++ [x]) <> Ok (pipe [Skip 0] (l1 ++ [x])).
Proof.
  intros HL H. unfold c_filter, init in H. cbn [repeat] in H. destruct (skip0_loop (repeat false 20) (repeat 0 18) l1 [x] 0) as (l' & L & E); [lia|lia|]. rewrite HL in E. change (0 + 4294967295) with 4294967295 in E.
  assert (E1 : loop [Skip 0] (mkb 0 0 false (repeat false 20) (0 :: 4294967295 :: repeat 0 18)) [x] = Ok []) by reflexivity. rewrite E1 in E. cbn [bind] in E.
  assert (H1 : Ok (l' ++ []) = Ok (pipe [Skip 0] (l1 ++ [x]))) by (rewrite <- E; exact H). injection H1 as H1. apply (f_equal (@length _)) in H1. unfold pipe in H1. cbn [fold_left meaning] in H1. change (Z.to_nat 0) with O in H1. cbn [skipn] in H1.
  rewrite app_nil_r, number_length, map_length, app_length, L in H1. cbn [length] in H1. lia.
Qed.
