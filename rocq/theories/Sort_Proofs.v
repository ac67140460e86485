(** Proofs about the sorting and searching model. *)
From Verif Require Import Base Order Sort_Model.
Ltac Zify.zify_post_hook ::= Z.div_mod_to_equations.

(** ** Rearrangement confined to a range *)
Section SegPerm.
Context {A : Type}.

Definition seg_perm (lo hi : Z) (l l' : list A) : Prop :=
  zlen l' = zlen l /\ Permutation l l' /\
  (forall k, ~ (lo <= k <= hi) -> aget l' k = aget l k).

Lemma seg_perm_refl lo hi l : seg_perm lo hi l l.
Proof. repeat split; auto. Qed.

Lemma seg_perm_trans lo hi l1 l2 l3 :
  seg_perm lo hi l1 l2 -> seg_perm lo hi l2 l3 -> seg_perm lo hi l1 l3.
Proof.
  intros (H1 & H2 & H3) (H4 & H5 & H6). repeat split; try lia.
  - eapply perm_trans; eauto.
  - intros k Hk. rewrite H6, H3; auto.
Qed.

Lemma seg_perm_mono lo hi lo' hi' l l' :
  seg_perm lo hi l l' -> lo' <= lo -> hi <= hi' -> seg_perm lo' hi' l l'.
Proof.
  intros (H1 & H2 & H3) Ha Hb. repeat split; auto. intros k Hk. apply H3. lia.
Qed.

Lemma seg_perm_swap lo hi l l' i j :
  aswap l i j = Ok l' -> lo <= i <= hi -> lo <= j <= hi -> seg_perm lo hi l l'.
Proof.
  intros Hs Hi Hj. pose proof (aswap_Permutation _ _ _ _ Hs).
  apply aswap_inv in Hs as (x & y & Hx & Hy & Hl & Hk).
  repeat split; auto. intros k Hout. rewrite Hk.
  destruct (Z.eqb_spec k j); [lia|]. destruct (Z.eqb_spec k i); [lia|]. reflexivity.
Qed.

(** Elements of the range come from the range. *)
Lemma seg_perm_origin lo hi l l' k x :
  0 <= lo -> hi < zlen l -> seg_perm lo hi l l' ->
  lo <= k <= hi -> aget l' k = Ok x -> exists m, lo <= m <= hi /\ aget l m = Ok x.
Proof.
  intros Hlo Hhi (Hlen & Hp & Hout) Hk Hx.
  assert (Hlh : lo <= hi) by lia.
  pose (a := firstn (Z.to_nat lo) l). pose (s := firstn (Z.to_nat (hi - lo + 1)) (skipn (Z.to_nat lo) l)).
  pose (b := skipn (Z.to_nat (hi + 1)) l).
  pose (s' := firstn (Z.to_nat (hi - lo + 1)) (skipn (Z.to_nat lo) l')).
  assert (El : forall q : list A, zlen q = zlen l ->
     (q = firstn (Z.to_nat lo) q ++ firstn (Z.to_nat (hi - lo + 1)) (skipn (Z.to_nat lo) q) ++ skipn (Z.to_nat (hi + 1)) q)).
  { intros q Hq. rewrite <- (firstn_skipn (Z.to_nat lo) q) at 1. f_equal.
    rewrite <- (firstn_skipn (Z.to_nat (hi - lo + 1)) (skipn (Z.to_nat lo) q)) at 1. f_equal.
    rewrite skipn_skipn. f_equal. lia. }
  assert (Ea : firstn (Z.to_nat lo) l' = a).
  { apply aget_ext.
    - unfold a. rewrite !zlen_firstn; lia.
    - intros i Hi. rewrite zlen_firstn in Hi by lia. unfold a. rewrite !aget_firstn by lia.
      apply Hout. lia. }
  assert (Eb : skipn (Z.to_nat (hi + 1)) l' = b).
  { apply aget_ext.
    - unfold b. rewrite !zlen_skipn; lia.
    - intros i Hi. rewrite zlen_skipn in Hi by lia. unfold b. rewrite !aget_skipn by lia.
      apply Hout. lia. }
  rewrite (El l eq_refl) in Hp. rewrite (El l' Hlen) in Hp. rewrite Ea, Eb in Hp.
  fold a s b s' in Hp. apply Permutation_app_inv_l, Permutation_app_inv_r in Hp.
  assert (Hin : In x s').
  { apply (aget_In s' (k - lo)). unfold s'. rewrite aget_firstn by lia. rewrite aget_skipn by lia.
    rewrite <- Hx. f_equal. lia. }
  apply (Permutation_in _ (Permutation_sym Hp)) in Hin.
  apply In_aget in Hin as (m & Hm & Hmx).
  assert (Hs : zlen s = hi - lo + 1).
  { unfold s. rewrite zlen_firstn, zlen_skipn by lia. lia. }
  exists (lo + m). split; [lia|]. unfold s in Hmx.
  rewrite aget_firstn in Hmx by lia. rewrite aget_skipn in Hmx by lia. exact Hmx.
Qed.
End SegPerm.

Section SortProofs.
Context {A : Type}.
Variable less : A -> A -> bool.
Hypothesis Hswo : strict_weak_order less.
Notation le := (leb_of less).

(** all elements at indices [lo..hi] satisfy P *)
Definition rng (l : list A) (lo hi : Z) (P : A -> Prop) : Prop :=
  forall k x, lo <= k <= hi -> aget l k = Ok x -> P x.

Definition sorted_rng (l : list A) (lo hi : Z) : Prop :=
  forall i j x y, lo <= i -> i < j -> j <= hi -> aget l i = Ok x -> aget l j = Ok y -> le x y.

(** everything before [lo] is not greater than anything in [lo..hi] *)
Definition prefix_le (l : list A) (lo hi : Z) : Prop :=
  forall k m x y, 0 <= k < lo -> lo <= m <= hi -> aget l k = Ok x -> aget l m = Ok y -> le x y.

Lemma rng_seg_perm l l' lo hi P : 0 <= lo -> hi < zlen l ->
  seg_perm lo hi l l' -> rng l lo hi P -> rng l' lo hi P.
Proof.
  intros Hlo Hhi Hp Hr k x Hk Hx.
  destruct (seg_perm_origin lo hi l l' k x) as (m & Hm & Hmx); auto.
  eapply Hr; eauto.
Qed.

Lemma prefix_le_perm l l' lo hi : 0 <= lo -> hi < zlen l ->
  seg_perm lo hi l l' -> prefix_le l lo hi -> prefix_le l' lo hi.
Proof.
  intros Hlo Hhi Hp Hpre k m x y Hk Hm Hx Hy.
  destruct (seg_perm_origin lo hi l l' m y) as (m' & Hm' & Hmx); auto.
  destruct Hp as (_ & _ & Hout). rewrite Hout in Hx by lia. eapply Hpre; eauto.
Qed.

(** *** insertion sort *)

(** Invariant of the shifting loop, with virtual array [v]: [l] in which slot j+1 holds x. *)
Lemma ins_shift_spec fuel l x j lo i :
  0 <= lo -> lo - 1 <= j -> j < i -> i < zlen l -> j + 1 < Z.of_nat fuel ->
  (* below lo nothing is greater than x *)
  (forall k y, 0 <= k < lo -> aget l k = Ok y -> le y x) ->
  sorted_rng l lo j ->
  exists l' j', ins_shift less fuel l x j = Ok (l', j') /\
    lo - 1 <= j' <= j /\ zlen l' = zlen l /\
    (forall k, ~ (j' + 2 <= k <= j + 1) -> aget l' k = aget l k) /\
    (forall k, j' + 2 <= k <= j + 1 -> aget l' k = aget l (k - 1)) /\
    (forall k y, j' + 1 <= k <= j -> aget l k = Ok y -> less x y = true) /\
    (j' >= lo -> forall y, aget l j' = Ok y -> le y x).
Proof.
  revert l j. induction fuel as [|fuel IH]; intros l j Hlo Hj Hji Hi Hf Hpre Hs; [lia|].
  cbn [ins_shift]. destruct (Z.leb_spec 0 j) as [Hj0|Hj0].
  - destruct (aget_some l j) as [y Hy]; [lia|]. rewrite Hy. cbn [bind].
    destruct (less x y) eqn:Hxy.
    + (* y > x, so j >= lo *)
      assert (Hjlo : lo <= j).
      { destruct (Z.leb_spec lo j); [auto|]. pose proof (Hpre j y ltac:(lia) Hy) as HH.
        unfold leb_of in HH. congruence. }
      destruct (aset_some l (j + 1) y) as [l1 H1]; [lia|]. rewrite H1. cbn [bind].
      pose proof (aset_zlen _ _ _ _ H1) as Hz.
      assert (Hg : forall k, k <> j + 1 -> aget l1 k = aget l k) by (intros; eapply aget_aset_other; eauto).
      destruct (IH l1 (j - 1)) as (l' & j' & Hr & Hb & Hl & Ho & Hin & Hgt & Hlast); try lia.
      { intros k z Hk Hz'. apply (Hpre k); auto. rewrite Hg in Hz' by lia. exact Hz'. }
      { intros a b xa xb Ha Hab Hb Hxa Hxb. rewrite Hg in Hxa, Hxb by lia.
        apply (Hs a b); auto; lia. }
      exists l', j'. split; [exact Hr|]. split; [lia|]. split; [lia|]. repeat split.
      * intros k Hk. rewrite Ho by lia. apply Hg. lia.
      * intros k Hk. destruct (Z.eq_dec k (j + 1)) as [->|].
        -- rewrite Ho by lia. rewrite (aget_aset_same _ _ _ _ H1).
           replace (j + 1 - 1) with j by lia. auto.
        -- rewrite Hin by lia. apply Hg. lia.
      * intros k z Hk Hz'. destruct (Z.eq_dec k j) as [->|].
        -- congruence.
        -- apply (Hgt k); [lia|]. rewrite Hg by lia. exact Hz'.
      * intros Hge z Hz'. apply Hlast; auto. rewrite Hg by lia. exact Hz'.
    + exists l, j. split; [reflexivity|]. split; [lia|]. split; [lia|]. repeat split; auto; try lia.
      intros Hge z Hz. rewrite Hy in Hz. injection Hz as <-. exact Hxy.
  - exists l, j. split; [reflexivity|]. split; [lia|]. split; [lia|]. repeat split; auto; lia.
Qed.

(** One insertion step is a rearrangement of [lo..i]. *)
Lemma insert_step_perm (l : list A) x i j' l' l2 :
  0 <= i -> -1 <= j' < i -> i < zlen l -> aget l i = Ok x -> zlen l' = zlen l ->
  (forall k, ~ (j' + 2 <= k <= i) -> aget l' k = aget l k) ->
  (forall k, j' + 2 <= k <= i -> aget l' k = aget l (k - 1)) ->
  aset l' (j' + 1) x = Ok l2 ->
  seg_perm (j' + 1) i l l2.
Proof.
  intros Hi Hj Hil Hx Hl Ho Hin Hset.
  pose proof (aset_zlen _ _ _ _ Hset) as Hz2.
  assert (Hg2 : forall k, aget l2 k = if k =? j' + 1 then Ok x
                 else if (j' + 2 <=? k) && (k <=? i) then aget l (k - 1) else aget l k).
  { intros k. rewrite (aget_aset _ _ _ _ k Hset). destruct (Z.eqb_spec k (j' + 1)); [reflexivity|].
    destruct (Z.leb_spec (j' + 2) k); cbn; [|apply Ho; lia].
    destruct (Z.leb_spec k i); [apply Hin; lia | apply Ho; lia]. }
  split; [lia|]. split.
  - (* l = A ++ S ++ x :: B ; l2 = A ++ x :: S ++ B *)
    pose (a := firstn (Z.to_nat (j' + 1)) l).
    pose (s := firstn (Z.to_nat (i - j' - 1)) (skipn (Z.to_nat (j' + 1)) l)).
    pose (b := skipn (Z.to_nat (i + 1)) l).
    assert (La : zlen a = j' + 1) by (unfold a; rewrite zlen_firstn; lia).
    assert (Ls : zlen s = i - j' - 1) by (unfold s; rewrite zlen_firstn, zlen_skipn; lia).
    assert (Lb : zlen b = zlen l - i - 1) by (unfold b; rewrite zlen_skipn; lia).
    assert (Ga : forall k, k < j' + 1 -> aget a k = aget l k) by (intros; unfold a; apply aget_firstn; lia).
    assert (Gs : forall k, 0 <= k < i - j' - 1 -> aget s k = aget l (j' + 1 + k)).
    { intros k Hk. unfold s. rewrite aget_firstn by lia. rewrite aget_skipn by lia. reflexivity. }
    assert (Gb : forall k, 0 <= k -> aget b k = aget l (i + 1 + k)).
    { intros k Hk. unfold b. rewrite aget_skipn by lia. reflexivity. }
    assert (E1 : l = a ++ s ++ x :: b).
    { apply aget_ext; [rewrite !zlen_app, zlen_cons; lia|]. intros k Hk.
      rewrite aget_app by lia. destruct (Z.ltb_spec k (zlen a)); [rewrite Ga by lia; reflexivity|].
      rewrite aget_app by lia. destruct (Z.ltb_spec (k - zlen a) (zlen s)).
      - rewrite Gs by lia. f_equal. lia.
      - rewrite aget_cons. destruct (Z.eqb_spec (k - zlen a - zlen s) 0).
        + rewrite <- Hx. f_equal. lia.
        + rewrite Gb by lia. f_equal. lia. }
    assert (E2 : l2 = a ++ x :: s ++ b).
    { apply aget_ext; [rewrite zlen_app, zlen_cons, zlen_app; lia|]. intros k Hk.
      rewrite Hg2. rewrite aget_app by lia. destruct (Z.ltb_spec k (zlen a)).
      - destruct (Z.eqb_spec k (j' + 1)); [lia|]. destruct (Z.leb_spec (j' + 2) k); [lia|]. cbn. rewrite Ga by lia. reflexivity.
      - rewrite aget_cons. destruct (Z.eqb_spec k (j' + 1)).
        + destruct (Z.eqb_spec (k - zlen a) 0); [reflexivity|lia].
        + destruct (Z.eqb_spec (k - zlen a) 0); [lia|]. rewrite aget_app by lia.
          destruct (Z.ltb_spec (k - zlen a - 1) (zlen s)).
          * rewrite Gs by lia. destruct (Z.leb_spec (j' + 2) k); [|lia]. destruct (Z.leb_spec k i); [|lia].
            cbn. f_equal. lia.
          * rewrite Gb by lia. destruct (Z.leb_spec (j' + 2) k); [|lia]. destruct (Z.leb_spec k i); [lia|].
            cbn. f_equal. lia. }
    rewrite E1 at 1. rewrite E2. apply Permutation_app_head.
    symmetry. apply Permutation_middle.
  - intros k Hk. rewrite Hg2. destruct (Z.eqb_spec k (j' + 1)); [lia|].
    destruct (Z.leb_spec (j' + 2) k); cbn; [|reflexivity]. destruct (Z.leb_spec k i); [lia|reflexivity].
Qed.

Lemma insertsort_spec fuel l i lo hi :
  0 <= lo -> lo < i -> i <= hi + 1 -> hi < zlen l -> hi + 1 - i < Z.of_nat fuel ->
  prefix_le l lo hi -> sorted_rng l lo (i - 1) ->
  exists l', insertsort less fuel l i hi = Ok l' /\ seg_perm lo hi l l' /\ sorted_rng l' lo hi.
Proof.
  revert l i. induction fuel as [|fuel IH]; intros l i Hlo Hli Hihi Hhi Hf Hpre Hs; [lia|].
  cbn [insertsort]. destruct (Z.leb_spec i hi) as [Hle|Hle].
  - destruct (aget_some l i) as [x Hx]; [lia|]. rewrite Hx. cbn [bind].
    destruct (ins_shift_spec (S (length l)) l x (i - 1) lo i) as
      (l' & j' & Hr & Hb & Hl & Ho & Hin & Hgt & Hlast); try lia.
    { unfold zlen in *. lia. }
    { intros k y Hk Hy. apply (Hpre k i); auto; lia. }
    { exact Hs. }
    rewrite Hr. cbn [bind fst snd].
    destruct (aset_some l' (j' + 1) x) as [l2 H2]; [lia|]. rewrite H2. cbn [bind].
    replace (i - 1 + 1) with i in * by lia.
    assert (Hsp : seg_perm (j' + 1) i l l2) by (eapply insert_step_perm; eauto; lia).
    assert (Hsp' : seg_perm lo hi l l2) by (eapply seg_perm_mono; eauto; lia).
    pose proof (aset_zlen _ _ _ _ H2) as Hz2.
    destruct (IH l2 (i + 1)) as (l3 & H3 & Hp3 & Hs3); try lia.
    { eapply prefix_le_perm; eauto. }
    { (* sorted up to i *)
      assert (Hg2 : forall k, aget l2 k = if k =? j' + 1 then Ok x else aget l' k).
      { intros k. apply (aget_aset _ _ _ _ k H2). }
      replace (i + 1 - 1) with i by lia.
      intros a b xa xb Ha Hab Hb' Hxa Hxb. rewrite Hg2 in Hxa, Hxb.
      destruct (Z.eqb_spec a (j' + 1)) as [->|Hna].
      - injection Hxa as <-. destruct (Z.eqb_spec b (j' + 1)); [lia|].
        rewrite Hin in Hxb by lia. apply less_le; auto. apply (Hgt (b - 1)); auto. lia.
      - destruct (Z.eqb_spec b (j' + 1)) as [->|Hnb].
        + injection Hxb as <-. rewrite Ho in Hxa by lia.
          destruct (aget_some l j') as [z Hz]; [lia|].
          assert (le z x) by (apply Hlast; [lia|auto]).
          destruct (Z.eq_dec a j') as [->|]; [congruence|].
          eapply le_trans; eauto. apply (Hs a j'); auto; lia.
        + assert (exists a', lo <= a' <= i - 1 /\ aget l a' = Ok xa /\ (a' = a /\ a <= j' \/ a' = a - 1 /\ j' + 2 <= a)) as (a' & Ha1 & Ha2 & Ha3).
          { destruct (Z.leb_spec a j').
            - exists a. rewrite Ho in Hxa by lia. repeat split; auto; lia.
            - exists (a - 1). rewrite Hin in Hxa by lia. repeat split; auto; lia. }
          assert (exists b', lo <= b' <= i - 1 /\ aget l b' = Ok xb /\ (b' = b /\ b <= j' \/ b' = b - 1 /\ j' + 2 <= b)) as (b' & Hb1 & Hb2 & Hb3).
          { destruct (Z.leb_spec b j').
            - exists b. rewrite Ho in Hxb by lia. repeat split; auto; lia.
            - exists (b - 1). rewrite Hin in Hxb by lia. repeat split; auto; lia. }
          apply (Hs a' b'); auto; lia. }
    exists l3. split; [exact H3|]. split; [eapply seg_perm_trans; eauto|exact Hs3].
  - exists l. split; [reflexivity|]. split; [apply seg_perm_refl|].
    replace hi with (i - 1) by lia. exact Hs.
Qed.

Lemma insertsort_lowhigh_spec l lo hi :
  0 <= lo -> lo <= hi -> hi < zlen l -> prefix_le l lo hi ->
  exists l', insertsort_lowhigh less l lo hi = Ok l' /\ seg_perm lo hi l l' /\ sorted_rng l' lo hi.
Proof.
  intros Hlo Hlh Hhi Hpre. unfold insertsort_lowhigh. apply insertsort_spec; auto; try lia.
  - unfold zlen in Hhi. lia.
  - intros i j x y. lia.
Qed.

(** *** partition (by-value pivot) *)

Lemma scan_up_spec fuel l v i s :
  0 <= i <= s -> s < zlen l -> (exists z, aget l s = Ok z /\ less z v = false) ->
  s - i < Z.of_nat fuel ->
  exists i', scan_up less fuel l (PVal v) i = Ok i' /\ i <= i' <= s /\
    (forall k x, i <= k < i' -> aget l k = Ok x -> less x v = true) /\
    (forall x, aget l i' = Ok x -> less x v = false).
Proof.
  revert i. induction fuel as [|fuel IH]; intros i Hi Hs (z & Hz & Hzv) Hf; [lia|].
  cbn [scan_up]. destruct (aget_some l i) as [x Hx]; [lia|]. rewrite Hx. cbn [bind pivot_val].
  destruct (less x v) eqn:E.
  - destruct (Z.eqb_spec (i + 1) 0); [lia|].
    assert (i <> s) by congruence.
    destruct (IH (i + 1)) as (i' & H1 & H2 & H3 & H4); eauto; try lia.
    exists i'. split; [exact H1|]. split; [lia|]. split; [|exact H4].
    intros k y Hk Hy. destruct (Z.eq_dec k i) as [->|]; [congruence|]. apply (H3 k); auto. lia.
  - exists i. split; [reflexivity|]. split; [lia|]. split; [lia|]. congruence.
Qed.

Lemma scan_down_spec fuel l v j s :
  0 <= s <= j -> j < zlen l -> (exists z, aget l s = Ok z /\ less v z = false) ->
  j - s < Z.of_nat fuel ->
  exists j', scan_down less fuel l (PVal v) j = Ok j' /\ s <= j' <= j /\
    (forall k x, j' < k <= j -> aget l k = Ok x -> less v x = true) /\
    (forall x, aget l j' = Ok x -> less v x = false).
Proof.
  revert j. induction fuel as [|fuel IH]; intros j Hj Hs (z & Hz & Hzv) Hf; [lia|].
  cbn [scan_down]. destruct (aget_some l j) as [x Hx]; [lia|]. rewrite Hx. cbn [bind pivot_val].
  destruct (less v x) eqn:E.
  - assert (j <> s) by congruence.
    destruct (Z.eqb_spec (j - 1) 0) as [E0|].
    + (* j - 1 = 0 = s *)
      assert (s = 0) by lia. subst s.
      exists (j - 1). split; [reflexivity|]. split; [lia|]. split.
      * intros k y Hk Hy. assert (k = j) by lia. subst k. congruence.
      * intros y Hy. rewrite E0 in Hy. congruence.
    + destruct (IH (j - 1)) as (j' & H1 & H2 & H3 & H4); eauto; try lia.
      exists j'. split; [exact H1|]. split; [lia|]. split; [|exact H4].
      intros k y Hk Hy. destruct (Z.eq_dec k j) as [->|]; [congruence|]. apply (H3 k); auto. lia.
  - exists j. split; [reflexivity|]. split; [lia|]. split; [lia|]. congruence.
Qed.

(** Loop invariant of the partition: everything in [lo,i) is <= v, everything in (j,hi] is >= v, and
    both scans are stopped by a sentinel. *)
Lemma partition_spec fuel l v lo hi i j :
  0 <= lo -> hi < zlen l -> lo <= i -> j <= hi -> i <= j ->
  j - i < Z.of_nat fuel ->
  rng l lo (i - 1) (fun x => less v x = false) ->
  rng l (j + 1) hi (fun x => less x v = false) ->
  (exists s z, i <= s <= hi /\ aget l s = Ok z /\ less z v = false) ->
  (exists s z, lo <= s <= j /\ aget l s = Ok z /\ less v z = false) ->
  exists l' i' j', partition less fuel l (PVal v) i j = Ok (l', i', j') /\
    seg_perm lo hi l l' /\ i <= i' <= hi + 1 /\ lo - 1 <= j' <= j /\ j' < i' /\
    rng l' lo (i' - 1) (fun x => less v x = false) /\
    rng l' (j' + 1) hi (fun x => less x v = false).
Proof.
  revert l i j. induction fuel as [|fuel IH]; intros l i j Hlo Hhi Hi Hj Hij Hf HL HR Hu Hd; [lia|].
  cbn [partition].
  destruct Hu as (su & zu & Hsu & Hzu & Hzuv). destruct Hd as (sd & zd & Hsd & Hzd & Hzdv).
  destruct (scan_up_spec (S (length l)) l v i su) as (i1 & Ei & Hi1 & Hup & Hi1v); eauto; try lia.
  { unfold zlen in *. lia. }
  destruct (scan_down_spec (S (length l)) l v j sd) as (j1 & Ej & Hj1 & Hdn & Hj1v); eauto; try lia.
  { unfold zlen in *. lia. }
  rewrite Ei. cbn [bind]. rewrite Ej. cbn [bind].
  assert (HL1 : rng l lo (i1 - 1) (fun x => less v x = false)).
  { intros k x Hk Hx. destruct (Z.ltb_spec k i); [apply (HL k); auto; lia|].
    apply (less_le less Hswo). apply (Hup k); auto. lia. }
  assert (HR1 : rng l (j1 + 1) hi (fun x => less x v = false)).
  { intros k x Hk Hx. destruct (Z.ltb_spec j k); [apply (HR k); auto; lia|].
    apply (less_le less Hswo). apply (Hdn k); auto. lia. }
  destruct (Z.ltb_spec j1 i1) as [Hcross|Hnc].
  - exists l, i1, j1. split; [reflexivity|]. split; [apply seg_perm_refl|]. repeat split; auto; lia.
  - destruct (aswap_some l i1 j1) as [l1 Hsw]; try lia. rewrite Hsw. cbn [bind].
    assert (Hsp : seg_perm lo hi l l1) by (eapply seg_perm_swap; eauto; lia).
    pose proof Hsw as Hsw'. apply aswap_inv in Hsw' as (x & y & Hx & Hy & Hl1 & Hg).
    pose proof (Hi1v _ Hx) as Hxv. pose proof (Hj1v _ Hy) as Hyv.
    assert (HL2 : rng l1 lo (i1 + 1 - 1) (fun x => less v x = false)).
    { intros k z Hk Hz. rewrite Hg in Hz. destruct (Z.eqb_spec k j1).
      - injection Hz as <-. subst k. assert (i1 = j1) by lia. subst j1. congruence.
      - destruct (Z.eqb_spec k i1); [congruence|]. apply (HL1 k); auto. lia. }
    assert (HR2 : rng l1 (j1 - 1 + 1) hi (fun x => less x v = false)).
    { intros k z Hk Hz. rewrite Hg in Hz. destruct (Z.eqb_spec k j1); [congruence|].
      destruct (Z.eqb_spec k i1); [lia|]. apply (HR1 k); auto. lia. }
    destruct (Z.leb_spec (i1 + 1) (j1 - 1)) as [Hc|Hc].
    + destruct (IH l1 (i1 + 1) (j1 - 1)) as (l' & i' & j' & Er & Hsp' & Hi' & Hj' & Hji & HL' & HR'); try lia; auto.
      { exists j1, x. split; [lia|]. split; [|exact Hxv]. rewrite Hg. destruct (Z.eqb_spec j1 j1); [reflexivity|lia]. }
      { exists i1, y. split; [lia|]. split; [|exact Hyv]. rewrite Hg. destruct (Z.eqb_spec i1 j1); [lia|].
        destruct (Z.eqb_spec i1 i1); [reflexivity|lia]. }
      exists l', i', j'. split; [exact Er|]. split; [eapply seg_perm_trans; eauto|].
      repeat split; auto; lia.
    + exists l1, (i1 + 1), (j1 - 1). split; [reflexivity|]. split; [exact Hsp|].
      repeat split; auto; try lia.
Qed.

(** The first round always swaps, so both parts are strictly shorter. *)
Lemma partition_progress fuel l v p lo hi l' i' j' :
  0 <= lo -> lo < hi -> hi < zlen l -> lo <= p <= hi -> aget l p = Ok v ->
  partition less (S fuel) l (PVal v) lo hi = Ok (l', i', j') ->
  hi - lo < Z.of_nat (S fuel) ->
  lo < i' /\ j' < hi.
Proof.
  intros Hlo Hlh Hhi Hp Hv H Hf. cbn [partition] in H.
  assert (Hvv : less v v = false) by apply (swo_irrefl _ Hswo).
  destruct (scan_up_spec (S (length l)) l v lo p) as (i1 & Ei & Hi1 & Hup & Hi1v); eauto; try lia.
  { unfold zlen in *. lia. }
  destruct (scan_down_spec (S (length l)) l v hi p) as (j1 & Ej & Hj1 & Hdn & Hj1v); eauto; try lia.
  { unfold zlen in *. lia. }
  rewrite Ei in H. cbn [bind] in H. rewrite Ej in H. cbn [bind] in H.
  destruct (Z.ltb_spec j1 i1); [lia|].
  destruct (aswap l i1 j1) as [l1|] eqn:Hsw; [|discriminate]. cbn [bind] in H.
  destruct (Z.leb_spec (i1 + 1) (j1 - 1)).
  - assert (Hmono : forall f l pv a b l' a' b', partition less f l pv a b = Ok (l', a', b') -> 0 <= a -> a <= a' /\ b' <= b).
    { clear. induction f as [|f IH]; intros l pv a b l' a' b' H Ha; [discriminate|]. cbn [partition] in H.
      assert (Hu : forall g c d, scan_up less g l pv c = Ok d -> c <= d).
      { induction g as [|g IHg]; intros c d Hc; [discriminate|]. cbn [scan_up] in Hc.
        apply bind_ok in Hc as (x & _ & Hc). apply bind_ok in Hc as (w & _ & Hc).
        destruct (less x w).
        - destruct (c + 1 =? 0); [injection Hc as <-; lia|]. apply IHg in Hc. lia.
        - injection Hc as <-. lia. }
      assert (Hd : forall g c d, scan_down less g l pv c = Ok d -> d <= c).
      { induction g as [|g IHg]; intros c d Hc; [discriminate|]. cbn [scan_down] in Hc.
        apply bind_ok in Hc as (x & _ & Hc). apply bind_ok in Hc as (w & _ & Hc).
        destruct (less w x).
        - destruct (c - 1 =? 0); [injection Hc as <-; lia|]. apply IHg in Hc. lia.
        - injection Hc as <-. lia. }
      apply bind_ok in H as (i1 & Hi1 & H). apply bind_ok in H as (j1 & Hj1 & H).
      apply Hu in Hi1. apply Hd in Hj1.
      destruct (j1 <? i1); [injection H as <- <- <-; lia|].
      apply bind_ok in H as (l1 & _ & H).
      destruct (i1 + 1 <=? j1 - 1).
      - apply IH in H; lia.
      - injection H as <- <- <-. lia. }
    apply Hmono in H; lia.
  - injection H as <- <- <-. lia.
Qed.

(** Combining two parts separated by a pivot value. *)
Lemma parts_le l v a b c d :
  rng l a b (fun x => less v x = false) -> rng l c d (fun x => less x v = false) ->
  forall i j x y, a <= i <= b -> c <= j <= d -> aget l i = Ok x -> aget l j = Ok y -> le x y.
Proof.
  intros H1 H2 i j x y Hi Hj Hx Hy. eapply (le_trans less Hswo) with (y := v).
  - exact (H1 i x Hi Hx).
  - exact (H2 j y Hj Hy).
Qed.

Lemma sort_lowhigh_spec fuel l lo hi :
  0 <= lo -> hi < zlen l -> hi - lo + 1 < Z.of_nat fuel -> 0 < Z.of_nat fuel ->
  prefix_le l lo hi ->
  exists l', sort_lowhigh less (fun _ => false) fuel l lo hi = Ok l' /\
    seg_perm lo hi l l' /\ sorted_rng l' lo hi.
Proof.
  revert l lo hi. induction fuel as [|fuel IH]; intros l lo hi Hlo Hhi Hf Hf0 Hpre; [lia|].
  cbn [sort_lowhigh]. destruct (Z.ltb_spec lo hi) as [Hlt|Hge].
  2: { exists l. split; [reflexivity|]. split; [apply seg_perm_refl|]. intros i j x y; lia. }
  set (p := lo + (hi - lo) * 7 / 16).
  assert (Hp : lo <= p <= hi) by (unfold p; lia).
  destruct (aget_some l p) as [v Hv]; [lia|].
  unfold take_pivot. rewrite Hv. cbn [bind].
  assert (Hvv : less v v = false) by apply (swo_irrefl _ Hswo).
  destruct (partition_spec (S (length l)) l v lo hi lo hi) as (l1 & i & j & Er & Hsp & Hi & Hj & Hji & HL & HR);
    try lia.
  { unfold zlen in *. lia. }
  { intros k x Hk. lia. }
  { intros k x Hk. lia. }
  { exists p, v. auto with zarith. }
  { exists p, v. auto with zarith. }
  assert (Hprog := partition_progress _ _ _ p lo hi _ _ _ Hlo Hlt Hhi Hp Hv Er).
  specialize (Hprog ltac:(unfold zlen in *; lia)). destruct Hprog as [Hpi Hpj].
  rewrite Er. cbn [bind].
  assert (Hl1 : zlen l1 = zlen l) by apply Hsp.
  assert (Hpre1 : prefix_le l1 lo hi) by (eapply prefix_le_perm; eauto).
  assert (Hpl : prefix_le l1 lo j).
  { intros k m x y Hk Hm. apply Hpre1; lia. }
  assert (Hpr : prefix_le l1 i hi).
  { intros k m x y Hk Hm Hx Hy. destruct (Z.ltb_spec k lo).
    - eapply (Hpre1 k m); eauto; lia.
    - eapply (parts_le l1 v lo (i - 1) (j + 1) hi); eauto; lia. }
  (* a range inside [lo..hi] is sorted by the recursive call or the insertion sort *)
  assert (Hsmall : forall q a b, zlen q = zlen l -> lo <= a -> b <= hi -> (lo < a \/ b < hi) ->
    prefix_le q a b ->
    exists q', (if 64 <? b - a then sort_lowhigh less (fun _ => false) fuel q a b
                else if a <? b then insertsort_lowhigh less q a b else Ok q) = Ok q' /\
      seg_perm a b q q' /\ sorted_rng q' a b).
  { intros q a b Hq Ha Hb Hst Hqp.
    destruct (Z.ltb_spec 64 (b - a)).
    - apply IH; auto; lia.
    - destruct (Z.ltb_spec a b).
      + apply insertsort_lowhigh_spec; auto; lia.
      + exists q. split; [reflexivity|]. split; [apply seg_perm_refl|]. intros i0 j0 x y; lia. }
  destruct (Z.ltb_spec (hi - i) (j - lo)) as [Hsz|Hsz].
  - (* right part first *)
    destruct (Hsmall l1 i hi) as (l2 & E2 & Hsp2 & Hs2); auto; try lia.
    rewrite E2. cbn [bind].
    assert (Hl2 : zlen l2 = zlen l) by (destruct Hsp2; lia).
    destruct (IH l2 lo j) as (l3 & E3 & Hsp3 & Hs3); try lia.
    { intros k m x y Hk Hm Hx Hy. destruct Hsp2 as (_ & _ & Ho2).
      rewrite Ho2 in Hx by lia. rewrite Ho2 in Hy by lia. eapply (Hpl k m); eauto. }
    exists l3. split; [exact E3|]. split.
    { eapply seg_perm_trans; [exact Hsp|]. eapply seg_perm_trans.
      - eapply seg_perm_mono; [exact Hsp2|lia|lia].
      - eapply seg_perm_mono; [exact Hsp3|lia|lia]. }
    (* facts about l3 *)
    assert (HL2 : rng l2 lo (i - 1) (fun x => less v x = false)).
    { intros k x Hk Hx. destruct Hsp2 as (_ & _ & Ho2). rewrite Ho2 in Hx by lia. eapply (HL k); eauto. }
    assert (HR2 : rng l2 (j + 1) hi (fun x => less x v = false)).
    { intros k x Hk Hx. destruct (Z.ltb_spec k i).
      - destruct Hsp2 as (_ & _ & Ho2). rewrite Ho2 in Hx by lia. apply (HR k); auto.
      - apply (rng_seg_perm l1 l2 i hi (fun x => less x v = false)) with (k := k); auto; try lia.
        intros k' x' Hk' Hx'. apply (HR k'); auto. lia. }
    assert (HR3 : rng l3 (j + 1) hi (fun x => less x v = false)).
    { intros k x Hk Hx. destruct Hsp3 as (_ & _ & Ho3). rewrite Ho3 in Hx by lia. apply (HR2 k); auto. }
    assert (HL3 : rng l3 lo (i - 1) (fun x => less v x = false)).
    { intros k x Hk Hx. destruct (Z.leb_spec k j).
      - apply (rng_seg_perm l2 l3 lo j (fun x => less v x = false)) with (k := k); auto; try lia.
        intros k' x' Hk' Hx'. apply (HL2 k'); auto. lia.
      - destruct Hsp3 as (_ & _ & Ho3). rewrite Ho3 in Hx by lia. apply (HL2 k); auto. }
    intros a b x y Ha Hab Hb Hx Hy.
    destruct (Z.leb_spec b j).
    + apply (Hs3 a b); auto; lia.
    + destruct (Z.ltb_spec a i).
      * eapply (parts_le l3 v lo (i - 1) (j + 1) hi HL3 HR3 a b); eauto; lia.
      * destruct Hsp3 as (_ & _ & Ho3). rewrite Ho3 in Hx by lia. rewrite Ho3 in Hy by lia.
        apply (Hs2 a b); auto; lia.
  - (* left part first *)
    destruct (Hsmall l1 lo j) as (l2 & E2 & Hsp2 & Hs2); auto; try lia.
    rewrite E2. cbn [bind].
    assert (Hl2 : zlen l2 = zlen l) by (destruct Hsp2; lia).
    assert (HL2 : rng l2 lo (i - 1) (fun x => less v x = false)).
    { intros k x Hk Hx. destruct (Z.leb_spec k j).
      - apply (rng_seg_perm l1 l2 lo j (fun x => less v x = false)) with (k := k); auto; try lia.
        intros k' x' Hk' Hx'. apply (HL k'); auto. lia.
      - destruct Hsp2 as (_ & _ & Ho2). rewrite Ho2 in Hx by lia. apply (HL k); auto. }
    assert (HR2 : rng l2 (j + 1) hi (fun x => less x v = false)).
    { intros k x Hk Hx. destruct Hsp2 as (_ & _ & Ho2). rewrite Ho2 in Hx by lia. apply (HR k); auto. }
    destruct (IH l2 i hi) as (l3 & E3 & Hsp3 & Hs3); try lia.
    { intros k m x y Hk Hm Hx Hy. destruct (Z.ltb_spec k lo).
      - destruct Hsp2 as (_ & _ & Ho2). rewrite Ho2 in Hx by lia. rewrite Ho2 in Hy by lia.
        eapply (Hpr k m); eauto; lia.
      - eapply (parts_le l2 v lo (i - 1) (j + 1) hi HL2 HR2 k m); eauto; lia. }
    exists l3. split; [exact E3|]. split.
    { eapply seg_perm_trans; [exact Hsp|]. eapply seg_perm_trans.
      - eapply seg_perm_mono; [exact Hsp2|lia|lia].
      - eapply seg_perm_mono; [exact Hsp3|lia|lia]. }
    assert (HL3 : rng l3 lo (i - 1) (fun x => less v x = false)).
    { intros k x Hk Hx. destruct Hsp3 as (_ & _ & Ho3). rewrite Ho3 in Hx by lia. apply (HL2 k); auto. }
    assert (HR3 : rng l3 (j + 1) hi (fun x => less x v = false)).
    { intros k x Hk Hx. destruct (Z.ltb_spec k i).
      - destruct Hsp3 as (_ & _ & Ho3). rewrite Ho3 in Hx by lia. apply (HR2 k); auto.
      - apply (rng_seg_perm l2 l3 i hi (fun x => less x v = false)) with (k := k); auto; try lia.
        intros k' x' Hk' Hx'. apply (HR2 k'); auto. lia. }
    intros a b x y Ha Hab Hb Hx Hy.
    destruct (Z.ltb_spec a i).
    + destruct (Z.leb_spec b j).
      * destruct Hsp3 as (_ & _ & Ho3). rewrite Ho3 in Hx by lia. rewrite Ho3 in Hy by lia.
        apply (Hs2 a b); auto; lia.
      * eapply (parts_le l3 v lo (i - 1) (j + 1) hi HL3 HR3 a b); eauto; lia.
    + apply (Hs3 a b); auto; lia.
Qed.

Theorem sort_correct l :
  exists l', sort_by_value less l = Ok l' /\ Permutation l l' /\ sorted_by less l'.
Proof.
  unfold sort_by_value, sort, sort_fuel.
  destruct (sort_lowhigh_spec (S (length l)) l 0 (zlen l - 1)) as (l' & E & Hsp & Hs); try (unfold zlen; lia).
  { intros k m x y Hk. lia. }
  exists l'. split; [exact E|]. split; [apply Hsp|].
  apply sorted_by_aget. intros i j x y Hij Hx Hy.
  pose proof (aget_ok_range _ _ _ Hx). pose proof (aget_ok_range _ _ _ Hy).
  destruct Hsp as (Hl & _). apply (Hs i j); auto; lia.
Qed.

(** A subrange is sorted in place if nothing before it is greater than anything in it. *)
Theorem sort_lowhigh_correct l lo hi :
  0 <= lo -> hi < zlen l -> prefix_le l lo hi ->
  exists l', sort_lowhigh less (fun _ => false) (sort_fuel l + 1) l lo hi = Ok l' /\
    seg_perm lo hi l l' /\ sorted_rng l' lo hi.
Proof.
  intros Hlo Hhi Hpre. apply sort_lowhigh_spec; auto; unfold sort_fuel, zlen in *; lia.
Qed.

(** *** searching *)
Lemma lower_bound_loop_spec fuel l raw start count step s0 e0 :
  s0 <= start -> 0 <= s0 -> 0 <= count -> start + count <= e0 -> e0 <= zlen l ->
  (0 < count -> 0 <= step < count) -> count < Z.of_nat fuel ->
  sorted_rng l s0 (e0 - 1) ->
  (forall k x, s0 <= k < start -> aget l k = Ok x -> less x raw = true) ->
  (forall k x, start + count <= k < e0 -> aget l k = Ok x -> less x raw = false) ->
  exists r, lower_bound_loop less fuel l raw start count step = Ok r /\ s0 <= r <= e0 /\
   (forall k x, s0 <= k < r -> aget l k = Ok x -> less x raw = true) /\
   (forall k x, r <= k < e0 -> aget l k = Ok x -> less x raw = false).
Proof.
  revert start count step.
  induction fuel as [|fuel IH]; intros start count step Hs H0 Hc He Hl Hst Hf Hsort HL HR; [lia|].
  cbn [lower_bound_loop]. destruct (Z.ltb_spec 0 count) as [Hp|Hp].
  - specialize (Hst Hp).
    destruct (aget_some l (start + step)) as [y Hy]; [lia|]. rewrite Hy. cbn [bind].
    destruct (less y raw) eqn:E.
    + apply IH; try lia; auto.
      * intros k x Hk Hx. destruct (Z.ltb_spec k (start + step)).
        -- assert (le x y) by (apply (Hsort k (start + step)); auto; lia).
           eapply (le_less_trans less Hswo); eauto.
        -- assert (k = start + step) by lia. subst k. congruence.
      * intros k x Hk Hx. apply (HR k); auto. lia.
    + apply IH; try lia; auto.
      intros k x Hk Hx. destruct (Z.eqb_spec k (start + step)) as [->|].
      * congruence.
      * assert (le y x) by (apply (Hsort (start + step) k); auto; lia).
        destruct (less x raw) eqn:E2; [|reflexivity].
        assert (less y raw = true) by (eapply (le_less_trans less Hswo); eauto). congruence.
  - exists start. assert (count = 0) by lia. subst count. split; [reflexivity|]. split; [lia|]. split; [exact HL|].
    intros k x Hk. apply HR. lia.
Qed.

Lemma lower_bound_range_spec l raw s e :
  0 <= s -> s <= e -> e <= zlen l -> sorted_rng l s (e - 1) ->
  exists r, lower_bound_range less l raw s e = Ok r /\
   match r with
   | Some k => s <= k < e /\
       (forall i x, s <= i < k -> aget l i = Ok x -> less x raw = true) /\
       (forall i x, k <= i < e -> aget l i = Ok x -> less x raw = false)
   | None => forall i x, s <= i < e -> aget l i = Ok x -> less x raw = true
   end.
Proof.
  intros H0 Hse He Hs. unfold lower_bound_range.
  destruct (lower_bound_loop_spec (S (Z.to_nat (e - s))) l raw s (e - s) ((e - s) / 2) s e)
    as (r & Er & Hr & HL & HR); auto; try lia.
  all: try (intros; lia).
  rewrite Er. cbn [bind]. destruct (Z.eqb_spec r e).
  - exists None. split; [reflexivity|]. subst r. exact HL.
  - exists (Some r). split; [reflexivity|]. repeat split; auto; lia.
Qed.

Lemma binary_search_range_spec l raw s e :
  0 <= s -> s <= e -> e <= zlen l -> sorted_rng l s (e - 1) ->
  exists r, binary_search_range less l raw s e = Ok r /\
   match r with
   | Some k => s <= k < e /\ exists x, aget l k = Ok x /\ less x raw = false /\ less raw x = false
   | None => forall i x, s <= i < e -> aget l i = Ok x -> ~ (less x raw = false /\ less raw x = false)
   end.
Proof.
  intros H0 Hse He Hs. unfold binary_search_range.
  destruct (lower_bound_range_spec l raw s e) as (r & Er & Hr); auto.
  rewrite Er. cbn [bind]. destruct r as [k|].
  - destruct Hr as (Hk & HL & HR). destruct (aget_some l k) as [y Hy]; [lia|]. rewrite Hy. cbn [bind].
    destruct (less raw y) eqn:E.
    + exists None. split; [reflexivity|]. intros i x Hi Hx [E1 E2].
      destruct (Z.ltb_spec i k).
      * rewrite (HL i x) in E1; auto; [discriminate|lia].
      * assert (le y x).
        { destruct (Z.eq_dec i k) as [->|]; [rewrite Hy in Hx; injection Hx as ->; apply le_refl; auto|].
          apply (Hs k i); auto; lia. }
        assert (less raw x = true) by (eapply (less_le_trans less Hswo); eauto). congruence.
    + exists (Some k). split; [reflexivity|]. split; [lia|]. exists y. repeat split; auto.
      apply (HR k); auto. lia.
  - exists None. split; [reflexivity|]. intros i x Hi Hx [E1 _]. rewrite (Hr i x) in E1; auto. discriminate.
Qed.

Lemma sorted_by_rng l s e : sorted_by less l -> sorted_rng l s e.
Proof.
  intros Hs i j x y _ Hij _ Hx Hy. eapply (proj1 (sorted_by_aget less l) Hs i j); eauto.
Qed.
End SortProofs.
