(** Proofs about the hash map: erasing, rehashing, iterating. *)
From Verif Require Import Base Slots Pow2 Float32 Hmap_Model Hmap_Spec Hmap_Proofs.

Section Hmap2.
Context {K V : Type}.
Variable hash : K -> Z.
Variable eqb : K -> K -> bool.
Hypothesis KO : key_ok hash eqb.

Local Notation hx k := (Z.land (Z.shiftr (hash k) 24) hashmask).
Local Notation RH := (@RH K V hash).

(** * Erasing: backward shift *)

(** The invariant with a hole at [i]: the bucket is empty and the next one may still
    belong to the run the hole was part of. *)
Record RHh (b i : Z) (ms : list meta) (t : slots (K * V)) : Prop := {
  hh_pow2 : is_pow2 b;
  hh_lt : zlen t = b;
  hh_lm : zlen ms = b + 1;
  hh_mark : D ms b = 1023;
  hh_rng : forall p, 0 <= p < b -> 0 <= D ms p <= 1023;
  hh_slot : forall p, 0 <= p < b -> D ms p <> 0 ->
    exists m e, aget ms p = Ok m /\ aget t p = Ok (Some e) /\ hashx m = hx (fst e) /\
      (hash (fst e) + dist m - 1) mod b = p;
  hh_chain : forall x, x mod b <> i -> D ms ((x + 1) mod b) <= D ms (x mod b) + 1;
  hh_hole : D ms i = 0;
  hh_jump : D ms ((i + 1) mod b) <= D ms ((i - 1) mod b) + 2;
}.

Lemma RHh_done b i ms t : RHh b i ms t -> D ms ((i + 1) mod b) < 2 -> 0 <= i < b -> RH b ms t.
Proof.
  intros H Hlt Hi. split.
  - apply (hh_pow2 _ _ _ _ H).
  - apply (hh_lt _ _ _ _ H).
  - apply (hh_lm _ _ _ _ H).
  - apply (hh_mark _ _ _ _ H).
  - apply (hh_rng _ _ _ _ H).
  - apply (hh_slot _ _ _ _ H).
  - intros x. destruct (Z.eq_dec (x mod b) i) as [E|N]; [|now apply (hh_chain _ _ _ _ H)].
    rewrite E, (hh_hole _ _ _ _ H).
    replace ((x + 1) mod b) with ((i + 1) mod b); [lia|]. rewrite <- E. apply mod_add_l.
Qed.

Lemma RH_open b i ms t m ms' : RH b ms t -> 0 <= i < b -> dist m = 0 -> aset ms i m = Ok ms' -> b >= 2 ->
  RHh b i ms' t.
Proof.
  intros H Hi Hm Hs Hb2. pose proof (RH_pos _ _ _ _ H) as Hb.
  assert (Hi1 : (i + 1) mod b <> i).
  { intros E. rewrite <- (mod_id b i Hi) in E at 2. apply mod_inj in E; lia. }
  assert (Hi2 : (i - 1) mod b <> i).
  { intros E. rewrite <- (mod_id b i Hi) in E at 2. apply mod_inj in E; lia. }
  split.
  - apply (rh_pow2 _ _ _ _ H).
  - apply (rh_lt _ _ _ _ H).
  - rewrite (aset_zlen _ _ _ _ Hs). apply (rh_lm _ _ _ _ H).
  - rewrite (D_aset _ _ _ _ _ Hs). destruct (Z.eqb_spec b i); [lia|]. apply (rh_mark _ _ _ _ H).
  - intros p Hp. rewrite (D_aset _ _ _ _ _ Hs). destruct (Z.eqb_spec p i); [lia|]. now apply (rh_rng _ _ _ _ H).
  - intros p Hp. rewrite (D_aset _ _ _ _ _ Hs). rewrite (aget_aset _ _ _ _ p Hs).
    destruct (Z.eqb_spec p i); [lia|]. now apply (rh_slot _ _ _ _ H).
  - intros x Hx. rewrite !(D_aset _ _ _ _ _ Hs). destruct (Z.eqb_spec (x mod b) i); [lia|].
    pose proof (rh_rng _ _ _ _ H (x mod b) (mod_rng b Hb x)).
    destruct (Z.eqb_spec ((x + 1) mod b) i); [lia|]. apply (rh_chain _ _ _ _ H).
  - rewrite (D_aset _ _ _ _ _ Hs), Z.eqb_refl. exact Hm.
  - rewrite !(D_aset _ _ _ _ _ Hs). destruct (Z.eqb_spec ((i + 1) mod b) i); [lia|].
    destruct (Z.eqb_spec ((i - 1) mod b) i); [lia|].
    pose proof (rh_chain _ _ _ _ H i) as C1. pose proof (rh_chain _ _ _ _ H (i - 1)) as C2.
    replace (i - 1 + 1) with i in C2 by lia. lia.
Qed.

(** The view after the shift, relative to the view with the hole. *)
Definition shifted {X} (b i s : Z) (v v' : list X) (none : X) : Prop :=
  forall off, 0 <= off < b ->
    aget v' ((i + off) mod b) =
      if off <? s then aget v ((i + off + 1) mod b)
      else if off =? s then Ok none else aget v ((i + off) mod b).

Lemma erase_loop_ok b fuel : forall ms t msH i n mh,
  RHh b i msH t -> aset ms i mh = Ok msH -> dist mh = 0 -> 0 <= i < b ->
  1 <= n < b -> D msH ((i + n) mod b) = 0 -> n <= Z.of_nat fuel ->
  exists ms' t' p s, erase_loop fuel ms t (b - 1) i i = Ok (ms', t', p) /\
    0 <= s < n /\ p = (i + s) mod b /\ zlen ms' = zlen ms /\
    (forall mz msF, dist mz = 0 -> aset ms' p mz = Ok msF ->
      RH b msF t' /\ Permutation (view msF t') (view msH t) /\
      shifted b i s (view msH t) (view msF t') None).
Proof.
  induction fuel as [|fuel IH]; intros ms t msH i n mh HH Hms Hmh Hi Hn Hemp Hf; [lia|].
  pose proof (is_pow2_pos _ (hh_pow2 _ _ _ _ HH)) as Hb.
  cbn [erase_loop]. rewrite land_mask by apply (hh_pow2 _ _ _ _ HH).
  set (j := (i + 1) mod b). pose proof (mod_rng b Hb (i + 1)) as Hj. fold j in Hj.
  assert (Hji : j <> i).
  { unfold j. intros E. rewrite <- (mod_id b i Hi) in E at 2. apply mod_inj in E; lia. }
  pose proof (hh_lm _ _ _ _ HH) as LMH. pose proof (hh_lt _ _ _ _ HH) as LT.
  pose proof (aset_zlen _ _ _ _ Hms) as LMe.
  destruct (aget_some ms j) as [m Hm]; [lia|]. rewrite Hm. cbn [bind].
  assert (HmH : aget msH j = Ok m) by (rewrite (aget_aset_other _ _ _ _ j Hms); auto).
  assert (HDj : D msH j = dist m) by (now apply D_get).
  destruct (Z.ltb_spec (dist m) 2) as [Hlt|Hge].
  - exists ms, t, i, 0. split; [reflexivity|]. split; [lia|].
    split; [rewrite Z.add_0_r, mod_id; lia|]. split; [reflexivity|].
    intros mz msF Hmz HsF.
    assert (HDF : forall q, D msF q = D msH q).
    { intros q. rewrite (D_aset _ _ _ _ _ HsF), (D_aset _ _ _ _ _ Hms). destruct (q =? i); lia. }
    assert (HRH : RHh b i msF t).
    { split.
      - apply (hh_pow2 _ _ _ _ HH).
      - exact LT.
      - rewrite (aset_zlen _ _ _ _ HsF). lia.
      - rewrite HDF. apply (hh_mark _ _ _ _ HH).
      - intros p Hp. rewrite HDF. now apply (hh_rng _ _ _ _ HH).
      - intros p Hp. rewrite HDF. intros Hnz. destruct (hh_slot _ _ _ _ HH p Hp Hnz) as (m1 & e1 & G1 & G2).
        exists m1, e1. split; [|exact G2]. rewrite (aget_aset _ _ _ _ p HsF). rewrite (aget_aset _ _ _ _ p Hms) in G1.
        destruct (Z.eqb_spec p i); [|exact G1]. subst p. rewrite (hh_hole _ _ _ _ HH) in Hnz. lia.
      - intros x Hx. rewrite !HDF. now apply (hh_chain _ _ _ _ HH).
      - rewrite HDF. apply (hh_hole _ _ _ _ HH).
      - rewrite !HDF. apply (hh_jump _ _ _ _ HH). }
    assert (HV : view msF t = view msH t).
    { apply aget_ext; [rewrite !zlen_view; lia || (rewrite (aset_zlen _ _ _ _ HsF); lia)|].
      intros p Hp. rewrite zlen_view in Hp by (rewrite (aset_zlen _ _ _ _ HsF); lia). rewrite LT in Hp.
      destruct (aget_some msF p) as [m1 G1]; [rewrite (aset_zlen _ _ _ _ HsF); lia|].
      destruct (aget_some msH p) as [m2 G2]; [lia|].
      destruct (aget_some t p) as [o G3]; [lia|].
      rewrite (aget_view _ _ _ _ _ G1 G3), (aget_view _ _ _ _ _ G2 G3).
      pose proof (HDF p) as E. rewrite (D_get _ _ _ G1), (D_get _ _ _ G2) in E. now rewrite E. }
    split; [|split].
    + apply (RHh_done b i); auto. fold j. rewrite HDF. lia.
    + now rewrite HV.
    + intros off Hoff. rewrite HV. destruct (Z.ltb_spec off 0); [lia|].
      destruct (Z.eqb_spec off 0) as [->|]; [|reflexivity].
      rewrite Z.add_0_r, mod_id by lia.
      destruct (aget_some t i) as [o G3]; [lia|].
      rewrite (aget_view _ _ _ _ _ (aget_aset_same _ _ _ _ Hms) G3). rewrite Hmh. reflexivity.
  - assert (Hn2 : 2 <= n).
    { destruct (Z.eq_dec n 1) as [->|]; [|lia]. fold j in Hemp. lia. }
    destruct (hh_slot _ _ _ _ HH j Hj) as (m' & e & Gm & Ge & Ghx & Ghh); [lia|].
    assert (m' = m) by congruence. subst m'.
    rewrite Ge. cbn [bind].
    destruct (aset_some t i (Some e)) as [t1 Ht1]; [lia|]. rewrite Ht1. cbn [bind].
    destruct (aset_some ms i (dist_dec m)) as [ms1 Hms1]; [lia|]. rewrite Hms1. cbn [bind].
    pose proof (hh_rng _ _ _ _ HH j Hj) as Hjr.
    assert (Hdec : dist (dist_dec m) = dist m - 1) by (cbn [dist_dec dist]; apply Z.mod_small; lia).
    destruct (aset_some ms1 j (mkmeta 0 0)) as [msH1 HmsH1]; [rewrite (aset_zlen _ _ _ _ Hms1); lia|].
    assert (HDH1 : forall q, D msH1 q = if q =? j then 0 else if q =? i then dist m - 1 else D msH q).
    { intros q. rewrite (D_aset _ _ _ _ _ HmsH1), (D_aset _ _ _ _ _ Hms1), (D_aset _ _ _ _ _ Hms).
      destruct (q =? j); [reflexivity|]. destruct (q =? i); [exact Hdec|reflexivity]. }
    assert (Hjm1 : (j - 1) mod b = i).
    { unfold j. rewrite mod_sub_l by lia. replace (i + 1 - 1) with i by lia. now apply mod_id. }
    assert (Hj1 : (j + 1) mod b = (i + 2) mod b).
    { unfold j. rewrite mod_add_l by lia. f_equal. lia. }
    assert (Hj1i : (j + 1) mod b <> i).
    { rewrite Hj1. intros E. rewrite <- (mod_id b i Hi) in E at 2. apply mod_inj in E; lia. }
    assert (Hj1j : (j + 1) mod b <> j).
    { intros E. rewrite <- (mod_id b j Hj) in E at 2. apply mod_inj in E; lia. }
    assert (Him1 : (i - 1) mod b <> j /\ (i - 1) mod b <> i).
    { split; intros E; [unfold j in E|rewrite <- (mod_id b i Hi) in E at 2]; apply mod_inj in E; lia. }
    assert (HH1 : RHh b j msH1 t1).
    { split.
      - apply (hh_pow2 _ _ _ _ HH).
      - rewrite (aset_zlen _ _ _ _ Ht1). exact LT.
      - rewrite (aset_zlen _ _ _ _ HmsH1), (aset_zlen _ _ _ _ Hms1). lia.
      - rewrite HDH1. destruct (Z.eqb_spec b j); [lia|]. destruct (Z.eqb_spec b i); [lia|]. apply (hh_mark _ _ _ _ HH).
      - intros p Hp. rewrite HDH1. pose proof (hh_rng _ _ _ _ HH p Hp).
        destruct (p =? j); [lia|]. destruct (p =? i); lia.
      - intros p Hp. rewrite HDH1. rewrite (aget_aset _ _ _ _ p HmsH1), (aget_aset _ _ _ _ p Hms1), (aget_aset _ _ _ _ p Ht1).
        destruct (Z.eqb_spec p j); [lia|]. destruct (Z.eqb_spec p i) as [->|Npi]; intros Hnz.
        + exists (dist_dec m), e. split; [reflexivity|]. split; [reflexivity|]. split; [exact Ghx|].
          rewrite Hdec. replace (hash (fst e) + (dist m - 1) - 1) with ((hash (fst e) + dist m - 1) + -1) by lia.
          rewrite <- mod_add_l, Ghh by lia. replace (j + -1) with (j - 1) by lia. exact Hjm1.
        + destruct (hh_slot _ _ _ _ HH p Hp Hnz) as (m1 & e1 & G1 & G2). exists m1, e1. split; [|exact G2].
          rewrite <- G1. symmetry. now apply (aget_aset_other _ _ _ _ p Hms).
      - intros x Hx. rewrite !HDH1.
        destruct (Z.eqb_spec (x mod b) j); [lia|].
        destruct (Z.eqb_spec (x mod b) i) as [E|N].
        + replace ((x + 1) mod b) with j; [rewrite Z.eqb_refl; lia|]. unfold j. rewrite <- E. rewrite mod_add_l by lia. reflexivity.
        + pose proof (hh_rng _ _ _ _ HH (x mod b) (mod_rng b Hb x)).
          destruct (Z.eqb_spec ((x + 1) mod b) j); [lia|].
          destruct (Z.eqb_spec ((x + 1) mod b) i) as [E1|N1].
          * replace (x mod b) with ((i - 1) mod b) in *.
            -- pose proof (hh_jump _ _ _ _ HH) as HJ. fold j in HJ. lia.
            -- rewrite <- E1, mod_sub_l by lia. f_equal. lia.
          * now apply (hh_chain _ _ _ _ HH).
      - rewrite HDH1, Z.eqb_refl. reflexivity.
      - rewrite Hjm1. rewrite !HDH1.
        destruct (Z.eqb_spec ((j + 1) mod b) j); [lia|]. destruct (Z.eqb_spec ((j + 1) mod b) i); [lia|].
        destruct (Z.eqb_spec i j); [lia|]. rewrite Z.eqb_refl.
        pose proof (hh_chain _ _ _ _ HH j) as C. rewrite (mod_id b j Hj) in C. specialize (C Hji). lia. }
    assert (Hin : (j + (n - 1)) mod b = (i + n) mod b).
    { unfold j. rewrite mod_add_l by lia. f_equal. lia. }
    destruct (IH ms1 t1 msH1 j (n - 1) (mkmeta 0 0)) as (ms' & t' & p & s & E1 & Hs & Hp & Lms & Hfin); auto; try lia.
    { rewrite Hin, HDH1. destruct (Z.eqb_spec ((i + n) mod b) j) as [|Nj]; [reflexivity|].
      destruct (Z.eqb_spec ((i + n) mod b) i) as [E|]; [|exact Hemp].
      exfalso. rewrite <- (mod_id b i Hi) in E at 2. apply mod_inj in E; lia. }
    exists ms', t', p, (s + 1). split; [exact E1|]. split; [lia|].
    split. { rewrite Hp. unfold j. rewrite mod_add_l by lia. f_equal. lia. }
    split; [rewrite Lms; apply (aset_zlen _ _ _ _ Hms1)|].
    intros mz msF Hmz HsF. destruct (Hfin mz msF Hmz HsF) as (HRF & HPF & HshF).
    split; [exact HRF|].
    (* view with the new hole, relative to the old one *)
    assert (Hvi : aget (view msH t) i = Ok None).
    { destruct (aget_some t i) as [o G3]; [lia|].
      rewrite (aget_view _ _ _ _ _ (aget_aset_same _ _ _ _ Hms) G3), Hmh. reflexivity. }
    assert (Hvj : aget (view msH t) j = Ok (Some e)).
    { rewrite (aget_view _ _ _ _ _ HmH Ge). destruct (Z.eqb_spec (dist m) 0); [lia|reflexivity]. }
    assert (Hv1 : forall q, 0 <= q < b -> aget (view msH1 t1) q =
       if q =? j then Ok None else if q =? i then Ok (Some e) else aget (view msH t) q).
    { intros q Hq. pose proof (hh_lt _ _ _ _ HH1) as LT1. pose proof (hh_lm _ _ _ _ HH1) as LM1.
      destruct (aget_some msH1 q) as [m1 G1]; [lia|]. destruct (aget_some t1 q) as [o1 G2]; [lia|].
      destruct (aget_some msH q) as [m2 G3]; [lia|]. destruct (aget_some t q) as [o2 G4]; [lia|].
      rewrite (aget_view _ _ _ _ _ G1 G2), (aget_view _ _ _ _ _ G3 G4).
      pose proof (HDH1 q) as E. rewrite (D_get _ _ _ G1), (D_get _ _ _ G3) in E. rewrite E.
      rewrite (aget_aset _ _ _ _ q Ht1), G4 in G2.
      destruct (Z.eqb_spec q j); [reflexivity|]. destruct (Z.eqb_spec q i).
      - injection G2 as <-. destruct (Z.eqb_spec (dist m - 1) 0); [lia|]. reflexivity.
      - injection G2 as <-. reflexivity. }
    assert (Lv : zlen (view msH t) = b) by (rewrite zlen_view; lia).
    assert (Lv1 : zlen (view msH1 t1) = b).
    { rewrite zlen_view; rewrite (hh_lt _ _ _ _ HH1); [reflexivity|]. rewrite (hh_lm _ _ _ _ HH1). lia. }
    split.
    + rewrite HPF. symmetry.
      destruct (aswap_some (view msH t) i j) as [w Hw]; try (rewrite Lv; lia).
      pose proof (aswap_Permutation _ _ _ _ Hw) as PW. rewrite PW. clear PW.
      apply aswap_inv in Hw as (x & y & Gx & Gy & Lw & Gw).
      assert (w = view msH1 t1) as ->; [|reflexivity].
      apply aget_ext; [lia|]. intros q Hq. rewrite Gw, Hv1 by lia.
      rewrite Hvi in Gx. injection Gx as <-. rewrite Hvj in Gy. injection Gy as <-. reflexivity.
    + intros off Hoff. destruct (Z.eq_dec off 0) as [->|Ho0].
      * rewrite !Z.add_0_r, (mod_id b i Hi).
        destruct (Z.ltb_spec 0 (s + 1)); [|lia].
        specialize (HshF (b - 1) ltac:(lia)). destruct (Z.ltb_spec (b - 1) s); [lia|].
        destruct (Z.eqb_spec (b - 1) s); [lia|].
        replace ((j + (b - 1)) mod b) with i in HshF.
        -- rewrite HshF, Hv1 by lia. fold j. rewrite Hvj. destruct (Z.eqb_spec i j); [lia|]. rewrite Z.eqb_refl. reflexivity.
        -- replace (j + (b - 1)) with ((j - 1) + 1 * b) by lia. rewrite Z.mod_add by lia. now rewrite Hjm1.
      * specialize (HshF (off - 1) ltac:(lia)).
        assert (A1 : (j + (off - 1)) mod b = (i + off) mod b) by (unfold j; rewrite mod_add_l by lia; f_equal; lia).
        assert (A2 : (j + (off - 1) + 1) mod b = (i + off + 1) mod b).
        { unfold j. replace ((i + 1) mod b + (off - 1) + 1) with ((i + 1) mod b + off) by lia.
          rewrite mod_add_l by lia. f_equal. lia. }
        rewrite A1, A2 in HshF. rewrite HshF.
        replace (off - 1 <? s) with (off <? s + 1) by (destruct (Z.ltb_spec off (s + 1)), (Z.ltb_spec (off - 1) s); lia).
        replace (off - 1 =? s) with (off =? s + 1) by (destruct (Z.eqb_spec off (s + 1)), (Z.eqb_spec (off - 1) s); lia).
        destruct (Z.ltb_spec off (s + 1)) as [Hlt2|Hge2].
        -- rewrite Hv1 by (apply mod_rng; lia).
           destruct (Z.eqb_spec ((i + off + 1) mod b) j) as [E|].
           { exfalso. unfold j in E. apply mod_inj in E; lia. }
           destruct (Z.eqb_spec ((i + off + 1) mod b) i) as [E|]; [|reflexivity].
           exfalso. rewrite <- (mod_id b i Hi) in E at 2.
           replace (i + off + 1) with ((i + off + 1)) in E by lia. apply mod_inj in E; lia.
        -- destruct (Z.eqb_spec off (s + 1)); [reflexivity|].
           rewrite Hv1 by (apply mod_rng; lia).
           destruct (Z.eqb_spec ((i + off) mod b) j) as [E|].
           { exfalso. unfold j in E. apply mod_inj in E; lia. }
           destruct (Z.eqb_spec ((i + off) mod b) i) as [E|]; [|reflexivity].
           exfalso. rewrite <- (mod_id b i Hi) in E at 2. apply mod_inj in E; lia.
Qed.

Lemma erase_entry_ok b (h : hmap K V) i e l : RH b (metas h) (table h) -> bcount h = b ->
  Permutation (somes (view (metas h) (table h))) l -> zlen l < b -> 0 <= i < b ->
  aget (view (metas h) (table h)) i = Ok (Some e) ->
  exists h' s, erase_entry h i = Ok (h', value_drop e) /\ RH b (metas h') (table h') /\ bcount h' = b /\
    size h' = size h - 1 /\ Permutation (e :: somes (view (metas h') (table h'))) l /\ 0 <= s < b - 1 /\
    shifted b i s (view (metas h) (table h)) (view (metas h') (table h')) None.
Proof.
  intros HR Hbc HP Hl Hi He. pose proof (RH_pos _ _ _ _ HR) as Hb.
  pose proof (rh_lt _ _ _ _ HR) as LT. pose proof (rh_lm _ _ _ _ HR) as LM.
  destruct (RH_empty hash b _ _ l HR HP Hl) as (q & Hq & Hq0).
  destruct (RH_view_get hash b _ _ i HR Hi) as (o & Ho & Hcase). rewrite He in Ho. injection Ho as <-.
  destruct Hcase as (HDi & Hti & _ & (m0 & Hm0 & _ & _)).
  assert (Hqi : q <> i) by (intros ->; lia).
  set (n := (q - i) mod b). pose proof (mod_rng b Hb (q - i)) as Hnr. fold n in Hnr.
  assert (Eq : (i + n) mod b = q).
  { unfold n. rewrite Zplus_mod_idemp_r. replace (i + (q - i)) with q by lia. now apply mod_id. }
  assert (Hn1 : 1 <= n). { destruct (Z.eq_dec n 0) as [E|]; [|lia]. rewrite E, Z.add_0_r, mod_id in Eq; lia. }
  destruct (aset_some (metas h) i (mkmeta 0 0)) as [msH HmsH]; [lia|].
  assert (HH : RHh b i msH (table h)) by (apply (RH_open b i (metas h) (table h) (mkmeta 0 0)); auto; lia).
  unfold erase_entry, rd. rewrite Hti. cbn [bind]. rewrite Hbc.
  destruct (erase_loop_ok b (S (Z.to_nat b)) (metas h) (table h) msH i n (mkmeta 0 0)) as
    (ms' & t' & p & s & E & Hs & Hp & Lms & Hfin); auto; try lia.
  { rewrite Eq, (D_aset _ _ _ _ _ HmsH). destruct (Z.eqb_spec q i); [lia|exact Hq0]. }
  rewrite E. cbn [bind].
  assert (Hpr : 0 <= p < b) by (rewrite Hp; apply mod_rng; lia).
  destruct (aget_some ms' p) as [m Hm]; [lia|]. rewrite Hm. cbn [bind].
  destruct (aset_some ms' p (mkmeta (hashx m) 0)) as [msF HF]; [lia|]. rewrite HF. cbn [bind].
  destruct (Hfin (mkmeta (hashx m) 0) _ eq_refl HF) as (HRF & HPF & Hsh).
  eexists _, s. split; [reflexivity|]. cbn [metas table bcount size].
  split; [exact HRF|]. split; [reflexivity|]. split; [reflexivity|].
  assert (HV : aset (view (metas h) (table h)) i None = Ok (view msH (table h))).
  { assert (Hs0 : aset (table h) i (Some e) = Ok (table h)) by (now apply aset_same).
    exact (view_aset _ _ _ _ _ _ _ (RH_len hash _ _ _ HR) HmsH Hs0). }
  split.
  { rewrite <- HP. apply somes_perm in HPF. rewrite HPF.
    pose proof (aset_Permutation _ _ _ _ _ He HV) as PA.
    apply somes_perm in PA. rewrite !somes_cons in PA. exact PA. }
  split; [lia|].
  intros off Hoff. rewrite (Hsh off Hoff). destruct (Z.ltb_spec off s).
  - apply (aget_aset_other _ _ _ _ _ HV). intros E1. rewrite <- (mod_id b i Hi) in E1 at 2. apply mod_inj in E1; lia.
  - destruct (Z.eqb_spec off s); [reflexivity|]. apply (aget_aset_other _ _ _ _ _ HV).
    intros E1. rewrite <- (mod_id b i Hi) in E1 at 2. apply mod_inj in E1; lia.
Qed.

(** * Distinct keys *)
Lemma distinct_perm (l1 l2 : list (K * V)) : Permutation l1 l2 -> distinct_keys eqb l1 -> distinct_keys eqb l2.
Proof.
  induction 1; cbn [distinct_keys]; auto.
  - intros [A B]. split; [|auto]. intros e' He'. apply A. eapply Permutation_in; [symmetry; eassumption|assumption].
  - intros [A [B C]]. repeat split; auto.
    + intros e' [<-|He']; [|auto]. destruct (eqb (fst x) (fst y)) eqn:E; [|reflexivity].
      apply (ko_sym _ _ KO) in E. rewrite A in E; [discriminate|now left].
    + intros e' He'. apply A. now right.
Qed.

Lemma distinct_app (a c : list (K * V)) : distinct_keys eqb (a ++ c) -> distinct_keys eqb a /\ distinct_keys eqb c /\
  (forall x y, In x a -> In y c -> eqb (fst x) (fst y) = false).
Proof.
  induction a as [|x a IH]; cbn [app distinct_keys].
  - intros H. repeat split; auto. intros x y [].
  - intros [A B]. destruct (IH B) as (C & D1 & E). repeat split; auto.
    + intros e' He'. apply A. apply in_or_app. now left.
    + intros u y [<-|Hu] Hy; [|now apply E]. apply A. apply in_or_app. now right.
Qed.

Lemma filter_perm {X} (P : X -> bool) l1 l2 : Permutation l1 l2 -> Permutation (filter P l1) (filter P l2).
Proof.
  induction 1 as [|x l1 l2 Hp IH|x y l0|l1 l2 l3 H1 IH1 H2 IH2]; cbn [filter].
  - constructor.
  - destruct (P x); [now constructor|assumption].
  - destruct (P x), (P y); try reflexivity. apply perm_swap.
  - etransitivity; eauto.
Qed.

Lemma zlen_perm {X} (l1 l2 : list X) : Permutation l1 l2 -> zlen l1 = zlen l2.
Proof. intros H. unfold zlen. now rewrite (Permutation_length H). Qed.

(** [spread_in] only depends on the keys, and holds for fewer entries. *)
Lemma spread_in_sub b (l a c : list (K * V)) : Permutation (a ++ c) l -> spread_in hash b l -> spread_in hash b a.
Proof.
  intros HP HS start n Hn. specialize (HS start n Hn).
  apply (filter_perm (fun e => in_window hash b start n (fst e))) in HP. apply zlen_perm in HP.
  rewrite filter_app, zlen_app in HP.
  pose proof (zlen_nonneg (filter (fun e => in_window hash b start n (fst e)) c)). lia.
Qed.
Lemma spread_in_keys b (l1 l2 : list (K * V)) : map fst l1 = map fst l2 -> spread_in hash b l1 -> spread_in hash b l2.
Proof.
  intros HM HS start n Hn. specialize (HS start n Hn).
  enough (E : zlen (filter (fun e => in_window hash b start n (fst e)) l2) = zlen (filter (fun e => in_window hash b start n (fst e)) l1)) by lia.
  clear HS. revert l2 HM. induction l1 as [|x l1 IH]; intros [|y l2] HM; cbn in HM; try discriminate; [reflexivity|].
  injection HM as E HM. cbn [filter]. rewrite E. specialize (IH l2 HM).
  destruct (in_window hash b start n (fst y)); rewrite ?zlen_cons; lia.
Qed.

(** * The map represents a list of entries *)
Definition table_ok (h : hmap K V) (l : list (K * V)) : Prop :=
  RH (bcount h) (metas h) (table h) /\ size h = zlen l /\ 100 * zlen l <= 81 * bcount h /\
  distinct_keys eqb l /\ Permutation (somes (view (metas h) (table h))) l.
Definition repr (h : hmap K V) (l : list (K * V)) : Prop :=
  (h = init /\ l = []) \/ table_ok h l.

Lemma repr_perm h l1 l2 : Permutation l1 l2 -> repr h l1 -> repr h l2.
Proof.
  intros HP [[-> ->]|(A & B & C & D1 & E)].
  - left. split; [reflexivity|]. now apply Permutation_nil.
  - right. pose proof (zlen_perm _ _ HP) as L. split; [exact A|]. split; [lia|]. split; [lia|].
    split; [now apply (distinct_perm l1)|]. now rewrite E.
Qed.
Lemma repr_size h l : repr h l -> size h = zlen l.
Proof. intros [[-> ->]|(A & B & C & D1 & E)]; [reflexivity|exact B]. Qed.
Lemma repr_distinct h l : repr h l -> distinct_keys eqb l.
Proof. intros [[-> ->]|(A & B & C & D1 & E)]; [exact I|exact D1]. Qed.
Lemma table_lt h l : table_ok h l -> zlen l < bcount h.
Proof. intros (A & B & C & D1 & E). pose proof (RH_pos _ _ _ _ A). pose proof (zlen_nonneg l). lia. Qed.

(** * Rehashing *)
Lemma fresh_RH nb ms : is_pow2 nb -> aset (repeat meta0 (Z.to_nat (nb + 1))) nb (mkmeta 0 distmask) = Ok ms ->
  RH nb ms (repeat (@None (K * V)) (Z.to_nat nb)) /\ somes (view ms (repeat (@None (K * V)) (Z.to_nat nb))) = [].
Proof.
  intros Hp Hs. pose proof (is_pow2_pos _ Hp) as Hb.
  assert (HD : forall p, 0 <= p < nb -> D ms p = 0).
  { intros p Hpr. rewrite (D_aset _ _ _ _ _ Hs). destruct (Z.eqb_spec p nb); [lia|].
    unfold D. destruct (aget (repeat meta0 (Z.to_nat (nb + 1))) p) as [m|] eqn:E; [|reflexivity].
    apply aget_nth in E as [_ E]. apply nth_error_In, repeat_spec in E. now subst m. }
  assert (LT : zlen (repeat (@None (K * V)) (Z.to_nat nb)) = nb) by (unfold zlen; rewrite repeat_length; lia).
  assert (LM : zlen ms = nb + 1) by (rewrite (aset_zlen _ _ _ _ Hs); unfold zlen; rewrite repeat_length; lia).
  split.
  - split; auto.
    + rewrite (D_aset _ _ _ _ _ Hs), Z.eqb_refl. reflexivity.
    + intros p Hpr. rewrite HD by assumption. lia.
    + intros p Hpr. rewrite HD by assumption. lia.
    + intros x. rewrite !HD by (apply mod_rng; lia). lia.
  - match goal with |- somes ?v = [] => assert (Hall : forall o, In o v -> o = None) end.
    { intros o Ho. apply In_nth_error in Ho as [p Hpo].
      assert (Hlt : (p < length (view ms (repeat (@None (K * V)) (Z.to_nat nb))))%nat) by (apply nth_error_Some; congruence).
      pose proof (zlen_view ms (repeat (@None (K * V)) (Z.to_nat nb)) ltac:(lia)) as LV. unfold zlen in LV at 1.
      destruct (aget_some ms (Z.of_nat p)) as [m Hm]; [lia|].
      destruct (aget_some (repeat (@None (K * V)) (Z.to_nat nb)) (Z.of_nat p)) as [o' Ho']; [lia|].
      pose proof (aget_view _ _ _ _ _ Hm Ho') as G. apply aget_nth in G as [_ G]. rewrite Nat2Z.id in G.
      rewrite Hpo in G. injection G as ->. pose proof (HD (Z.of_nat p) ltac:(lia)) as E. rewrite (D_get _ _ _ Hm) in E.
      now rewrite E. }
    revert Hall. generalize (view ms (repeat (@None (K * V)) (Z.to_nat nb))) as v. induction v as [|o v IH]; intros Hall; [reflexivity|].
    rewrite somes_cons, (Hall o (or_introl eq_refl)). apply IH. intros; apply Hall; now right.
Qed.

Lemma put_ok (h : hmap K V) p e T' : aset (table h) p (Some e) = Ok T' ->
  put_ref h p e = Ok (mkhmap T' (metas h) (size h) (bcount h)).
Proof. intros H. unfold put_ref, wr. now rewrite H. Qed.

Lemma somes_skip (v : list (option (K * V))) i o : aget v i = Ok o ->
  somes (skipn (Z.to_nat i) v) = match o with Some e => [e] | None => [] end ++ somes (skipn (Z.to_nat (i + 1)) v).
Proof.
  intros H. apply aget_nth in H as [Hi H]. rewrite Z2Nat.inj_add by lia. change (Z.to_nat 1) with 1%nat. rewrite Nat.add_1_r.
  revert H. generalize (Z.to_nat i) as n. clear. intros n. revert v.
  induction n as [|n IH]; intros [|x v] H; cbn in H; try discriminate.
  - injection H as ->. cbn [skipn]. rewrite somes_cons. now destruct o.
  - cbn [skipn]. now apply IH.
Qed.

Lemma rehash_ok b (old : hmap K V) l nb fuel : forall (new : hmap K V) i acc,
  RH b (metas old) (table old) -> bcount old = b -> distinct_keys eqb l -> 0 <= i <= b ->
  Permutation (acc ++ somes (skipn (Z.to_nat i) (view (metas old) (table old)))) l ->
  RH nb (metas new) (table new) -> bcount new = nb -> Permutation (somes (view (metas new) (table new))) acc ->
  zlen l < nb -> spread_in hash nb l -> b - i < Z.of_nat fuel ->
  exists new', rehash_loop hash eqb fuel old new i = Ok new' /\ RH nb (metas new') (table new') /\
    bcount new' = nb /\ size new' = size new /\ Permutation (somes (view (metas new') (table new'))) l.
Proof.
  induction fuel as [|fuel IH]; intros new i acc HR Hbc Hdist Hi HP HN Hnb HPN Hln Hsp Hf; [lia|].
  cbn [rehash_loop]. rewrite Hbc. destruct (Z.ltb_spec i b).
  - destruct (RH_meta hash b _ _ i HR ltac:(lia)) as (m & Hm & Hmd). rewrite Hm. cbn [bind].
    destruct (RH_view_get hash b _ _ i HR ltac:(lia)) as (o & Ho & Hcase).
    rewrite (somes_skip _ _ _ Ho) in HP.
    destruct o as [e|].
    + destruct Hcase as (HDi & Hti & _). rewrite Hmd. destruct (Z.eqb_spec (D (metas old) i) 0); [lia|]. cbn [negb].
      unfold rd at 1. rewrite Hti. cbn [bind].
      assert (HP' : Permutation ((e :: acc) ++ somes (skipn (Z.to_nat (i + 1)) (view (metas old) (table old)))) l).
      { rewrite <- HP. cbn [app]. apply Permutation_middle. }
      assert (Hnot : forall e', In e' acc -> eqb (fst e') (fst e) = false).
      { intros e' He'. pose proof (distinct_perm _ _ (Permutation_sym HP) Hdist) as Hd.
        apply distinct_app in Hd as (_ & _ & Hd). apply Hd; [exact He'|now left]. }
      destruct e as [k v]. cbn [fst] in *.
      destruct (bucket_insert_ok hash eqb KO nb new k v acc HN Hnb HPN) as (h' & r & p & Ebi & Er & Hp & Hc).
      { pose proof (zlen_perm _ _ HP') as L. rewrite zlen_app, zlen_cons in L.
        pose proof (zlen_nonneg (somes (skipn (Z.to_nat (i + 1)) (view (metas old) (table old))))). lia. }
      { intros _. now apply (spread_in_sub nb l _ _ HP'). }
      rewrite Ebi. cbn [bind fst snd]. rewrite Er.
      destruct Hc as [(_ & -> & e' & He' & Heq)|(_ & _ & Hsz & Hbc' & T' & HT & HRT & HPT)].
      { exfalso. rewrite Hnot in Heq; [discriminate|]. eapply Permutation_in; [exact HPN|]. apply somes_In. eauto. }
      rewrite (put_ok _ _ _ _ HT). cbn [bind].
      destruct (IH (mkhmap T' (metas h') (size h') (bcount h')) (i + 1) ((k, v) :: acc)) as (new' & E & R & Bc & Sz & P);
        cbn [metas table bcount size]; auto; try lia.
      exists new'. cbn [size] in Sz. rewrite Sz, Hsz in *. auto.
    + rewrite Hmd, Hcase. cbn [Z.eqb negb]. apply (IH new (i + 1) acc); auto; lia.
  - exists new. split; [reflexivity|]. split; [exact HN|]. split; [exact Hnb|]. split; [reflexivity|].
    rewrite HPN. rewrite skipn_all2, app_nil_r in HP; [exact HP|].
    pose proof (zlen_view _ _ (RH_len hash _ _ _ HR)) as LV. rewrite (rh_lt _ _ _ _ HR) in LV. unfold zlen in LV. lia.
Qed.

Lemma buckets_for_ok cap : 0 <= cap <= 2 ^ 61 ->
  is_pow2 (buckets_for cap) /\ 4 <= buckets_for cap /\ 100 * cap <= 81 * buckets_for cap /\ cap < buckets_for cap.
Proof.
  intros Hc. unfold buckets_for. destruct (f32_div080_bounds cap ltac:(lia)) as (A & B & C). cbn zeta in *.
  set (r := f32_trunc (f32_div (f32_of_int cap) f32_080)) in *.
  rewrite next_pow2_ceil by lia. destruct (pow2_ceil_pow2 (r + 4)) as (P & L); [lia|]. 
  split; [exact P|]. lia.
Qed.
End Hmap2.
