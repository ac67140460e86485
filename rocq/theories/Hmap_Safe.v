(** Memory safety and termination of hmap for arbitrary hash functions, arbitrary (even
    inconsistent) key equalities and arbitrarily many collisions. *)
From Verif Require Import Base Slots Pow2 Float32 Hmap_Model Hmap_Spec Hmap_Proofs Hmap_Proofs2 Hmap_Proofs3.

Section Safe.
Context {K V : Type}.
Variable hash : K -> Z.
Variable eqb : K -> K -> bool.

(** What keeps memory accesses in bounds: array sizes, the end mark, distances in range,
    and a live object in every bucket that counts as occupied. *)
Record W (b : Z) (ms : list meta) (t : slots (K * V)) : Prop := {
  w_pow2 : is_pow2 b;
  w_lt : zlen t = b;
  w_lm : zlen ms = b + 1;
  w_mark : D ms b = 1023;
  w_rng : forall p, 0 <= p < b -> 0 <= D ms p <= 1023;
  w_slot : forall p, 0 <= p < b -> D ms p <> 0 -> exists e, aget t p = Ok (Some e);
}.
Definition cnt (ms : list meta) (t : slots (K * V)) : Z := zlen (somes (view ms t)).

Lemma W_pos b ms t : W b ms t -> 0 < b.
Proof. intros H. exact (is_pow2_pos _ (w_pow2 _ _ _ H)). Qed.
Lemma W_len b ms t : W b ms t -> zlen t <= zlen ms.
Proof. intros H. rewrite (w_lt _ _ _ H), (w_lm _ _ _ H). lia. Qed.
Lemma W_meta b ms t p : W b ms t -> 0 <= p <= b -> exists m, aget ms p = Ok m /\ dist m = D ms p.
Proof.
  intros H Hp. destruct (aget_some ms p) as [m Hm]; [rewrite (w_lm _ _ _ H); lia|]. exists m. split; [exact Hm|].
  now rewrite (D_get _ _ _ Hm).
Qed.
Lemma W_view b ms t p : W b ms t -> 0 <= p < b -> exists o, aget (view ms t) p = Ok o /\
  match o with None => D ms p = 0 | Some e => D ms p <> 0 /\ aget t p = Ok (Some e) end.
Proof.
  intros H Hp. destruct (W_meta _ _ _ p H ltac:(lia)) as (m & Hm & Hd).
  destruct (aget_some t p) as [o Ho]; [rewrite (w_lt _ _ _ H); lia|].
  rewrite (aget_view _ _ _ _ _ Hm Ho). eexists. split; [reflexivity|].
  destruct (Z.eqb_spec (dist m) 0) as [E|N]; [lia|].
  destruct (w_slot _ _ _ H p Hp ltac:(lia)) as [e He]. rewrite He in Ho. injection Ho as <-. split; [lia|exact He].
Qed.

Lemma W_upd b ms t i m o ms' t' : W b ms t -> 0 <= i < b -> aset ms i m = Ok ms' -> aset t i o = Ok t' ->
  0 <= dist m <= 1023 -> (dist m <> 0 -> exists e, o = Some e) -> W b ms' t'.
Proof.
  intros H Hi Hm Ht Hd Ho. split.
  - apply (w_pow2 _ _ _ H).
  - rewrite (aset_zlen _ _ _ _ Ht). apply (w_lt _ _ _ H).
  - rewrite (aset_zlen _ _ _ _ Hm). apply (w_lm _ _ _ H).
  - rewrite (D_aset _ _ _ _ _ Hm). destruct (Z.eqb_spec b i); [lia|]. apply (w_mark _ _ _ H).
  - intros p Hp. rewrite (D_aset _ _ _ _ _ Hm). destruct (Z.eqb_spec p i); [lia|]. now apply (w_rng _ _ _ H).
  - intros p Hp. rewrite (D_aset _ _ _ _ _ Hm), (aget_aset _ _ _ _ p Ht). destruct (Z.eqb_spec p i) as [Epi|Npi].
    + intros Hn. destruct (Ho Hn) as [e ->]. eauto.
    + now apply (w_slot _ _ _ H).
Qed.

(** How the number of occupied buckets changes when one bucket is written. *)
Lemma cnt_upd b ms t i m o ms' t' : W b ms t -> 0 <= i < b -> aset ms i m = Ok ms' -> aset t i o = Ok t' ->
  cnt ms' t' <= cnt ms t + 1 /\ (D ms i <> 0 -> cnt ms' t' <= cnt ms t) /\
  (D ms i <> 0 -> dist m = 0 -> cnt ms' t' = cnt ms t - 1).
Proof.
  intros H Hi Hm Ht. pose proof (view_aset _ _ _ _ _ _ _ (W_len _ _ _ H) Hm Ht) as HV.
  destruct (W_view _ _ _ i H Hi) as (o0 & Ho & Hc).
  pose proof (aset_Permutation _ _ _ _ _ Ho HV) as P. apply somes_perm, zlen_perm in P. rewrite !somes_cons in P. unfold cnt.
  destruct o0 as [e0|].
  - destruct Hc as [Hn _]. rewrite zlen_cons in P. destruct (dist m =? 0) eqn:E.
    + repeat split; intros; lia.
    + destruct o; rewrite ?zlen_cons in P; repeat split; intros; lia.
  - destruct (if dist m =? 0 then None else o); rewrite ?zlen_cons in P; repeat split; intros; lia.
Qed.

Lemma W_empty b ms t : W b ms t -> cnt ms t < b -> exists q, 0 <= q < b /\ D ms q = 0.
Proof.
  intros H Hc. destruct (somes_full (view ms t)) as [q Hq].
  - rewrite (zlen_view _ _ (W_len _ _ _ H)), (w_lt _ _ _ H). exact Hc.
  - pose proof (aget_ok_range _ _ _ Hq) as Hr. rewrite (zlen_view _ _ (W_len _ _ _ H)), (w_lt _ _ _ H) in Hr.
    exists q. split; [exact Hr|]. destruct (W_view _ _ _ q H Hr) as (o & Ho & Hcs). rewrite Hq in Ho. injection Ho as <-. exact Hcs.
Qed.

(** Probing *)
Lemma lookup_safe b (h : hmap K V) k hx fuel : forall idx d, W b (metas h) (table h) -> bcount h = b -> 0 <= idx < b ->
  1 <= d <= 1024 -> 1026 - d <= Z.of_nat fuel ->
  exists r, lookup_loop eqb fuel h k idx hx d = Ok r /\ r_inserted r = false /\
    match r_ref r with
    | Some p => 0 <= p < b /\ D (metas h) p <> 0
    | None => 0 <= r_idx r < b /\ 1 <= r_dist r <= 1024 /\ D (metas h) (r_idx r) < r_dist r
    end.
Proof.
  induction fuel as [|fuel IH]; intros idx d H Hb Hi Hd Hf; [lia|]. cbn [lookup_loop].
  destruct (W_meta _ _ _ idx H ltac:(lia)) as (m & Hm & Hmd). rewrite Hm. cbn [bind]. rewrite Hmd.
  pose proof (W_pos _ _ _ H) as Hbp. pose proof (w_rng _ _ _ H idx Hi) as Hr.
  destruct (Z.leb_spec d (D (metas h) idx)) as [Hle|Hgt].
  - assert (Hgo : exists r, lookup_loop eqb fuel h k (Z.land (idx + 1) (bcount h - 1)) hx ((d + 1) mod 65536) = Ok r /\ r_inserted r = false /\
      match r_ref r with
      | Some p => 0 <= p < b /\ D (metas h) p <> 0
      | None => 0 <= r_idx r < b /\ 1 <= r_dist r <= 1024 /\ D (metas h) (r_idx r) < r_dist r
      end).
    { rewrite Z.mod_small by lia. rewrite Hb, land_mask by apply (w_pow2 _ _ _ H). apply IH; auto; try lia. apply mod_rng; lia. }
    destruct (hashx m =? hx); [|exact Hgo].
    destruct (w_slot _ _ _ H idx Hi ltac:(lia)) as [e He]. unfold rd. rewrite He. cbn [bind].
    destruct (eqb (fst e) k); [|exact Hgo].
    eexists. split; [reflexivity|]. cbn. split; [reflexivity|]. split; [exact Hi|lia].
  - eexists. split; [reflexivity|]. cbn. split; [reflexivity|]. split; [exact Hi|lia].
Qed.
Lemma bucket_lookup_safe b (h : hmap K V) k : W b (metas h) (table h) -> bcount h = b ->
  exists r, bucket_lookup hash eqb h k = Ok r /\ r_inserted r = false /\
    match r_ref r with
    | Some p => 0 <= p < b /\ D (metas h) p <> 0
    | None => 0 <= r_idx r < b /\ 1 <= r_dist r <= 1024 /\ D (metas h) (r_idx r) < r_dist r
    end.
Proof.
  intros H Hb. pose proof (W_pos _ _ _ H). unfold bucket_lookup. destruct (Z.eqb_spec (bcount h) 0); [lia|].
  rewrite Hb, land_mask by apply (w_pow2 _ _ _ H). apply lookup_safe; auto; try lia; [apply mod_rng; lia|].
  unfold probe_fuel. lia.
Qed.

(** Inserting *)
Lemma shift_safe b new x0 fuel : forall ms t T i mcur dcur k n,
  W b ms T -> aset t x0 (Some new) = Ok T -> 0 <= x0 < b -> i = (x0 + k) mod b -> 0 <= k -> 1 <= n -> k + n < b ->
  D ms ((i + n) mod b) = 0 -> n <= Z.of_nat fuel -> 0 <= dist mcur <= 1023 ->
  exists ms' t' T', shift_loop fuel ms t (b - 1) i mcur dcur = Ok (ms', t') /\
    aset t' x0 (Some new) = Ok T' /\ W b ms' T' /\ cnt ms' T' <= cnt ms T + 1.
Proof.
  induction fuel as [|fuel IH]; intros ms t T i mcur dcur k n H HT Hx0 Hi Hk Hn Hkn Hz Hf Hd; [lia|].
  pose proof (W_pos _ _ _ H) as Hb. cbn [shift_loop]. rewrite land_mask by apply (w_pow2 _ _ _ H).
  set (j := (i + 1) mod b). pose proof (mod_rng b Hb (i + 1)) as Hj. fold j in Hj.
  assert (Hjk : j = (x0 + (k + 1)) mod b).
  { unfold j. rewrite Hi, mod_add_l. f_equal. lia. }
  assert (Hjx : j <> x0).
  { rewrite Hjk. intros E. rewrite <- (mod_id b x0 Hx0) in E at 2. apply mod_inj in E; lia. }
  destruct (W_meta _ _ _ j H ltac:(lia)) as (m & Hm & Hmd). rewrite Hm. cbn [bind]. rewrite Hmd.
  assert (Hinc : 0 <= dist (dist_inc mcur) <= 1023).
  { cbn [dist_inc dist]. pose proof (Z.mod_pos_bound (dist mcur + 1) 1024 ltac:(lia)). lia. }
  pose proof (w_lt _ _ _ H) as LT. pose proof (w_lm _ _ _ H) as LM. pose proof (aset_zlen _ _ _ _ HT) as LT0.
  destruct (aset_some ms j (dist_inc mcur)) as [ms1 Hms1]; [lia|].
  destruct (aset_some t j (Some dcur)) as [t1 Ht1]; [lia|].
  destruct (aset_comm t t1 T j x0 (Some dcur) (Some new) HT Ht1 Hjx) as (T1 & HT1a & HT1b).
  destruct (Z.eqb_spec (D ms j) 0) as [E0|N0].
  - rewrite Hms1. cbn [bind]. unfold wr. rewrite Ht1. cbn [bind]. exists ms1, t1, T1. split; [reflexivity|]. split; [exact HT1b|].
    split; [apply (W_upd b ms T j (dist_inc mcur) (Some dcur)); auto; eauto|].
    apply (cnt_upd b ms T j _ _ ms1 T1 H Hj Hms1 HT1a).
  - assert (Hn2 : 2 <= n).
    { destruct (Z.eq_dec n 1) as [->|]; [|lia]. fold j in Hz. lia. }
    assert (Hjn : (j + (n - 1)) mod b = (i + n) mod b). { unfold j. rewrite mod_add_l. f_equal. lia. }
    destruct (Z.ltb_spec (D ms j) (dist (dist_inc mcur))) as [Hlt|Hge].
    + destruct (w_slot _ _ _ H j Hj N0) as [d Hdj].
      assert (Hdt : aget t j = Ok (Some d)) by (rewrite <- Hdj; symmetry; now apply (aget_aset_other _ _ _ _ j HT)).
      unfold rd. rewrite Hdt. cbn [bind]. rewrite Hms1. cbn [bind]. unfold wr. rewrite Ht1. cbn [bind].
      destruct (IH ms1 t1 T1 j m d (k + 1) (n - 1)) as (ms' & t' & T' & E & HT' & HW & Hc); auto; try lia.
      * apply (W_upd b ms T j (dist_inc mcur) (Some dcur)); auto; eauto.
      * rewrite Hjn, (D_aset _ _ _ _ _ Hms1). destruct (Z.eqb_spec ((i + n) mod b) j) as [E|]; [|exact Hz].
        exfalso. unfold j in E. apply mod_inj in E; lia.
      * rewrite Hmd. now apply (w_rng _ _ _ H).
      * exists ms', t', T'. split; [exact E|]. split; [exact HT'|]. split; [exact HW|].
        destruct (cnt_upd b ms T j _ _ ms1 T1 H Hj Hms1 HT1a) as (_ & C & _). specialize (C N0). lia.
    + destruct (IH ms t T j (dist_inc mcur) dcur (k + 1) (n - 1)) as (ms' & t' & T' & E & HT' & HW & Hc); auto; try lia.
      * now rewrite Hjn.
      * exists ms', t', T'. auto.
Qed.

Lemma bucket_insert_safe b (h : hmap K V) k : W b (metas h) (table h) -> bcount h = b -> cnt (metas h) (table h) < b ->
  exists h' r p, bucket_insert hash eqb h k = Ok (h', r) /\ r_ref r = Some p /\ 0 <= p < b /\
    ( (r_inserted r = false /\ h' = h /\ D (metas h) p <> 0)
    \/ (r_inserted r = true /\ size h' = size h /\ bcount h' = b /\
        forall e, exists T', aset (table h') p (Some e) = Ok T' /\ W b (metas h') T' /\
          cnt (metas h') T' <= cnt (metas h) (table h) + 1) ).
Proof.
  intros H Hbc Hc. pose proof (W_pos _ _ _ H) as Hb. unfold bucket_insert.
  destruct (bucket_lookup_safe b h k H Hbc) as (r & Hr & Hri & Hcase). rewrite Hr. cbn [bind].
  destruct (r_ref r) as [p|] eqn:Eref.
  - exists h, r, p. split; [reflexivity|]. destruct Hcase as [Hp Hn]. split; [exact Eref|]. split; [exact Hp|]. left. auto.
  - destruct Hcase as (Hidx & Hrd & HD). set (idx := r_idx r) in *.
    destruct (W_empty _ _ _ H Hc) as (q & Hq & Hq0).
    pose proof (w_lt _ _ _ H) as LT. pose proof (w_lm _ _ _ H) as LM.
    destruct (W_meta _ _ _ idx H ltac:(lia)) as (mcur & Hm & Hmd). rewrite Hm. cbn [bind].
    set (mnew := mkmeta (Z.land (r_hashx r) hashmask) (Z.land (r_dist r) distmask)).
    assert (Hnew : 0 <= dist mnew <= 1023).
    { cbn [mnew dist]. change distmask with (Z.ones 10). rewrite Z.land_ones by lia.
      pose proof (Z.mod_pos_bound (r_dist r) (2 ^ 10) ltac:(lia)). lia. }
    destruct (aset_some (metas h) idx mnew) as [ms Hms]; [lia|]. rewrite Hms. cbn [bind]. rewrite Hmd.
    destruct (Z.eqb_spec (D (metas h) idx) 0) as [E0|N0]; cbn [negb].
    + do 3 eexists. split; [reflexivity|]. cbn [r_ref]. split; [reflexivity|]. split; [exact Hidx|]. right.
      cbn [r_inserted size bcount table metas]. split; [reflexivity|]. split; [reflexivity|]. split; [exact Hbc|].
      intros e. destruct (aset_some (table h) idx (Some e)) as [T HT]; [lia|]. exists T. split; [exact HT|].
      split; [apply (W_upd b (metas h) (table h) idx mnew (Some e)); auto; eauto|].
      apply (cnt_upd b _ _ idx _ _ ms T H Hidx Hms HT).
    + destruct (w_slot _ _ _ H idx Hidx N0) as [d Hdj]. unfold rd. rewrite Hdj. cbn [bind].
      set (n := (q - idx) mod b). pose proof (mod_rng b Hb (q - idx)) as Hnr. fold n in Hnr.
      assert (Eq : (idx + n) mod b = q).
      { unfold n. rewrite Zplus_mod_idemp_r. replace (idx + (q - idx)) with q by lia. now apply mod_id. }
      assert (Hqi : q <> idx) by (intros ->; lia).
      assert (Hn1 : 1 <= n). { destruct (Z.eq_dec n 0) as [E|]; [|lia]. rewrite E, Z.add_0_r, mod_id in Eq; lia. }
      assert (Hrun : forall e, exists ms' t' T', shift_loop (S (Z.to_nat b)) ms (table h) (b - 1) idx mcur d = Ok (ms', t') /\
        aset t' idx (Some e) = Ok T' /\ W b ms' T' /\ cnt ms' T' <= cnt (metas h) (table h) + 1).
      { intros e. destruct (aset_some (table h) idx (Some e)) as [T HT]; [lia|].
        destruct (shift_safe b e idx (S (Z.to_nat b)) ms (table h) T idx mcur d 0 n) as (ms' & t' & T' & E & HT' & HW & Hcc); auto; try lia.
        - apply (W_upd b (metas h) (table h) idx mnew (Some e)); auto; eauto.
        - rewrite Z.add_0_r, mod_id; lia.
        - rewrite Eq, (D_aset _ _ _ _ _ Hms). destruct (Z.eqb_spec q idx); [lia|exact Hq0].
        - rewrite Hmd. now apply (w_rng _ _ _ H).
        - exists ms', t', T'. split; [exact E|]. split; [exact HT'|]. split; [exact HW|].
          destruct (cnt_upd b _ _ idx _ _ ms T H Hidx Hms HT) as (_ & C & _). specialize (C N0). lia. }
      destruct (Hrun d) as (ms' & t' & _ & E & _). rewrite Hbc, E. cbn [bind fst snd].
      do 3 eexists. split; [reflexivity|]. cbn [r_ref]. split; [reflexivity|]. split; [exact Hidx|]. right.
      cbn [r_inserted size bcount table metas]. split; [reflexivity|]. split; [reflexivity|]. split; [reflexivity|].
      intros e. destruct (Hrun e) as (ms2 & t2 & T' & E2 & HT' & HW & Hcc). rewrite E in E2. injection E2 as <- <-.
      exists T'. auto.
Qed.

(** The state between operations. *)
Definition safe (h : hmap K V) : Prop :=
  h = init \/ (W (bcount h) (metas h) (table h) /\ cnt (metas h) (table h) <= size h /\ 100 * size h <= 81 * bcount h).
Definition alloc (h : hmap K V) : Prop :=
  W (bcount h) (metas h) (table h) /\ cnt (metas h) (table h) <= size h /\ 100 * size h <= 81 * bcount h.
Lemma cnt_nonneg ms t : 0 <= cnt ms t.
Proof. apply zlen_nonneg. Qed.
Lemma safe_size h : safe h -> 0 <= size h.
Proof. intros [->|(_ & A & _)]; [cbn; lia|]. pose proof (cnt_nonneg (metas h) (table h)). lia. Qed.
Lemma alloc_room h : alloc h -> cnt (metas h) (table h) < bcount h.
Proof. intros (A & B & C). pose proof (W_pos _ _ _ A). pose proof (cnt_nonneg (metas h) (table h)). lia. Qed.

Lemma rehash_safe b (old : hmap K V) nb fuel : forall (new : hmap K V) i,
  W b (metas old) (table old) -> bcount old = b -> 0 <= i <= b ->
  W nb (metas new) (table new) -> bcount new = nb ->
  cnt (metas new) (table new) + zlen (somes (skipn (Z.to_nat i) (view (metas old) (table old)))) <= cnt (metas old) (table old) ->
  cnt (metas old) (table old) < nb -> b - i < Z.of_nat fuel ->
  exists new', rehash_loop hash eqb fuel old new i = Ok new' /\ W nb (metas new') (table new') /\
    bcount new' = nb /\ size new' = size new /\ cnt (metas new') (table new') <= cnt (metas old) (table old).
Proof.
  induction fuel as [|fuel IH]; intros new i H Hbc Hi HN Hnb Hcnt Hlt Hf; [lia|].
  cbn [rehash_loop]. rewrite Hbc.
  pose proof (zlen_nonneg (somes (skipn (Z.to_nat i) (view (metas old) (table old))))) as Hnn.
  destruct (Z.ltb_spec i b).
  - destruct (W_meta _ _ _ i H ltac:(lia)) as (m & Hm & Hmd). rewrite Hm. cbn [bind].
    destruct (W_view _ _ _ i H ltac:(lia)) as (o & Ho & Hcase).
    rewrite (somes_skip _ _ _ Ho), zlen_app in Hcnt.
    pose proof (zlen_nonneg (somes (skipn (Z.to_nat (i + 1)) (view (metas old) (table old))))) as Hnn1.
    destruct o as [e|].
    + destruct Hcase as (HDi & Hti). rewrite Hmd. destruct (Z.eqb_spec (D (metas old) i) 0); [lia|]. cbn [negb].
      unfold rd at 1. rewrite Hti. cbn [bind]. unfold zlen in Hcnt at 1. cbn [length] in Hcnt.
      destruct (bucket_insert_safe nb new (fst e) HN Hnb ltac:(lia)) as (h' & r & p & Ebi & Er & Hp & Hc).
      rewrite Ebi. cbn [bind fst snd]. rewrite Er.
      destruct Hc as [(_ & -> & HDp)|(_ & Hsz & Hbc' & Hw)].
      * destruct (W_meta _ _ _ p HN ltac:(lia)) as (mp & Hmp & Hmpd).
        destruct (aset_some (table new) p (Some e)) as [T HT]; [rewrite (w_lt _ _ _ HN); lia|].
        unfold put_ref, wr. rewrite HT. cbn [bind].
        destruct (IH (mkhmap T (metas new) (size new) (bcount new)) (i + 1)) as (new' & E & R & Bc & Sz & C);
          cbn [metas table bcount size]; auto; try lia.
        { apply (W_upd nb (metas new) (table new) p mp (Some e)); auto; [now apply aset_same| |eauto].
          rewrite Hmpd. now apply (w_rng _ _ _ HN). }
        { destruct (cnt_upd nb _ _ p mp (Some e) (metas new) T HN Hp (aset_same _ _ _ Hmp) HT) as (_ & C & _). specialize (C HDp). lia. }
        exists new'. auto.
      * destruct (Hw e) as (T' & HT & HW & Hcc). unfold put_ref, wr. rewrite HT. cbn [bind].
        destruct (IH (mkhmap T' (metas h') (size h') (bcount h')) (i + 1)) as (new' & E & R & Bc & Sz & C);
          cbn [metas table bcount size]; auto; try lia.
        exists new'. cbn [size] in Sz. rewrite Sz, Hsz in *. auto.
    + rewrite Hmd, Hcase. cbn [Z.eqb negb]. unfold zlen in Hcnt at 1. cbn [length] in Hcnt. apply (IH new (i + 1)); auto; lia.
  - exists new. split; [reflexivity|]. split; [exact HN|]. split; [exact Hnb|]. split; [reflexivity|]. lia.
Qed.

Lemma RH_W b ms t : RH hash b ms t -> W b ms t.
Proof.
  intros H. split.
  - apply (rh_pow2 _ _ _ _ H).
  - apply (rh_lt _ _ _ _ H).
  - apply (rh_lm _ _ _ _ H).
  - apply (rh_mark _ _ _ _ H).
  - apply (rh_rng _ _ _ _ H).
  - intros p Hp Hn. destruct (rh_slot _ _ _ _ H p Hp Hn) as (m & e & _ & G & _). eauto.
Qed.

Lemma reserve_safe (h : hmap K V) cap : safe h -> 0 <= cap <= 2 ^ 61 ->
  exists h', reserve hash eqb h cap = Ok h' /\ safe h' /\ size h' = size h /\
    (size h <= cap -> alloc h' /\ 100 * cap <= 81 * bcount h').
Proof.
  intros Hs Hc. unfold reserve. destruct (buckets_for_ok cap Hc) as (P & B4 & B1 & B2). set (nb := buckets_for cap) in *.
  destruct (Z.ltb_spec cap (size h)); cbn [orb].
  { exists h. split; [reflexivity|]. split; [exact Hs|]. split; [reflexivity|lia]. }
  destruct (Z.eqb_spec nb (bcount h)) as [E|N].
  - exists h. split; [reflexivity|]. split; [exact Hs|]. split; [reflexivity|]. intros _.
    destruct Hs as [->|Hs]; [cbn in E; lia|]. split; [exact Hs|lia].
  - destruct (aset_some (repeat meta0 (Z.to_nat (nb + 1))) nb (mkmeta 0 distmask)) as [ms Hms]; [rewrite zlen_repeat; lia|].
    rewrite Hms. cbn [bind]. destruct (fresh_RH (V := V) hash nb ms P Hms) as (HRn & Hem). apply RH_W in HRn.
    assert (Hc0 : cnt ms (repeat None (Z.to_nat nb)) = 0) by (unfold cnt; now rewrite Hem).
    assert (Hg : exists h', rehash_loop hash eqb (S (Z.to_nat (bcount h))) h
       (mkhmap (repeat None (Z.to_nat nb)) ms (size h) nb) 0 = Ok h' /\ alloc h' /\ size h' = size h /\ bcount h' = nb).
    { destruct Hs as [->|(HW & Hcs & Hld)].
      - cbn [bcount init size]. cbn [Z.to_nat rehash_loop bcount Z.ltb Z.compare]. eexists. split; [reflexivity|].
        unfold alloc. cbn [metas table bcount size]. split; [|auto]. split; [exact HRn|]. split; [lia|lia].
      - pose proof (W_pos _ _ _ HW).
        destruct (rehash_safe (bcount h) h nb (S (Z.to_nat (bcount h)))
          (mkhmap (repeat None (Z.to_nat nb)) ms (size h) nb) 0) as (h' & E & R & Bc & Sz & C);
          cbn [metas table bcount size]; auto; try lia.
        + change (Z.to_nat 0) with 0%nat. cbn [skipn]. rewrite Hc0. unfold cnt. lia.
        + exists h'. split; [exact E|]. cbn [size] in Sz. split; [|auto]. unfold alloc. rewrite Bc, Sz. split; [exact R|]. lia. }
    destruct Hg as (h' & E & HA & Sz & Bc). exists h'. split; [exact E|]. split; [now right|]. split; [exact Sz|].
    intros _. split; [exact HA|lia].
Qed.

Lemma insert_entry_safe (h : hmap K V) k : safe h -> size h < 2 ^ 60 ->
  exists h' r p, insert_entry hash eqb h k = Ok (h', r) /\ r_ref r = Some p /\ 0 <= p < bcount h' /\
   ( (r_inserted r = false /\ alloc h' /\ D (metas h') p <> 0 /\ size h' = size h)
   \/ (r_inserted r = true /\ size h' = size h + 1 /\
       forall e, exists T', aset (table h') p (Some e) = Ok T' /\ alloc (mkhmap T' (metas h') (size h') (bcount h'))) ).
Proof.
  intros Hs H60. pose proof (safe_size _ Hs) as H0. unfold insert_entry.
  assert (Hg : exists h1, (if size h >=? load_limit (bcount h) then reserve hash eqb h (size h * 3 / 2 + 2) else Ok h) = Ok h1 /\
     alloc h1 /\ size h1 = size h /\ 100 * (size h + 1) <= 81 * bcount h1).
  { rewrite Z.geb_leb. destruct (Z.leb_spec (load_limit (bcount h)) (size h)) as [Hge|Hlt].
    - destruct (legal_cap (size h) ltac:(lia)) as (C1 & C2).
      destruct (reserve_safe h (size h * 3 / 2 + 2) Hs C2) as (h1 & E & _ & Sz & HT).
      destruct (HT ltac:(lia)) as (HT1 & HT2). exists h1. split; [exact E|]. split; [exact HT1|]. lia.
    - exists h. split; [reflexivity|]. destruct Hs as [->|HT].
      + cbn in Hlt. lia.
      + split; [exact HT|]. pose proof (W_pos _ _ _ (proj1 HT)).
        destruct (f32_mul080_bounds (bcount h) ltac:(lia)) as (_ & Hb). unfold load_limit in Hlt. cbn zeta in Hb. lia. }
  destruct Hg as (h1 & E1 & HA & Sz1 & Hroom). rewrite E1. cbn [bind].
  destruct (bucket_insert_safe (bcount h1) h1 k (proj1 HA) eq_refl (alloc_room _ HA)) as (h' & r & p & E & Er & Hp & Hc).
  rewrite E. cbn [bind fst snd]. eexists _, r, p. split; [reflexivity|]. split; [exact Er|]. cbn [bcount metas table size].
  destruct Hc as [(Ei & -> & HDp)|(Ei & Hsz & Hbc & Hw)]; rewrite Ei.
  - split; [exact Hp|]. left. split; [reflexivity|]. rewrite Z.add_0_r. split; [|split; [exact HDp|exact Sz1]].
    destruct HA as (A & B & C). split; [exact A|]. split; [exact B|exact C].
  - split; [now rewrite Hbc|]. right. split; [reflexivity|]. split; [lia|]. intros e. destruct (Hw e) as (T' & HT & HW & Hcc).
    exists T'. split; [exact HT|]. unfold alloc. cbn [metas table bcount size]. rewrite Hbc. destruct HA as (A & B & C).
    split; [exact HW|]. split; lia.
Qed.

Lemma alloc_rd (h : hmap K V) p : alloc h -> 0 <= p < bcount h -> D (metas h) p <> 0 -> exists e, rd (table h) p = Ok e.
Proof. intros (HW & _) Hp Hn. destruct (w_slot _ _ _ HW p Hp Hn) as [e He]. exists e. unfold rd. now rewrite He. Qed.
Lemma put_safe (h : hmap K V) p e : alloc h -> 0 <= p < bcount h -> D (metas h) p <> 0 ->
  exists h', put_ref h p e = Ok h' /\ alloc h' /\ size h' = size h.
Proof.
  intros (HW & B & C) Hp Hn. destruct (W_meta _ _ _ p HW ltac:(lia)) as (m & Hm & Hmd).
  destruct (aset_some (table h) p (Some e)) as [T HT]; [rewrite (w_lt _ _ _ HW); lia|].
  unfold put_ref, wr. rewrite HT. cbn [bind]. eexists. split; [reflexivity|]. split; [|reflexivity].
  unfold alloc. cbn [metas table bcount size]. split.
  - apply (W_upd _ (metas h) (table h) p m (Some e)); auto; [now apply aset_same| |eauto]. rewrite Hmd. now apply (w_rng _ _ _ HW).
  - destruct (cnt_upd _ _ _ p m (Some e) (metas h) T HW Hp (aset_same _ _ _ Hm) HT) as (_ & D1 & _). specialize (D1 Hn). split; lia.
Qed.

(** Erasing *)
Lemma erase_loop_safe b fuel : forall ms t i n, W b ms t -> 0 <= i < b -> D ms i <> 0 -> 1 <= n < b ->
  D ms ((i + n) mod b) = 0 -> n <= Z.of_nat fuel ->
  exists ms' t' p, erase_loop fuel ms t (b - 1) i i = Ok (ms', t', p) /\ W b ms' t' /\ 0 <= p < b /\ D ms' p <> 0 /\
    cnt ms' t' <= cnt ms t.
Proof.
  induction fuel as [|fuel IH]; intros ms t i n H Hi Hnz Hn Hz Hf; [lia|].
  pose proof (W_pos _ _ _ H) as Hb. cbn [erase_loop]. rewrite land_mask by apply (w_pow2 _ _ _ H).
  set (j := (i + 1) mod b). pose proof (mod_rng b Hb (i + 1)) as Hj. fold j in Hj.
  assert (Hji : j <> i).
  { unfold j. intros E. rewrite <- (mod_id b i Hi) in E at 2. apply mod_inj in E; lia. }
  destruct (W_meta _ _ _ j H ltac:(lia)) as (m & Hm & Hmd). rewrite Hm. cbn [bind]. rewrite Hmd.
  destruct (Z.ltb_spec (D ms j) 2) as [Hlt|Hge].
  - exists ms, t, i. split; [reflexivity|]. split; [exact H|]. split; [exact Hi|]. split; [exact Hnz|lia].
  - pose proof (w_lt _ _ _ H) as LT. pose proof (w_lm _ _ _ H) as LM. pose proof (w_rng _ _ _ H j Hj) as Hr.
    destruct (w_slot _ _ _ H j Hj ltac:(lia)) as [e He]. rewrite He. cbn [bind].
    destruct (aset_some t i (Some e)) as [t1 Ht1]; [lia|]. rewrite Ht1. cbn [bind].
    destruct (aset_some ms i (dist_dec m)) as [ms1 Hms1]; [lia|]. rewrite Hms1. cbn [bind].
    assert (Hdec : dist (dist_dec m) = D ms j - 1) by (cbn [dist_dec dist]; rewrite Hmd; apply Z.mod_small; lia).
    assert (Hn2 : 2 <= n). { destruct (Z.eq_dec n 1) as [->|]; [|lia]. fold j in Hz. lia. }
    destruct (IH ms1 t1 j (n - 1)) as (ms' & t' & p & E & HW & Hp & Hpn & Hc); auto; try lia.
    + apply (W_upd b ms t i (dist_dec m) (Some e)); auto; [lia|eauto].
    + rewrite (D_aset _ _ _ _ _ Hms1). destruct (Z.eqb_spec j i); [lia|]. lia.
    + replace ((j + (n - 1)) mod b) with ((i + n) mod b) by (unfold j; rewrite mod_add_l; f_equal; lia).
      rewrite (D_aset _ _ _ _ _ Hms1). destruct (Z.eqb_spec ((i + n) mod b) i) as [E|]; [|exact Hz].
      exfalso. rewrite <- (mod_id b i Hi) in E at 2. apply mod_inj in E; lia.
    + exists ms', t', p. split; [exact E|]. split; [exact HW|]. split; [exact Hp|]. split; [exact Hpn|].
      destruct (cnt_upd b ms t i _ _ ms1 t1 H Hi Hms1 Ht1) as (_ & C & _). specialize (C Hnz). lia.
Qed.

Lemma erase_entry_safe (h : hmap K V) i : alloc h -> 0 <= i < bcount h -> D (metas h) i <> 0 ->
  exists h' d, erase_entry h i = Ok (h', d) /\ alloc h' /\ size h' = size h - 1 /\ bcount h' = bcount h.
Proof.
  intros HA Hi Hn. pose proof HA as (HW & Hc & Hld). pose proof (W_pos _ _ _ HW) as Hb. unfold erase_entry.
  destruct (alloc_rd h i HA Hi Hn) as [e He]. rewrite He. cbn [bind].
  destruct (W_empty _ _ _ HW (alloc_room _ HA)) as (q & Hq & Hq0).
  set (n := (q - i) mod bcount h). pose proof (mod_rng (bcount h) Hb (q - i)) as Hnr. fold n in Hnr.
  assert (Eq : (i + n) mod bcount h = q).
  { unfold n. rewrite Zplus_mod_idemp_r. replace (i + (q - i)) with q by lia. now apply mod_id. }
  assert (Hqi : q <> i) by (intros ->; lia).
  assert (Hn1 : 1 <= n). { destruct (Z.eq_dec n 0) as [E|]; [|lia]. rewrite E, Z.add_0_r, mod_id in Eq; lia. }
  destruct (erase_loop_safe (bcount h) (S (Z.to_nat (bcount h))) (metas h) (table h) i n) as (ms' & t' & p & E & HW' & Hp & Hpn & Hcc); auto; try lia.
  { now rewrite Eq. }
  rewrite E. cbn [bind]. destruct (W_meta _ _ _ p HW' ltac:(lia)) as (m & Hm & Hmd). rewrite Hm. cbn [bind].
  destruct (aset_some ms' p (mkmeta (hashx m) 0)) as [msF HF]; [rewrite (w_lm _ _ _ HW'); lia|]. rewrite HF. cbn [bind].
  destruct (aget_some t' p) as [o Ho]; [rewrite (w_lt _ _ _ HW'); lia|].
  eexists _, _. split; [reflexivity|]. split; [|split; reflexivity]. unfold alloc. cbn [metas table bcount size]. split.
  - apply (W_upd _ ms' t' p (mkmeta (hashx m) 0) o); auto; [now apply aset_same|cbn; lia|cbn; lia].
  - destruct (cnt_upd _ ms' t' p _ _ msF t' HW' Hp HF (aset_same _ _ _ Ho)) as (_ & _ & C). specialize (C Hpn eq_refl). split; lia.
Qed.

(** Iterating *)
Lemma skip_safe (h : hmap K V) fuel : forall p, W (bcount h) (metas h) (table h) -> 0 <= p <= bcount h ->
  bcount h - p < Z.of_nat fuel ->
  exists q, skip_empty fuel (metas h) p = Ok q /\ p <= q <= bcount h /\ D (metas h) q <> 0.
Proof.
  induction fuel as [|fuel IH]; intros p HR Hp Hf; [lia|]. cbn [skip_empty].
  destruct (W_meta _ _ _ p HR ltac:(lia)) as (m & Hm & Hmd). rewrite Hm. cbn [bind]. rewrite Hmd.
  destruct (Z.eqb_spec (D (metas h) p) 0) as [E|N].
  - assert (p <> bcount h) by (intros ->; rewrite (w_mark _ _ _ HR) in E; lia).
    destruct (IH (p + 1)) as (q & Eq & Hq & Hnz); auto; try lia. exists q. split; [exact Eq|]. split; [lia|exact Hnz].
  - exists p. split; [reflexivity|]. split; [lia|exact N].
Qed.
Lemma next_safe (h : hmap K V) p : W (bcount h) (metas h) (table h) -> 0 <= p < bcount h ->
  exists q, next h (it_at h p) = Ok (it_at h q) /\ p < q <= bcount h /\ D (metas h) q <> 0.
Proof.
  intros HR Hp. unfold next, it_at. cbn [ref mref]. destruct (Z.eqb_spec p (bcount h)); [lia|].
  destruct (skip_safe h (S (S (Z.to_nat (bcount h)))) (p + 1) HR ltac:(lia) ltac:(lia)) as (q & E & Hq & Hnz).
  rewrite E. cbn [bind]. exists q. replace (p + (q - p)) with q by lia. split; [reflexivity|]. split; [lia|exact Hnz].
Qed.
Lemma begin_safe (h : hmap K V) : W (bcount h) (metas h) (table h) ->
  exists q, begin h = Ok (it_at h q) /\ 0 <= q <= bcount h /\ D (metas h) q <> 0.
Proof.
  intros HR. pose proof (W_pos _ _ _ HR) as Hb. unfold begin. destruct (Z.eqb_spec (bcount h) 0); [lia|].
  destruct (skip_safe h (S (S (Z.to_nat (bcount h)))) 0 HR ltac:(lia) ltac:(lia)) as (q & E & Hq & Hnz).
  rewrite E. cbn [bind]. exists q. split; [reflexivity|]. split; [lia|exact Hnz].
Qed.
Lemma each_loop_safe (h : hmap K V) fuel : forall p, alloc h -> 0 <= p <= bcount h ->
  D (metas h) p <> 0 -> bcount h - p < Z.of_nat fuel -> exists es, each_loop fuel h (it_at h p) = Ok es.
Proof.
  induction fuel as [|fuel IH]; intros p HA Hp Hnz Hf; [lia|]. cbn [each_loop]. unfold it_at at 1. cbn [ref].
  destruct (Z.eqb_spec p (bcount h)) as [->|N]; [eauto|].
  destruct (alloc_rd h p HA ltac:(lia) Hnz) as (e & Hrd). rewrite Hrd. cbn [bind].
  destruct (next_safe h p (proj1 HA) ltac:(lia)) as (q & E & Hq & Hqnz). rewrite E. cbn [bind].
  destruct (IH q HA ltac:(lia) Hqnz ltac:(lia)) as [es Ees]. rewrite Ees. cbn [bind]. eauto.
Qed.
Lemma each_safe (h : hmap K V) : safe h -> exists es, each h = Ok es.
Proof.
  intros [->|HA]; [exists []; reflexivity|]. unfold each. destruct (begin_safe h (proj1 HA)) as (q & E & Hq & Hnz).
  pose proof (W_pos _ _ _ (proj1 HA)). rewrite E. cbn [bind]. apply each_loop_safe; auto; lia.
Qed.

Lemma erase_if_loop_safe P fuel : forall (h : hmap K V) p, alloc h -> 0 <= p <= bcount h -> D (metas h) p <> 0 ->
  bcount h - p + size h < Z.of_nat fuel ->
  exists h' d seen, erase_if_loop fuel P h (it_at h p) = Ok (h', d, seen) /\ alloc h' /\ size h' <= size h.
Proof.
  induction fuel as [|fuel IH]; intros h p HA Hp Hnz Hf.
  { pose proof (safe_size h (or_intror HA)). lia. }
  cbn [erase_if_loop]. unfold it_at at 1. cbn [ref]. destruct (Z.eqb_spec p (bcount h)) as [->|N].
  - exists h, [], []. split; [reflexivity|]. split; [exact HA|lia].
  - destruct (alloc_rd h p HA ltac:(lia) Hnz) as (e & Hrd). rewrite Hrd. cbn [bind].
    destruct (P e).
    + unfold erase_at. unfold it_at at 1. cbn [ref]. destruct (Z.eqb_spec p (bcount h)); [lia|].
      destruct (erase_entry_safe h p HA ltac:(lia) Hnz) as (h' & d & E & HA' & Hsz & Hbc). rewrite E. cbn [bind fst snd].
      destruct (W_meta _ _ _ p (proj1 HA') ltac:(lia)) as (m & Hm & Hmd). cbn [mref it_at]. rewrite Hm. cbn [bind]. rewrite Hmd.
      assert (Hit : it_at h p = it_at h' p) by (unfold it_at; now rewrite Hbc). rewrite Hit.
      destruct (Z.eqb_spec (D (metas h') p) 0) as [E0|N0].
      * destruct (next_safe h' p (proj1 HA') ltac:(lia)) as (q & Eq & Hq & Hqnz). rewrite Eq. cbn [bind].
        destruct (IH h' q HA' ltac:(lia) Hqnz ltac:(lia)) as (h2 & d2 & s2 & E2 & HA2 & Hs2). rewrite E2. cbn [bind].
        eexists _, _, _. split; [reflexivity|]. split; [exact HA2|lia].
      * cbn [bind]. destruct (IH h' p HA' ltac:(lia) N0 ltac:(lia)) as (h2 & d2 & s2 & E2 & HA2 & Hs2). rewrite E2. cbn [bind].
        eexists _, _, _. split; [reflexivity|]. split; [exact HA2|lia].
    + destruct (next_safe h p (proj1 HA) ltac:(lia)) as (q & Eq & Hq & Hqnz). rewrite Eq. cbn [bind].
      destruct (IH h q HA ltac:(lia) Hqnz ltac:(lia)) as (h2 & d2 & s2 & E2 & HA2 & Hs2). rewrite E2. cbn [bind].
      eexists _, _, _. split; [reflexivity|]. split; [exact HA2|lia].
Qed.

Lemma wipe_loop_safe (h : hmap K V) fuel : forall i, alloc h -> 0 <= i <= bcount h -> bcount h - i < Z.of_nat fuel ->
  exists d, wipe_loop fuel h i = Ok d.
Proof.
  induction fuel as [|fuel IH]; intros i HA Hi Hf; [lia|]. cbn [wipe_loop]. destruct (Z.eqb_spec i (bcount h)); [eauto|].
  destruct (W_meta _ _ _ i (proj1 HA) ltac:(lia)) as (m & Hm & Hmd). rewrite Hm. cbn [bind]. rewrite Hmd.
  destruct (IH (i + 1) HA ltac:(lia) ltac:(lia)) as [d Hd]. rewrite Hd.
  destruct (Z.eqb_spec (D (metas h) i) 0); cbn [negb bind]; [eauto|].
  destruct (alloc_rd h i HA ltac:(lia) ltac:(lia)) as [e He]. rewrite He. cbn [bind]. eauto.
Qed.
Lemma wipe_safe (h : hmap K V) : safe h -> exists d, wipe h = Ok d.
Proof.
  intros Hs. unfold wipe. destruct (Z.eqb_spec (size h) 0); [eauto|]. destruct Hs as [->|HA]; [cbn in *; lia|].
  pose proof (W_pos _ _ _ (proj1 HA)). apply wipe_loop_safe; auto; lia.
Qed.
Lemma clear_safe (h : hmap K V) : safe h -> exists h' d, clear h = Ok (h', d) /\ safe h' /\ size h' = 0.
Proof.
  intros Hs. unfold clear. destruct (wipe_safe h Hs) as [d Hd]. rewrite Hd. cbn [bind].
  destruct Hs as [->|(HR & _)].
  { eexists _, _. split; [reflexivity|]. split; [now left|reflexivity]. }
  pose proof (W_pos _ _ _ HR) as Hb. pose proof (w_lm _ _ _ HR) as LM.
  destruct (ablit_some (metas h) 0 (repeat meta0 (Z.to_nat (bcount h)))) as [ms Hms]; try rewrite zlen_repeat; try lia.
  rewrite Hms. cbn [bind]. eexists _, _. split; [reflexivity|]. split; [|reflexivity].
  apply ablit_inv in Hms as (_ & _ & Lms & Gms). rewrite zlen_repeat in Gms by lia.
  assert (HD : forall p, 0 <= p < bcount h -> D ms p = 0).
  { intros p Hp. unfold D. rewrite Gms. replace ((0 <=? p) && (p <? 0 + bcount h)) with true by lia.
    rewrite aget_repeat by lia. reflexivity. }
  assert (HW : W (bcount h) ms (table h)).
  { split.
    - apply (w_pow2 _ _ _ HR).
    - apply (w_lt _ _ _ HR).
    - lia.
    - unfold D. rewrite Gms. replace ((0 <=? bcount h) && (bcount h <? 0 + bcount h)) with false by lia. exact (w_mark _ _ _ HR).
    - intros p Hp. rewrite HD by assumption. lia.
    - intros p Hp. rewrite HD by assumption. lia. }
  right. cbn [size bcount metas table]. split; [exact HW|]. split; [|lia].
  unfold cnt. destruct (somes (view ms (table h))) as [|e r] eqn:Es; [unfold zlen; cbn; lia|exfalso].
  assert (Hin : In e (somes (view ms (table h)))) by (rewrite Es; now left).
  apply somes_In in Hin as [p Hp]. pose proof (aget_ok_range _ _ _ Hp) as Hrg.
  rewrite (zlen_view _ _ (W_len _ _ _ HW)), (w_lt _ _ _ HW) in Hrg.
  destruct (W_view _ _ _ p HW Hrg) as (o & Ho & Hc). rewrite Hp in Ho. injection Ho as <-. rewrite HD in Hc by lia. destruct Hc; lia.
Qed.

Lemma get_safe (h : hmap K V) k : safe h -> exists o, get hash eqb h k = Ok o.
Proof.
  intros Hs. unfold get. destruct (Z.eqb_spec (size h) 0); [eauto|]. destruct Hs as [->|HA]; [cbn in *; lia|].
  destruct (bucket_lookup_safe _ h k (proj1 HA) eq_refl) as (r & Hr & _ & Hc). rewrite Hr. cbn [bind].
  destruct (r_ref r) as [p|]; [|eauto]. destruct Hc as [Hp Hn]. destruct (alloc_rd h p HA Hp Hn) as [e He]. rewrite He. cbn [bind]. eauto.
Qed.

Definition cap_ok (o : op K V) : Prop := match o with Reserve cap => 0 <= cap <= 2 ^ 60 | _ => True end.

Lemma step_safe (h : hmap K V) o : safe h -> size h < 2 ^ 60 -> cap_ok o ->
  exists h' d c, step hash eqb h o = Ok (h', d, c) /\ safe h' /\ size h' <= size h + 1.
Proof.
  intros Hs H60 Hcap. pose proof (safe_size _ Hs) as H0. destruct o as [k v|k v|k v|k v|k|P| |cap|]; cbn [step cap_ok] in *.
  1-4: destruct (insert_entry_safe h k Hs H60) as (h' & r & p & E & Er & Hp & [(Ei & HA & HDp & Hsz)|(Ei & Hsz & Hw)]);
    unfold insert, emplace, insert_or_assign, emplace_or_assign; rewrite E; cbn [bind fst snd]; unfold the_ref; rewrite Er, Ei; cbn [bind].
  2,4,6,8: destruct (Hw (k, v)) as (T & HT & HA); rewrite (put_ok _ _ _ _ HT); cbn [bind]; eexists _, _, _;
    (split; [reflexivity|]); (split; [now right|]); cbn [size]; lia.
  1,2: eexists _, _, _; (split; [reflexivity|]); (split; [now right|]); lia.
  1,2: destruct (alloc_rd h' p HA Hp HDp) as [e He]; rewrite He; cbn [bind];
    destruct (put_safe h' p (fst e, v) HA Hp HDp) as (h2 & E2 & HA2 & Hs2); rewrite E2; cbn [bind];
    eexists _, _, _; (split; [reflexivity|]); (split; [now right|]); lia.
  - unfold erase. destruct (Z.eqb_spec (size h) 0).
    { eexists _, _, _. split; [reflexivity|]. split; [exact Hs|lia]. }
    pose proof Hs as Hs0. destruct Hs as [->|HA]; [cbn in *; lia|].
    destruct (bucket_lookup_safe _ h k (proj1 HA) eq_refl) as (r & Hr & _ & Hc). rewrite Hr. cbn [bind].
    destruct (r_ref r) as [p|].
    + destruct Hc as [Hp Hn]. destruct (erase_entry_safe h p HA Hp Hn) as (h' & d & E & HA' & Hsz & _). rewrite E. cbn [bind fst snd].
      eexists _, _, _. split; [reflexivity|]. split; [now right|lia].
    + eexists _, _, _. split; [reflexivity|]. split; [exact Hs0|lia].
  - unfold erase_if. destruct Hs as [->|HA].
    { cbn. eexists _, _, _. split; [reflexivity|]. split; [now left|cbn; lia]. }
    destruct (begin_safe h (proj1 HA)) as (q & E & Hq & Hnz). rewrite E. cbn [bind]. pose proof (W_pos _ _ _ (proj1 HA)).
    destruct (erase_if_loop_safe P (S (S (Z.to_nat (bcount h + size h)))) h q HA Hq Hnz ltac:(lia)) as (h2 & d & s & E2 & HA2 & Hs2).
    rewrite E2. cbn [bind]. eexists _, _, _. split; [reflexivity|]. split; [now right|lia].
  - destruct (clear_safe h Hs) as (h' & d & E & Hs' & Hz). rewrite E. cbn [bind fst snd]. eexists _, _, _. split; [reflexivity|]. split; [exact Hs'|lia].
  - destruct (reserve_safe h cap Hs ltac:(lia)) as (h' & E & Hs' & Hz & _). rewrite E. cbn [bind]. eexists _, _, _. split; [reflexivity|]. split; [exact Hs'|lia].
  - unfold shrink_to_fit. destruct (reserve_safe h (size h) Hs ltac:(lia)) as (h' & E & Hs' & Hz & _). rewrite E. cbn [bind]. eexists _, _, _. split; [reflexivity|]. split; [exact Hs'|lia].
Qed.

Lemma run_safe (ops : list (op K V)) : forall h : hmap K V, safe h -> size h + zlen ops <= 2 ^ 60 -> Forall cap_ok ops ->
  exists h' outs, run hash eqb h ops = Ok (h', outs) /\ safe h'.
Proof.
  induction ops as [|o ops IH]; intros h Hs Hn Hc; cbn [run].
  - eexists _, _. split; [reflexivity|exact Hs].
  - rewrite zlen_cons in Hn. pose proof (zlen_nonneg ops). inversion Hc as [|? ? Hc1 Hc2]; subst.
    destruct (step_safe h o Hs ltac:(lia) Hc1) as (h1 & d & c & E & Hs1 & Hsz). rewrite E. cbn [bind].
    destruct (IH h1 Hs1 ltac:(lia) Hc2) as (h2 & outs & E2 & Hs2). rewrite E2. cbn [bind fst snd]. eexists _, _. split; [reflexivity|exact Hs2].
Qed.

Lemma hist_safe (ops : list (op K V)) : zlen ops <= 2 ^ 60 -> Forall cap_ok ops ->
  exists h outs, run hash eqb init ops = Ok (h, outs) /\ (exists es, each h = Ok es) /\ (exists d, drop h = Ok d) /\
    (forall k, exists o, get hash eqb h k = Ok o) /\
    (0 < bcount h -> exists p m, 0 <= p < bcount h /\ aget (metas h) p = Ok m /\ dist m = 0).
Proof.
  intros Hn Hc. destruct (run_safe ops init (or_introl eq_refl) ltac:(cbn [size init]; lia) Hc) as (h & outs & E & Hs).
  exists h, outs. split; [exact E|]. split; [now apply each_safe|]. split.
  - unfold drop. destruct (bcount h >? 0); [now apply wipe_safe|eauto].
  - split; [intros k; now apply get_safe|]. intros Hb. destruct Hs as [->|HA]; [cbn in Hb; lia|].
    destruct (W_empty _ _ _ (proj1 HA) (alloc_room _ HA)) as (q & Hq & Hq0).
    destruct (W_meta _ _ _ q (proj1 HA) ltac:(lia)) as (m & Hm & Hd). exists q, m. split; [exact Hq|]. split; [exact Hm|]. lia.
Qed.
End Safe.
