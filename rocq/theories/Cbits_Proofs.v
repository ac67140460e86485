(** Proofs about bit sets. *)
From Verif Require Import Base Slots Cbits_Model Cbits_Spec.

(** ** Words *)
Section Words.
Variable lg : Z.
Hypothesis Hlg : 0 <= lg.
Notation WB := (WB lg).

Lemma WB_pos : 0 < WB.
Proof. apply Z.pow_pos_nonneg; lia. Qed.
Definition wd (w : Z) : Prop := 0 <= w < 2 ^ WB.
Lemma wd_bits w : 0 <= w -> (wd w <-> forall j, WB <= j -> Z.testbit w j = false).
Proof.
  pose proof WB_pos. intros Hx. unfold wd. split.
  - intros Hw j Hj. destruct (Z.eq_dec w 0) as [->|]; [apply Z.bits_0|].
    apply Z.bits_above_log2; [lia|]. apply Z.lt_le_trans with WB; [apply (proj1 (Z.log2_lt_pow2 w WB ltac:(lia))); apply Hw|exact Hj].
  - intros Hw. split; [lia|]. destruct (Z.eq_dec w 0) as [->|]; [apply Z.pow_pos_nonneg; lia|].
    apply Z.log2_lt_pow2; [lia|]. destruct (Z.lt_ge_cases (Z.log2 w) WB) as [|G]; [auto|].
    specialize (Hw _ G). rewrite (Z.bit_log2 w) in Hw by lia. discriminate.
Qed.
Lemma wd_high w j : wd w -> WB <= j -> Z.testbit w j = false.
Proof. intros H. apply (proj1 (wd_bits w (proj1 H)) H). Qed.
Lemma wd_land x y : wd x -> wd y -> wd (Z.land x y).
Proof.
  intros Hx Hy. assert (0 <= Z.land x y) by (apply Z.land_nonneg; left; apply Hx).
  apply wd_bits; auto. intros j Hj. rewrite Z.land_spec, (wd_high x j Hx Hj). reflexivity.
Qed.
Lemma wd_lor x y : wd x -> wd y -> wd (Z.lor x y).
Proof.
  intros Hx Hy. assert (0 <= Z.lor x y) by (apply Z.lor_nonneg; split; [apply Hx|apply Hy]).
  apply wd_bits; auto. intros j Hj. rewrite Z.lor_spec, (wd_high x j Hx Hj), (wd_high y j Hy Hj). reflexivity.
Qed.
Lemma wd_lxor x y : wd x -> wd y -> wd (Z.lxor x y).
Proof.
  intros Hx Hy. assert (0 <= Z.lxor x y) by (apply Z.lxor_nonneg; split; intros _; [apply Hy|apply Hx]).
  apply wd_bits; auto. intros j Hj. rewrite Z.lxor_spec, (wd_high x j Hx Hj), (wd_high y j Hy Hj). reflexivity.
Qed.
Lemma wd_ones : wd (ones lg).
Proof. pose proof WB_pos. assert (0 < 2 ^ WB) by (apply Z.pow_pos_nonneg; lia). unfold wd, ones. fold WB. lia. Qed.
Lemma ones_bit j : 0 <= j < WB -> Z.testbit (ones lg) j = true.
Proof. intros Hj. unfold ones. fold WB. replace (2 ^ WB - 1) with (Z.ones WB) by (rewrite Z.ones_equiv; lia). apply Z.ones_spec_low. lia. Qed.
Lemma wd_0 : wd 0.
Proof. pose proof WB_pos. split; [lia|]. apply Z.pow_pos_nonneg; lia. Qed.
Lemma wd_fill v : wd (fill lg v).
Proof. destruct v; [apply wd_ones|apply wd_0]. Qed.
Lemma fill_bit v j : 0 <= j < WB -> Z.testbit (fill lg v) j = v.
Proof. intros Hj. destruct v; [now apply ones_bit|apply Z.bits_0]. Qed.
Lemma land_mod i : Z.land i (WB - 1) = i mod WB.
Proof. unfold Cbits_Model.WB. replace (2 ^ lg - 1) with (Z.ones lg) by (rewrite Z.ones_equiv; lia). apply Z.land_ones. lia. Qed.
Lemma mod_WB i : 0 <= i mod WB < WB.
Proof. apply Z.mod_pos_bound, WB_pos. Qed.
Lemma bit_eq i : bit lg i = 2 ^ (i mod WB).
Proof. unfold bit. fold WB. rewrite land_mod, Z.shiftl_mul_pow2 by apply mod_WB. lia. Qed.
Lemma bit_spec i j : 0 <= j -> Z.testbit (bit lg i) j = (j =? i mod WB).
Proof.
  intros Hj. rewrite bit_eq. destruct (Z.eqb_spec j (i mod WB)) as [->|N].
  - apply Z.pow2_bits_true. apply mod_WB.
  - apply Z.pow2_bits_false. auto.
Qed.
Lemma wd_bit i : wd (bit lg i).
Proof.
  pose proof (mod_WB i). rewrite bit_eq. split; [apply Z.pow_nonneg; lia|]. apply Z.pow_lt_mono_r; lia.
Qed.
Lemma wd_wnot x : wd x -> wd (wnot lg x).
Proof. intros. apply wd_lxor; auto using wd_ones. Qed.
Lemma wnot_bit x j : 0 <= j < WB -> Z.testbit (wnot lg x) j = negb (Z.testbit x j).
Proof. intros Hj. unfold wnot. rewrite Z.lxor_spec, ones_bit by auto. apply xorb_true_r. Qed.
(** the mask of the bits below i mod WB *)
Lemma lowmask i : bit lg i - 1 = Z.ones (i mod WB).
Proof. rewrite bit_eq, Z.ones_equiv. lia. Qed.
Lemma lowmask_bit i j : 0 <= j -> Z.testbit (bit lg i - 1) j = (j <? i mod WB).
Proof.
  intros Hj. pose proof (mod_WB i). rewrite lowmask. destruct (Z.ltb_spec j (i mod WB)).
  - apply Z.ones_spec_low. lia.
  - apply Z.ones_spec_high. lia.
Qed.
Lemma wd_lowmask i : wd (bit lg i - 1).
Proof.
  pose proof (wd_bit i). rewrite bit_eq in *. assert (0 < 2 ^ (i mod WB)) by (apply Z.pow_pos_nonneg; [lia|apply mod_WB]).
  unfold wd in *. lia.
Qed.
Lemma words_eq n : 0 <= n -> words lg n = (n + WB - 1) / WB.
Proof. intros Hn. pose proof WB_pos. unfold words. fold WB. rewrite Z.quot_div_nonneg by lia. f_equal. lia. Qed.
Lemma words_bound n k : 0 <= n -> (k < words lg n <-> k * WB < n).
Proof.
  intros Hn. pose proof WB_pos. rewrite words_eq by lia.
  pose proof (Z.div_mod (n + WB - 1) WB ltac:(lia)). pose proof (Z.mod_pos_bound (n + WB - 1) WB ltac:(lia)).
  split; intros; nia.
Qed.
Lemma words_nonneg n : 0 <= n -> 0 <= words lg n.
Proof. intros Hn. pose proof WB_pos. rewrite words_eq by lia. apply Z.div_pos; lia. Qed.
Lemma words_mono n m : 0 <= n <= m -> words lg n <= words lg m.
Proof. intros Hn. pose proof WB_pos. rewrite !words_eq by lia. apply Z.div_le_mono; lia. Qed.
Lemma quot_WB i : 0 <= i -> Z.quot i WB = i / WB.
Proof. intros. pose proof WB_pos. apply Z.quot_div_nonneg; lia. Qed.
Lemma split_WB i : i = i / WB * WB + i mod WB.
Proof. pose proof WB_pos. pose proof (Z.div_mod i WB ltac:(lia)). lia. Qed.
Lemma pos_unique k j i : 0 <= j < WB -> k * WB + j = i -> k = i / WB /\ j = i mod WB.
Proof.
  intros Hj E. pose proof WB_pos. subst i. rewrite Z.add_comm.
  rewrite Z.div_add, Z.mod_add, Z.div_small, Z.mod_small by lia. lia.
Qed.

(** ** Representation by words *)
Definition wrep (b : slots Z) (l : list bool) : Prop :=
  zlen b = words lg (zlen l) /\
  forall k, 0 <= k < zlen b -> exists w, aget b k = Ok (Some w) /\ wd w /\
    forall j, 0 <= j < WB -> k * WB + j < zlen l -> aget l (k * WB + j) = Ok (Z.testbit w j).

Lemma all_some_list {A} (b : slots A) : (forall k, 0 <= k < zlen b -> exists w, aget b k = Ok (Some w)) -> exists ws, b = map Some ws.
Proof.
  induction b as [|x b IH]; intros H; [exists []; reflexivity|].
  destruct (H 0) as [w Hw]; [rewrite zlen_cons; pose proof (zlen_nonneg b); lia|]. cbn in Hw. injection Hw as ->.
  destruct IH as [ws ->]; [|exists (w :: ws); reflexivity].
  intros k Hk. destruct (H (k + 1)) as [v Hv]; [rewrite zlen_cons; lia|].
  rewrite aget_cons in Hv. destruct (Z.eqb_spec (k + 1) 0); [lia|]. replace (k + 1 - 1) with k in Hv by lia. eauto.
Qed.

Lemma repr_words s l : bits_repr lg s l <-> exists b, live (buf s) = Ok b /\ size s = zlen l /\ wrep b l.
Proof.
  pose proof WB_pos as HWB. pose proof (zlen_nonneg l) as Hl. split.
  - intros (ws & HB & HS & HZ & HF & HG). exists (map Some ws).
    assert (HL : live (buf s) = Ok (map Some ws)) by (destruct HB as [-> |[-> ->]]; reflexivity).
    split; [exact HL|]. split; [exact HS|]. split; [rewrite zlen_map, words_eq by lia; exact HZ|].
    intros k Hk. rewrite zlen_map in Hk. destruct (aget_some ws k Hk) as [w Hw]. exists w.
    rewrite aget_map, Hw. split; [reflexivity|]. split.
    + apply aget_In in Hw. rewrite Forall_forall in HF. apply HF, Hw.
    + intros j Hj Hi. rewrite HG by lia. unfold bit_of. change (2 ^ lg) with WB.
      destruct (pos_unique k j _ Hj eq_refl) as [<- <-].
      apply aget_nth in Hw as [_ Hw]. now rewrite (nth_error_nth _ _ 0 Hw).
  - intros (b & HL & HS & HZ & HG). destruct (all_some_list b) as [ws ->].
    { intros k Hk. destruct (HG k Hk) as (w & Hw & _). eauto. }
    exists ws. rewrite zlen_map in *. split.
    { destruct (buf s); [right|left|discriminate]; injection HL as HL.
      - split; [reflexivity|]. destruct ws; [auto|discriminate].
      - now rewrite HL. }
    split; [exact HS|]. split; [rewrite HZ, words_eq by lia; reflexivity|]. split.
    + apply Forall_forall. intros w Hw. apply In_aget in Hw as (k & Hk & Hw).
      destruct (HG k Hk) as (w' & Hw' & Hd & _). rewrite aget_map, Hw in Hw'. injection Hw' as <-. exact Hd.
    + intros i Hi. pose proof (mod_WB i). pose proof (split_WB i) as Es.
      assert (0 <= i / WB) by (apply Z.div_pos; lia).
      destruct (HG (i / WB)) as (w & Hw & Hd & Hb). { rewrite HZ. split; [auto|]. apply words_bound; lia. }
      rewrite Es at 1. rewrite Hb by lia. unfold bit_of. change (2 ^ lg) with WB.
      rewrite aget_map in Hw. destruct (aget ws (i / WB)) eqn:E; [|discriminate]. injection Hw as ->.
      apply aget_nth in E as [_ E]. now rewrite (nth_error_nth _ _ 0 E).
Qed.

(** Reading back one bit. *)
Lemma wrep_rd b l i : wrep b l -> 0 <= i < zlen l ->
  exists w, rd b (i / WB) = Ok w /\ aget b (i / WB) = Ok (Some w) /\ wd w /\ aget l i = Ok (Z.testbit w (i mod WB)).
Proof.
  pose proof WB_pos. intros (HZ & HG) Hi. pose proof (mod_WB i). pose proof (split_WB i) as Es.
  assert (0 <= i / WB) by (apply Z.div_pos; lia).
  destruct (HG (i / WB)) as (w & Hw & Hd & Hb). { rewrite HZ. split; [auto|]. apply words_bound; lia. }
  exists w. split; [unfold rd; rewrite Hw; reflexivity|]. split; [exact Hw|]. split; [exact Hd|].
  rewrite Es at 1. apply Hb; lia.
Qed.

Lemma land_bit_test w i : negb (Z.land w (bit lg i) =? 0) = Z.testbit w (i mod WB).
Proof.
  pose proof (mod_WB i). destruct (Z.testbit w (i mod WB)) eqn:E.
  - destruct (Z.eqb_spec (Z.land w (bit lg i)) 0) as [Z0|]; [|reflexivity].
    assert (T : Z.testbit (Z.land w (bit lg i)) (i mod WB) = false) by (rewrite Z0; apply Z.bits_0).
    rewrite Z.land_spec, E, bit_spec, Z.eqb_refl in T by lia. discriminate.
  - destruct (Z.eqb_spec (Z.land w (bit lg i)) 0) as [|N]; [reflexivity|]. exfalso. apply N. apply Z.bits_inj'. intros j Hj.
    rewrite Z.land_spec, bit_spec, Z.bits_0 by lia. destruct (Z.eqb_spec j (i mod WB)) as [->|]; [now rewrite E|apply andb_false_r].
Qed.

Lemma test_ok s b l i : live (buf s) = Ok b -> wrep b l -> 0 <= i < zlen l -> exists v, test lg s i = Ok v /\ aget l i = Ok v.
Proof.
  intros HL HW Hi. destruct (wrep_rd b l i HW Hi) as (w & Hr & _ & _ & Hb). unfold test. fold WB.
  rewrite HL. cbn [bind]. rewrite quot_WB by lia. rewrite Hr. cbn [bind]. rewrite land_bit_test. eauto.
Qed.

(** Updating one word. *)
Lemma modify_ok s b l i f l' : live (buf s) = Ok b -> size s = zlen l -> wrep b l -> 0 <= i < zlen l -> zlen l' = zlen l ->
  (forall w, wd w -> wd (f w)) ->
  (forall w, wd w -> forall j, 0 <= j < WB -> i / WB * WB + j < zlen l ->
     (forall j, 0 <= j < WB -> i / WB * WB + j < zlen l -> aget l (i / WB * WB + j) = Ok (Z.testbit w j)) ->
     aget l' (i / WB * WB + j) = Ok (Z.testbit (f w) j)) ->
  (forall k, 0 <= k < zlen l -> k / WB <> i / WB -> aget l' k = aget l k) ->
  exists s', modify lg s i f = Ok s' /\ bits_repr lg s' l'.
Proof.
  pose proof WB_pos. intros HL HS HW Hi HZ' Hf Hin Hout. unfold modify. fold WB. rewrite HL. cbn [bind]. rewrite quot_WB by lia.
  destruct (wrep_rd b l i HW Hi) as (w & Hr & Hw & Hd & _). rewrite Hr. cbn [bind]. unfold wr.
  destruct (aset_some b (i / WB) (Some (f w))) as [b' Hb']; [eapply aget_ok_range; eauto|]. rewrite Hb'. cbn [bind].
  eexists. split; [reflexivity|]. apply repr_words. exists b'. split; [reflexivity|]. split; [cbn [size]; lia|].
  destruct HW as (HZ & HG). pose proof (aset_zlen _ _ _ _ Hb') as Hzb.
  split; [rewrite Hzb, HZ; f_equal; lia|]. intros k Hk. rewrite Hzb in Hk. rewrite (aget_aset _ _ _ _ k Hb').
  destruct (HG k Hk) as (v & Hv & Hdv & Hbv). destruct (Z.eqb_spec k (i / WB)) as [->|N].
  - rewrite Hv in Hw. injection Hw as ->. exists (f w). split; [reflexivity|]. split; [auto|].
    intros j Hj Hlt. apply Hin; auto. lia.
  - exists v. split; [auto|]. split; [auto|]. intros j Hj Hlt. rewrite Hout; [apply Hbv; lia|lia|].
    intros C. destruct (pos_unique k j _ Hj eq_refl) as [E _]. lia.
Qed.
(** ... of which one bit changes. *)
Lemma modify_bit_ok s l i f v : bits_repr lg s l -> 0 <= i < zlen l ->
  (forall w, wd w -> wd (f w)) ->
  (forall w j, wd w -> 0 <= j < WB -> j <> i mod WB -> Z.testbit (f w) j = Z.testbit w j) ->
  (forall w, wd w -> aget l i = Ok (Z.testbit w (i mod WB)) -> Z.testbit (f w) (i mod WB) = v) ->
  exists s', modify lg s i f = Ok s' /\ bits_repr lg s' (upd l (Z.to_nat i) v).
Proof.
  intros HR Hi Hf Hoth Hbit. apply repr_words in HR as (b & HL & HS & HW).
  assert (HU := aset_ok l i v Hi). pose proof (mod_WB i) as Hm. pose proof (split_WB i) as Es.
  apply (modify_ok s b l i f (upd l (Z.to_nat i) v)); auto.
  - eapply aset_zlen; eauto.
  - intros w Hd j Hj Hlt HG. rewrite (aget_aset _ _ _ _ _ HU). destruct (Z.eqb_spec (i / WB * WB + j) i) as [E|N].
    + assert (j = i mod WB) as -> by lia. symmetry. f_equal. apply Hbit; auto. rewrite Es at 1. apply HG; auto.
    + rewrite HG by auto. f_equal. symmetry. apply Hoth; auto. lia.
  - intros k Hk N. rewrite (aget_aset _ _ _ _ _ HU). destruct (Z.eqb_spec k i) as [->|]; [congruence|reflexivity].
Qed.
Lemma set_ok s l i : bits_repr lg s l -> 0 <= i < zlen l -> exists s', set lg s i = Ok s' /\ bits_repr lg s' (upd l (Z.to_nat i) true).
Proof.
  intros HR Hi. apply modify_bit_ok; auto.
  - intros. apply wd_lor; auto using wd_bit.
  - intros w j Hd Hj N. rewrite Z.lor_spec, bit_spec by lia. destruct (Z.eqb_spec j (i mod WB)); [lia|apply orb_false_r].
  - intros w Hd _. pose proof (mod_WB i). rewrite Z.lor_spec, bit_spec, Z.eqb_refl by lia. apply orb_true_r.
Qed.
Lemma reset_ok s l i : bits_repr lg s l -> 0 <= i < zlen l -> exists s', reset lg s i = Ok s' /\ bits_repr lg s' (upd l (Z.to_nat i) false).
Proof.
  intros HR Hi. apply modify_bit_ok; auto.
  - intros. apply wd_land; auto using wd_bit, wd_wnot.
  - intros w j Hd Hj N. rewrite Z.land_spec, wnot_bit, bit_spec by lia. destruct (Z.eqb_spec j (i mod WB)); [lia|apply andb_true_r].
  - intros w Hd _. pose proof (mod_WB i). rewrite Z.land_spec, wnot_bit, bit_spec, Z.eqb_refl by lia. apply andb_false_r.
Qed.
Lemma set_value_ok s l i v : bits_repr lg s l -> 0 <= i < zlen l -> exists s', set_value lg s i v = Ok s' /\ bits_repr lg s' (upd l (Z.to_nat i) v).
Proof.
  intros HR Hi. apply modify_bit_ok; auto.
  - intros. apply wd_lxor; auto. apply wd_land; auto using wd_bit. apply wd_lxor; auto using wd_fill.
  - intros w j Hd Hj N. rewrite Z.lxor_spec, Z.land_spec, bit_spec by lia. destruct (Z.eqb_spec j (i mod WB)); [lia|].
    rewrite andb_false_r. apply xorb_false_r.
  - intros w Hd _. pose proof (mod_WB i). rewrite Z.lxor_spec, Z.land_spec, bit_spec, Z.eqb_refl by lia.
    rewrite andb_true_r, Z.lxor_spec, fill_bit by lia. now destruct v, (Z.testbit w (i mod WB)).
Qed.
Lemma flip_ok s l i : bits_repr lg s l -> 0 <= i < zlen l -> exists s', flip lg s i = Ok s' /\ bits_repr lg s' (upd l (Z.to_nat i) (negb (nth (Z.to_nat i) l false))).
Proof.
  intros HR Hi. apply modify_bit_ok; auto.
  - intros. apply wd_lxor; auto using wd_bit.
  - intros w j Hd Hj N. rewrite Z.lxor_spec, bit_spec by lia. destruct (Z.eqb_spec j (i mod WB)); [lia|]. apply xorb_false_r.
  - intros w Hd E. pose proof (mod_WB i). rewrite Z.lxor_spec, bit_spec, Z.eqb_refl by lia.
    apply aget_nth in E as [_ E]. rewrite (nth_error_nth _ _ false E). apply xorb_true_r.
Qed.

(** Updating all words. *)
Lemma each_word_ok n (f : Z -> slots Z -> res Z) g : forall b : slots Z, Z.of_nat n <= zlen b ->
  (forall i b', 0 <= i < Z.of_nat n -> zlen b' = zlen b -> aget b' i = aget b i -> f i b' = Ok (g i)) ->
  exists b', each_word n f b = Ok b' /\ zlen b' = zlen b /\
    forall i, 0 <= i < zlen b -> aget b' i = if i <? Z.of_nat n then Ok (Some (g i)) else aget b i.
Proof.
  induction n as [|n IH]; intros b Hn Hf; cbn [each_word].
  - exists b. split; [reflexivity|]. split; [reflexivity|]. intros i Hi. destruct (Z.ltb_spec i (Z.of_nat 0)); [lia|reflexivity].
  - rewrite (Hf (Z.of_nat n) b) by (auto; lia). cbn [bind]. unfold wr.
    destruct (aset_some b (Z.of_nat n) (Some (g (Z.of_nat n)))) as [b1 Hb1]; [lia|]. rewrite Hb1. cbn [bind].
    pose proof (aset_zlen _ _ _ _ Hb1) as Z1. destruct (IH b1) as (b2 & E2 & Z2 & G2); [lia| |].
    + intros i b' Hi Hz Hg. apply Hf; [lia|lia|]. rewrite Hg, (aget_aset _ _ _ _ _ Hb1). destruct (Z.eqb_spec i (Z.of_nat n)); [lia|reflexivity].
    + exists b2. split; [exact E2|]. split; [lia|]. intros i Hi. rewrite G2 by lia. rewrite (aget_aset _ _ _ _ _ Hb1).
      destruct (Z.ltb_spec i (Z.of_nat n)), (Z.ltb_spec i (Z.of_nat (S n))), (Z.eqb_spec i (Z.of_nat n)); try lia; auto. now subst.
Qed.

Lemma memset_ok b i v n : 0 <= i -> 0 <= n -> i + n <= zlen b ->
  exists b', memset lg b i v n = Ok b' /\ zlen b' = zlen b /\
    forall k, 0 <= k < zlen b -> aget b' k = if (i <=? k) && (k <? i + n) then Ok (Some (fill lg v)) else aget b k.
Proof.
  intros Hi Hn Hz. unfold memset. destruct (Z.ltb_spec n 0); [lia|].
  assert (ZR : zlen (repeat (Some (fill lg v)) (Z.to_nat n)) = n) by (apply zlen_repeat; lia).
  destruct (ablit_some b i (repeat (Some (fill lg v)) (Z.to_nat n))) as [b' Hb']; [lia|lia|].
  exists b'. split; [exact Hb'|]. apply ablit_inv in Hb' as HI. rewrite ZR in HI.
  destruct HI as (? & ? & Hz' & HG). split; [exact Hz'|]. intros k Hk. rewrite HG.
  destruct (Z.leb_spec i k), (Z.ltb_spec k (i + n)); cbn [andb]; auto. apply aget_repeat. lia.
Qed.
End Words.
