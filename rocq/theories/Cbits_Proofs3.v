(** Proofs about bit sets: counting, comparison, strings, histories. *)
From Verif Require Import Base Slots Cbits_Model Cbits_Spec Cbits_Proofs Cbits_Proofs2.

(** ** Population count *)
Lemma popc_div2 w : 0 <= w -> popc w = Z.b2z (Z.odd w) + popc (Z.div2 w).
Proof. intros Hw. destruct w as [|p|p]; [reflexivity| |lia]. destruct p; cbn [popc popc_pos Z.odd Z.div2 Pos.div2 Z.b2z]; lia. Qed.
Lemma ones_in_app a b : ones_in (a ++ b) = ones_in a + ones_in b.
Proof. unfold ones_in. rewrite filter_app. apply zlen_app. Qed.
Lemma ones_in_cons x b : ones_in (x :: b) = Z.b2z x + ones_in b.
Proof. change (x :: b) with ([x] ++ b). rewrite ones_in_app. destruct x; reflexivity. Qed.
Definition low_bits (w : Z) (m : nat) : list bool := map (fun k => Z.testbit w (Z.of_nat k)) (seq 0 m).
Lemma low_bits_S w m : 0 <= w -> low_bits w (S m) = Z.odd w :: low_bits (Z.div2 w) m.
Proof.
  intros Hw. unfold low_bits. cbn [seq map]. f_equal. rewrite <- seq_shift, map_map. apply map_ext. intros k.
  rewrite Z.div2_spec, Z.shiftr_spec by lia. f_equal. lia.
Qed.
Lemma popc_low m : forall w, 0 <= w -> popc (Z.land w (Z.ones (Z.of_nat m))) = ones_in (low_bits w m).
Proof.
  induction m as [|m IH]; intros w Hw; [cbn [Z.of_nat]; rewrite Z.land_0_r; reflexivity|].
  rewrite low_bits_S, ones_in_cons, <- IH by (auto; now apply Z.div2_nonneg).
  assert (0 <= Z.land w (Z.ones (Z.of_nat (S m)))) by (apply Z.land_nonneg; auto).
  rewrite popc_div2 by auto. f_equal.
  - f_equal. rewrite <- !Z.bit0_odd, Z.land_spec, Z.ones_spec_low by lia. apply andb_true_r.
  - f_equal. apply Z.bits_inj'. intros j Hj. rewrite Z.div2_spec, Z.shiftr_spec, !Z.land_spec, Z.div2_spec, Z.shiftr_spec by lia. f_equal.
    destruct (Z.lt_ge_cases j (Z.of_nat m)).
    + rewrite !Z.ones_spec_low by lia. reflexivity.
    + rewrite !Z.ones_spec_high by lia. reflexivity.
Qed.

Lemma firstn_add {A} (l : list A) a b : firstn (a + b) l = firstn a l ++ firstn b (skipn a l).
Proof. revert l. induction a as [|a IH]; intros [|x l]; cbn; auto; [now rewrite firstn_nil|]. now rewrite IH. Qed.
Lemma slice_full {A} (l : list A) : slice l 0 (zlen l) = l.
Proof. unfold slice. cbn [Z.to_nat skipn]. apply firstn_all2. unfold zlen. lia. Qed.
Lemma zlen_slice {A} (l : list A) a b : 0 <= a <= b -> b <= zlen l -> zlen (slice l a b) = b - a.
Proof. intros Ha Hb. unfold slice. rewrite zlen_firstn, zlen_skipn by lia. lia. Qed.
Lemma aget_slice {A} (l : list A) a b i : 0 <= a <= b -> 0 <= i < b - a -> aget (slice l a b) i = aget l (a + i).
Proof. intros Ha Hi. unfold slice. rewrite aget_firstn, aget_skipn by lia. reflexivity. Qed.
Lemma slice_cons {A} (l : list A) a b x : 0 <= a < b -> aget l a = Ok x -> slice l a b = x :: slice l (a + 1) b.
Proof.
  intros Ha Hx. unfold slice. apply aget_nth in Hx as [_ Hx].
  replace (Z.to_nat (b - a)) with (S (Z.to_nat (b - (a + 1)))) by lia.
  replace (Z.to_nat (a + 1)) with (S (Z.to_nat a)) by lia.
  assert (E : skipn (Z.to_nat a) l = x :: skipn (S (Z.to_nat a)) l).
  { clear - Hx. revert l Hx. induction (Z.to_nat a) as [|k IH]; intros [|y l] H; try discriminate; cbn in *; [congruence|now apply IH]. }
  rewrite E. reflexivity.
Qed.

Section Count.
Variable lg : Z.
Hypothesis Hlg : 0 <= lg.
Notation WB := (WB lg).
Notation wrep := (wrep lg).
Notation wd := (wd lg).

Lemma chunk b l k w m : wrep b l -> aget b k = Ok (Some w) -> 0 <= m <= WB -> k * WB + m <= zlen l ->
  slice l (k * WB) (k * WB + m) = low_bits w (Z.to_nat m).
Proof.
  intros (HZ & HG) Hw Hm Hlt. pose proof (WB_pos lg Hlg). pose proof (aget_ok_range _ _ _ Hw) as Hk.
  destruct (HG k Hk) as (w' & Hw' & Hd & Hb). rewrite Hw in Hw'. injection Hw' as <-.
  assert (ZL : zlen (low_bits w (Z.to_nat m)) = m) by (unfold low_bits, zlen; rewrite map_length, seq_length; lia).
  apply aget_ext; [rewrite zlen_slice by nia; lia|]. intros i Hi. rewrite zlen_slice in Hi by nia.
  rewrite aget_slice by nia. rewrite Hb by lia. unfold low_bits. rewrite aget_map.
  assert (E : aget (seq 0 (Z.to_nat m)) i = Ok (Z.to_nat i)).
  { apply aget_nth. split; [lia|]. rewrite (nth_error_nth' _ O) by (rewrite seq_length; lia). rewrite seq_nth by lia. reflexivity. }
  rewrite E. now rewrite Z2Nat.id by lia.
Qed.
Lemma count_loop_ok b l n : forall i acc, wrep b l -> 0 <= i -> (i + Z.of_nat n) * WB <= zlen l ->
  acc = ones_in (firstn (Z.to_nat (i * WB)) l) ->
  count_loop popc n i b acc = Ok (ones_in (firstn (Z.to_nat ((i + Z.of_nat n) * WB)) l)).
Proof.
  pose proof (WB_pos lg Hlg). induction n as [|n IH]; intros i acc HW Hi Hle Ha; cbn [count_loop].
  - subst. now rewrite Z.add_0_r.
  - destruct HW as (HZ & HG). destruct (HG i) as (w & Hw & Hd & Hb). { rewrite HZ. split; [lia|]. apply words_bound; [lia|apply zlen_nonneg|nia]. }
    unfold rd. rewrite Hw. cbn [bind]. rewrite IH; [do 3 f_equal; lia|split; auto|lia|nia|].
    subst acc. replace (Z.to_nat ((i + 1) * WB)) with (Z.to_nat (i * WB) + Z.to_nat WB)%nat by nia.
    rewrite firstn_add, ones_in_app. f_equal.
    pose proof (chunk b l i w WB (conj HZ HG) Hw ltac:(lia) ltac:(nia)) as C. unfold slice in C.
    replace (i * WB + WB - i * WB) with WB in C by lia. rewrite C.
    rewrite <- popc_low by apply Hd. f_equal. rewrite Z2Nat.id by lia. symmetry. rewrite Z.land_ones by lia. apply Z.mod_small, Hd.
Qed.
Lemma count_ok s l : bits_repr lg s l -> count lg popc s = Ok (ones_in l).
Proof.
  intros HR. apply repr_words in HR as (b & HL & HS & HW); auto. pose proof (zlen_nonneg l). pose proof (WB_pos lg Hlg).
  unfold count. fold WB. rewrite HL. cbn [bind]. rewrite HS, quot_WB, land_mod by (auto; lia).
  pose proof (Z.div_mod (zlen l) WB ltac:(lia)) as DM. pose proof (mod_WB lg Hlg (zlen l)) as MB.
  assert (0 <= zlen l / WB) by (apply Z.div_pos; lia).
  rewrite (count_loop_ok b l) by (auto; nia). cbn [bind]. rewrite Z2Nat.id by lia. rewrite Z.add_0_l.
  destruct (Z.eqb_spec (zlen l mod WB) 0) as [M0|M0]; cbn [negb].
  - rewrite firstn_all2; [reflexivity|]. unfold zlen in *. nia.
  - destruct HW as (HZ & HG). destruct (HG (zlen l / WB)) as (w & Hw & Hd & Hb). { rewrite HZ. split; [lia|]. apply words_bound; lia. }
    unfold rd. rewrite Hw. cbn [bind]. f_equal. rewrite lowmask by auto.
    pose proof (chunk b l (zlen l / WB) w (zlen l mod WB) (conj HZ HG) Hw ltac:(lia) ltac:(lia)) as C.
    replace (zlen l mod WB) with (Z.of_nat (Z.to_nat (zlen l mod WB))) at 1 by lia. rewrite popc_low by apply Hd. rewrite <- C, <- ones_in_app.
    f_equal. unfold slice. replace (zlen l / WB * WB + zlen l mod WB - zlen l / WB * WB) with (zlen l mod WB) by lia.
    rewrite <- firstn_add. apply firstn_all2. unfold zlen in *. nia.
Qed.

(** ** subset_of, disjoint *)
Lemma opr_loop_ok bad b ob n : forall i, 0 <= i ->
  (forall k, i <= k < i + Z.of_nat n -> (exists w, aget b k = Ok (Some w)) /\ exists x, aget ob k = Ok (Some x)) ->
  exists r, opr_loop bad n i b ob = Ok r /\
    (r = true <-> forall k w x, i <= k < i + Z.of_nat n -> aget b k = Ok (Some w) -> aget ob k = Ok (Some x) -> bad w x = false).
Proof.
  induction n as [|n IH]; intros i Hi HG; cbn [opr_loop].
  - exists true. split; [reflexivity|]. split; [intros _; lia|auto].
  - destruct (HG i) as ([w Hw] & [x Hx]); [lia|]. unfold rd. rewrite Hw, Hx. cbn [bind].
    destruct (bad w x) eqn:EB.
    + exists false. split; [reflexivity|]. split; [discriminate|]. intros H. rewrite <- EB. symmetry. apply (H i); auto. lia.
    + destruct (IH (i + 1)) as (r & E & I); [lia|intros; apply HG; lia|]. exists r. split; [exact E|]. rewrite I. split.
      * intros H k w' x' Hk Hw' Hx'. destruct (Z.eq_dec k i) as [->|]; [congruence|]. apply (H k); auto. lia.
      * intros H k w' x' Hk. apply H. lia.
Qed.
(** [P]: a relation of two bits; [op w x = val w] says that it holds for all bits. *)
Lemma opr_ok op val (P : bool -> bool -> bool) s o l m : bits_repr lg s l -> bits_repr lg o m -> zlen l = zlen m ->
  (forall w x j, Bool.eqb (Z.testbit (op w x) j) (Z.testbit (val w) j) = P (Z.testbit w j) (Z.testbit x j)) ->
  (forall w x, wd w -> wd x -> wd (op w x)) -> (forall w, wd w -> wd (val w)) ->
  opr lg op val s o = Ok (forallb (fun b => b) (zip P l m)).
Proof.
  intros HR HO Hlen HP Hop Hval. pose proof (repr_size _ _ _ HR) as S1. pose proof (repr_size _ _ _ HO) as S2.
  apply repr_words in HR as (b & HL & HS & HZ & HG); auto. apply repr_words in HO as (ob & HL' & HS' & HZ' & HG'); auto.
  pose proof (zlen_nonneg l) as Hl. pose proof (WB_pos lg Hlg) as HWB.
  assert (EZ : zlen ob = zlen b) by (rewrite HZ, HZ'; now rewrite Hlen).
  unfold opr. fold WB. rewrite HL, HL'. cbn [bind]. rewrite S1, S2, <- Hlen, Z.eqb_refl. cbn [negb]. rewrite quot_WB, land_mod by (auto; lia).
  pose proof (Z.div_mod (zlen l) WB ltac:(lia)) as DM. pose proof (mod_WB lg Hlg (zlen l)) as MB.
  assert (D0 : 0 <= zlen l / WB) by (apply Z.div_pos; lia).
  assert (ALL : forallb (fun b => b) (zip P l m) = true <-> forall i x y, 0 <= i < zlen l -> aget l i = Ok x -> aget m i = Ok y -> P x y = true).
  { rewrite forallb_forall. split.
    - intros H i x y Hi Hx Hy. apply H. apply aget_In with i. now apply aget_zip.
    - intros H v Hv. apply In_aget in Hv as (i & Hi & Hv). rewrite zlen_zip in Hi by auto.
      destruct (aget_some l i) as [x Hx]; [lia|]. destruct (aget_some m i) as [y Hy]; [lia|].
      rewrite (aget_zip P l m i x y Hx Hy) in Hv. injection Hv as <-. eauto. }
  (* one full word *)
  assert (FULL : forall k w x, (k + 1) * WB <= zlen l -> aget b k = Ok (Some w) -> aget ob k = Ok (Some x) ->
    (op w x = val w <-> forall i p q, k * WB <= i < (k + 1) * WB -> aget l i = Ok p -> aget m i = Ok q -> P p q = true)).
  { intros k w x Hk Hw Hx. pose proof (aget_ok_range _ _ _ Hw) as Rk.
    destruct (HG k Rk) as (w' & Hw' & Hd & Hb). rewrite Hw in Hw'. injection Hw' as <-.
    destruct (HG' k ltac:(lia)) as (x' & Hx' & Hdx & Hbx). rewrite Hx in Hx'. injection Hx' as <-. split.
    - intros E i p q Hi Hp Hq. specialize (Hb (i - k * WB) ltac:(lia) ltac:(lia)). specialize (Hbx (i - k * WB) ltac:(lia) ltac:(lia)).
      replace (k * WB + (i - k * WB)) with i in * by lia. rewrite Hp in Hb. rewrite Hq in Hbx. injection Hb as ->. injection Hbx as ->.
      rewrite <- HP, E. apply Bool.eqb_reflx.
    - intros H. apply Z.bits_inj'. intros j Hj. destruct (Z.lt_ge_cases j WB).
      + apply Bool.eqb_prop. rewrite HP. apply (H (k * WB + j)); [lia|apply Hb; lia|apply Hbx; lia].
      + rewrite !(wd_high lg Hlg) by auto. reflexivity. }
  set (bad := fun w x => negb (op w x =? val w)).
  destruct (opr_loop_ok bad b ob (Z.to_nat (zlen l / WB)) 0) as (r & Er & Ir); [lia| |].
  { intros k Hk. assert (k < zlen b) by (rewrite HZ; apply words_bound; [lia|lia|nia]).
    destruct (HG k ltac:(lia)) as (w & Hw & _). destruct (HG' k ltac:(lia)) as (x & Hx & _). eauto. }
  rewrite Er. cbn [bind]. rewrite Z2Nat.id, Z.add_0_l in Ir by lia.
  assert (Ir' : r = true <-> forall i p q, 0 <= i < zlen l / WB * WB -> aget l i = Ok p -> aget m i = Ok q -> P p q = true).
  { rewrite Ir. split.
    - intros H i p q Hi Hp Hq. set (k := i / WB). pose proof (split_WB lg Hlg i). pose proof (mod_WB lg Hlg i). fold k in H0.
      assert (0 <= k < zlen l / WB) by (unfold k; split; [apply Z.div_pos; lia|apply Z.div_lt_upper_bound; lia]).
      assert (k < zlen b) by (rewrite HZ; apply words_bound; [lia|lia|nia]).
      destruct (HG k ltac:(lia)) as (w & Hw & _). destruct (HG' k ltac:(lia)) as (x & Hx & _).
      specialize (H k w x ltac:(lia) Hw Hx). unfold bad in H. apply negb_false_iff, Z.eqb_eq in H.
      apply (FULL k w x ltac:(nia) Hw Hx) with i; auto. lia.
    - intros H k w x Hk Hw Hx. unfold bad. apply negb_false_iff, Z.eqb_eq. apply (FULL k w x ltac:(nia) Hw Hx). intros i p q Hi. apply H. nia. }
  assert (FIN : forall c : bool, (c = true <-> forall i x y, 0 <= i < zlen l -> aget l i = Ok x -> aget m i = Ok y -> P x y = true) -> c = forallb (fun b => b) (zip P l m)).
  { intros c Hc. apply Bool.eq_true_iff_eq. rewrite Hc, ALL. reflexivity. }
  destruct r; cbn [negb].
  2:{ f_equal. apply FIN. split; [discriminate|]. intros H. apply Ir'. intros i p q Hi. apply H. nia. }
  pose proof (proj1 Ir' eq_refl) as H1.
  destruct (Z.eqb_spec (zlen l mod WB) 0) as [M0|M0].
  - f_equal. apply FIN. split; [|auto]. intros _ i x y Hi. apply H1. nia.
  - assert (LK : zlen l / WB < zlen b) by (rewrite HZ; apply words_bound; lia).
    destruct (HG (zlen l / WB) ltac:(lia)) as (w & Hw & Hd & Hb). destruct (HG' (zlen l / WB) ltac:(lia)) as (x & Hx & Hdx & Hbx).
    unfold rd. rewrite Hw, Hx. cbn [bind]. f_equal. apply FIN. rewrite Z.eqb_eq, lowmask by auto. split.
    + intros E i p q Hi Hp Hq. destruct (Z.lt_ge_cases i (zlen l / WB * WB)); [eapply H1; eauto; lia|].
      specialize (Hb (i - zlen l / WB * WB) ltac:(lia) ltac:(lia)). specialize (Hbx (i - zlen l / WB * WB) ltac:(lia) ltac:(lia)).
      replace (zlen l / WB * WB + (i - zlen l / WB * WB)) with i in * by lia. rewrite Hp in Hb. rewrite Hq in Hbx. injection Hb as ->. injection Hbx as ->.
      rewrite <- HP. apply (f_equal (fun z => Z.testbit z (i - zlen l / WB * WB))) in E. rewrite !Z.land_spec, !Z.ones_spec_low, !andb_true_r in E by lia.
      rewrite E. apply Bool.eqb_reflx.
    + intros H. apply Z.bits_inj'. intros j Hj. rewrite !Z.land_spec. destruct (Z.lt_ge_cases j (zlen l mod WB)).
      * f_equal. apply Bool.eqb_prop. rewrite HP. apply (H (zlen l / WB * WB + j)); [nia|apply Hb; lia|apply Hbx; lia].
      * rewrite Z.ones_spec_high, !andb_false_r by lia. reflexivity.
Qed.
Lemma subset_ok s o l m : bits_repr lg s l -> bits_repr lg o m -> zlen l = zlen m -> subset_of lg s o = Ok (sub_set m l).
Proof.
  intros HR HO Hlen. unfold subset_of. rewrite (opr_ok _ _ (fun x y => implb y x) s o l m); auto.
  - f_equal. unfold sub_set. clear - Hlen. revert m Hlen. induction l as [|x l IH]; intros [|y m] H; cbn; auto. f_equal. apply IH. rewrite !zlen_cons in H. lia.
  - intros w x j. rewrite Z.lor_spec. now destruct (Z.testbit w j), (Z.testbit x j).
  - intros. now apply wd_lor.
Qed.
Lemma disjoint_ok s o l m : bits_repr lg s l -> bits_repr lg o m -> zlen l = zlen m -> disjoint lg s o = Ok (disj l m).
Proof.
  intros HR HO Hlen. unfold disjoint. rewrite (opr_ok _ _ (fun x y => negb (x && y)) s o l m); auto.
  - f_equal. unfold disj. clear. revert m. induction l as [|x l IH]; intros [|y m]; cbn; auto. f_equal. apply IH.
  - intros w x j. rewrite Z.land_spec, Z.bits_0. now destruct (Z.testbit w j), (Z.testbit x j).
  - intros. now apply wd_land.
  - intros. now apply wd_0.
Qed.

(** ** to_str, print *)
Lemma to_str_loop_ok s l start n : forall out i, bits_repr lg s l -> 0 <= start <= i -> i + Z.of_nat n <= zlen l -> i - start + Z.of_nat n <= zlen out ->
  exists out', to_str_loop lg n s out start i = Ok out' /\ zlen out' = zlen out /\
    forall k, aget out' k = if (i - start <=? k) && (k <? i - start + Z.of_nat n) && (match aget l (start + k) with Ok b => b | _ => false end) then Ok 49 else aget out k.
Proof.
  induction n as [|n IH]; intros out i HR Hi Hl Ho; cbn [to_str_loop].
  - exists out. split; [reflexivity|]. split; [reflexivity|]. intros k.
    destruct (Z.leb_spec (i - start) k), (Z.ltb_spec k (i - start + Z.of_nat 0)); cbn [andb]; auto; lia.
  - pose proof HR as HR'. apply repr_words in HR' as (b & HL & HS & HW); auto.
    destruct (test_ok lg Hlg s b l i HL HW ltac:(lia)) as (v & Ev & Hv). rewrite Ev. cbn [bind].
    destruct v.
    + destruct (aset_some out (i - start) 49) as [o1 Ho1]; [lia|]. rewrite Ho1. cbn [bind]. pose proof (aset_zlen _ _ _ _ Ho1).
      destruct (IH o1 (i + 1) HR) as (o2 & E2 & Z2 & G2); [lia..|]. exists o2. split; [exact E2|]. split; [lia|].
      intros k. rewrite G2, (aget_aset _ _ _ _ _ Ho1).
      destruct (Z.leb_spec (i + 1 - start) k), (Z.ltb_spec k (i + 1 - start + Z.of_nat n)), (Z.leb_spec (i - start) k), (Z.ltb_spec k (i - start + Z.of_nat (S n))),
        (Z.eqb_spec k (i - start)); cbn [andb]; try lia; auto.
      subst k. replace (start + (i - start)) with i by lia. now rewrite Hv.
    + cbn [bind]. destruct (IH out (i + 1) HR) as (o2 & E2 & Z2 & G2); [lia..|]. exists o2. split; [exact E2|]. split; [lia|].
      intros k. rewrite G2.
      destruct (Z.leb_spec (i + 1 - start) k), (Z.ltb_spec k (i + 1 - start + Z.of_nat n)), (Z.leb_spec (i - start) k), (Z.ltb_spec k (i - start + Z.of_nat (S n))); cbn [andb]; try lia; auto.
      assert (k = i - start) as -> by lia. replace (start + (i - start)) with i by lia. now rewrite Hv.
Qed.
(** [out] needs room for the characters and the terminating NUL. *)
Lemma to_str_ok s l out a b : bits_repr lg s l -> 0 <= a <= Z.min b (zlen l) -> Z.min b (zlen l) - a + 1 <= zlen out ->
  to_str lg s out a b = Ok (map char_of (slice l a (Z.min b (zlen l))) ++ [0] ++ skipn (Z.to_nat (Z.min b (zlen l) - a + 1)) out).
Proof.
  intros HR Ha Ho. unfold to_str. rewrite (repr_size _ _ _ HR).
  assert (E : (if b >? zlen l then zlen l else b) = Z.min b (zlen l)) by (destruct (Z.gtb_spec b (zlen l)); lia). rewrite E. clear E.
  set (e := Z.min b (zlen l)) in *. assert (He : e <= zlen l) by (unfold e; lia). clearbody e.
  destruct (Z.leb_spec a e); [|lia]. cbn [negb].
  assert (ZR : zlen (repeat 48 (Z.to_nat (e - a))) = e - a) by (apply zlen_repeat; lia).
  destruct (ablit_some out 0 (repeat 48 (Z.to_nat (e - a)))) as [o1 E1]; [lia|lia|]. rewrite E1. cbn [bind]. apply ablit_inv in E1 as (_ & _ & Z1 & G1).
  destruct (to_str_loop_ok s l a (Z.to_nat (e - a)) o1 a HR) as (o2 & E2 & Z2 & G2); [lia..|]. rewrite E2. cbn [bind].
  destruct (aset_some o2 (e - a) 0) as [o3 E3]; [lia|]. rewrite E3. f_equal. pose proof (aset_zlen _ _ _ _ E3) as Z3.
  assert (ZS : zlen (map char_of (slice l a e)) = e - a) by (rewrite zlen_map; apply zlen_slice; lia).
  apply aget_ext.
  { rewrite zlen_app, ZS. cbn [app]. rewrite zlen_cons, zlen_skipn by lia. lia. }
  intros k Hk. rewrite (aget_aset _ _ _ _ _ E3), G2, G1, ZR. rewrite Z.sub_diag, Z.sub_0_r, !Z.add_0_l.
  replace (Z.of_nat (Z.to_nat (e - a))) with (e - a) by lia.
  destruct (Z.eqb_spec k (e - a)) as [->|Nk].
  { rewrite aget_app2 by lia. rewrite ZS, Z.sub_diag. reflexivity. }
  destruct (Z.leb_spec 0 k); [|lia]. destruct (Z.ltb_spec k (e - a)); cbn [andb].
  - rewrite aget_app1 by lia. rewrite aget_map, aget_slice by lia. destruct (aget_some l (a + k)) as [v Hv]; [lia|]. rewrite Hv.
    rewrite aget_repeat by lia. now destruct v.
  - rewrite aget_app2 by lia. rewrite ZS. cbn [app]. rewrite aget_cons. destruct (Z.eqb_spec (k - (e - a)) 0); [lia|].
    rewrite aget_skipn by lia. f_equal. lia.
Qed.
Lemma print_loop_ok s l n : forall i, bits_repr lg s l -> 0 <= i -> i + Z.of_nat n <= zlen l ->
  print_loop lg n s i = Ok (map char_of (slice l i (i + Z.of_nat n))).
Proof.
  induction n as [|n IH]; intros i HR Hi Hl; cbn [print_loop].
  - rewrite Z.add_0_r. unfold slice. rewrite Z.sub_diag. reflexivity.
  - pose proof HR as HR'. apply repr_words in HR' as (b & HL & HS & HW); auto.
    destruct (test_ok lg Hlg s b l i HL HW ltac:(lia)) as (v & Ev & Hv). rewrite Ev. cbn [bind]. rewrite IH by (auto; lia). cbn [bind].
    rewrite (slice_cons l i _ v) by (auto; lia). cbn [map]. replace (i + 1 + Z.of_nat n) with (i + Z.of_nat (S n)) by lia. reflexivity.
Qed.
Lemma print_ok s l a b : bits_repr lg s l -> 0 <= a -> (if b =? -1 then zlen l else b) <= zlen l ->
  print lg s a b = Ok (map char_of (slice l a (if b =? -1 then zlen l else b))).
Proof.
  intros HR Ha Hb. unfold print. rewrite (repr_size _ _ _ HR). set (e := if b =? -1 then zlen l else b) in *. clearbody e.
  destruct (Z.le_gt_cases a e).
  - rewrite (print_loop_ok s l) by (auto; lia). do 3 f_equal. lia.
  - replace (Z.to_nat (e - a)) with O by lia. unfold slice. replace (Z.to_nat (e - a)) with O by lia. reflexivity.
Qed.
End Count.

(** ** Histories *)
Section Hist.
Variables (lg : Z) (rz : bool).
Hypothesis Hlg : 0 <= lg.
Definition state_repr (st : list cbits) (S : list (list bool)) : Prop := Forall2 (bits_repr lg) st S.
Lemma state_get st S r l : state_repr st S -> aget S r = Ok l -> exists s, aget st r = Ok s /\ bits_repr lg s l.
Proof.
  intros H. revert r. induction H as [|s l0 st S Hs _ IH]; intros r E.
  - apply aget_ok_range in E. unfold zlen in E. cbn [length] in E. lia.
  - rewrite aget_cons in E. rewrite aget_cons. destruct (r =? 0); [injection E as <-; eauto|]. apply IH, E.
Qed.
Lemma state_zlen st S : state_repr st S -> zlen st = zlen S.
Proof. intros H. unfold zlen. f_equal. induction H; cbn [length]; congruence. Qed.
Lemma state_put st S r s l : state_repr st S -> 0 <= r < zlen S -> bits_repr lg s l -> exists st', aset st r s = Ok st' /\ state_repr st' (sput S r l).
Proof.
  intros H Hr Hs. rewrite aset_ok by (rewrite (state_zlen _ _ H); lia). eexists. split; [reflexivity|]. unfold sput.
  clear Hr. revert r. induction H as [|s0 l0 st S H0 H IH]; intros r; cbn [upd]; [destruct (Z.to_nat r); constructor|].
  destruct (Z.to_nat r) as [|k] eqn:E; cbn [upd]; [constructor; auto|]. constructor; auto.
  specialize (IH (Z.of_nat k)). rewrite Nat2Z.id in IH. exact IH.
Qed.
Lemma bits_inj s l m : bits_repr lg s l -> bits_repr lg s m -> l = m.
Proof.
  intros HR HO. pose proof (repr_size _ _ _ HR). pose proof (repr_size _ _ _ HO).
  apply repr_words in HR as (b & HL & HS & HW); auto. apply repr_words in HO as (b' & HL' & HS' & HW'); auto.
  rewrite HL in HL'. injection HL' as <-. apply aget_ext; [lia|]. intros i Hi.
  destruct (wrep_rd lg Hlg b l i HW ltac:(lia)) as (w & Hw & _ & _ & E). destruct (wrep_rd lg Hlg b m i HW' ltac:(lia)) as (w' & Hw' & _ & _ & E').
  rewrite Hw in Hw'. injection Hw' as <-. congruence.
Qed.
Lemma null_inj s l : bits_repr lg s l -> buf s = Null -> l = [].
Proof.
  intros HR E. apply repr_words in HR as (b & HL & HS & HZ & _); auto. rewrite E in HL. injection HL as <-. change (zlen []) with 0 in HZ.
  destruct l as [|x l]; [reflexivity|]. exfalso. pose proof (zlen_nonneg l). change (zlen (@nil (option Z))) with 0 in HZ. rewrite zlen_cons in HZ.
  assert (0 < words lg (1 + zlen l)) by (apply words_bound; lia). lia.
Qed.
Lemma same_buf_eq r q s o l m : bits_repr lg s l -> bits_repr lg o m -> (r = q -> s = o) -> same_buf r q s o = true -> l = m.
Proof.
  intros HR HO E H. unfold same_buf in H. apply orb_true_iff in H as [H|H].
  - apply Z.eqb_eq in H. rewrite <- (E H) in HO. eapply bits_inj; eauto.
  - destruct (buf s) eqn:E1; try discriminate. destruct (buf o) eqn:E2; try discriminate.
    rewrite (null_inj s l), (null_inj o m); auto.
Qed.

Ltac dget := match goal with HSt : state_repr ?st ?S, H : context[match aget ?S ?r with _ => _ end] |- _ =>
  let E := fresh "G" in destruct (aget S r) as [?l|] eqn:E; [|discriminate];
  let s := fresh "s" in let E' := fresh "E" in let R := fresh "R" in
  destruct (state_get _ _ _ _ HSt E) as (s & E' & R); pose proof (aget_ok_range _ _ _ E) end.
Lemma step_ok st S o S' x : state_repr st S -> sstep lg rz S o = Some (S', x) -> exists st', step lg rz st o = Ok (st', x) /\ state_repr st' S'.
Proof.
  intros HSt H. assert (PUT : forall r (c : res cbits) l, (exists s', c = Ok s' /\ bits_repr lg s' l) -> 0 <= r < zlen S ->
    exists st', (let* c0 := c in let* st' := aset st r c0 in Ok (st', RUnit)) = Ok (st', RUnit) /\ state_repr st' (sput S r l)).
  { intros r c l (s' & -> & R) Hr. cbn [bind]. destruct (state_put st S r s' l HSt Hr R) as (st' & -> & R'). cbn [bind]. eauto. }
  assert (TAKE : forall s l (c : res cbits) m, bits_repr lg s l -> (exists s', c = Ok s' /\ bits_repr lg s' m) ->
     exists s', (let* c := c in take false s c) = Ok s' /\ bits_repr lg s' m).
  { intros s l c m R (s' & -> & R'). cbn [bind]. eapply take_ok; eauto. discriminate. }
  destruct o; cbn [sstep step] in *; unfold guard, sget in H.
  - (* new *) destruct (Z.leb_spec 0 n); [|discriminate]. dget. injection H as <- <-. rewrite E. cbn [bind].
    apply PUT; auto. eapply TAKE; eauto. now apply with_size_ok.
  - destruct ((0 <=? n) && (0 <=? p) && (p <? 2 ^ 2 ^ lg)) eqn:B; [|discriminate]. apply andb_true_iff in B as [B B3]. apply andb_true_iff in B as [B1 B2].
    dget. injection H as <- <-. rewrite E. cbn [bind]. apply PUT; auto. eapply TAKE; eauto. apply with_pattern_ok; auto; [lia|]. split; unfold WB; lia.
  - dget. injection H as <- <-. rewrite E. cbn [bind]. apply PUT; auto. eapply TAKE; eauto. now apply from_ok.
  - dget. dget. injection H as <- <-. rewrite E0, E. cbn [bind]. apply PUT; auto. eapply TAKE; eauto. now apply clone_ok.
  - dget. dget. injection H as <- <-. rewrite E0, E. cbn [bind]. apply PUT; auto. apply (copy_ok lg Hlg _ _ _ l0 l); auto.
    eapply same_buf_eq; eauto. intros ->. congruence.
  - (* move *) dget. dget. injection H as <- <-. rewrite E. cbn [bind move fst snd].
    destruct (state_put st S q null_bits [] HSt ltac:(auto) (null_repr lg Hlg)) as (st1 & E1 & R1). rewrite E1. cbn [bind].
    assert (HZ : zlen (sput S q []) = zlen S) by (unfold sput, zlen; now rewrite length_upd).
    destruct (aget_some (sput S q []) r) as [l1 G1]; [lia|]. destruct (state_get _ _ _ _ R1 G1) as (s1 & E1' & R1'). rewrite E1'. cbn [bind].
    destruct (take_ok lg Hlg (same_buf 0 1 s1 s) s1 s l1 l R1' R) as (c & Ec & Rc).
    { eapply same_buf_eq; eauto. discriminate. }
    rewrite Ec. cbn [bind]. destruct (state_put st1 _ r c l R1 ltac:(lia) Rc) as (st2 & E2 & R2). rewrite E2. cbn [bind]. eauto.
  - (* resize *) destruct ((0 <? n) || negb rz && (0 <=? n)) eqn:B; [|discriminate].
    assert (Hn : 0 <= n /\ (rz = true -> 0 < n)).
    { apply orb_true_iff in B as [B|B]; [lia|]. apply andb_true_iff in B as [B1 B2]. destruct rz; [discriminate|]. split; [lia|discriminate]. }
    destruct (aget S r) as [l|] eqn:G; [|discriminate]. injection H as <- <-.
    destruct (state_get _ _ _ _ HSt G) as (s & E & R). rewrite E. cbn [bind].
    destruct (resize_ok lg Hlg rz s l n v R) as (s' & E' & R'); [lia|apply Hn|]. rewrite E'. cbn [bind fst snd].
    destruct (state_put st S r s' _ HSt (aget_ok_range _ _ _ G) R') as (st' & E2 & R2). rewrite E2. cbn [bind]. eauto.
  - dget. injection H as <- <-. rewrite E. cbn [bind]. apply PUT; auto. now apply set_all_ok.
  - destruct ((0 <=? p) && (p <? 2 ^ 2 ^ lg)) eqn:B; [|discriminate]. apply andb_true_iff in B as [B1 B2]. dget. injection H as <- <-. rewrite E. cbn [bind].
    apply PUT; auto. apply set_pattern_ok; auto. split; unfold WB; lia.
  - dget. destruct ((0 <=? i) && (i <? zlen l)) eqn:B; [|discriminate]. apply andb_true_iff in B as [B1 B2]. injection H as <- <-. rewrite E. cbn [bind]. apply PUT; auto. apply set_ok; auto; lia.
  - dget. destruct ((0 <=? i) && (i <? zlen l)) eqn:B; [|discriminate]. apply andb_true_iff in B as [B1 B2]. injection H as <- <-. rewrite E. cbn [bind]. apply PUT; auto. apply reset_ok; auto; lia.
  - dget. destruct ((0 <=? i) && (i <? zlen l)) eqn:B; [|discriminate]. apply andb_true_iff in B as [B1 B2]. injection H as <- <-. rewrite E. cbn [bind]. apply PUT; auto. apply set_value_ok; auto; lia.
  - dget. destruct ((0 <=? i) && (i <? zlen l)) eqn:B; [|discriminate]. apply andb_true_iff in B as [B1 B2]. injection H as <- <-. rewrite E. cbn [bind]. apply PUT; auto. apply flip_ok; auto; lia.
  - dget. injection H as <- <-. rewrite E. cbn [bind]. apply PUT; auto. now apply flip_all_ok.
  - dget. dget. destruct (Z.eqb_spec (zlen l0) (zlen l)); [|discriminate]. injection H as <- <-. rewrite E0, E. cbn [bind]. apply PUT; auto.
    apply combine_ok; auto; [intros B; apply Z.eqb_eq in B; subst; congruence|intros; now apply wd_land|intros; apply Z.land_spec].
  - dget. dget. destruct (Z.eqb_spec (zlen l0) (zlen l)); [|discriminate]. injection H as <- <-. rewrite E0, E. cbn [bind]. apply PUT; auto.
    apply combine_ok; auto; [intros B; apply Z.eqb_eq in B; subst; congruence|intros; now apply wd_lor|intros; apply Z.lor_spec].
  - dget. dget. destruct (Z.eqb_spec (zlen l0) (zlen l)); [|discriminate]. injection H as <- <-. rewrite E0, E. cbn [bind]. apply PUT; auto.
    apply combine_ok; auto; [intros B; apply Z.eqb_eq in B; subst; congruence|intros; now apply wd_lxor|intros; apply Z.lxor_spec].
  - dget. injection H as <- <-. rewrite E. cbn [bind]. rewrite (repr_size _ _ _ R). eauto.
  - dget. destruct ((0 <=? i) && (i <? zlen l)) eqn:B; [|discriminate]. apply andb_true_iff in B as [B1 B2]. injection H as <- <-. rewrite E. cbn [bind].
    pose proof R as R'. apply repr_words in R' as (b & HL & HS & HW); auto. destruct (test_ok lg Hlg s b l i HL HW ltac:(lia)) as (v & Ev & Hv). rewrite Ev. cbn [bind].
    apply aget_nth in Hv as [_ Hv]. rewrite (nth_error_nth _ _ false Hv). eauto.
  - dget. destruct ((0 <=? i) && (i <? zlen l)) eqn:B; [|discriminate]. pose proof B as B'. apply andb_true_iff in B as [B1 B2]. injection H as <- <-. rewrite E. cbn [bind].
    pose proof R as R'. apply repr_words in R' as (b & HL & HS & HW); auto. unfold at_. rewrite HS, B'. destruct (test_ok lg Hlg s b l i HL HW ltac:(lia)) as (v & Ev & Hv). rewrite Ev. cbn [bind].
    apply aget_nth in Hv as [_ Hv]. rewrite (nth_error_nth _ _ false Hv). eauto.
  - dget. injection H as <- <-. rewrite E. cbn [bind]. rewrite (count_ok lg Hlg s l R). cbn [bind]. eauto.
  - dget. destruct ((0 <=? start) && (start <=? Z.min stop (zlen l))) eqn:B; [|discriminate]. apply andb_true_iff in B as [B1 B2]. injection H as <- <-. rewrite E. cbn [bind].
    assert (ZR : forall k, 0 <= k -> zlen (repeat 0 (Z.to_nat k)) = k) by (intros; now apply zlen_repeat).
    rewrite (repr_size _ _ _ R). rewrite (to_str_ok lg Hlg s l) by (auto; rewrite ?ZR; lia). cbn [bind].
    rewrite skipn_all2 by (rewrite repeat_length; lia). rewrite app_nil_r. eauto.
  - dget. match type of H with match (if ?c then _ else _) with _ => _ end = _ => destruct c eqn:B; [|discriminate] end. apply andb_true_iff in B as [B1 B2].
    injection H as <- <-. rewrite E. cbn [bind]. rewrite (print_ok lg Hlg s l) by (auto; lia). cbn [bind]. eauto.
  - dget. dget. destruct (Z.eqb_spec (zlen l0) (zlen l)); [|discriminate]. injection H as <- <-. rewrite E0, E. cbn [bind].
    rewrite (disjoint_ok lg Hlg s0 s l0 l) by auto. cbn [bind]. eauto.
Qed.
Lemma run_ok h : forall st S S' xs, state_repr st S -> srun lg rz S h = Some (S', xs) -> exists st', run lg rz st h = Ok (st', xs) /\ state_repr st' S'.
Proof.
  induction h as [|o h IH]; intros st S S' xs HSt H; cbn [srun run] in *.
  - injection H as <- <-. eauto.
  - destruct (sstep lg rz S o) as [[S1 x]|] eqn:E1; [|discriminate]. destruct (srun lg rz S1 h) as [[S2 ys]|] eqn:E2; [|discriminate]. injection H as <- <-.
    destruct (step_ok st S o S1 x HSt E1) as (st1 & F1 & R1). rewrite F1. cbn [bind fst snd].
    destruct (IH _ _ _ _ R1 E2) as (st2 & F2 & R2). rewrite F2. cbn [bind fst snd]. eauto.
Qed.
End Hist.
