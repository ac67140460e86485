(** The portable population count (cbits.h 77-82) counts the 1 bits. *)
From Verif Require Import Base Slots Cbits_Model Cbits_Spec Cbits_Proofs Cbits_Proofs2 Cbits_Proofs3.

Lemma popc_split n : forall x, 0 <= x -> popc x = popc (x mod 2 ^ Z.of_nat n) + popc (x / 2 ^ Z.of_nat n).
Proof.
  induction n as [|n IH]; intros x Hx.
  - change (2 ^ Z.of_nat 0) with 1. rewrite Z.mod_1_r, Z.div_1_r. reflexivity.
  - assert (P : 0 < 2 ^ Z.of_nat n) by (apply Z.pow_pos_nonneg; lia).
    replace (2 ^ Z.of_nat (S n)) with (2 * 2 ^ Z.of_nat n) by (rewrite <- Z.pow_succ_r by lia; f_equal; lia).
    rewrite (popc_div2 x), (IH (Z.div2 x)) by (auto; now apply Z.div2_nonneg).
    pose proof (Z.mod_pos_bound x (2 * 2 ^ Z.of_nat n) ltac:(lia)).
    rewrite (popc_div2 (x mod _)) by lia.
    rewrite !Z.div2_div, <- !Z.div_div by lia.
    assert (E1 : (x mod (2 * 2 ^ Z.of_nat n)) / 2 = (x / 2) mod 2 ^ Z.of_nat n).
    { rewrite Z.rem_mul_r by lia. rewrite Z.mul_comm, Z.div_add by lia. rewrite Z.div_small by (apply Z.mod_pos_bound; lia). reflexivity. }
    assert (E2 : Z.odd (x mod (2 * 2 ^ Z.of_nat n)) = Z.odd x).
    { rewrite Z.rem_mul_r by lia. rewrite Z.odd_add_mul_2. rewrite <- !Z.bit0_odd. apply (Z.mod_pow2_bits_low x 1). lia. }
    rewrite E1, E2. lia.
Qed.

Lemma tb x y i : 0 <= x < 256 -> 0 <= i -> Z.testbit (x + 256 * y) i = if i <? 8 then Z.testbit x i else Z.testbit y (i - 8).
Proof.
  intros Hx Hi. destruct (Z.ltb_spec i 8).
  - rewrite <- (Z.mod_pow2_bits_low (x + 256 * y) 8) by lia. change (2 ^ 8) with 256.
    rewrite (Z.mul_comm 256), Z.mod_add, Z.mod_small by lia. reflexivity.
  - replace i with (i - 8 + 8) at 1 by lia. rewrite <- Z.div_pow2_bits by lia. change (2 ^ 8) with 256.
    rewrite (Z.mul_comm 256), Z.div_add, Z.div_small by lia. reflexivity.
Qed.
(** masked shift, byte by byte: the shift by s < 8 does not reach into a byte whose mask has no bits above 7 - s *)
Lemma land_byte a b c N s : 0 <= a < 256 -> 0 <= s < 8 -> 0 <= c < 2 ^ (8 - s) ->
  Z.land (Z.shiftr (a + 256 * b) s) (c + 256 * N) = Z.land (Z.shiftr a s) c + 256 * Z.land (Z.shiftr b s) N.
Proof.
  intros Ha Hs Hc. assert (Hc2 : c < 256) by (apply Z.lt_le_trans with (2 ^ (8 - s)); [lia|]; change 256 with (2 ^ 8); apply Z.pow_le_mono_r; lia).
  assert (Cz : forall i, 8 - s <= i -> Z.testbit c i = false).
  { intros i Hi. destruct (Z.eq_dec c 0) as [->|]; [apply Z.bits_0|]. apply Z.bits_above_log2; [lia|].
    apply Z.lt_le_trans with (8 - s); [|lia]. apply (proj1 (Z.log2_lt_pow2 c (8 - s) ltac:(lia))). lia. }
  assert (Hl : 0 <= Z.land (Z.shiftr a s) c < 256).
  { assert (0 <= Z.land (Z.shiftr a s) c) by (apply Z.land_nonneg; right; lia).
    apply (proj2 (wd_bits 3 ltac:(lia) _ H)). intros i Hi. change (WB 3) with 8 in Hi. rewrite Z.land_spec, Cz by lia. apply andb_false_r. }
  apply Z.bits_inj'. intros i Hi. rewrite Z.land_spec, Z.shiftr_spec, !tb by lia.
  destruct (Z.ltb_spec i 8).
  - rewrite Z.land_spec, Z.shiftr_spec by lia. destruct (Z.ltb_spec (i + s) 8); [reflexivity|].
    rewrite Cz by lia. now rewrite !andb_false_r.
  - destruct (Z.ltb_spec (i + s) 8); [lia|]. rewrite Z.land_spec, Z.shiftr_spec by lia. do 2 f_equal. lia.
Qed.

(** A mask of n equal bytes. *)
Fixpoint mk (c : Z) (n : nat) : Z := match n with O => 0 | S k => c + 256 * mk c k end.
Definition st1 (n : nat) (x : Z) : Z := x - Z.land (Z.shiftr x 1) (mk 0x55 n).
Definition st2 (n : nat) (x : Z) : Z := Z.land x (mk 0x33 n) + Z.land (Z.shiftr x 2) (mk 0x33 n).
Definition st3 (n : nat) (x : Z) : Z := Z.land (x + Z.shiftr x 4) (mk 0x0f n).
Definition byte_table : list Z := map Z.of_nat (seq 0 256).
Lemma byte_in a : 0 <= a < 256 -> In a byte_table.
Proof. intros. unfold byte_table. apply in_map_iff. exists (Z.to_nat a). split; [lia|]. apply in_seq. lia. Qed.
Lemma byte_check : forallb (fun a => let x1 := st1 1 a in let x2 := st2 1 x1 in
   (0 <=? x1) && (x1 <? 256) && (0 <=? x2) && (x2 <=? 0x44) && ((x2 + Z.shiftr x2 4) mod 16 =? popc a)) byte_table = true.
Proof. vm_compute. reflexivity. Qed.
Lemma byte_facts a : 0 <= a < 256 -> let x1 := st1 1 a in let x2 := st2 1 x1 in
  0 <= x1 < 256 /\ 0 <= x2 <= 0x44 /\ (x2 + Z.shiftr x2 4) mod 16 = popc a.
Proof.
  intros Ha. pose proof (proj1 (forallb_forall _ _) byte_check a (byte_in a Ha)) as H. cbv zeta in H.
  apply andb_true_iff in H as [H H5]. apply andb_true_iff in H as [H H4]. apply andb_true_iff in H as [H H3]. apply andb_true_iff in H as [H1 H2].
  cbv zeta. repeat split; lia.
Qed.
Lemma land_low3 x y : Z.land y 15 = 3 \/ Z.land y 15 = 0 -> 0 <= Z.land x y mod 16 <= 3.
Proof.
  intros Hy. pose proof (Z.mod_pos_bound (Z.land x y) 16 ltac:(lia)) as B. split; [lia|].
  assert (W : wd 1 (Z.land x y mod 16)).
  { apply wd_bits; [lia|lia|]. change (WB 1) with 2. intros j Hj. change 16 with (2 ^ 4). destruct (Z.lt_ge_cases j 4).
    - rewrite Z.mod_pow2_bits_low, Z.land_spec by lia. assert (T : Z.testbit (Z.land y 15) j = false).
      { destruct Hy as [-> | ->]; [|apply Z.bits_0]. apply Z.bits_above_log2; [lia|]. change (Z.log2 3) with 1. lia. }
      rewrite Z.land_spec in T. change 15 with (Z.ones 4) in T. rewrite Z.ones_spec_low, andb_true_r in T by lia. rewrite T. apply andb_false_r.
    - apply Z.mod_pow2_bits_high. lia. }
  destruct W as [_ W]. change (2 ^ WB 1) with 4 in W. lia.
Qed.
Lemma mk33_low n : Z.land (mk 0x33 n) 15 = 3 \/ Z.land (mk 0x33 n) 15 = 0.
Proof.
  destruct n; [right; reflexivity|left]. cbn [mk]. change 15 with (Z.ones 4). rewrite Z.land_ones by lia. change (2 ^ 4) with 16.
  replace (51 + 256 * mk 51 n) with (3 + (3 + 16 * mk 51 n) * 16) by lia. rewrite Z.mod_add by lia. reflexivity.
Qed.
Fixpoint sum_bytes (n : nat) (x : Z) : Z := match n with O => 0 | S k => popc (x mod 256) + 256 * sum_bytes k (x / 256) end.
Lemma swar_bytes n : forall x, st3 n (st2 n (st1 n x)) = sum_bytes n x.
Proof.
  induction n as [|n IH]; intros x; [unfold st3; cbn [mk]; now rewrite Z.land_0_r|].
  cbn [sum_bytes]. rewrite <- IH. set (a := x mod 256). set (b := x / 256).
  assert (Ex : x = a + 256 * b) by (unfold a, b; pose proof (Z.div_mod x 256 ltac:(lia)); lia).
  assert (Ha : 0 <= a < 256) by (apply Z.mod_pos_bound; lia). clearbody a b. subst x.
  destruct (byte_facts a Ha) as (H1 & H2 & H3).
  assert (E1 : st1 (S n) (a + 256 * b) = st1 1 a + 256 * st1 n b).
  { unfold st1. cbn [mk]. rewrite land_byte by (cbn; lia). rewrite Z.mul_0_r, Z.add_0_r. lia. }
  rewrite E1. set (a1 := st1 1 a) in *. set (b1 := st1 n b) in *.
  assert (E2 : st2 (S n) (a1 + 256 * b1) = st2 1 a1 + 256 * st2 n b1).
  { unfold st2. cbn [mk]. pose proof (land_byte a1 b1 0x33 (mk 0x33 n) 0 ltac:(lia) ltac:(lia) ltac:(cbn; lia)) as L0.
    rewrite !Z.shiftr_0_r in L0. rewrite L0. rewrite land_byte by (cbn; lia). rewrite Z.mul_0_r, Z.add_0_r. lia. }
  rewrite E2. set (a2 := st2 1 a1) in *.
  assert (B2 : 0 <= st2 n b1 mod 16 <= 6).
  { unfold st2. rewrite Z.add_mod by lia. pose proof (land_low3 b1 _ (mk33_low n)). pose proof (land_low3 (Z.shiftr b1 2) _ (mk33_low n)).
    rewrite Z.mod_small by lia. lia. }
  set (b2 := st2 n b1) in *. clearbody b2.
  assert (S4 : Z.shiftr (a2 + 256 * b2) 4 = Z.shiftr a2 4 + 16 * (b2 mod 16) + 256 * Z.shiftr b2 4).
  { rewrite !Z.shiftr_div_pow2 by lia. change (2 ^ 4) with 16.
    replace (a2 + 256 * b2) with (a2 + (16 * b2) * 16) by lia. rewrite Z.div_add by lia.
    pose proof (Z.div_mod b2 16 ltac:(lia)). lia. }
  assert (A4 : 0 <= Z.shiftr a2 4 <= 4).
  { rewrite Z.shiftr_div_pow2 by lia. change (2 ^ 4) with 16. split; [apply Z.div_pos; lia|]. apply Z.lt_succ_r. apply Z.div_lt_upper_bound; lia. }
  unfold st3. rewrite S4. cbn [mk].
  replace (a2 + 256 * b2 + (Z.shiftr a2 4 + 16 * (b2 mod 16) + 256 * Z.shiftr b2 4))
    with (a2 + Z.shiftr a2 4 + 16 * (b2 mod 16) + 256 * (b2 + Z.shiftr b2 4)) by lia.
  pose proof (land_byte (a2 + Z.shiftr a2 4 + 16 * (b2 mod 16)) (b2 + Z.shiftr b2 4) 0x0f (mk 0x0f n) 0 ltac:(lia) ltac:(lia) ltac:(cbn; lia)) as L.
  rewrite !Z.shiftr_0_r in L. rewrite L. f_equal. change 0x0f with (Z.ones 4). rewrite Z.land_ones by lia. change (2 ^ 4) with 16.
  rewrite (Z.mul_comm 16), Z.mod_add by lia. exact H3.
Qed.
Lemma popc_byte x : 0 <= popc (x mod 256) <= 8.
Proof.
  assert (C : forallb (fun a => (0 <=? popc a) && (popc a <=? 8)) byte_table = true) by (vm_compute; reflexivity).
  pose proof (proj1 (forallb_forall _ _) C (x mod 256) (byte_in _ (Z.mod_pos_bound x 256 ltac:(lia)))) as H. cbv beta in H. lia.
Qed.
(** the product with 0x0101..01 adds up the bytes in the top byte *)
Lemma mul_top8 p0 p1 p2 p3 p4 p5 p6 p7 : 0 <= p0 <= 8 -> 0 <= p1 <= 8 -> 0 <= p2 <= 8 -> 0 <= p3 <= 8 -> 0 <= p4 <= 8 -> 0 <= p5 <= 8 -> 0 <= p6 <= 8 -> 0 <= p7 <= 8 ->
  (p0 + 256 * (p1 + 256 * (p2 + 256 * (p3 + 256 * (p4 + 256 * (p5 + 256 * (p6 + 256 * (p7 + 256 * 0)))))))) * 0x0101010101010101 mod 2 ^ 64 / 2 ^ 56
  = p0 + p1 + p2 + p3 + p4 + p5 + p6 + p7.
Proof.
  intros. set (h := p1 + p2 + p3 + p4 + p5 + p6 + p7 + 256 * ((p2 + p3 + p4 + p5 + p6 + p7) + 256 * ((p3 + p4 + p5 + p6 + p7) + 256 * ((p4 + p5 + p6 + p7) + 256 * ((p5 + p6 + p7) + 256 * ((p6 + p7) + 256 * p7)))))).
  set (lo := p0 + 256 * ((p0 + p1) + 256 * ((p0 + p1 + p2) + 256 * ((p0 + p1 + p2 + p3) + 256 * ((p0 + p1 + p2 + p3 + p4) + 256 * ((p0 + p1 + p2 + p3 + p4 + p5) + 256 * (p0 + p1 + p2 + p3 + p4 + p5 + p6))))))).
  match goal with |- ?P mod _ / _ = ?R => assert (E : P = (lo + R * 2 ^ 56) + h * 2 ^ 64) by (unfold h, lo; lia); rewrite E end.
  rewrite Z.mod_add by lia. rewrite Z.mod_small by (unfold lo; lia). rewrite Z.div_add by lia. rewrite Z.div_small by (unfold lo; lia). lia.
Qed.
Lemma mul_top4 p0 p1 p2 p3 : 0 <= p0 <= 8 -> 0 <= p1 <= 8 -> 0 <= p2 <= 8 -> 0 <= p3 <= 8 ->
  (p0 + 256 * (p1 + 256 * (p2 + 256 * (p3 + 256 * 0)))) * 0x01010101 mod 2 ^ 32 / 2 ^ 24 = p0 + p1 + p2 + p3.
Proof.
  intros. set (h := p1 + p2 + p3 + 256 * ((p2 + p3) + 256 * p3)).
  set (lo := p0 + 256 * ((p0 + p1) + 256 * (p0 + p1 + p2))).
  match goal with |- ?P mod _ / _ = ?R => assert (E : P = (lo + R * 2 ^ 24) + h * 2 ^ 32) by (unfold h, lo; lia); rewrite E end.
  rewrite Z.mod_add by lia. rewrite Z.mod_small by (unfold lo; lia). rewrite Z.div_add by lia. rewrite Z.div_small by (unfold lo; lia). lia.
Qed.
Lemma popc_256 x : 0 <= x -> popc x = popc (x mod 256) + popc (x / 256).
Proof. exact (popc_split 8 x). Qed.
Lemma popc_swar64 x : 0 <= x < 2 ^ 64 -> popc_swar 6 x = popc x.
Proof.
  intros Hx. change (popc_swar 6 x) with (Z.shiftr ((st3 8 (st2 8 (st1 8 x)) * 0x0101010101010101) mod 2 ^ 64) 56).
  rewrite swar_bytes, Z.shiftr_div_pow2 by lia. cbn [sum_bytes].
  rewrite mul_top8 by apply popc_byte.
  assert (D : forall y, 0 <= y -> 0 <= y / 256) by (intros; apply Z.div_pos; lia).
  rewrite (popc_256 x), (popc_256 (x / 256)), (popc_256 (x / 256 / 256)), (popc_256 (x / 256 / 256 / 256)), (popc_256 (x / 256 / 256 / 256 / 256)),
    (popc_256 (x / 256 / 256 / 256 / 256 / 256)), (popc_256 (x / 256 / 256 / 256 / 256 / 256 / 256)), (popc_256 (x / 256 / 256 / 256 / 256 / 256 / 256 / 256)) by (repeat apply D; lia).
  replace (x / 256 / 256 / 256 / 256 / 256 / 256 / 256 / 256) with 0; [cbn [popc]; lia|].
  rewrite !Z.div_div by lia. symmetry. apply Z.div_small. lia.
Qed.
Lemma popc_swar32 x : 0 <= x < 2 ^ 32 -> popc_swar 5 x = popc x.
Proof.
  intros Hx. change (popc_swar 5 x) with (Z.shiftr ((st3 4 (st2 4 (st1 4 x)) * 0x01010101) mod 2 ^ 32) 24).
  rewrite swar_bytes, Z.shiftr_div_pow2 by lia. cbn [sum_bytes].
  rewrite mul_top4 by apply popc_byte.
  assert (D : forall y, 0 <= y -> 0 <= y / 256) by (intros; apply Z.div_pos; lia).
  rewrite (popc_256 x), (popc_256 (x / 256)), (popc_256 (x / 256 / 256)), (popc_256 (x / 256 / 256 / 256)) by (repeat apply D; lia).
  replace (x / 256 / 256 / 256 / 256) with 0; [cbn [popc]; lia|].
  rewrite !Z.div_div by lia. symmetry. apply Z.div_small. lia.
Qed.
(** so counting with it gives the same *)
Lemma count_loop_swar (pc : Z -> Z) n : forall i b acc, (forall k w, aget b k = Ok (Some w) -> pc w = popc w) ->
  count_loop pc n i b acc = count_loop popc n i b acc.
Proof.
  induction n as [|n IH]; intros i b acc H; cbn [count_loop]; [reflexivity|].
  unfold rd. destruct (aget b i) as [[w|]|] eqn:E; cbn [bind]; auto. rewrite (H i w E). now apply IH.
Qed.
Lemma count_swar lg pc s l : 0 <= lg -> (forall x, 0 <= x < 2 ^ 2 ^ lg -> pc x = popc x) -> bits_repr lg s l -> count lg pc s = Ok (ones_in l).
Proof.
  intros Hlg Hpc HR. rewrite <- (count_ok lg Hlg s l HR). pose proof (zlen_nonneg l). pose proof (WB_pos lg Hlg).
  apply repr_words in HR as (b & HL & HS & HZ & HG); auto. unfold count. rewrite HL. cbn [bind].
  assert (HB : forall k w, aget b k = Ok (Some w) -> wd lg w).
  { intros k w E. pose proof (aget_ok_range _ _ _ E). destruct (HG k ltac:(lia)) as (w' & E' & Hd & _). congruence. }
  rewrite (count_loop_swar pc) by (intros; apply Hpc; eapply HB; eauto).
  destruct (count_loop popc _ _ _ _); [|reflexivity]. cbn [bind]. destruct (negb _); [|reflexivity].
  unfold rd. destruct (aget b (Z.quot (size s) (WB lg))) as [[w|]|] eqn:E; cbn [bind]; auto.
  rewrite Hpc; [reflexivity|]. apply wd_land; auto; [eapply HB; eauto|now apply wd_lowmask].
Qed.
