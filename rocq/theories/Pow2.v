(** c_next_pow2 and the masks built from it: C62. *)
From Verif Require Import Base.

(** common.h 297-306 c_next_pow2 with a 64-bit isize ([>>] of a negative value is
    arithmetic, as on all supported compilers).  No wrap-around occurs for n <= 2^62. *)
Definition next_pow2 (n : Z) : Z :=
  let n := n - 1 in
  let n := Z.lor n (Z.shiftr n 1) in
  let n := Z.lor n (Z.shiftr n 2) in
  let n := Z.lor n (Z.shiftr n 4) in
  let n := Z.lor n (Z.shiftr n 8) in
  let n := Z.lor n (Z.shiftr n 16) in
  let n := Z.lor n (Z.shiftr n 32) in
  n + 1.

(** The smallest power of two that is at least [n]; 0 for n = 0. *)
Definition pow2_ceil (n : Z) : Z := if n <=? 0 then 0 else 2 ^ Z.log2_up n.

Lemma pow2_ceil_spec n : 1 <= n ->
  exists k, 0 <= k /\ pow2_ceil n = 2 ^ k /\ n <= 2 ^ k /\ (forall j, 0 <= j -> n <= 2 ^ j -> k <= j).
Proof.
  intros Hn. unfold pow2_ceil. destruct (Z.leb_spec n 0); [lia|].
  exists (Z.log2_up n). split; [apply Z.log2_up_nonneg|]. split; [reflexivity|].
  split.
  - destruct (Z.eq_dec n 1) as [->|]; [cbn; lia|]. apply Z.log2_up_spec. lia.
  - intros j Hj Hle. apply Z.log2_up_le_pow2; lia.
Qed.

(** One smearing step: bit i of the result is set iff one of bits i .. i+2w-1 of m was,
    when the input already smears over windows of width w. *)
Definition smeared (m x w : Z) : Prop :=
  forall i, 0 <= i -> (Z.testbit x i = true <-> exists j, 0 <= j < w /\ Z.testbit m (i + j) = true).

Lemma smear_step m x w : 0 < w -> smeared m x w -> smeared m (Z.lor x (Z.shiftr x w)) (2 * w).
Proof.
  intros Hw Hs i Hi. rewrite Z.lor_spec, Z.shiftr_spec by lia. rewrite orb_true_iff.
  rewrite (Hs i Hi), (Hs (i + w)) by lia. split.
  - intros [(j & Hj & H)|(j & Hj & H)]; [exists j; split; auto; lia|].
    exists (w + j). split; [lia|]. now rewrite Z.add_assoc.
  - intros (j & Hj & H). destruct (Z.lt_ge_cases j w); [left; exists j; auto with zarith|right].
    exists (j - w). split; [lia|]. rewrite <- H. f_equal. lia.
Qed.

Lemma next_pow2_ceil n : 0 <= n <= 2 ^ 64 -> next_pow2 n = pow2_ceil n.
Proof.
  intros Hn. destruct (Z.eq_dec n 0) as [->|]; [reflexivity|].
  destruct (Z.eq_dec n 1) as [->|]; [reflexivity|].
  unfold next_pow2.
  set (m := n - 1).
  assert (S0 : smeared m m 1).
  { intros i Hi. split; [intros H; exists 0; split; [lia|now rewrite Z.add_0_r]|].
    intros (j & Hj & H). replace j with 0 in H by lia. now rewrite Z.add_0_r in H. }
  apply smear_step in S0; [|lia]. apply smear_step in S0; [|lia]. apply smear_step in S0; [|lia].
  apply smear_step in S0; [|lia]. apply smear_step in S0; [|lia]. apply smear_step in S0; [|lia].
  change (2 * 1) with 2 in S0. change (2 * 2) with 4 in S0. change (2 * 4) with 8 in S0.
  change (2 * 8) with 16 in S0. change (2 * 16) with 32 in S0. change (2 * 32) with 64 in S0.
  match type of S0 with smeared _ ?t _ => set (x := t) in * end.
  assert (Hm : 0 < m < 2 ^ 64) by (unfold m; lia).
  assert (Hx : x = Z.ones (Z.log2 m + 1)).
  { apply Z.bits_inj'. intros i Hi. pose proof (Z.log2_nonneg m).
    destruct (Z.testbit x i) eqn:E.
    - apply (S0 i Hi) in E as (j & Hj & Hb). symmetry. apply Z.ones_spec_low.
      destruct (Z.le_gt_cases (i + j) (Z.log2 m)); [lia|]. rewrite Z.bits_above_log2 in Hb by lia. discriminate.
    - destruct (Z.le_gt_cases i (Z.log2 m)); [|symmetry; apply Z.ones_spec_high; lia].
      assert (Z.testbit x i = true); [|congruence]. apply (S0 i Hi).
      exists (Z.log2 m - i). split.
      + assert (Z.log2 m < 64) by (apply Z.log2_lt_pow2; lia). lia.
      + replace (i + (Z.log2 m - i)) with (Z.log2 m) by lia. apply Z.bit_log2. lia. }
  rewrite Hx, Z.ones_equiv. unfold pow2_ceil. destruct (Z.leb_spec n 0); [lia|].
  rewrite Z.log2_up_eqn by lia. change (Z.pred n) with (n - 1). fold m.
  replace (Z.succ (Z.log2 m)) with (Z.log2 m + 1) by lia. lia.
Qed.

(** [x & (C-1)] for a power of two C. *)
Definition is_pow2 (c : Z) : Prop := exists k, 0 <= k /\ c = 2 ^ k.

Lemma is_pow2_pos c : is_pow2 c -> 0 < c.
Proof. intros (k & Hk & ->). apply Z.pow_pos_nonneg; lia. Qed.

Lemma land_mask c x : is_pow2 c -> Z.land x (c - 1) = x mod c.
Proof.
  intros (k & Hk & ->). rewrite <- Z.land_ones by exact Hk. rewrite Z.ones_equiv. reflexivity.
Qed.

Lemma pow2_ceil_pow2 n : 1 <= n -> is_pow2 (pow2_ceil n) /\ n <= pow2_ceil n.
Proof. intros Hn. destruct (pow2_ceil_spec n Hn) as (k & Hk & -> & Hle & _). split; [exists k; auto|exact Hle]. Qed.

Lemma is_pow2_double c d : is_pow2 c -> is_pow2 d -> c < d -> 2 * c <= d.
Proof.
  intros (k & Hk & ->) (j & Hj & ->) Hlt.
  assert (k < j) by (apply (Z.pow_lt_mono_r_iff 2); lia).
  replace (2 * 2 ^ k) with (2 ^ (Z.succ k)) by (rewrite Z.pow_succ_r; lia).
  apply Z.pow_le_mono_r; lia.
Qed.
