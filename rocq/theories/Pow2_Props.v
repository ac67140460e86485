(** C62: next_pow2. *)
From Verif Require Import Base Pow2.

(** C62.  For every 1 <= n <= 2^62 the result is the smallest power of two that is at
    least n (so masking with result-1 is reduction modulo the result); 0 gives 0. *)
Theorem C62_next_pow2_smallest (n : Z) : 1 <= n <= 2 ^ 62 ->
  exists k, 0 <= k /\ next_pow2 n = 2 ^ k /\ n <= 2 ^ k /\
    (forall j, 0 <= j -> n <= 2 ^ j -> next_pow2 n <= 2 ^ j) /\
    next_pow2 n < 2 ^ 63 /\ (forall x, Z.land x (next_pow2 n - 1) = x mod next_pow2 n).
Proof.
  intros Hn. rewrite next_pow2_ceil by lia.
  destruct (pow2_ceil_spec n) as (k & Hk & E & Hle & Hmin); [lia|]. rewrite E.
  exists k. split; [exact Hk|]. split; [reflexivity|]. split; [exact Hle|].
  split; [intros j Hj Hnj; apply Z.pow_le_mono_r; auto; lia|]. split.
  - apply Z.pow_lt_mono_r; try lia. specialize (Hmin 62). lia.
  - intros x. apply land_mask. exists k. auto.
Qed.

Theorem C62_next_pow2_zero : next_pow2 0 = 0.
Proof. reflexivity. Qed.

Example C62_example : next_pow2 1 = 1 /\ next_pow2 5 = 8 /\ next_pow2 64 = 64 /\ next_pow2 (2 ^ 62) = 2 ^ 62 /\ next_pow2 (2 ^ 61 + 1) = 2 ^ 62.
Proof. repeat split. Qed.

Print Assumptions C62_next_pow2_smallest.
Print Assumptions C62_next_pow2_zero.
