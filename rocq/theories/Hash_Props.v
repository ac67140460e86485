(** C95: what the hash functions of common.h tell apart. *)
From Verif Require Import Base Utf8_Model View_Model.

Definition byte (b : Z) : Prop := 0 <= b < 256.
Definition word (x : Z) : Prop := 0 <= x < 2 ^ 64.

(** Multiplication by an odd constant is injective on words. *)
Lemma mul_inj c d x y : (c * d) mod W64 = 1 -> word x -> word y -> (x * c) mod W64 = (y * c) mod W64 -> x = y.
Proof.
  intros Hi Hx Hy E. unfold word, W64 in *.
  assert (Q : forall z, 0 <= z < 2 ^ 64 -> z = ((z * c) mod 2 ^ 64 * d) mod 2 ^ 64).
  { intros z Hz. rewrite Z.mul_mod_idemp_l by lia. rewrite <- Z.mul_assoc. rewrite Z.mul_mod, Hi, Z.mul_1_r by lia.
    rewrite Z.mod_mod by lia. symmetry. apply Z.mod_small. exact Hz. }
  rewrite (Q x Hx), (Q y Hy), E. reflexivity.
Qed.
Lemma lxor_inj h x y : Z.lxor h x = Z.lxor h y -> x = y.
Proof.
  intros E. apply (f_equal (Z.lxor h)) in E. rewrite <- !Z.lxor_assoc, Z.lxor_nilpotent, !Z.lxor_0_l in E. exact E.
Qed.
Lemma shift_inj x y : 0 <= x -> 0 <= y -> Z.lxor x (Z.shiftr x 3) = Z.lxor y (Z.shiftr y 3) -> x = y.
Proof.
  intros Hx Hy E. assert (D : Z.lxor x y = Z.shiftr (Z.lxor x y) 3).
  { rewrite Z.shiftr_lxor. apply (lxor_inj (Z.lxor y (Z.shiftr x 3))). 
    transitivity (Z.lxor x (Z.shiftr x 3)).
    - rewrite (Z.lxor_comm x y), !Z.lxor_assoc. rewrite (Z.lxor_comm (Z.shiftr x 3)), <- !Z.lxor_assoc, Z.lxor_nilpotent, Z.lxor_0_l. reflexivity.
    - rewrite E. rewrite Z.lxor_assoc, <- (Z.lxor_assoc (Z.shiftr x 3)), Z.lxor_nilpotent, Z.lxor_0_l. reflexivity. }
  rewrite Z.shiftr_div_pow2 in D by lia. change (2 ^ 3) with 8 in D.
  assert (N : 0 <= Z.lxor x y) by (apply Z.lxor_nonneg; tauto).
  assert (Z0 : Z.lxor x y = 0). { pose proof (Z.div_mod (Z.lxor x y) 8 ltac:(lia)). pose proof (Z.mod_pos_bound (Z.lxor x y) 8 ltac:(lia)). lia. }
  apply Z.lxor_eq. exact Z0.
Qed.
Lemma lxor_word x y : word x -> word y -> word (Z.lxor x y).
Proof.
  intros Hx Hy. unfold word in *. assert (0 <= Z.lxor x y) by (apply Z.lxor_nonneg; lia). split; [assumption|].
  destruct (Z.eq_dec (Z.lxor x y) 0) as [->|]; [lia|]. apply Z.log2_lt_pow2; [lia|].
  eapply Z.le_lt_trans; [apply Z.log2_lxor; lia|]. apply Z.max_lub_lt.
  - destruct (Z.eq_dec x 0) as [->|]; [cbn; lia|]. apply Z.log2_lt_pow2; lia.
  - destruct (Z.eq_dec y 0) as [->|]; [cbn; lia|]. apply Z.log2_lt_pow2; lia.
Qed.

(** Little-endian values *)
Lemma le_bound l : Forall byte l -> 0 <= le_val l < 256 ^ zlen l.
Proof.
  induction 1 as [|b t Hb _ IH]; [cbn; lia|]. cbn [le_val]. rewrite zlen_cons, Z.pow_add_r by (pose proof (zlen_nonneg t); lia). unfold byte in Hb. change (256 ^ 1) with 256. lia.
Qed.
Lemma le_inj l : forall r, Forall byte l -> Forall byte r -> length l = length r -> le_val l = le_val r -> l = r.
Proof.
  induction l as [|x t IH]; intros [|y u] Hl Hr Hn E; try discriminate; [reflexivity|].
  inversion_clear Hl. inversion_clear Hr. cbn [le_val] in E. unfold byte in *. assert (x = y) by lia. subst y. f_equal. apply IH; auto; lia.
Qed.
Lemma le_word l : Forall byte l -> zlen l <= 8 -> word (le_val l).
Proof.
  intros H Hl. pose proof (le_bound l H). pose proof (zlen_nonneg l). unfold word. change (2 ^ 64) with (256 ^ 8).
  pose proof (Z.pow_le_mono_r 256 (zlen l) 8 ltac:(lia) Hl). lia.
Qed.
Lemma over_0 l : over 0 l = le_val l.
Proof. unfold over. rewrite Z.div_0_l by (apply Z.pow_nonzero; pose proof (zlen_nonneg l); lia). lia. Qed.

(** c_hash_n is total on readable keys and tells any two keys of one length up to 8 bytes apart: such keys never collide. *)
Theorem C95_small m1 p1 m2 p2 len l1 l2 : len <= 8 -> aslice m1 p1 len = Ok l1 -> aslice m2 p2 len = Ok l2 -> Forall byte l1 -> Forall byte l2 ->
  exists h1 h2, hash_n m1 p1 len = Ok h1 /\ hash_n m2 p2 len = Ok h2 /\ (h1 = h2 <-> l1 = l2).
Proof.
  intros Hlen E1 E2 B1 B2. pose proof (aslice_inv _ _ _ _ E1) as (_ & Hn & _ & Z1 & _). pose proof (aslice_inv _ _ _ _ E2) as (_ & _ & _ & Z2 & _).
  pose proof (le_word l1 B1 ltac:(lia)) as W1. pose proof (le_word l2 B2 ltac:(lia)) as W2.
  assert (L : length l1 = length l2) by (rewrite !zlen_length; congruence).
  unfold hash_n. destruct (Z.eqb_spec len 8) as [->|H8].
  - rewrite E1, E2. cbn [bind]. eexists _, _. split; [reflexivity|]. split; [reflexivity|]. split; [|intros ->; reflexivity]. intros E.
    apply le_inj; auto. apply (mul_inj 0xc6a4a7935bd1e99d 13885021922392990901); auto.
  - destruct (Z.eqb_spec len 4) as [->|H4].
    + rewrite E1, E2. cbn [bind]. eexists _, _. split; [reflexivity|]. split; [reflexivity|]. split; [|intros ->; reflexivity]. intros E.
      apply le_inj; auto. apply (mul_inj 0xa2ffeb2f01000193 15918242839714874523); auto.
    + unfold basehash. cbn [basehash_loop]. destruct (Z.ltb_spec 8 len); [lia|]. rewrite E1, E2. cbn [bind]. rewrite !over_0.
      eexists _, _. split; [reflexivity|]. split; [reflexivity|]. split; [|intros ->; reflexivity]. intros E. apply shift_inj in E; try (apply Z.mod_pos_bound; unfold W64; lia).
      apply (mul_inj 0xb0340f4501000193 7050051928085775515) in E; auto; [|apply lxor_word; auto; unfold word; lia..].
      apply lxor_inj in E. apply le_inj; auto.
Qed.
Example C95_small_met : aslice [9; 104; 105; 0] 1 2 = Ok [104; 105] /\ Forall byte [104; 105] /\
  hash_n [9; 104; 105; 0] 1 2 = hash_n [104; 105] 0 2 /\ hash_n [104; 105] 0 2 <> hash_n [105; 104] 0 2.
Proof. split; [reflexivity|]. split; [repeat constructor; cbv; discriminate|]. split; [reflexivity|vm_compute; discriminate]. Qed.

(** The length is not part of the hash, and the last block keeps bytes of the block before: keys of different lengths
    collide by construction, here the strings "ABCDEFGHI" and "ABCDEFGHIBCDEFGH". *)
Theorem C95_lengths_refuted : ~ (forall l1 l2, Forall (fun b => 0 < b < 128) l1 -> Forall (fun b => 0 < b < 128) l2 -> zlen l1 <= 16 -> zlen l2 <= 16 ->
  hash_str (l1 ++ [0]) 0 = hash_str (l2 ++ [0]) 0 -> l1 = l2).
Proof.
  intros H. specialize (H [65; 66; 67; 68; 69; 70; 71; 72; 73] [65; 66; 67; 68; 69; 70; 71; 72; 73; 66; 67; 68; 69; 70; 71; 72]).
  discriminate H; repeat constructor; vm_compute; congruence.
Qed.

(** c_hash_mix: the last word always shows, and so does every word that no later word erases. *)
Lemma mix_app h0 r s : chash_mix h0 (r ++ s) = chash_mix (chash_mix h0 r) s.
Proof. revert h0. induction r as [|x t IH]; intros h0; cbn; auto. Qed.
Lemma mix_word r : forall h0, word h0 -> word (chash_mix h0 r).
Proof. induction r as [|x t IH]; intros h0 H; cbn [chash_mix]; auto. apply IH. apply Z.mod_pos_bound. unfold W64. lia. Qed.
Lemma add_inj h x y : word x -> word y -> (h + x) mod W64 = (h + y) mod W64 -> x = y.
Proof.
  unfold word, W64. intros Hx Hy E. assert (D : (x - y) mod 2 ^ 64 = 0). { replace (x - y) with ((h + x) - (h + y)) by lia. rewrite Zminus_mod, E, Z.sub_diag. reflexivity. }
  apply Z.mod_divide in D as [k D]; lia.
Qed.
Theorem C95_mix_last h0 r x y : word h0 -> word x -> word y -> chash_mix h0 (r ++ [x]) = chash_mix h0 (r ++ [y]) -> x = y.
Proof.
  intros H0 Hx Hy. rewrite !mix_app. pose proof (mix_word r h0 H0) as Hh. set (h := chash_mix h0 r) in *. cbn [chash_mix]. intros E.
  apply add_inj in E; [|apply lxor_word; assumption..]. exact (lxor_inj _ _ _ E).
Qed.
(** The order of the words matters. *)
Theorem C95_mix_two : exists x y, word x /\ word y /\ chash_mix x [y] <> chash_mix y [x].
Proof. exists 1, 2. repeat split; try (unfold word; lia). vm_compute. discriminate. Qed.
(** But a word of all ones erases everything before it: h + (h xor ~0) is always ~0. *)
Theorem C95_mix_erased_refuted h0 r : word h0 -> chash_mix h0 (r ++ [2 ^ 64 - 1]) = 2 ^ 64 - 1.
Proof.
  intros H0. rewrite mix_app. pose proof (mix_word r h0 H0) as Hh. set (h := chash_mix h0 r) in *. cbn [chash_mix].
  assert (E : h + Z.lxor h (2 ^ 64 - 1) = 2 ^ 64 - 1).
  { assert (A : Z.land h (Z.lxor h (2 ^ 64 - 1)) = 0).
    { apply Z.bits_inj'. intros n Hn. rewrite Z.land_spec, Z.lxor_spec, Z.bits_0. change (2 ^ 64 - 1) with (Z.ones 64). rewrite Z.testbit_ones_nonneg by lia.
      destruct (Z.ltb_spec n 64); [destruct (Z.testbit h n); reflexivity|]. rewrite Z.bits_above_log2; [reflexivity|unfold word in Hh; lia|].
      unfold word in Hh. destruct (Z.eq_dec h 0) as [->|]; [cbn; lia|]. apply Z.lt_le_trans with 64; [|lia]. apply Z.log2_lt_pow2; lia. }
    rewrite Z.add_nocarry_lxor by exact A. rewrite <- Z.lxor_assoc, Z.lxor_nilpotent, Z.lxor_0_l. reflexivity. }
  rewrite E. reflexivity.
Qed.
Example C95_mix_met : word 3 /\ chash_mix 3 [5; 2 ^ 64 - 1] = chash_mix 8 [2 ^ 64 - 1] /\ chash_mix 3 [5] <> chash_mix 3 [6].
Proof. repeat split; try (unfold word; lia); vm_compute; congruence. Qed.
Print Assumptions C95_small.
Print Assumptions C95_lengths_refuted.
Print Assumptions C95_mix_last.
Print Assumptions C95_mix_two.
Print Assumptions C95_mix_erased_refuted.
