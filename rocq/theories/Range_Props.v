(** C59: range loops.  w = 63 is isize, w = 31 is int32_t. *)
From Verif Require Import Base Range_Model Range_Spec Range_Proofs.

(** for (c_range(i, start, stop)) *)
Theorem C59_c_range3 w a b : - 2 ^ w <= a < 2 ^ w -> - 2 ^ w <= b < 2 ^ w -> exists f l, c_range3 f w a b = Ok l /\ progression a b 1 l.
Proof.
  intros Ha Hb. exists (S (length (vals a b 1))), (vals a b 1). split; [apply loop4_ok; auto; lia|]. apply vals_progression. lia.
Qed.
(** for (c_range(i, start, stop, step)) *)
Theorem C59_c_range4_partial w a b s : s <> 0 -> fits w a b s -> exists f l, c_range4 f w a b s = Ok l /\ progression a b s l.
Proof.
  intros Hs HF. exists (S (length (vals a b s))), (vals a b s). split; [|now apply vals_progression]. unfold c_range4. rewrite (stop_chk _ _ _ _ HF). cbn [bind]. apply loop5_ok; auto.
Qed.
(** The increment after the last value overflows if that value is close to the end of the type. *)
Theorem C59_c_range4_overflow_refuted : ~ (forall a b s, s <> 0 -> - 2 ^ 63 <= a < 2 ^ 63 -> - 2 ^ 63 <= b < 2 ^ 63 -> - 2 ^ 63 <= s < 2 ^ 63 -> exists f l, c_range4 f 63 a b s = Ok l).
Proof.
  intros H. destruct (H (2 ^ 63 - 2) (2 ^ 63 - 1) 2) as (f & l & E); try lia. destruct f; vm_compute in E; discriminate.
Qed.
(** for (c_each(it, crange, r)), also c_iota; for a range that is not empty. *)
Theorem C59_crange_each_partial w a b s : s <> 0 -> fits w a b s -> before s a b -> exists r f l, make w a b s = Ok r /\ each f w r = Ok l /\ progression a b s l.
Proof.
  intros Hs HF HB. destruct (each_ok _ _ _ _ Hs HF HB) as (r & E1 & E2). exists r, (S (length (vals a b s))), (vals a b s). auto using vals_progression.
Qed.
(** The loop over an empty range runs once. *)
Theorem C59_crange_empty_refuted : ~ (forall a b s, s <> 0 -> fits 63 a b s -> exists r f l, make 63 a b s = Ok r /\ each f 63 r = Ok l /\ progression a b s l).
Proof.
  intros H. destruct (H 0 0 1) as (r & f & l & E1 & E2 & n & E3 & E4); [lia|unfold fits; cbn; lia|].
  assert (n = O). { destruct n; [reflexivity|]. exfalso. pose proof (proj1 (E4 0 ltac:(lia)) ltac:(lia)) as HB. cbn in HB. lia. }
  subst n. cbn in E3. subst l. vm_compute in E1. injection E1 as <-. destruct f as [|[|f]]; vm_compute in E2; discriminate.
Qed.
(** C03 for ranges, the same fact. *)
Theorem C03_crange_each_empty_refuted : ~ (forall a, - 2 ^ 62 <= a < 2 ^ 62 -> exists r f, make 63 a a 1 = Ok r /\ each f 63 r = Ok []).
Proof.
  intros H. destruct (H 0 ltac:(lia)) as (r & f & E1 & E2). vm_compute in E1. injection E1 as <-. destruct f as [|[|f]]; vm_compute in E2; discriminate.
Qed.
(** c_each_n stops after n values. *)
Theorem C59_crange_each_n_partial w a b s n : s <> 0 -> fits w a b s -> before s a b -> exists r f l, make w a b s = Ok r /\ progression a b s l /\ each_n f w r n = Ok (firstn (Z.to_nat n) l).
Proof.
  intros Hs HF HB. destruct (each_n_ok _ _ _ _ n Hs HF HB) as (r & E1 & E2). exists r, (S (length (vals a b s))), (vals a b s). auto using vals_progression.
Qed.
(** crange_advance by n from the beginning is the value n steps on, and the end iterator if that is not in the range. *)
Theorem C59_crange_advance_partial w a b s n r : s <> 0 -> fits w a b s -> 0 <= n -> - 2 ^ w <= s * n < 2 ^ w -> - 2 ^ w <= a + n * s < 2 ^ w -> make w a b s = Ok r ->
  exists r' it, advance w (fst (begin r)) (snd (begin r)) n = Ok (r', it) /\ value r' = a + n * s /\ (ref it = true <-> before s (a + n * s) b).
Proof.
  intros Hs HF Hn H1 H2 E. unfold make in E. rewrite (stop_chk _ _ _ _ HF) in E. injection E as <-. cbn [begin fst snd start end_ step]. now apply advance_ok.
Qed.
Example C59_met : fits 63 5 (-7) (-4) /\ before (-4) 5 (-7) /\ c_range4 9 63 5 (-7) (-4) = Ok [5; 1; -3] /\ progression 5 (-7) (-4) [5; 1; -3] /\
  fits 31 80 2147483640 7 /\ c_range3 9 31 3 6 = Ok [3; 4; 5].
Proof.
  split; [unfold fits; cbn; lia|]. split; [cbn; lia|]. split; [reflexivity|]. split; [|split; [unfold fits; cbn; lia|reflexivity]].
  exists 3%nat. split; [reflexivity|]. intros k Hk. unfold before. change (0 <? -4) with false. cbv iota. lia.
Qed.
Print Assumptions C59_c_range3.
Print Assumptions C59_c_range4_partial.
Print Assumptions C59_c_range4_overflow_refuted.
Print Assumptions C59_crange_each_partial.
Print Assumptions C59_crange_empty_refuted.
Print Assumptions C03_crange_each_empty_refuted.
Print Assumptions C59_crange_each_n_partial.
Print Assumptions C59_crange_advance_partial.
