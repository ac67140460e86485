(** C60: filter pipelines. *)
From Verif Require Import Base Filter_Model Filter_Spec Filter_Proofs.

(** c_filter, c_filter_reverse and c_ffilter over a sequence [l]. *)
Theorem C60_filter_partial {A} (sts : list (stage A)) (l : list A) : args_ok sts -> (counters sts <= 19)%nat -> (flags sts <= 20)%nat -> zlen l < 4294967296 ->
  c_filter sts l = Ok (pipe sts l).
Proof. exact (filter_ok sts l). Qed.
Theorem C60_filter_zip_partial {A B} (sts : list (stage (A * B))) l1 l2 : args_ok sts -> (counters sts <= 19)%nat -> (flags sts <= 20)%nat -> zlen l1 < 4294967296 ->
  c_filter_zip sts l1 l2 = Ok (pipe sts (combine l1 l2)).
Proof.
  intros H1 H2 H3 H4. unfold c_filter_zip. rewrite loop2_loop. apply filter_ok; auto. unfold zlen in *. rewrite combine_length. lia.
Qed.
Theorem C60_filter_pairwise_partial {A} (sts : list (stage (A * A))) l : args_ok sts -> (counters sts <= 19)%nat -> (flags sts <= 20)%nat -> zlen l < 4294967296 ->
  c_filter_pairwise sts l = Ok (pipe sts (combine l (tl l))).
Proof. exact (C60_filter_zip_partial sts l (tl l)). Qed.
(** The example in the header: 6 10 14 2 6 18. *)
Definition stages60 : list (stage Z) := [SkipWhile (fun x => x <? 3); Pred Z.odd; Map (fun x => x * 2); TakeWhile (fun x => x <? 20)].
Definition stages60b : list (stage Z) := [Skip 2; Pred Z.odd; Counter; Take 2].
Example C60_met : args_ok stages60 /\ (counters stages60 <= 19)%nat /\ (flags stages60 <= 20)%nat /\ args_ok stages60b /\ (counters stages60b <= 19)%nat /\
  map fst (pipe stages60 [1; 2; 3; 4; 5; 6; 7; 8; 1; 2; 3; 9; 10; 11; 12; 5]) = [6; 10; 14; 2; 6; 18] /\
  pipe stages60b [1; 2; 4; 5; 6; 7; 8; 9] = [(5, 1); (7, 2)] /\ c_filter stages60b [1; 2; 4; 5; 6; 7; 8; 9] = Ok [(5, 1); (7, 2)].
Proof. split; [repeat constructor|]. split; [cbn; lia|]. split; [cbn; lia|]. split; [repeat constructor; lia|]. split; [cbn; lia|]. repeat split. Qed.
(** The twentieth counter of a pipeline is outside of the array of 20 counters. *)
Theorem C60_twenty_counters_refuted : ~ (forall (sts : list (stage Z)) l, args_ok sts -> (counters sts <= 20)%nat -> exists r, c_filter sts l = Ok r).
Proof.
  intros H. destruct (H (repeat Counter 20) [1]) as (r & E); [unfold args_ok; repeat constructor|cbn; lia|]. vm_compute in E. discriminate.
Qed.
(** Counters are 32 bit wide: the 2^32nd value is lost. *)
Theorem C60_counter_wraps_refuted : ~ (forall (sts : list (stage unit)) l, args_ok sts -> (counters sts <= 19)%nat -> c_filter sts l = Ok (pipe sts l)).
Proof.
  intros H. destruct (ex_intro (fun l => zlen l = 4294967295) (repeat tt (Z.to_nat 4294967295)) (zlen_repeat tt 4294967295 ltac:(lia))) as [l1 HL].
  apply (skip0_last l1 tt HL). apply H; [repeat constructor; lia|cbn; lia].
Qed.
Print Assumptions C60_filter_partial.
Print Assumptions C60_filter_zip_partial.
Print Assumptions C60_filter_pairwise_partial.
Print Assumptions C60_twenty_counters_refuted.
Print Assumptions C60_counter_wraps_refuted.
