(** Proofs about range loops. *)
From Verif Require Import Base Range_Model Range_Spec.

Definition count (start stop step : Z) : Z :=
  if 0 <? step then (if start <? stop then (stop - start - 1) / step + 1 else 0)
  else (if stop <? start then (start - stop - 1) / (- step) + 1 else 0).
Lemma count_nonneg a b s : s <> 0 -> 0 <= count a b s.
Proof.
  intros Hs. unfold count. destruct (Z.ltb_spec 0 s), (Z.ltb_spec a b), (Z.ltb_spec b a); try lia.
  all: assert (0 <= (b - a - 1) / s \/ 0 <= (a - b - 1) / (- s)); try (left; apply Z.div_pos; lia); try (right; apply Z.div_pos; lia).
  all: try (pose proof (Z.div_pos (b - a - 1) s ltac:(lia) ltac:(lia))); try (pose proof (Z.div_pos (a - b - 1) (- s) ltac:(lia) ltac:(lia))); lia.
Qed.
Lemma div_lt_iff a s k : 0 < s -> (k <= a / s <-> k * s <= a).
Proof.
  intros Hs. split; intros H.
  - pose proof (Z.mul_div_le a s Hs). nia.
  - apply Z.div_le_lower_bound; lia.
Qed.
Lemma count_spec a b s k : s <> 0 -> 0 <= k -> (k < count a b s <-> before s (a + k * s) b).
Proof.
  intros Hs Hk. unfold count, before. destruct (Z.ltb_spec 0 s).
  - destruct (Z.ltb_spec a b).
    + pose proof (div_lt_iff (b - a - 1) s k ltac:(lia)). lia.
    + split; [lia|]. nia.
  - destruct (Z.ltb_spec b a).
    + pose proof (div_lt_iff (a - b - 1) (- s) k ltac:(lia)). lia.
    + split; [lia|]. nia.
Qed.
Lemma count_next a b s : s <> 0 -> before s a b -> count (a + s) b s = count a b s - 1.
Proof.
  intros Hs HB.
  assert (H1 : forall k, 0 <= k -> (k < count (a + s) b s <-> k + 1 < count a b s)).
  { intros k Hk. rewrite !count_spec by lia. replace (a + s + k * s) with (a + (k + 1) * s) by ring. reflexivity. }
  pose proof (count_nonneg a b s Hs). pose proof (count_nonneg (a + s) b s Hs).
  assert (0 < count a b s) by (apply count_spec; [lia|lia|]; now rewrite Z.mul_0_l, Z.add_0_r).
  destruct (Z.lt_trichotomy (count (a + s) b s) (count a b s - 1)) as [HH|[HH|HH]]; [exfalso|exact HH|exfalso].
  - pose proof (proj2 (H1 (count (a + s) b s) ltac:(lia)) ltac:(lia)). lia.
  - pose proof (proj1 (H1 (count a b s - 1) ltac:(lia)) ltac:(lia)). lia.
Qed.
Lemma count_zero a b s : s <> 0 -> ~ before s a b -> count a b s = 0.
Proof. intros Hs HB. unfold count, before in *. destruct (0 <? s), (Z.ltb_spec a b), (Z.ltb_spec b a); try reflexivity; lia. Qed.
Lemma count_pos a b s : s <> 0 -> before s a b -> 0 < count a b s.
Proof. intros Hs HB. apply count_spec; [lia|lia|]. now rewrite Z.mul_0_l, Z.add_0_r. Qed.

Definition vals (a b s : Z) : list Z := map (fun k => a + Z.of_nat k * s) (seq 0 (Z.to_nat (count a b s))).
Lemma vals_progression a b s : s <> 0 -> progression a b s (vals a b s).
Proof.
  intros Hs. exists (Z.to_nat (count a b s)). split; [reflexivity|]. intros k Hk. rewrite Z2Nat.id by (apply count_nonneg; auto). now apply count_spec.
Qed.
Lemma vals_step a b s : s <> 0 -> before s a b -> vals a b s = a :: vals (a + s) b s.
Proof.
  intros Hs HB. unfold vals. rewrite (count_next _ _ _ Hs HB). pose proof (count_pos _ _ _ Hs HB).
  replace (Z.to_nat (count a b s)) with (S (Z.to_nat (count a b s - 1))) by lia. cbn [seq map]. f_equal; [lia|]. rewrite <- seq_shift, map_map. apply map_ext. intros k. lia.
Qed.
Lemma vals_end a b s : s <> 0 -> ~ before s a b -> vals a b s = [].
Proof. intros Hs HB. unfold vals. now rewrite count_zero. Qed.
Lemma vals_length a b s : length (vals a b s) = Z.to_nat (count a b s).
Proof. unfold vals. now rewrite map_length, seq_length. Qed.

Lemma chk_ok w x : - 2 ^ w <= x < 2 ^ w -> chk w x = Ok x.
Proof. intros H. unfold chk. destruct (Z.leb_spec (- 2 ^ w) x), (Z.ltb_spec x (2 ^ w)); try lia. reflexivity. Qed.
Lemma fits_next w a b s : s <> 0 -> fits w a b s -> before s a b -> fits w (a + s) b s.
Proof. unfold fits, before. destruct (Z.ltb_spec 0 s); lia. Qed.
Lemma fits_next_chk w a b s : s <> 0 -> fits w a b s -> before s a b -> chk w (a + s) = Ok (a + s).
Proof. intros Hs HF HB. apply chk_ok. apply (fits_next _ _ _ _ Hs HF HB). Qed.
Lemma stop_chk w a b s : fits w a b s -> chk w (b - b2z (0 <? s)) = Ok (b - b2z (0 <? s)).
Proof. unfold fits. intros H. apply chk_ok. destruct (0 <? s); cbn [b2z]; lia. Qed.
Lemma before_dec s a b : {before s a b} + {~ before s a b}.
Proof. unfold before. destruct (0 <? s); apply Z_lt_dec. Qed.

Lemma loop4_ok w b : forall f a, - 2 ^ w <= a < 2 ^ w -> - 2 ^ w <= b < 2 ^ w -> (length (vals a b 1) < f)%nat -> loop4 f w a b = Ok (vals a b 1).
Proof.
  induction f as [|f IH]; intros a Ha Hb Hf; [lia|]. cbn [loop4]. destruct (Z.ltb_spec a b).
  - assert (HB : before 1 a b) by (cbn; lia). rewrite (vals_step a b 1) in * by (lia || exact HB). rewrite chk_ok by lia. cbn [bind length] in *. rewrite IH by lia. reflexivity.
  - rewrite vals_end; [reflexivity|lia|cbn; lia].
Qed.
Lemma loop5_ok w b s : s <> 0 -> forall f a, fits w a b s -> (length (vals a b s) < f)%nat -> loop5 f w a s (b - b2z (0 <? s)) = Ok (vals a b s).
Proof.
  intros Hs. induction f as [|f IH]; intros a HF Hf; [lia|]. cbn [loop5]. destruct (before_dec s a b) as [HB|HB].
  - rewrite (vals_step a b s) in * by auto. cbn [length] in Hf. rewrite (fits_next_chk _ _ _ _ Hs HF HB). cbn [bind].
    rewrite IH by (auto using fits_next; lia). cbn [bind].
    replace (Bool.eqb _ _) with true; [reflexivity|]. unfold before in HB. destruct (Z.ltb_spec 0 s), (Z.leb_spec a (b - b2z true)), (Z.leb_spec a (b - b2z false)); cbn in *; try reflexivity; lia.
  - rewrite vals_end by auto. replace (Bool.eqb _ _) with false; [reflexivity|]. unfold before in HB. destruct (Z.ltb_spec 0 s), (Z.leb_spec a (b - b2z true)), (Z.leb_spec a (b - b2z false)); cbn in *; try reflexivity; lia.
Qed.
(** Whether an iterator that has just moved to [v] has ended. *)
Lemma ended s v b : negb (Bool.eqb (0 <? s) (b - b2z (0 <? s) <? v)) = if before_dec s v b then true else false.
Proof.
  destruct (before_dec s v b) as [HB|HB]; unfold before in HB; destruct (Z.ltb_spec 0 s), (Z.ltb_spec (b - b2z true) v), (Z.ltb_spec (b - b2z false) v); cbn in *; try reflexivity; lia.
Qed.
Lemma each_loop_ok w b s st : s <> 0 -> forall f a, fits w a b s -> before s a b -> (length (vals a b s) < f)%nat ->
  each_loop f w (mkr st (b - b2z (0 <? s)) s a) (mkit true (b - b2z (0 <? s)) s) = Ok (vals a b s).
Proof.
  intros Hs. induction f as [|f IH]; intros a HF HB Hf; [lia|]. cbn [each_loop ref value]. unfold next. cbn [ref value istep iend start end_ step].
  rewrite (fits_next_chk _ _ _ _ Hs HF HB). cbn [bind fst snd]. rewrite (vals_step a b s) in * by auto. cbn [length] in Hf. rewrite ended. destruct (before_dec s (a + s) b) as [HB'|HB'].
  - rewrite IH by (auto using fits_next; lia). reflexivity.
  - rewrite vals_end by auto. destruct f; [lia|]. reflexivity.
Qed.
Lemma each_ok w a b s : s <> 0 -> fits w a b s -> before s a b ->
  exists r, make w a b s = Ok r /\ each (S (length (vals a b s))) w r = Ok (vals a b s).
Proof.
  intros Hs HF HB. unfold make. rewrite (stop_chk _ _ _ _ HF). cbn [bind]. eexists. split; [reflexivity|]. unfold each, begin. cbn [start end_ step]. apply each_loop_ok; auto.
Qed.
Lemma each_n_loop_ok w b s st n : s <> 0 -> forall f a i, fits w a b s -> before s a b -> 0 <= i -> (length (vals a b s) < f)%nat ->
  each_n_loop f w (mkr st (b - b2z (0 <? s)) s a) (mkit true (b - b2z (0 <? s)) s) i n = Ok (firstn (Z.to_nat (n - i)) (vals a b s)).
Proof.
  intros Hs. induction f as [|f IH]; intros a i HF HB Hi Hf; [lia|]. cbn [each_n_loop ref value andb]. destruct (Z.ltb_spec i n).
  - unfold next. cbn [ref value istep iend start end_ step]. rewrite (fits_next_chk _ _ _ _ Hs HF HB). cbn [bind fst snd]. rewrite (vals_step a b s) in * by auto. cbn [length] in Hf. rewrite ended.
    replace (Z.to_nat (n - i)) with (S (Z.to_nat (n - (i + 1)))) by lia. cbn [firstn]. destruct (before_dec s (a + s) b) as [HB'|HB'].
    + rewrite IH by (auto using fits_next; lia). reflexivity.
    + rewrite vals_end by auto. rewrite firstn_nil. destruct f; [lia|]. reflexivity.
  - replace (Z.to_nat (n - i)) with 0%nat by lia. reflexivity.
Qed.
Lemma each_n_ok w a b s n : s <> 0 -> fits w a b s -> before s a b ->
  exists r, make w a b s = Ok r /\ each_n (S (length (vals a b s))) w r n = Ok (firstn (Z.to_nat n) (vals a b s)).
Proof.
  intros Hs HF HB. unfold make. rewrite (stop_chk _ _ _ _ HF). cbn [bind]. eexists. split; [reflexivity|]. unfold each_n, begin. cbn [start end_ step].
  rewrite each_n_loop_ok by (auto; lia). now rewrite Z.sub_0_r.
Qed.
(** Advancing by n: the value n steps on, or the end. *)
Lemma advance_ok w st a b s n : s <> 0 -> 0 <= n -> - 2 ^ w <= s * n < 2 ^ w -> - 2 ^ w <= a + n * s < 2 ^ w ->
  exists r it, advance w (mkr st (b - b2z (0 <? s)) s a) (mkit true (b - b2z (0 <? s)) s) n = Ok (r, it) /\
    value r = a + n * s /\ (ref it = true <-> before s (a + n * s) b).
Proof.
  intros Hs Hn H1 H2. unfold advance. cbn [ref istep value iend]. rewrite chk_ok by exact H1. cbn [bind]. replace (a + s * n) with (a + n * s) by ring. rewrite chk_ok by exact H2. cbn [bind].
  do 2 eexists. split; [reflexivity|]. cbn [value ref]. split; [reflexivity|]. cbn [start end_ step]. rewrite ended. destruct (before_dec s (a + n * s) b); split; intros; auto; discriminate.
Qed.
