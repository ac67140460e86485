(** Proofs for random.h. *)
From Verif Require Import Base Slots Random_Model Random_Spec.
From Coq Require Import QArith Znumtheory Zpow_facts.
Open Scope Z_scope.

Lemma pow_w w : 0 <= w -> 0 < 2 ^ w.
Proof. intros. apply Z.pow_pos_nonneg; lia. Qed.
Lemma wrap_word w x : 0 <= w -> word w (wrap w x).
Proof. intros H. apply Z.mod_pos_bound, pow_w, H. Qed.
Lemma wrap_id w x : word w x -> wrap w x = x.
Proof. intros H. apply Z.mod_small, H. Qed.
Lemma word_bits w x : 0 <= w -> 0 <= x -> (word w x <-> forall i, w <= i -> Z.testbit x i = false).
Proof.
  intros Hw Hx. unfold word. split.
  - intros H i Hi. destruct (Z.eq_dec x 0) as [->|]; [apply Z.bits_0|].
    apply Z.bits_above_log2; [lia|]. apply Z.lt_le_trans with w; [apply Z.log2_lt_pow2; lia|lia].
  - intros H. split; [lia|]. destruct (Z.eq_dec x 0) as [->|]; [apply pow_w; lia|].
    apply Z.log2_lt_pow2; [lia|]. destruct (Z.lt_ge_cases (Z.log2 x) w); [auto|].
    specialize (H _ H0). rewrite (Z.bit_log2 x) in H by lia. discriminate.
Qed.
Lemma lxor_word w x y : 0 <= w -> word w x -> word w y -> word w (Z.lxor x y).
Proof.
  intros Hw Hx Hy. assert (0 <= Z.lxor x y) by (apply Z.lxor_nonneg; unfold word in *; lia).
  apply word_bits; auto. intros i Hi. rewrite Z.lxor_spec.
  rewrite (proj1 (word_bits w x Hw (proj1 Hx)) Hx), (proj1 (word_bits w y Hw (proj1 Hy)) Hy) by auto. reflexivity.
Qed.
Lemma shr_word w x n : 0 <= w -> 0 <= n -> word w x -> word w (wshr x n).
Proof.
  intros Hw Hn Hx. unfold wshr. assert (0 <= Z.shiftr x n) by (apply Z.shiftr_nonneg, Hx).
  apply word_bits; auto. intros i Hi. rewrite Z.shiftr_spec by lia. apply (proj1 (word_bits w x Hw (proj1 Hx))); auto. lia.
Qed.

(** x ^ (x >> a) is undone by xor-ing all x >> (k*a). *)
Fixpoint unshift (n : nat) (a x : Z) : Z :=
  match n with O => 0 | S n' => Z.lxor x (Z.shiftr (unshift n' a x) a) end.
Lemma unshift_nonneg n a x : 0 <= x -> 0 <= unshift n a x.
Proof. intros Hx. induction n; cbn [unshift]; [lia|]. apply Z.lxor_nonneg. pose proof (proj2 (Z.shiftr_nonneg (unshift n a x) a) IHn). lia. Qed.
(** one more round changes only bits below w - n*a *)
Lemma unshift_stable n a x w : 0 < a -> 0 <= w -> word w x -> forall i, w - Z.of_nat n * a <= i -> 0 <= i ->
  Z.testbit (unshift (S n) a x) i = Z.testbit (unshift n a x) i.
Proof.
  intros Ha Hw Hx. induction n as [|n IH]; intros i Hi H0.
  - cbn [unshift]. rewrite Z.shiftr_0_l, Z.lxor_0_r, Z.bits_0. apply (proj1 (word_bits w x Hw (proj1 Hx)) Hx). lia.
  - change (unshift (S (S n)) a x) with (Z.lxor x (Z.shiftr (unshift (S n) a x) a)).
    change (unshift (S n) a x) with (Z.lxor x (Z.shiftr (unshift n a x) a)) at 2.
    rewrite !Z.lxor_spec, !Z.shiftr_spec by lia. f_equal. apply IH; lia.
Qed.
Lemma unshift_word n a x w : 0 < a -> 0 <= w -> word w x -> word w (unshift n a x).
Proof.
  intros Ha Hw Hx. induction n as [|n IH]; cbn [unshift]; [split; [lia|now apply pow_w]|].
  apply lxor_word; auto. apply shr_word; auto. lia.
Qed.
Lemma unshift_right n a x w : 0 < a -> 0 <= w -> word w x -> w <= Z.of_nat n * a ->
  Z.lxor (unshift n a x) (Z.shiftr (unshift n a x) a) = x.
Proof.
  intros Ha Hw Hx Hn. apply Z.bits_inj'. intros i Hi. rewrite Z.lxor_spec.
  rewrite <- (unshift_stable n a x w) by (auto; lia). cbn [unshift]. rewrite Z.lxor_spec, xorb_assoc, xorb_nilpotent. apply xorb_false_r.
Qed.
Lemma xorshift_inj a w x y : 0 < a -> 0 <= w -> word w x -> word w y ->
  Z.lxor x (Z.shiftr x a) = Z.lxor y (Z.shiftr y a) -> x = y.
Proof.
  intros Ha Hw Hx Hy E.
  assert (B : forall k : nat, forall i, 0 <= i -> w - Z.of_nat k <= i -> Z.testbit x i = Z.testbit y i).
  { induction k as [|k IH]; intros i Hi Hk.
    - rewrite (proj1 (word_bits w x Hw (proj1 Hx)) Hx), (proj1 (word_bits w y Hw (proj1 Hy)) Hy) by lia. reflexivity.
    - assert (E' : Z.testbit (Z.lxor x (Z.shiftr x a)) i = Z.testbit (Z.lxor y (Z.shiftr y a)) i) by now rewrite E.
      rewrite !Z.lxor_spec, !Z.shiftr_spec in E' by lia. rewrite (IH (i + a)) in E' by lia.
      destruct (Z.testbit x i), (Z.testbit y i), (Z.testbit y (i + a)); cbn in E'; congruence. }
  apply Z.bits_inj'. intros i Hi. apply (B (Z.to_nat w)); lia.
Qed.

Lemma gcd_pow2 w x : 0 <= w -> Z.odd x = true -> Z.gcd (2 ^ w) x = 1.
Proof.
  intros Hw Ho. rewrite Z.gcd_comm. apply Zgcd_1_rel_prime. apply rel_prime_Zpower_r; [exact Hw|].
  apply rel_prime_sym. apply prime_rel_prime; [exact prime_2|]. intros [c ->].
  rewrite Z.odd_mul, andb_false_r in Ho. discriminate.
Qed.
Lemma times9 w x : 0 <= w -> wadd w x (wshl w x 3) = wrap w (9 * x).
Proof.
  intros Hw. unfold wadd, wshl, wrap. rewrite Z.shiftl_mul_pow2 by lia. rewrite Zplus_mod_idemp_r. f_equal. lia.
Qed.
Lemma times9_inj w x y : 0 <= w -> word w x -> word w y -> wrap w (9 * x) = wrap w (9 * y) -> x = y.
Proof.
  intros Hw Hx Hy E. unfold wrap in E. pose proof (pow_w w Hw).
  assert (D : (2 ^ w | 9 * (x - y))).
  { apply Z.mod_divide; [lia|]. replace (9 * (x - y)) with (9 * x - 9 * y) by lia. rewrite Zminus_mod, E, Z.sub_diag. apply Z.mod_0_l. lia. }
  apply Z.gauss in D.
  - destruct D as [c Hc]. unfold word in *. assert (c = 0) by nia. subst c. lia.
  - apply gcd_pow2; [lia|reflexivity].
Qed.

Section Engine.
Variables w sh rot : Z.
Hypothesis Hw : 0 < w.
Hypothesis Hsh : 0 < sh.
Hypothesis Hrot : 0 <= rot <= w.

Lemma wadd_word x y : word w (wadd w x y).
Proof. apply wrap_word. lia. Qed.
Lemma wadd_cancel_r x y z : word w x -> word w y -> wadd w x z = wadd w y z -> x = y.
Proof.
  intros Hx Hy E. unfold wadd, wrap in E. pose proof (pow_w w ltac:(lia)).
  assert (D : (x + z - (y + z)) mod 2 ^ w = 0) by (rewrite Zminus_mod, E, Z.sub_diag; apply Z.mod_0_l; lia).
  replace (x + z - (y + z)) with (x - y) in D by lia. apply Z.mod_divide in D; [|lia]. destruct D as [c Hc].
  unfold word in *. assert (c = 0) by nia. subst c. lia.
Qed.
Lemma wadd_cancel_l x y z : word w x -> word w y -> wadd w z x = wadd w z y -> x = y.
Proof. intros Hx Hy E. apply (wadd_cancel_r x y z); auto. unfold wadd in *. now rewrite (Z.add_comm x), (Z.add_comm y). Qed.
Lemma wadd_sub x z : word w x -> wadd w (wadd w x (- z)) z = x.
Proof.
  intros Hx. unfold wadd, wrap. rewrite Zplus_mod_idemp_l. replace (x + - z + z) with x by lia. apply Z.mod_small, Hx.
Qed.

Lemma step_state e stream : state w e -> state w (fst (step_with w sh rot e stream)) /\ word w (snd (step_with w sh rot e stream)).
Proof.
  intros (H0 & H1 & H2 & H3). cbn [step_with fst snd]. split; [|apply wadd_word].
  split; [|split; [apply wadd_word|split; apply wadd_word]].
  cbn [s0]. apply lxor_word; auto; [lia|]. apply shr_word; auto; lia.
Qed.

Lemma step_inj e1 e2 stream : state w e1 -> state w e2 ->
  fst (step_with w sh rot e1 stream) = fst (step_with w sh rot e2 stream) -> e1 = e2.
Proof.
  intros (A0 & A1 & A2 & A3) (B0 & B1 & B2 & B3) E. cbn [step_with fst] in E. injection E as E0 E1 E2 E3.
  assert (C1 : s1 e1 = s1 e2) by (apply (xorshift_inj sh w); auto; lia).
  assert (C2 : s2 e1 = s2 e2).
  { rewrite !times9 in E1 by lia. apply (times9_inj w); auto. lia. }
  assert (C3 : s3 e1 = s3 e2) by (apply (wadd_cancel_r _ _ stream); auto).
  rewrite C2 in E2. apply wadd_cancel_l in E2; try apply wadd_word.
  rewrite C1, C3 in E2. apply wadd_cancel_r in E2; [|apply lxor_word; auto; [lia|apply wadd_word]..].
  assert (C0 : s0 e1 = s0 e2).
  { apply (f_equal (fun t => Z.lxor t (wadd w (s3 e2) stream))) in E2. now rewrite !Z.lxor_assoc, !Z.lxor_nilpotent, !Z.lxor_0_r in E2. }
  destruct e1, e2. cbn in *. congruence.
Qed.

Lemma inv9 : exists k, (9 * k) mod 2 ^ w = 1.
Proof.
  assert (G : Z.gcd 9 (2 ^ w) = 1).
  { rewrite Z.gcd_comm. apply gcd_pow2; [lia|reflexivity]. }
  destruct (Z.gcd_bezout 9 (2 ^ w) 1 G) as (u & v & E). exists u.
  replace (9 * u) with (1 + (- v) * 2 ^ w) by lia. rewrite Z_mod_plus_full. apply Z.mod_small.
  assert (2 ^ 1 <= 2 ^ w) by (apply Z.pow_le_mono_r; lia). lia.
Qed.

Lemma step_surj e stream : state w e -> exists e', state w e' /\ fst (step_with w sh rot e' stream) = e.
Proof.
  intros (H0 & H1 & H2 & H3). destruct inv9 as [k Hk].
  set (a1 := unshift (Z.to_nat w) sh (s0 e)).
  set (a2 := wrap w (k * s1 e)).
  set (a3 := wadd w (s3 e) (- stream)).
  set (r := wadd w (s2 e) (- (Z.lor (wshl w a2 rot) (wshr a2 (w - rot))))).
  set (a0 := Z.lxor (wadd w r (- a1)) (s3 e)).
  assert (W1 : word w a1) by (apply unshift_word; auto; lia).
  assert (W3 : word w a3) by apply wadd_word.
  assert (E3 : wadd w a3 stream = s3 e) by now apply wadd_sub.
  exists (mkeng a0 a1 a2 a3). split.
  - split; [|split; [|split]]; cbn; auto.
    + apply lxor_word; auto; [lia|apply wadd_word].
    + apply wrap_word. lia.
  - cbn [step_with fst Random_Model.s0 Random_Model.s1 Random_Model.s2 Random_Model.s3]. rewrite E3. destruct e as [t0 t1 t2 t3]; cbn [Random_Model.s0 Random_Model.s1 Random_Model.s2 Random_Model.s3] in *. f_equal.
    + apply (unshift_right _ _ _ w); auto; try lia. nia.
    + rewrite times9 by lia. unfold a2, wrap. rewrite Zmult_mod_idemp_r. rewrite Z.mul_assoc, Zmult_mod, Hk, Z.mul_1_l, Zmod_mod. apply Z.mod_small, H1.
    + unfold a0. rewrite Z.lxor_assoc, Z.lxor_nilpotent, Z.lxor_0_r.
      rewrite wadd_sub by apply wadd_word. unfold wadd at 1. rewrite Z.add_comm. fold (wadd w r (Z.lor (wshl w a2 rot) (wshr a2 (w - rot)))).
      now apply wadd_sub.
Qed.

Lemma after_s3 n e stream : state w e ->
  s3 (after n (fun e => fst (step_with w sh rot e stream)) e) = wrap w (s3 e + Z.of_nat n * stream).
Proof.
  revert e. induction n as [|n IH]; intros e He; cbn [after].
  - symmetry. rewrite Z.mul_0_l, Z.add_0_r. apply wrap_id, He.
  - rewrite IH by now apply step_state. cbn [step_with fst s3]. unfold wadd, wrap. rewrite Zplus_mod_idemp_l. f_equal. lia.
Qed.

Lemma period n e stream : state w e -> Z.odd stream = true ->
  (0 < n)%nat -> after n (fun e => fst (step_with w sh rot e stream)) e = e -> 2 ^ w <= Z.of_nat n.
Proof.
  intros He Ho Hn E. pose proof (after_s3 n e stream He) as A. rewrite E in A. pose proof (pow_w w ltac:(lia)).
  destruct He as (_ & _ & _ & H3). unfold wrap in A.
  assert (D : (2 ^ w | stream * Z.of_nat n)).
  { apply Z.mod_divide; [lia|]. replace (stream * Z.of_nat n) with (s3 e + Z.of_nat n * stream - s3 e) by lia.
    rewrite Zminus_mod, <- A. rewrite (Z.mod_small (s3 e)) by exact H3. rewrite Z.sub_diag. apply Z.mod_0_l. lia. }
  apply Z.gauss in D.
  - apply Z.divide_pos_le in D; lia.
  - apply gcd_pow2; [lia|exact Ho].
Qed.
Lemma no_recurrence n m e stream : state w e -> Z.odd stream = true -> (n < m)%nat -> Z.of_nat m - Z.of_nat n < 2 ^ w ->
  after n (fun e => fst (step_with w sh rot e stream)) e <> after m (fun e => fst (step_with w sh rot e stream)) e.
Proof.
  intros He Ho Hnm Hlt E.
  assert (A : forall n e, state w e -> state w (after n (fun e => fst (step_with w sh rot e stream)) e)).
  { induction n0 as [|k IH]; intros e0 H0; cbn [after]; auto. apply IH. now apply step_state. }
  assert (P : forall a b e, after (a + b) (fun e => fst (step_with w sh rot e stream)) e = after b (fun e => fst (step_with w sh rot e stream)) (after a (fun e => fst (step_with w sh rot e stream)) e)).
  { induction a as [|a IH]; intros b e0; cbn [after Nat.add]; auto. }
  replace m with (n + (m - n))%nat in E by lia. rewrite P in E. symmetry in E. apply period in E; auto; lia.
Qed.
End Engine.

(** Uniform integers. *)
Section Uniform.
Variable w : Z.
Hypothesis Hw : 1 < w.
Lemma make_uniform_ok lo hi : lo <= hi -> hi - lo + 1 < 2 ^ (w - 1) ->
  make_uniform w lo hi = Ok (mkdist lo (hi - lo + 1) (2 ^ w mod (hi - lo + 1))).
Proof.
  intros Hl Hr. unfold make_uniform, signed_ok, wrap.
  assert (0 < 2 ^ (w - 1)) by (apply pow_w; lia).
  assert (P : 2 ^ w = 2 * 2 ^ (w - 1)) by (rewrite <- Z.pow_succ_r by lia; f_equal; lia).
  destruct (Z.leb_spec (- 2 ^ (w - 1)) (hi - lo)); [|lia]. destruct (Z.ltb_spec (hi - lo) (2 ^ (w - 1))); [|lia].
  destruct (Z.leb_spec (- 2 ^ (w - 1)) (hi - lo + 1)); [|lia]. destruct (Z.ltb_spec (hi - lo + 1) (2 ^ (w - 1))); [|lia].
  cbn [andb orb negb]. rewrite (Z.mod_small (hi - lo + 1)) by lia. destruct (Z.eqb_spec (hi - lo + 1) 0); [lia|].
  f_equal. f_equal.
  replace ((0 - (hi - lo + 1)) mod 2 ^ w) with (2 ^ w - (hi - lo + 1)).
  - rewrite Zminus_mod, Z_mod_same_full, Z.sub_0_r, Zmod_mod. reflexivity.
  - symmetry. rewrite <- (Z_mod_plus_full _ 1). rewrite Z.mod_small; lia.
Qed.

(** The raw words giving the value v form an interval of 2^w / R words. *)
Lemma interval_list a q : 0 <= q -> exists l, NoDup l /\ zlen l = q /\ forall r, In r l <-> a <= r < a + q.
Proof.
  intros Hq. exists (map (fun k => a + Z.of_nat k) (seq 0 (Z.to_nat q))). split; [|split].
  - apply FinFun.Injective_map_NoDup; [|apply seq_NoDup]. intros x y. lia.
  - unfold zlen. rewrite map_length, seq_length. lia.
  - intros r. rewrite in_map_iff. split.
    + intros (k & <- & Hk%in_seq). lia.
    + intros H. exists (Z.to_nat (r - a)). split; [lia|]. apply in_seq. lia.
Qed.
Lemma accept_mul_count lo R v : 0 < R < 2 ^ w -> 0 <= v < R ->
  exists l, NoDup l /\ zlen l = 2 ^ w / R /\
    forall r, In r l <-> (word w r /\ accept_mul w (mkdist lo R (2 ^ w mod R)) r = Some v).
Proof.
  intros HR Hv. pose proof (pow_w w ltac:(lia)) as HW. set (W := 2 ^ w) in *. set (q := W / R). set (t := W mod R).
  assert (Eq : W = R * q + t) by (unfold q, t; apply Z.div_mod; lia).
  assert (Ht : 0 <= t < R) by (unfold t; apply Z.mod_pos_bound; lia).
  assert (Hq : 0 < q) by (unfold q; apply Z.div_str_pos; lia).
  (* first multiple of R at or above v*W + t *)
  set (a := - ((- (v * W + t)) / R)).
  assert (Ha : R * (a - 1) < v * W + t <= R * a).
  { unfold a. pose proof (Z.div_mod (- (v * W + t)) R ltac:(lia)). pose proof (Z.mod_pos_bound (- (v * W + t)) R ltac:(lia)). nia. }
  destruct (interval_list a q ltac:(lia)) as (l & N & L & I). exists l. split; [auto|]. split; [auto|].
  intros r. rewrite I. unfold accept_mul, word. cbn [range threshold]. fold W t.
  pose proof (Z.div_mod (r * R) W ltac:(lia)) as DM. pose proof (Z.mod_pos_bound (r * R) W ltac:(lia)) as MB.
  split.
  - intros Hr. assert (v * W + t <= r * R < (v + 1) * W) by nia.
    assert (D : r * R / W = v) by nia.
    assert (M : (r * R) mod W = r * R - v * W) by nia. rewrite M, D.
    destruct (Z.ltb_spec (r * R - v * W) t); [lia|]. split; [|reflexivity]. nia.
  - intros [Hr E]. destruct (Z.ltb_spec ((r * R) mod W) t); [discriminate|]. injection E as E. rewrite E in DM. nia.
Qed.
Lemma accept_mod_count lo R v : 0 < R < 2 ^ w -> 0 <= v < R ->
  exists l, NoDup l /\ zlen l = 2 ^ w / R /\
    forall r, In r l <-> (word w r /\ accept_mod w (mkdist lo R (2 ^ w mod R)) r = Some v).
Proof.
  intros HR Hv. pose proof (pow_w w ltac:(lia)) as HW. set (W := 2 ^ w) in *. set (q := W / R).
  assert (Eq : W = R * q + W mod R) by (unfold q; apply Z.div_mod; lia).
  assert (Ht : 0 <= W mod R < R) by (apply Z.mod_pos_bound; lia).
  assert (Hq : 0 < q) by (unfold q; apply Z.div_str_pos; lia).
  exists (map (fun k => R * Z.of_nat k + v) (seq 0 (Z.to_nat q))). split; [|split].
  - apply FinFun.Injective_map_NoDup; [|apply seq_NoDup]. intros x y. nia.
  - unfold zlen. rewrite map_length, seq_length. lia.
  - assert (N : wrap w (- R) = W - R).
    { unfold wrap. fold W. rewrite <- (Z_mod_plus_full _ 1). rewrite Z.mod_small; lia. }
    intros r. rewrite in_map_iff. unfold accept_mod. cbn [range]. rewrite N.
    pose proof (Z.div_mod r R ltac:(lia)) as DM. pose proof (Z.mod_pos_bound r R ltac:(lia)) as MB. split.
    + intros (k & <- & Hk%in_seq). assert (0 <= R * Z.of_nat k + v < W) by nia.
      assert (E : (R * Z.of_nat k + v) mod R = v) by (rewrite Z.add_comm, Z.mul_comm, Z_mod_plus_full; apply Z.mod_small; lia).
      rewrite E. replace (R * Z.of_nat k + v - v) with (R * Z.of_nat k) by lia.
      split; [assumption|]. rewrite wrap_id by (unfold word; fold W; nia). rewrite Z.gtb_ltb.
      destruct (Z.ltb_spec (W - R) (R * Z.of_nat k)); [nia|reflexivity].
    + intros [Hr E]. unfold word in Hr. fold W in Hr. pose proof (Z.mod_le r R ltac:(lia) ltac:(lia)). rewrite wrap_id in E by (unfold word; fold W; lia). rewrite Z.gtb_ltb in E.
      destruct (Z.ltb_spec (W - R) (r - r mod R)); [discriminate|]. injection E as E.
      exists (Z.to_nat (r / R)). assert (0 <= r / R) by (apply Z.div_pos; lia).
      rewrite Z2Nat.id by lia. split; [lia|]. apply in_seq. split; [lia|]. rewrite Nat.add_0_l. apply Z2Nat.inj_lt; try lia. nia.
Qed.

Lemma accept_range (accept : dist -> Z -> option Z) d raw v :
  (accept = accept_mul w \/ accept = accept_mod w) -> 0 < range d < 2 ^ w -> word w raw -> accept d raw = Some v -> 0 <= v < range d.
Proof.
  intros HA HR Hw' E. pose proof (pow_w w ltac:(lia)) as HW. destruct HA as [-> | ->]; unfold accept_mul, accept_mod in E.
  - destruct (_ <? _); [discriminate|]. injection E as <-. unfold word in Hw'. split; [apply Z.div_pos; nia|].
    apply Z.div_lt_upper_bound; nia.
  - destruct (_ >? _); [discriminate|]. injection E as <-. apply Z.mod_pos_bound. lia.
Qed.

Lemma uniform_range fuel step accept e stream lo hi d r :
  (forall e, state w e -> state w (fst (step e stream)) /\ word w (snd (step e stream))) ->
  (accept = accept_mul w \/ accept = accept_mod w) ->
  signed_ok w lo = true -> signed_ok w hi = true -> lo <= hi -> hi - lo + 1 < 2 ^ (w - 1) -> make_uniform w lo hi = Ok d ->
  state w e -> uniform fuel w step accept e stream d = r ->
  r = Err OutOfFuel \/ exists e' x, r = Ok (e', x) /\ lo <= x <= hi /\ state w e'.
Proof.
  intros Hstep HA Hlo Hhi Hle Hr Hd He <-. rewrite make_uniform_ok in Hd by auto. injection Hd as <-.
  revert e He. induction fuel as [|fuel IH]; intros e He; cbn [uniform]; [auto|].
  destruct (Hstep e He) as [H1 H2]. destruct (step e stream) as [e1 raw]. cbn [fst snd] in *.
  destruct (accept _ raw) as [v|] eqn:E; [|now apply IH].
  assert (P : 2 ^ w = 2 * 2 ^ (w - 1)) by (rewrite <- Z.pow_succ_r by lia; f_equal; lia).
  assert (0 < 2 ^ (w - 1)) by (apply pow_w; lia).
  apply accept_range in E; cbn [range] in *; auto; [|lia]. cbn [low].
  destruct (Z.ltb_spec v (2 ^ (w - 1))); [|lia].
  unfold signed_ok in *. apply andb_true_iff in Hlo as [A1%Z.leb_le A2%Z.ltb_lt]. apply andb_true_iff in Hhi as [B1%Z.leb_le B2%Z.ltb_lt].
  destruct (Z.leb_spec (- 2 ^ (w - 1)) (lo + v)); [|lia]. destruct (Z.ltb_spec (lo + v) (2 ^ (w - 1))); [|lia].
  right. exists e1, (lo + v). split; [reflexivity|]. split; [lia|assumption].
Qed.
(** The loop stops at the first accepted output. *)
Lemma uniform_stops fuel step accept e stream d n :
  (n < fuel)%nat -> (exists v, accept d (snd (step (after n (fun e => fst (step e stream)) e) stream)) = Some v) ->
  uniform fuel w step accept e stream d <> Err OutOfFuel.
Proof.
  revert e fuel. induction n as [|n IH]; intros e [|fuel] Hn (v & Hv); try lia; cbn [uniform after] in *.
  - destruct (step e stream) as [e1 raw]. cbn [snd] in Hv. rewrite Hv. destruct (signed_ok _ _); discriminate.
  - destruct (step e stream) as [e1 raw] eqn:E. cbn [fst] in Hv. destruct (accept d raw); [destruct (signed_ok _ _); discriminate|].
    apply (IH e1 fuel); [lia|]. exists v. exact Hv.
Qed.
End Uniform.

(** Reals. *)
Lemma real64_range raw : word 64 raw -> (0 <= real64 raw)%Q /\ (real64 raw < 1)%Q /\ is_double (real64 raw).
Proof.
  intros H. unfold real64, wshr. rewrite Z.shiftr_div_pow2 by lia. unfold word in H.
  assert (0 <= raw / 2 ^ 11 < 2 ^ 53).
  { split; [apply Z.div_pos; lia|]. apply Z.div_lt_upper_bound; lia. }
  split; [|split].
  - unfold Qle. cbn [Qnum Qden]. lia.
  - unfold Qlt. cbn [Qnum Qden]. change (Z.pos (2 ^ 53)) with (2 ^ 53). lia.
  - exists (raw / 2 ^ 11), (-53). split; [lia|]. split; [lia|].
    change (Z.max 0 (-53)) with 0. change (Z.max 0 (- -53)) with 53. rewrite Z.pow_0_r, Z.mul_1_r.
    rewrite Qmake_Qdiv. reflexivity.
Qed.
Lemma real32_range raw : word 32 raw -> (0 <= real32 raw)%Q /\ (real32 raw < 1)%Q /\ is_double (real32 raw).
Proof.
  intros H. unfold real32. unfold word in H.
  split; [|split].
  - unfold Qle. cbn [Qnum Qden]. lia.
  - unfold Qlt. cbn [Qnum Qden]. change (Z.pos (2 ^ 32)) with (2 ^ 32). lia.
  - exists raw, (-32). split; [lia|]. split; [lia|].
    change (Z.max 0 (-32)) with 0. change (Z.max 0 (- -32)) with 32. rewrite Z.pow_0_r, Z.mul_1_r.
    rewrite Qmake_Qdiv. reflexivity.
Qed.

(** Shuffling. *)
Lemma aswap_zlen {A} (l : list A) i j l' : aswap l i j = Ok l' -> zlen l' = zlen l.
Proof. intros (x & y & _ & _ & H & _)%aswap_inv. exact H. Qed.
Lemma shuffle_ok {A S} (next : S -> S * Z) i s (l : list A) : (i < length l)%nat \/ i = O ->
  exists l' s', shuffle next i s l = Ok (l', s') /\ Permutation l l'.
Proof.
  revert s l. induction i as [|i IH]; intros s l Hi; cbn [shuffle]; [eauto|].
  destruct (next s) as [s1 raw]. destruct Hi as [Hi|]; [|discriminate].
  pose proof (Z.mod_pos_bound raw (Z.of_nat (Datatypes.S i) + 1) ltac:(lia)).
  destruct (aswap_some l (Z.of_nat (Datatypes.S i)) (raw mod (Z.of_nat (Datatypes.S i) + 1))) as [l1 E]; [unfold zlen; lia..|].
  rewrite E. cbn [bind]. pose proof (aswap_zlen _ _ _ _ E) as Z1. unfold zlen in Z1.
  destruct (IH s1 l1) as (l2 & s2 & E2 & P2); [left; lia|]. rewrite E2. exists l2, s2. split; [reflexivity|].
  rewrite <- P2. eapply aswap_Permutation; eauto.
Qed.
Lemma shuffle_all {A S} (next : S -> S * Z) s (l : list A) :
  exists l' s', shuffle next (length l - 1) s l = Ok (l', s') /\ Permutation l l'.
Proof. apply shuffle_ok. destruct l; cbn; [auto|left; lia]. Qed.

(** Every arrangement comes out for some sequence of raw outputs. *)
Definition feed (s : list Z) : list Z * Z := match s with [] => ([], 0) | x :: r => (r, x) end.
Lemma aget_mid {A} (a : list A) x q : aget (a ++ x :: q) (zlen a) = Ok x.
Proof. rewrite aget_app2 by lia. rewrite Z.sub_diag. reflexivity. Qed.
Lemma aset_mid {A} (a : list A) x q y : aset (a ++ x :: q) (zlen a) y = Ok (a ++ y :: q).
Proof.
  pose proof (zlen_nonneg a). pose proof (zlen_nonneg q). rewrite aset_ok by (rewrite zlen_app, zlen_cons; lia).
  f_equal. unfold zlen. rewrite Nat2Z.id. apply upd_app_cons.
Qed.
Lemma aswap_mid {A} (a b : list A) x y q :
  aswap (a ++ x :: b ++ y :: q) (zlen a + 1 + zlen b) (zlen a) = Ok (a ++ y :: b ++ x :: q).
Proof.
  unfold aswap.
  assert (E : zlen a + 1 + zlen b = zlen (a ++ x :: b)) by (rewrite zlen_app, zlen_cons; lia).
  rewrite E. replace (a ++ x :: b ++ y :: q) with ((a ++ x :: b) ++ y :: q) by now rewrite <- app_assoc.
  rewrite aget_mid. cbn [bind]. rewrite <- app_assoc. cbn [app]. rewrite aget_mid. cbn [bind].
  replace (a ++ x :: b ++ y :: q) with ((a ++ x :: b) ++ y :: q) by now rewrite <- app_assoc.
  rewrite aset_mid. cbn [bind]. rewrite <- app_assoc. cbn [app]. apply aset_mid.
Qed.
Lemma aswap_self {A} (a : list A) x q : aswap (a ++ x :: q) (zlen a) (zlen a) = Ok (a ++ x :: q).
Proof. unfold aswap. rewrite aget_mid. cbn [bind]. rewrite aset_mid. cbn [bind]. apply aset_mid. Qed.

Lemma shuffle_surj {A} (i : nat) : forall (p p' q : list A), length p = S i -> Permutation p p' ->
  exists raws, Forall (word 32) raws /\ shuffle feed i raws (p ++ q) = Ok (p' ++ q, []) \/ Z.of_nat i >= 2 ^ 32.
Proof.
  induction i as [|i IH]; intros p p' q Hl P.
  - destruct p as [|x [|? ?]]; try discriminate. apply Permutation_length_1_inv in P. subst p'. exists []. left. split; [constructor|reflexivity].
  - destruct (Z.lt_ge_cases (Z.of_nat (S i)) (2 ^ 32)) as [Hi|]; [|exists []; right; lia].
    assert (Hne : p' <> []) by (intros ->; apply Permutation_sym, Permutation_nil in P; subst p; discriminate).
    destruct (exists_last Hne) as (p1 & x & ->).
    assert (Hx : In x p) by (eapply Permutation_in; [symmetry; exact P|apply in_or_app; right; left; reflexivity]).
    apply in_split in Hx as (a & b & ->).
    rewrite app_length in Hl. cbn [length] in Hl.
    assert (Step : exists j p2, 0 <= j <= Z.of_nat (S i) /\ length p2 = S i /\ Permutation p2 p1 /\
        aswap ((a ++ x :: b) ++ q) (Z.of_nat (S i)) j = Ok (p2 ++ x :: q)).
    { assert (P' : Permutation (a ++ b) p1).
      { apply Permutation_app_inv with (l3 := p1) (l4 := []) (a := x) in P. now rewrite app_nil_r in P. }
      destruct b as [|y0 b0].
      - exists (Z.of_nat (S i)), a. cbn [length] in Hl. split; [lia|]. split; [lia|]. split; [now rewrite app_nil_r in P'|].
        rewrite <- app_assoc. cbn [app]. replace (Z.of_nat (S i)) with (zlen a) by (unfold zlen; lia). apply aswap_self.
      - assert (Hb : y0 :: b0 <> []) by discriminate. destruct (exists_last Hb) as (b1 & y & Eb). rewrite Eb in *. clear Eb Hb y0 b0.
        rewrite app_length in Hl. cbn [length] in Hl.
        exists (zlen a), (a ++ y :: b1). pose proof (zlen_nonneg a). split; [unfold zlen; lia|]. split; [rewrite app_length; cbn; lia|].
        split; [rewrite <- P'; apply Permutation_app_head, Permutation_cons_append|].
        replace ((a ++ x :: b1 ++ [y]) ++ q) with (a ++ x :: b1 ++ y :: q) by (rewrite <- !app_assoc; cbn [app]; now rewrite <- app_assoc).
        replace (Z.of_nat (S i)) with (zlen a + 1 + zlen b1) by (unfold zlen; lia). rewrite aswap_mid. f_equal. rewrite <- app_assoc. reflexivity. }
    destruct Step as (j & p2 & Hj & Hp2 & P2 & E).
    destruct (IH p2 p1 (x :: q) Hp2 P2) as (raws & [[HF HS]|]); [|exists []; right; lia].
    exists (j :: raws). left. split; [constructor; [unfold word; lia|exact HF]|].
    cbn [shuffle feed]. rewrite Z.mod_small by lia. rewrite E. cbn [bind]. rewrite HS. rewrite <- app_assoc. reflexivity.
Qed.
Lemma shuffle_reach {A} (l l' : list A) : zlen l <= 2 ^ 32 -> Permutation l l' ->
  exists raws, Forall (word 32) raws /\ shuffle feed (length l - 1) raws l = Ok (l', []).
Proof.
  intros Hl P. destruct l as [|x l].
  - apply Permutation_nil in P. subst. exists []. split; [constructor|reflexivity].
  - destruct (shuffle_surj (length l) (x :: l) l' [] eq_refl P) as (raws & [[HF HS]|H]).
    + exists raws. split; [auto|]. rewrite !app_nil_r in HS. cbn [length]. replace (S (length l) - 1)%nat with (length l) by lia. exact HS.
    + rewrite zlen_cons in Hl. unfold zlen in Hl. lia.
Qed.

(** The normal distribution. *)
Section NormalP.
Context {F : Type}.
Variable sample : Z -> Z -> option (F * F).
Lemma normals_limit n fuel e stream (d : normal_dist F) r :
  normals sample n fuel e stream d = Ok r -> has_next d <= 2 ^ 31 - 1 -> has_next d + Z.of_nat n <= 2 ^ 31 - 1.
Proof.
  revert e d r. induction n as [|n IH]; intros e d r; cbn [normals]; [intros; lia|].
  intros H Hd. apply bind_ok in H as ([[e1 d1] x] & H1 & H2). apply bind_ok in H2 as ([[e2 d2] l] & H2 & _).
  assert (D : has_next d1 = has_next d + 1 /\ has_next d <> 2 ^ 31 - 1).
  { unfold normal in H1. destruct (Z.eqb_spec (has_next d) (2 ^ 31 - 1)); [discriminate|].
    destruct (Z.odd (has_next d)).
    - destruct (next_val d); [|discriminate]. injection H1 as <- <- <-. auto.
    - apply bind_ok in H1 as ([e3 [a b]] & _ & H1). injection H1 as <- <- <-. auto. }
  apply IH in H2; lia.
Qed.
Lemma normals_pairs k fuel e stream (d : normal_dist F) e' l :
  Z.odd (has_next d) = false -> 0 <= has_next d -> has_next d + 2 * Z.of_nat k <= 2 ^ 31 - 2 ->
  pairs sample k fuel e stream = Ok (e', l) ->
  exists d', normals sample (2 * k) fuel e stream d = Ok (e', d', l) /\ has_next d' = has_next d + 2 * Z.of_nat k.
Proof.
  revert e d e' l. induction k as [|k IH]; intros e d e' l Ho H0 Hlt H; cbn [pairs] in H.
  - injection H as <- <-. exists d. split; [reflexivity|lia].
  - apply bind_ok in H as ([e1 [x y]] & H1 & H). apply bind_ok in H as ([e2 l2] & H2 & H). cbn [fst snd] in *. injection H as <- <-.
    replace (2 * S k)%nat with (S (S (2 * k))) by lia. cbn [normals]. unfold normal at 1.
    destruct (Z.eqb_spec (has_next d) (2 ^ 31 - 1)); [lia|]. rewrite Ho, H1. cbn [bind].
    unfold normal. cbn [has_next next_val]. destruct (Z.eqb_spec (has_next d + 1) (2 ^ 31 - 1)); [lia|].
    rewrite Z.odd_add, Ho. cbn [xorb Z.odd bind].
    destruct (IH e1 (mknormal (Some y) (has_next d + 1 + 1)) e2 l2) as (d' & E & Hd); cbn [has_next]; try lia; auto.
    + rewrite <- Z.add_assoc. change (1 + 1) with 2. now rewrite Z.odd_add, Ho.
    + rewrite E. cbn [bind]. exists d'. split; [reflexivity|]. cbn [has_next] in Hd. lia.
Qed.
End NormalP.
Lemma seed_state seed : word 64 seed -> state 64 (seed64 seed).
Proof.
  intros H. unfold seed64, seed_with, state. cbn [s0 s1 s2 s3].
  assert (X : forall x n, 0 <= n -> word 64 (Z.lxor (wmul 64 x n) (wshr (wmul 64 x n) 30)) /\ word 64 (Z.lxor (wmul 64 x n) (wshr (wmul 64 x n) 27)) /\ word 64 (Z.lxor (wmul 64 x n) (wshr (wmul 64 x n) 31))).
  { intros x n Hn. assert (word 64 (wmul 64 x n)) by (apply wrap_word; lia).
    split; [|split]; (apply lxor_word; [lia|assumption|]; apply shr_word; auto; lia). }
  split; [apply X; lia|]. split; [apply X; lia|]. split; [apply X; lia|]. exact H.
Qed.
