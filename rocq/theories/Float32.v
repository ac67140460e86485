(** The two float computations of hmap.h, in exact integer arithmetic.

    [(isize)((float)n * f)] and [(isize)((float)n / f)] with a binary32 constant f are
    computed in IEEE single precision, round to nearest even (FLT_EVAL_METHOD = 0); no
    overflow to infinity can occur for 64-bit n. *)
From Verif Require Import Base.

(** n/d rounded to a 24-bit significand, as a fraction (num, den); n >= 0, d > 0. *)
Definition rnd_exp (n d : Z) : Z :=
  let e0 := Z.log2 n - Z.log2 d - 23 in
  if (n * 2 ^ Z.max 0 (- e0)) / (d * 2 ^ Z.max 0 e0) <? 2 ^ 23 then e0 - 1 else e0.
Definition rnd24 (n d : Z) : Z * Z :=
  if n =? 0 then (0, 1) else
  let e := rnd_exp n d in
  let n' := n * 2 ^ Z.max 0 (- e) in
  let d' := d * 2 ^ Z.max 0 e in
  let q := n' / d' in
  let r := n' mod d' in
  let m := if (2 * r >? d') || ((2 * r =? d') && Z.odd q) then q + 1 else q in
  (m * 2 ^ Z.max 0 e, 2 ^ Z.max 0 (- e)).

(** (float)n, for an integer n >= 0. *)
Definition f32_of_int (n : Z) : Z * Z := rnd24 n 1.
(** Single precision product and quotient. *)
Definition f32_mul (x y : Z * Z) : Z * Z := rnd24 (fst x * fst y) (snd x * snd y).
Definition f32_div (x y : Z * Z) : Z * Z := rnd24 (fst x * snd y) (snd x * fst y).
(** Conversion to an integer truncates. *)
Definition f32_trunc (x : Z * Z) : Z := fst x / snd x.

(** The constant 0.80f. *)
Definition f32_080 : Z * Z := rnd24 80 100.

Example f32_080_val : f32_080 = (13421773, 16777216).
Proof. reflexivity. Qed.
Example f32_ex1 : f32_trunc (f32_div (f32_of_int 100) f32_080) = 125 /\ f32_trunc (f32_mul (f32_of_int 16) f32_080) = 12.
Proof. split; reflexivity. Qed.
Example f32_ex2 : f32_of_int 16777217 = (16777216, 1) /\ f32_of_int 16777219 = (16777220, 1).
Proof. split; reflexivity. Qed.

Lemma rnd_exp_pos n d : 0 < n -> 0 < d ->
  let e := rnd_exp n d in
  0 < d * 2 ^ Z.max 0 e /\ 2 ^ 23 <= (n * 2 ^ Z.max 0 (- e)) / (d * 2 ^ Z.max 0 e).
Proof.
  intros Hn Hd. cbn zeta.
  assert (P : forall z, 0 < 2 ^ Z.max 0 z) by (intros; apply Z.pow_pos_nonneg; lia).
  assert (Q : forall z, 0 < d * 2 ^ Z.max 0 z) by (intros z; specialize (P z); nia).
  split; [apply Q|].
  unfold rnd_exp. set (e0 := Z.log2 n - Z.log2 d - 23).
  destruct (Z.ltb_spec ((n * 2 ^ Z.max 0 (- e0)) / (d * 2 ^ Z.max 0 e0)) (2 ^ 23)); [|assumption].
  (* n >= 2^log2 n, d < 2^(log2 d + 1): n/d > 2^(e0+22) *)
  pose proof (Z.log2_spec n Hn) as [Ln _]. pose proof (Z.log2_spec d Hd) as [_ Ld].
  pose proof (Z.log2_nonneg n). pose proof (Z.log2_nonneg d).
  apply Z.div_le_lower_bound; [apply Q|].
  set (e := e0 - 1).
  (* d * 2^max(0,e) * 2^23 <= 2^(ld+1+max(0,e)+23) = 2^(ln + max 0 (-e)) *)
  assert (E : Z.succ (Z.log2 d) + Z.max 0 e + 23 = Z.log2 n + Z.max 0 (- e)) by (unfold e, e0; lia).
  apply Z.le_trans with (2 ^ (Z.succ (Z.log2 d) + Z.max 0 e + 23)).
  - rewrite !Z.pow_add_r by lia. apply Z.mul_le_mono_nonneg_r; [lia|].
    apply Z.mul_le_mono_nonneg_r; [specialize (P e); lia|lia].
  - rewrite E, Z.pow_add_r by lia. apply Z.mul_le_mono_nonneg_r; [specialize (P (- e)); lia|lia].
Qed.

(** Rounding changes a value by less than one part in 2^23. *)
Lemma rnd24_close n d : 0 <= n -> 0 < d ->
  0 < snd (rnd24 n d) /\ 0 <= fst (rnd24 n d) /\
  n * snd (rnd24 n d) * 2 ^ 23 <= fst (rnd24 n d) * d * (2 ^ 23 + 1) /\
  fst (rnd24 n d) * d * 2 ^ 23 <= n * snd (rnd24 n d) * (2 ^ 23 + 1).
Proof.
  intros Hn Hd. unfold rnd24. destruct (Z.eqb_spec n 0) as [->|Hn0]; [cbn; lia|].
  destruct (rnd_exp_pos n d) as [Q L]; try lia.
  set (e := rnd_exp n d) in *.
  assert (P : forall z, 0 < 2 ^ Z.max 0 z) by (intros; apply Z.pow_pos_nonneg; lia).
  set (a := 2 ^ Z.max 0 (- e)) in *. set (b := 2 ^ Z.max 0 e) in *.
  assert (Pa : 0 < a) by apply P. assert (Pb : 0 < b) by apply P.
  pose proof (Z.div_mod (n * a) (d * b) ltac:(lia)) as DM.
  pose proof (Z.mod_pos_bound (n * a) (d * b) Q) as MB.
  set (q := (n * a) / (d * b)) in *. set (r := (n * a) mod (d * b)) in *.
  cbn [fst snd]. match goal with |- context [if ?c then q + 1 else q] => set (m := if c then q + 1 else q) end.
  assert (Hm : q <= m <= q + 1) by (unfold m; destruct (_ || _); lia).
  split; [exact Pa|]. split; [nia|]. split.
  2:{ assert ((d * b) * q <= n * a) by lia.
      assert (m * 2 ^ 23 <= q * (2 ^ 23 + 1)) by lia.
      assert ((d * b) * (m * 2 ^ 23) <= (d * b) * (q * (2 ^ 23 + 1))) by nia.
      replace (m * b * d * 2 ^ 23) with ((d * b) * (m * 2 ^ 23)) by ring. nia. }
  assert (n * a < (d * b) * (q + 1)) by lia.
  assert ((q + 1) * 2 ^ 23 <= m * (2 ^ 23 + 1)) by lia.
  assert (n * a * 2 ^ 23 <= (d * b) * ((q + 1) * 2 ^ 23)) by nia.
  assert ((d * b) * ((q + 1) * 2 ^ 23) <= (d * b) * (m * (2 ^ 23 + 1))) by nia.
  replace (m * b * d * (2 ^ 23 + 1)) with ((d * b) * (m * (2 ^ 23 + 1))) by ring. lia.
Qed.

(** Dividing by 0.80f, then truncating: the result is between 1/0.81 and 1.26 times the
    dividend (up to the truncation). *)
Lemma f32_div080_bounds c : 0 <= c ->
  let r := f32_trunc (f32_div (f32_of_int c) f32_080) in
  c <= r /\ 100 * c <= 81 * (r + 1) /\ 100 * r <= 126 * c.
Proof.
  intros Hc. rewrite f32_080_val. unfold f32_trunc, f32_div, f32_of_int.
  destruct (rnd24_close c 1) as (D1 & N1 & L1 & U1); try lia.
  destruct (rnd24 c 1) as [a b]. cbn [fst snd] in *.
  destruct (rnd24_close (a * 16777216) (b * 13421773)) as (D2 & N2 & L2 & U2); try lia.
  destruct (rnd24 (a * 16777216) (b * 13421773)) as [x y]. cbn [fst snd] in *.
  cbn zeta.
  change (2 ^ 23) with 8388608 in *.
  (* c*b*2^23 <= a*(2^23+1);  a*16777216*y*2^23 <= x*b*13421773*(2^23+1) *)
  assert (A1 : c * b * 8388608 * y <= a * 8388609 * y) by nia.
  assert (A2 : c * b * 8388608 * y * (16777216 * 8388608) <= x * b * 13421773 * 8388609 * 8388609) by nia.
  assert (A3 : c * y * (8388608 * 16777216 * 8388608) <= x * (13421773 * 8388609 * 8388609)).
  { apply Z.mul_le_mono_pos_l with b; [lia|]. nia. }
  assert (B1 : a * 8388608 * y <= c * b * 8388609 * y) by nia.
  assert (B2 : x * b * (13421773 * 8388608 * 8388608) <= c * b * y * (16777216 * 8388609 * 8388609)) by nia.
  assert (B3 : x * (13421773 * 8388608 * 8388608) <= c * y * (16777216 * 8388609 * 8388609)).
  { apply Z.mul_le_mono_pos_l with b; [lia|]. nia. }
  assert (Hcy : 0 <= c * y) by nia.
  pose proof (Z.div_mod x y ltac:(lia)) as DM. pose proof (Z.mod_pos_bound x y D2) as MB.
  assert (0 <= x / y) by (apply Z.div_pos; lia).
  set (r := x / y) in *.
  split; [|split].
  - apply Z.lt_succ_r. apply Z.mul_lt_mono_pos_l with y; [lia|]. nia.
  - apply Z.mul_le_mono_pos_l with y; [lia|]. nia.
  - apply Z.mul_le_mono_pos_l with y; [lia|]. nia.
Qed.

(** A load limit is at most 81% of the bucket count. *)
Lemma f32_mul080_bounds c : 0 <= c -> 
  let r := f32_trunc (f32_mul (f32_of_int c) f32_080) in 0 <= r /\ 100 * r <= 81 * c.
Proof.
  intros Hc. rewrite f32_080_val. unfold f32_trunc, f32_mul, f32_of_int.
  destruct (rnd24_close c 1) as (D1 & N1 & L1 & U1); try lia.
  destruct (rnd24 c 1) as [a b]. cbn [fst snd] in *.
  destruct (rnd24_close (a * 13421773) (b * 16777216)) as (D2 & N2 & L2 & U2); try lia.
  destruct (rnd24 (a * 13421773) (b * 16777216)) as [x y]. cbn [fst snd] in *.
  cbn zeta. split; [apply Z.div_pos; lia|].
  change (2 ^ 23) with 8388608 in *.
  assert (A1 : a * 8388608 * y <= c * b * 8388609 * y) by nia.
  assert (A2 : x * b * (16777216 * 8388608 * 8388608) <= c * b * y * (13421773 * 8388609 * 8388609)) by nia.
  assert (A3 : x * (16777216 * 8388608 * 8388608) <= c * y * (13421773 * 8388609 * 8388609)).
  { apply Z.mul_le_mono_pos_l with b; [lia|]. nia. }
  assert (0 <= c * y) by nia.
  pose proof (Z.div_mod x y ltac:(lia)) as DM. pose proof (Z.mod_pos_bound x y D2) as MB.
  assert (0 <= x / y) by (apply Z.div_pos; lia).
  set (r := x / y) in *. apply Z.mul_le_mono_pos_l with y; [lia|]. nia.
Qed.
