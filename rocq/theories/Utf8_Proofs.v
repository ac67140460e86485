From Verif Require Import Base Utf8_Tab Utf8_Model Utf8_Spec.
Ltac Zify.zify_post_hook ::= Z.to_euclidean_division_equations.

(** ** The decoder automaton in arithmetic *)
Definition lead (b : Z) : Z :=
  if b <? 0x80 then 0 else if b <? 0xC2 then 12 else if b <? 0xE0 then 24 else
  if b =? 0xE0 then 48 else if b =? 0xED then 60 else if b <? 0xF0 then 36 else
  if b =? 0xF0 then 72 else if b <? 0xF4 then 84 else if b =? 0xF4 then 96 else 12.
Definition rng (lo hi b ok : Z) : Z := if (lo <=? b) && (b <=? hi) then ok else 12.
Definition nx (st b : Z) : Z :=
  if st =? 0 then lead b else
  if st =? 24 then rng 0x80 0xBF b 0 else
  if st =? 36 then rng 0x80 0xBF b 24 else
  if st =? 48 then rng 0xA0 0xBF b 24 else
  if st =? 60 then rng 0x80 0x9F b 24 else
  if st =? 72 then rng 0x90 0xBF b 36 else
  if st =? 84 then rng 0x80 0xBF b 36 else
  if st =? 96 then rng 0x80 0x8F b 36 else 12.
Definition cp0 (b : Z) : Z :=
  if b <? 0x80 then b else if b <? 0xC0 then Z.land (Z.shiftr 0xff (nth (Z.to_nat b) dtab 0)) b
  else if b <? 0xC2 then Z.land (Z.shiftr 0xff 8) b else if b <? 0xE0 then b - 0xC0 else
  if b <? 0xF0 then b - 0xE0 else if b <? 0xF5 then b - 0xF0 else Z.land (Z.shiftr 0xff 8) b.
Definition ncp (st cp b : Z) : Z := if st =? 0 then cp0 b else cp * 64 mod 2 ^ 32 + b mod 64.
Definition states : list Z := [0; 12; 24; 36; 48; 60; 72; 84; 96].
Definition bytes : list Z := map Z.of_nat (seq 0 256).
Lemma in_bytes b : is_byte b -> In b bytes.
Proof. intros [H1 H2]. unfold bytes. apply in_map_iff. exists (Z.to_nat b). split; [lia|]. apply in_seq. lia. Qed.

Definition check_tab : bool :=
  forallb (fun b => match aget dtab b with
    | Ok t => (Z.land (Z.shiftr 0xff t) b =? cp0 b) &&
              forallb (fun st => match aget dtab (256 + st + t) with Ok s => s =? nx st b | Err _ => false end) states
    | Err _ => false end) bytes.
Lemma check_tab_ok : check_tab = true.
Proof. vm_compute. reflexivity. Qed.
Lemma tab b st : is_byte b -> In st states -> exists t, aget dtab b = Ok t /\
  Z.land (Z.shiftr 0xff t) b = cp0 b /\ aget dtab (256 + st + t) = Ok (nx st b).
Proof.
  intros Hb Hs. pose proof (proj1 (forallb_forall _ _) check_tab_ok b (in_bytes b Hb)) as H. cbv beta in H.
  destruct (aget dtab b) as [t|]; [|discriminate]. exists t. apply andb_true_iff in H as [H1 H2].
  split; [reflexivity|]. split; [lia|]. pose proof (proj1 (forallb_forall _ _) H2 st Hs) as H3. cbv beta in H3.
  destruct (aget dtab (256 + st + t)); [|discriminate]. f_equal. lia.
Qed.
Lemma lor_add a b : Z.land a b = 0 -> Z.lor a b = a + b.
Proof. intros H. rewrite Z.add_nocarry_lxor by auto. now rewrite Z.lxor_lor. Qed.
Lemma land_low_high a k x : 0 <= k -> 0 <= a < 2 ^ k -> Z.land a (x * 2 ^ k) = 0.
Proof.
  intros Hk Ha. apply Z.bits_inj'. intros i Hi. rewrite Z.land_spec, Z.bits_0, <- Z.shiftl_mul_pow2 by lia.
  destruct (Z.lt_ge_cases i k); [rewrite Z.shiftl_spec_low by lia; apply andb_false_r|].
  assert (T : Z.testbit a i = false); [|now rewrite T].
  rewrite <- (Z.mod_small a (2 ^ k)) by lia. apply Z.mod_pow2_bits_high. lia.
Qed.
Lemma lor_low_high a k x : 0 <= k -> 0 <= a < 2 ^ k -> Z.lor a (x * 2 ^ k) = a + x * 2 ^ k.
Proof. intros. apply lor_add. now apply land_low_high. Qed.
Lemma decode_eq st cp b : is_byte b -> In st states -> decode (st, cp) b = Ok (nx st b, ncp st cp b).
Proof.
  intros Hb Hs. destruct (tab b st Hb Hs) as (t & E1 & E2 & E3). unfold decode, ncp. cbn [fst snd]. rewrite E1. cbn [bind].
  rewrite E3. cbn [bind]. destruct (st =? 0); [now rewrite E2|]. f_equal. f_equal.
  change 0x3f with (Z.ones 6). rewrite Z.land_ones, Z.shiftl_mul_pow2 by lia. change (2 ^ 32) with (2 ^ 26 * 2 ^ 6).
  rewrite Z.mul_mod_distr_r by lia. rewrite lor_low_high by (change (2 ^ 6) with 64; lia). change (2 ^ 6) with 64. lia.
Qed.
Lemma nx_state st b : In st states -> In (nx st b) states.
Proof.
  intros H. cbn [states In] in H. unfold states.
  destruct H as [H|[H|[H|[H|[H|[H|[H|[H|[H|[]]]]]]]]]]; subst st; unfold nx; cbn [Z.eqb Pos.eqb]; unfold lead, rng;
  repeat match goal with |- context[if ?x then _ else _] => destruct x end; cbn; tauto.
Qed.
Lemma nx_12 b : nx 12 b = 12.
Proof. reflexivity. Qed.

(** ** Running the automaton on a list *)
Definition run (st : Z) (l : list Z) : Z := fold_left nx l st.
Lemma run_12 l : run 12 l = 12.
Proof. induction l as [|b l IH]; [reflexivity|exact IH]. Qed.
Lemma run_app st l r : run st (l ++ r) = run (run st l) r.
Proof. apply fold_left_app. Qed.
Ltac cases := repeat match goal with
  | |- context[?a <? ?b] => destruct (Z.ltb_spec a b)
  | |- context[?a <=? ?b] => destruct (Z.leb_spec a b)
  | |- context[?a =? ?b] => destruct (Z.eqb_spec a b)
  end; cbn [andb orb negb]; try reflexivity; try lia.

Lemma enc_bytes c : scalar c -> Forall is_byte (enc c).
Proof. unfold scalar, enc, is_byte. intros H. cases; repeat constructor; lia. Qed.
Lemma enc_zlen c : scalar c -> 1 <= zlen (enc c) <= 4.
Proof. unfold enc. intros H. cases; cbn; lia. Qed.
Lemma enc_inj_head c : scalar c -> exists b r, enc c = b :: r /\ Forall (fun x => is_cont x = true) r /\ is_cont b = false /\ is_byte b.
Proof.
  assert (C : forall x, 0 <= x < 64 -> is_cont (0x80 + x) = true).
  { intros x Hx. unfold is_cont. apply Z.eqb_eq.
    assert (F : forallb (fun b => Z.land (0x80 + b) 0xC0 =? 0x80) (map Z.of_nat (seq 0 64)) = true) by reflexivity.
    pose proof (proj1 (forallb_forall _ _) F x) as G. cbv beta in G. apply Z.eqb_eq. apply G. apply in_map_iff. exists (Z.to_nat x). split; [lia|]. apply in_seq. lia. }
  assert (D : forall b, is_byte b -> b < 0x80 \/ 0xC0 <= b -> is_cont b = false).
  { intros b Hb Hr. assert (F : forallb (fun b => Bool.eqb (is_cont b) ((0x80 <=? b) && (b <? 0xC0))) bytes = true) by (vm_compute; reflexivity).
    pose proof (proj1 (forallb_forall _ _) F b (in_bytes b Hb)) as G. cbv beta in G. apply Bool.eqb_prop in G. rewrite G. unfold is_byte in *. cases. }
  intros H. unfold enc, scalar, is_byte in *. cases; eexists _, _; (split; [reflexivity|]); (split; [repeat constructor; apply C; lia|]);
  (split; [apply D; unfold is_byte; lia|lia]).
Qed.
Lemma cont_range b : is_byte b -> is_cont b = (0x80 <=? b) && (b <? 0xC0).
Proof.
  intros Hb. assert (F : forallb (fun b => Bool.eqb (is_cont b) ((0x80 <=? b) && (b <? 0xC0))) bytes = true) by (vm_compute; reflexivity).
  pose proof (proj1 (forallb_forall _ _) F b (in_bytes b Hb)) as G. cbv beta in G. now apply Bool.eqb_prop in G.
Qed.

Lemma encode_ok c : scalar c -> encode c = enc c.
Proof.
  intros H. assert (M : forall x k y, 0 <= k -> Z.lor (Z.land x (Z.ones k)) (y * 2 ^ k) = x mod 2 ^ k + y * 2 ^ k).
  { intros x k y Hk. rewrite Z.land_ones by auto. apply lor_low_high; auto. apply Z.mod_pos_bound. apply Z.pow_pos_nonneg; lia. }
  pose proof (fun x => M x 6 2 ltac:(lia)) as M6. pose proof (fun x => M x 5 6 ltac:(lia)) as M5. pose proof (fun x => M x 4 14 ltac:(lia)) as M4. pose proof (fun x => M x 3 30 ltac:(lia)) as M3.
  change (Z.ones 6) with 0x3F in M6. change (Z.ones 5) with 0x1F in M5. change (Z.ones 4) with 0x0F in M4. change (Z.ones 3) with 0x07 in M3.
  change (2 * 2 ^ 6) with 0x80 in M6. change (6 * 2 ^ 5) with 0xC0 in M5. change (14 * 2 ^ 4) with 0xE0 in M4. change (30 * 2 ^ 3) with 0xF0 in M3.
  unfold encode, enc, scalar in *. rewrite !M6, !M5, !M4, !M3, !Z.shiftr_div_pow2 by lia.
  change (2 ^ 6) with 64. change (2 ^ 12) with 4096. change (2 ^ 18) with 262144. change (2 ^ 5) with 32. change (2 ^ 4) with 16. change (2 ^ 3) with 8.
  cases; repeat (f_equal; try lia).
Qed.
Lemma encode_other c : 0 <= c -> ~ scalar c -> encode c = [].
Proof. intros H0 H. unfold encode, scalar in *. cases. Qed.
