From Verif Require Import Base Utf8_Tab Utf8_Model Utf8_Spec Utf8_Proofs Utf8_Proofs2 Utf8_Proofs3 Utf8_Proofs4.

(** ** Case maps: only the code points in the ranges of the table change. *)
Definition zseq (lo n : Z) : list Z := map (fun i => lo + Z.of_nat i) (seq 0 (Z.to_nat n)).
Lemma in_zseq lo n x : lo <= x < lo + n -> In x (zseq lo n).
Proof. intros H. apply in_map_iff. exists (Z.to_nat (x - lo)). split; [lia|]. apply in_seq. lia. Qed.
Definition fold_dom (es : list (Z * Z * Z)) : list Z := flat_map (fun e => let '(c1, c2, _) := e in zseq c1 (c2 - c1 + 1)) es.
Definition upper_dom (es : list (Z * Z * Z)) : list Z := flat_map (fun e => let '(c1, c2, m2) := e in zseq (c1 + (m2 - c2)) (c2 - c1 + 1)) es.
Lemma fold_with_dom es c : fold_with es c <> c -> In c (fold_dom es).
Proof.
  induction es as [|[[c1 c2] m2] es IH]; cbn [fold_with]; [congruence|]. intros H. unfold fold_dom. cbn [flat_map]. apply in_or_app.
  destruct (Z.leb_spec c c2); [|right; now apply IH]. destruct (Z.ltb_spec c c1); [congruence|]. left. apply in_zseq. lia.
Qed.
Lemma upper_with_dom es c : upper_with es c <> c -> In c (upper_dom es).
Proof.
  induction es as [|[[c1 c2] m2] es IH]; cbn [upper_with]; [congruence|]. intros H. unfold upper_dom. cbn [flat_map]. apply in_or_app.
  destruct (Z.leb_spec c m2); [|right; now apply IH]. destruct (Z.ltb_spec c (c1 + (m2 - c2))); [congruence|]. left. apply in_zseq. lia.
Qed.
Definition enc_len (c : Z) : Z := if c <? 128 then 1 else if c <? 2048 then 2 else if c <? 65536 then 3 else 4.
Lemma enc_len_ok c : zlen (enc c) = enc_len c. Proof. unfold enc_len, enc. cases. Qed.
Definition scalarb (c : Z) : bool := (0 <=? c) && (c <? 0xD800) || (0xE000 <=? c) && (c <? 0x110000).
Definition good (f : Z -> Z) (c : Z) : bool :=
  let d := f c in scalarb d && (0 <? d) && (2 * enc_len d <=? 3 * enc_len c) && (f d =? d).
Lemma fold_good : forallb (good casefold) (fold_dom fold_entries) = true. Proof. vm_compute. reflexivity. Qed.
Lemma low_good : forallb (good tolower) (fold_dom up_entries) = true. Proof. vm_compute. reflexivity. Qed.
Lemma up_good : forallb (good toupper) (upper_dom low_entries) = true. Proof. vm_compute. reflexivity. Qed.
Lemma good_all f dom : forallb (good f) dom = true -> (forall c, f c <> c -> In c dom) -> forall c, scalar c ->
  scalar (f c) /\ 2 * zlen (enc (f c)) <= 3 * zlen (enc c) /\ f (f c) = f c /\ (0 < c -> 0 < f c).
Proof.
  intros HF HD c Hc. rewrite !enc_len_ok. destruct (Z.eq_dec (f c) c) as [E|E].
  - rewrite !E. assert (0 < enc_len c) by (unfold enc_len; cases). repeat split; auto; lia.
  - pose proof (proj1 (forallb_forall _ _) HF c (HD c E)) as G. unfold good in G. cbv zeta in G.
    apply andb_true_iff in G as [G G4]. apply andb_true_iff in G as [G G3]. apply andb_true_iff in G as [G1 G2].
    repeat split; [|lia|now apply Z.eqb_eq|lia]. unfold scalarb in G1. unfold scalar. apply orb_true_iff in G1 as [G1|G1]; apply andb_true_iff in G1; lia.
Qed.
Lemma casefold_good c : scalar c -> scalar (casefold c) /\ 2 * zlen (enc (casefold c)) <= 3 * zlen (enc c) /\ casefold (casefold c) = casefold c /\ (0 < c -> 0 < casefold c).
Proof. apply (good_all _ _ fold_good). intros x. apply fold_with_dom. Qed.
Lemma tolower_good c : scalar c -> scalar (tolower c) /\ 2 * zlen (enc (tolower c)) <= 3 * zlen (enc c) /\ tolower (tolower c) = tolower c /\ (0 < c -> 0 < tolower c).
Proof. apply (good_all _ _ low_good). intros x. apply fold_with_dom. Qed.
Lemma toupper_good c : scalar c -> scalar (toupper c) /\ 2 * zlen (enc (toupper c)) <= 3 * zlen (enc c) /\ toupper (toupper c) = toupper c /\ (0 < c -> 0 < toupper c).
Proof. apply (good_all _ _ up_good). intros x. apply upper_with_dom. Qed.
Lemma ascii_lower c : 0 <= c < 128 -> tolower c = (if (65 <=? c) && (c <=? 90) then c + 32 else c) /\ casefold c = tolower c /\
  toupper c = (if (97 <=? c) && (c <=? 122) then c - 32 else c).
Proof.
  intros H. assert (F : forallb (fun c => (tolower c =? (if (65 <=? c) && (c <=? 90) then c + 32 else c)) && (casefold c =? tolower c) &&
    (toupper c =? (if (97 <=? c) && (c <=? 122) then c - 32 else c))) (zseq 0 128) = true) by (vm_compute; reflexivity).
  pose proof (proj1 (forallb_forall _ _) F c (in_zseq 0 128 c H)) as G. cbv beta in G. apply andb_true_iff in G as [G G3]. apply andb_true_iff in G as [G1 G2].
  apply Z.eqb_eq in G1, G2, G3. exact (conj G1 (conj G2 G3)).
Qed.

(** ** Decoding in a zero-terminated string whose size is not known *)
Lemma nx_zero st : In st states -> nx st 0 = 0 \/ nx st 0 = 12.
Proof. cbn [states In]. intros [<-|[<-|[<-|[<-|[<-|[<-|[<-|[<-|[<-|[]]]]]]]]]]; cbn; auto. Qed.
Lemma dcp_loop_z m start end_ : forall fuel l st cp s, holds_at m s (l ++ [0]) -> (length l < fuel)%nat -> s + zlen l + 1 <= end_ -> Forall is_byte l -> In st states ->
  dcp_loop fuel m (st, cp) start s end_ = (let '(_, c, k) := dl st cp (s - start) (l ++ [0]) in Ok ((0, c), k)).
Proof.
  induction fuel as [|fuel IH]; intros l st cp s HA Hf He HB Hs; [lia|]. destruct l as [|b r].
  - cbn [app] in HA. cbn [dcp_loop dl app]. rewrite (at_head _ _ _ _ HA). cbn [bind]. rewrite decode_eq by (auto; split; lia). cbn [bind fst snd].
    destruct (nx_zero st Hs) as [E|E]; rewrite E; cbn [Z.eqb Pos.eqb negb andb]; [do 2 f_equal; lia|].
    unfold skip. replace (s + 1 - start) with (s - start + 1) by lia. reflexivity.
  - cbn [app] in HA. inversion HB as [|? ? Hb HB']; subst. cbn [dcp_loop dl app]. rewrite (at_head _ _ _ _ HA). cbn [bind].
    rewrite decode_eq by auto. cbn [bind fst snd]. destruct (Z.eqb_spec (nx st b) 0) as [E0|E0]; [rewrite E0; do 2 f_equal; lia|].
    rewrite zlen_cons in He. pose proof (zlen_nonneg r). destruct (Z.eqb_spec (nx st b) 12) as [E1|E1]; cbn [negb andb].
    { unfold skip. replace (s + 1 - start) with (s - start + 1) by lia. reflexivity. }
    destruct (Z.eqb_spec (s + 1) end_); [lia|]. cbn [negb]. cbn [length] in Hf. rewrite (IH r) by (auto using nx_state; try lia; now apply at_tail in HA).
    replace (s + 1 - start) with (s - start + 1) by lia. destruct r; reflexivity.
Qed.
Lemma decodes_total l : Forall is_byte l -> exists cs, decodes l cs.
Proof.
  intros H. destruct (decode_all_ok l (zlen l) (S (length l)) l 0 0) as (cs & _ & D); auto; try lia; [|eauto].
  exists [], []. rewrite app_nil_r. split; reflexivity.
Qed.
Lemma app_same_len {A} (a b c d : list A) : a ++ b = c ++ d -> zlen a = zlen c -> a = c /\ b = d.
Proof.
  unfold zlen. revert c. induction a as [|x a IH]; intros [|y c] E L; cbn in *; try lia; auto. injection E as -> E. destruct (IH c E) as [-> ->]; [lia|auto].
Qed.
(** One step in a zero-terminated string [b :: l]: no zero byte is consumed. *)
Lemma dcp_z m s b l cp end_ : zstring m s (b :: l) -> Forall is_byte (b :: l) -> s + zlen (b :: l) + 1 <= end_ ->
  exists c x r, decode_codepoint m (0, cp) s end_ = Ok ((0, c), zlen x) /\ b :: l = x ++ r /\ 0 < zlen x /\ 0 < c /\ scalar c /\
    zstring m (s + zlen x) r /\ (forall cs, decodes r cs -> decodes (b :: l) (c :: cs)).
Proof.
  intros [Hz HA] HB He. unfold decode_codepoint. pose proof (fuel_len _ _ _ HA) as HF. rewrite app_length in HF. cbn [length] in HF.
  rewrite (dcp_loop_z m s end_ _ (b :: l)) by (auto; cbn [length]; try lia; left; reflexivity). rewrite Z.sub_diag.
  assert (HB0 : Forall is_byte ((b :: l) ++ [0])) by (apply Forall_app; split; auto; repeat constructor; lia).
  destruct (dl 0 cp 0 ((b :: l) ++ [0])) as [[ok c] k] eqn:E. destruct ok.
  - destruct (dl_inv _ _ _ _ HB0 E) as (Hs & [r Er] & ->). destruct (Z.eq_dec c 0) as [->|Hn].
    { exfalso. rewrite enc_zero in Er. cbn [app] in Er. injection Er as -> _. apply Hz. now left. }
    destruct (enc_split c Hs Hn) as (b' & r' & Ee & Hr' & Hb' & _).
    assert (Hi : ~ In 0 (enc c)).
    { rewrite Ee. intros [->|H]; [contradiction|]. unfold conts in Hr'. rewrite Forall_forall in Hr'. specialize (Hr' 0 H). discriminate Hr'. }
    destruct (exists_last (l := r)) as (r0 & z & ->).
    { intros ->. rewrite app_nil_r in Er. apply Hi. rewrite <- Er. apply in_or_app. right. now left. }
    rewrite app_assoc in Er. apply app_inj_tail in Er as [Er <-].
    exists c, (enc c), r0. split; [reflexivity|]. split; [exact Er|]. pose proof (enc_zlen c Hs). split; [lia|]. split; [unfold scalar in Hs; lia|]. split; [auto|].
    split.
    + split; [intros H0; apply Hz; rewrite Er; apply in_or_app; now right|]. rewrite Er, <- app_assoc in HA. now apply at_app in HA as [_ HA].
    + intros cs D. rewrite Er. now apply dec_ok.
  - pose proof E as E'. apply dl_fail in E as (-> & j & Hj & -> & Hi); auto; [|discriminate]. rewrite Z.add_0_l. pose proof (skip_range j ltac:(lia)) as [K1 K2].
    rewrite zlen_app in Hj. change (zlen [0]) with 1 in Hj. rewrite zlen_cons in Hj. pose proof (zlen_nonneg l) as HL0.
    assert (HC : forall i y, 0 < i < skip j -> aget ((b :: l) ++ [0]) i = Ok y -> is_cont y = true) by (intros i y Hr G; apply (Hi i y); auto; lia).
    assert (KL : skip j <= 1 + zlen l).
    { destruct (Z.le_gt_cases (skip j) (1 + zlen l)) as [|G]; auto. exfalso.
      assert (skip j = 1 + zlen l + 1) as EE by lia. assert (G0 : aget ((b :: l) ++ [0]) (1 + zlen l) = Ok 0).
      { rewrite aget_app2 by (rewrite zlen_cons; lia). rewrite zlen_cons, Z.sub_diag. reflexivity. }
      specialize (HC _ _ ltac:(lia) G0). discriminate HC. }
    destruct (list_split_at (b :: l) (skip j)) as (x & r & Ex & Lx); [rewrite zlen_cons; lia|].
    exists 0xFFFD, x, r. rewrite Lx. split; [reflexivity|]. split; [auto|]. split; [lia|]. split; [lia|]. split; [unfold scalar; lia|]. split.
    + split; [intros H0; apply Hz; rewrite Ex; apply in_or_app; now right|]. rewrite Ex, <- app_assoc in HA. apply at_app in HA as [_ HA]. now rewrite Lx in HA.
    + intros cs D. rewrite Ex. destruct x as [|b' x]; [change (zlen []) with 0 in Lx; lia|]. cbn [app] in *. injection Ex as <- ->. apply dec_bad; auto.
      * intros c r' Hs EE. change (b :: (x ++ r) ++ [0]) with ((b :: x ++ r) ++ [0]) in E'. rewrite EE in E'. rewrite <- app_assoc, dl_enc in E' by auto. discriminate E'.
      * apply Forall_forall. intros y Hy. apply In_aget in Hy as (i & Ri & G). rewrite zlen_cons in Lx.
        assert (C : is_cont y = true).
        { apply (HC (i + 1) y); [lia|]. rewrite <- app_assoc. rewrite aget_cons. destruct (Z.eqb_spec (i + 1) 0); [lia|]. rewrite aget_app1 by lia. rewrite <- G. f_equal. lia. }
        rewrite cont_range in C; [lia|]. inversion HB as [|? ? _ HB']; subst. apply Forall_app in HB' as [HBx _]. rewrite Forall_forall in HBx. apply HBx. eapply aget_In; eauto.
Qed.

(** ** utf8_icmp on zero-terminated strings *)
Lemma cmp_sub a b : (a - b ?= 0) = (a ?= b).
Proof. destruct (Z.compare_spec a b), (Z.compare_spec (a - b) 0); try lia; reflexivity. Qed.
Lemma icmp_loop_ok schar m1 p1 m2 p2 N : zlen m1 < N -> zlen m2 < N -> 0 <= p1 -> 0 <= p2 -> forall fuel l1 l2 cp1 cp2 j1 j2,
  zstring m1 (p1 + j1) l1 -> zstring m2 (p2 + j2) l2 -> Forall is_byte l1 -> Forall is_byte l2 -> 0 <= j1 -> 0 <= j2 -> (length l1 + length l2 < fuel)%nat ->
  exists r ds1 ds2, icompare_loop fuel schar m1 p1 N m2 p2 N (0, cp1) (0, cp2) j1 j2 = Ok r /\ decodes l1 ds1 /\ decodes l2 ds2 /\
    (r = 0 <-> map casefold ds1 = map casefold ds2) /\
    (schar = false -> (r ?= 0) = lex (map casefold ds1) (map casefold ds2)).
Proof.
  intros HN1 HN2 Hp1 Hp2. induction fuel as [|fuel IH]; intros l1 l2 cp1 cp2 j1 j2 HZ1 HZ2 HB1 HB2 Hj1 Hj2 Hf; [lia|].
  pose proof (at_len _ _ _ (proj2 HZ1)) as L1. pose proof (at_len _ _ _ (proj2 HZ2)) as L2. rewrite zlen_app in L1, L2. change (zlen [0]) with 1 in *.
  pose proof (zlen_nonneg l1). pose proof (zlen_nonneg l2).
  cbn [icompare_loop]. destruct (Z.ltb_spec j1 N); [|lia]. destruct (Z.ltb_spec j2 N); [|lia]. cbn [andb].
  destruct l2 as [|b2 l2].
  - pose proof (proj2 HZ2) as A2. cbn [app] in A2. rewrite (at_head _ _ _ _ A2). cbn [bind Z.eqb].
    destruct l1 as [|b1 l1]; pose proof (proj2 HZ1) as A1; cbn [app] in A1; rewrite (at_head _ _ _ _ A1); cbn [bind].
    + exists (to_char schar 0), [], []. split; [reflexivity|]. split; [constructor|]. split; [constructor|]. unfold to_char. cbn [Z.leb Z.compare andb map lex]. rewrite andb_false_r. split; [tauto|reflexivity].
    + destruct (decodes_total (b1 :: l1) HB1) as [ds1 D1]. exists (to_char schar b1), ds1, []. split; [reflexivity|]. split; [auto|]. split; [constructor|].
      assert (exists x t, ds1 = x :: t) as (x & t & ->).
      { inversion D1; eauto. }
      assert (b1 <> 0) by (intros ->; apply (proj1 HZ1); now left). inversion HB1 as [|? ? Hb1 _]; subst. unfold is_byte in Hb1.
      unfold to_char. cbn [map lex]. split.
      * split; [|discriminate]. destruct schar, (Z.leb_spec 128 b1); cbn [andb]; lia.
      * intros ->. cbn [andb]. destruct (Z.compare_spec b1 0); try lia. reflexivity.
  - pose proof (proj2 HZ2) as A2. cbn [app] in A2. rewrite (at_head _ _ _ _ A2). cbn [bind].
    assert (b2 <> 0) by (intros ->; apply (proj1 HZ2); now left). destruct (Z.eqb_spec b2 0); [contradiction|].
    destruct (dcp_z m2 (p2 + j2) b2 l2 cp2 (p2 + N) HZ2 HB2 ltac:(lia)) as (c2 & x2 & r2 & E2 & S2 & Lx2 & Hc2 & Sc2 & Z2 & D2).
    assert (HBr2 : Forall is_byte r2) by (rewrite S2 in HB2; now apply Forall_app in HB2).
    destruct l1 as [|b1 l1].
    + assert (E1 : decode_codepoint m1 (0, cp1) (p1 + j1) (p1 + N) = Ok ((0, 0), 1)).
      { unfold decode_codepoint. rewrite (dcp_loop_z m1 (p1 + j1) (p1 + N) _ []) by (auto; try (cbn; lia); try (left; reflexivity); apply HZ1). rewrite Z.sub_diag. reflexivity. }
      rewrite E1. cbn [bind fst snd]. rewrite E2. cbn [bind fst snd]. change (casefold 0) with 0.
      pose proof (casefold_good c2 Sc2) as (_ & _ & _ & G). specialize (G Hc2). destruct (Z.eqb_spec (0 - casefold c2) 0); [lia|]. cbn [negb].
      destruct (decodes_total r2 HBr2) as [ds2 Dr]. exists (0 - casefold c2), [], (c2 :: ds2). split; [reflexivity|]. split; [constructor|]. split; [auto|].
      cbn [map lex]. split; [split; [lia|discriminate]|]. intros _. destruct (Z.compare_spec (0 - casefold c2) 0); try lia. reflexivity.
    + destruct (dcp_z m1 (p1 + j1) b1 l1 cp1 (p1 + N) HZ1 HB1 ltac:(lia)) as (c1 & x1 & r1 & E1 & S1 & Lx1 & Hc1 & Sc1 & Z1 & D1).
      assert (HBr1 : Forall is_byte r1) by (rewrite S1 in HB1; now apply Forall_app in HB1).
      rewrite E1. cbn [bind fst snd]. rewrite E2. cbn [bind fst snd].
      destruct (Z.eqb_spec (casefold c1 - casefold c2) 0) as [E|E]; cbn [negb].
      * replace (p1 + j1 + zlen x1) with (p1 + (j1 + zlen x1)) in Z1 by lia. replace (p2 + j2 + zlen x2) with (p2 + (j2 + zlen x2)) in Z2 by lia.
        destruct (IH r1 r2 c1 c2 (j1 + zlen x1) (j2 + zlen x2)) as (r & ds1 & ds2 & ER & Dr1 & Dr2 & R0 & RS); auto; try lia.
        { apply (f_equal (@length Z)) in S1, S2. rewrite app_length in S1, S2. unfold zlen in Lx1, Lx2. lia. }
        exists r, (c1 :: ds1), (c2 :: ds2). split; [exact ER|]. split; [auto|]. split; [auto|]. cbn [map lex]. replace (casefold c1) with (casefold c2) by lia. rewrite Z.compare_refl. split; auto.
        rewrite R0. split; [congruence|]. intros HE. now injection HE.
      * destruct (decodes_total r1 HBr1) as [ds1 Dr1]. destruct (decodes_total r2 HBr2) as [ds2 Dr2].
        exists (casefold c1 - casefold c2), (c1 :: ds1), (c2 :: ds2). split; [reflexivity|]. split; [auto|]. split; [auto|]. cbn [map lex]. split.
        -- split; [lia|]. intros HE. injection HE. lia.
        -- intros _. rewrite cmp_sub. destruct (Z.compare_spec (casefold c1) (casefold c2)); auto. lia.
Qed.
Lemma icmp_ok schar m1 p1 l1 m2 p2 l2 : zstring m1 p1 l1 -> zstring m2 p2 l2 -> Forall is_byte l1 -> Forall is_byte l2 -> zlen m1 < 2 ^ 63 - 1 -> zlen m2 < 2 ^ 63 - 1 ->
  exists r ds1 ds2, icmp schar m1 p1 m2 p2 = Ok r /\ decodes l1 ds1 /\ decodes l2 ds2 /\
    (r = 0 <-> map casefold ds1 = map casefold ds2) /\
    (schar = false -> (r ?= 0) = lex (map casefold ds1) (map casefold ds2)).
Proof.
  intros Z1 Z2 B1 B2 N1 N2. unfold icmp, icompare. pose proof (at_len _ _ _ (proj2 Z1)). pose proof (at_len _ _ _ (proj2 Z2)).
  pose proof (fuel_len _ _ _ (proj2 Z1)) as F1. pose proof (fuel_len _ _ _ (proj2 Z2)) as F2. rewrite app_length in F1, F2.
  apply icmp_loop_ok; auto; try lia; now rewrite Z.add_0_r.
Qed.
