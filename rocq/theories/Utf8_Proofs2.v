From Verif Require Import Base Utf8_Tab Utf8_Model Utf8_Spec Utf8_Proofs.
Ltac Zify.zify_post_hook ::= Z.to_euclidean_division_equations.

Lemma nx0 b : nx 0 b = lead b. Proof. reflexivity. Qed.
Lemma nx24 b : nx 24 b = rng 0x80 0xBF b 0. Proof. reflexivity. Qed.
Lemma nx36 b : nx 36 b = rng 0x80 0xBF b 24. Proof. reflexivity. Qed.
Lemma nx48 b : nx 48 b = rng 0xA0 0xBF b 24. Proof. reflexivity. Qed.
Lemma nx60 b : nx 60 b = rng 0x80 0x9F b 24. Proof. reflexivity. Qed.
Lemma nx72 b : nx 72 b = rng 0x90 0xBF b 36. Proof. reflexivity. Qed.
Lemma nx84 b : nx 84 b = rng 0x80 0xBF b 36. Proof. reflexivity. Qed.
Lemma nx96 b : nx 96 b = rng 0x80 0x8F b 36. Proof. reflexivity. Qed.
Lemma rng_in lo hi b ok : lo <= b <= hi -> rng lo hi b ok = ok.
Proof. unfold rng. intros. cases. Qed.

(** The lead byte, by the size of the code point. *)
Lemma lead1 b : 0 <= b < 128 -> lead b = 0. Proof. unfold lead. cases. Qed.
Lemma lead2 b : 0xC2 <= b < 0xE0 -> lead b = 24. Proof. unfold lead. cases. Qed.
Definition st3 (b : Z) : Z := if b =? 0xE0 then 48 else if b =? 0xED then 60 else 36.
Lemma lead3 b : 0xE0 <= b < 0xF0 -> lead b = st3 b. Proof. unfold lead, st3. cases. Qed.
Definition st4 (b : Z) : Z := if b =? 0xF0 then 72 else if b =? 0xF4 then 96 else 84.
Lemma lead4 b : 0xF0 <= b < 0xF5 -> lead b = st4 b. Proof. unfold lead, st4. cases. Qed.
Lemma lead_bad b : is_byte b -> 0x80 <= b < 0xC2 \/ 0xF5 <= b -> lead b = 12. Proof. unfold lead, is_byte. cases. Qed.
Lemma lead_cases b : is_byte b ->
  0 <= b < 128 /\ lead b = 0 \/ 0xC2 <= b < 0xE0 /\ lead b = 24 \/ 0xE0 <= b < 0xF0 /\ lead b = st3 b \/
  0xF0 <= b < 0xF5 /\ lead b = st4 b \/ lead b = 12.
Proof.
  intros Hb. unfold is_byte in Hb. destruct (Z.lt_ge_cases b 128); [left; split; [lia|now apply lead1]|right].
  destruct (Z.lt_ge_cases b 0xC2); [do 3 right; apply lead_bad; unfold is_byte; lia|].
  destruct (Z.lt_ge_cases b 0xE0); [left; split; [lia|now apply lead2]|right].
  destruct (Z.lt_ge_cases b 0xF0); [left; split; [lia|now apply lead3]|right].
  destruct (Z.lt_ge_cases b 0xF5); [left; split; [lia|now apply lead4]|right]. apply lead_bad; unfold is_byte; lia.
Qed.
(** The byte after a three- or four-byte lead. *)
Definition lo3 (b : Z) : Z := if b =? 0xE0 then 0xA0 else 0x80.
Definition hi3 (b : Z) : Z := if b =? 0xED then 0x9F else 0xBF.
Lemma nx_st3 b b1 : nx (st3 b) b1 = rng (lo3 b) (hi3 b) b1 24.
Proof. unfold st3, lo3, hi3. cases. Qed.
Definition lo4 (b : Z) : Z := if b =? 0xF0 then 0x90 else 0x80.
Definition hi4 (b : Z) : Z := if b =? 0xF4 then 0x8F else 0xBF.
Lemma nx_st4 b b1 : nx (st4 b) b1 = rng (lo4 b) (hi4 b) b1 36.
Proof. unfold st4, lo4, hi4. cases. Qed.
Lemma st3_ne b : st3 b <> 0 /\ st3 b <> 12. Proof. unfold st3. cases. Qed.
Lemma st4_ne b : st4 b <> 0 /\ st4 b <> 12. Proof. unfold st4. cases. Qed.

(** Shape of the encodings. *)
Inductive shape (c : Z) : Prop :=
| sh1 : 0 <= c < 128 -> enc c = [c] -> shape c
| sh2 b b1 : enc c = [b; b1] -> 0xC2 <= b < 0xE0 -> 0x80 <= b1 <= 0xBF -> c = (b - 0xC0) * 64 + (b1 - 0x80) -> shape c
| sh3 b b1 b2 : enc c = [b; b1; b2] -> 0xE0 <= b < 0xF0 -> lo3 b <= b1 <= hi3 b -> 0x80 <= b1 <= 0xBF -> 0x80 <= b2 <= 0xBF ->
    c = ((b - 0xE0) * 64 + (b1 - 0x80)) * 64 + (b2 - 0x80) -> shape c
| sh4 b b1 b2 b3 : enc c = [b; b1; b2; b3] -> 0xF0 <= b < 0xF5 -> lo4 b <= b1 <= hi4 b -> 0x80 <= b1 <= 0xBF -> 0x80 <= b2 <= 0xBF -> 0x80 <= b3 <= 0xBF ->
    c = (((b - 0xF0) * 64 + (b1 - 0x80)) * 64 + (b2 - 0x80)) * 64 + (b3 - 0x80) -> shape c.
Lemma shape_of c : scalar c -> shape c.
Proof.
  unfold scalar. intros H. destruct (Z.lt_ge_cases c 128); [apply sh1; [lia|]; unfold enc; cases|].
  destruct (Z.lt_ge_cases c 2048); [eapply sh2; [unfold enc; cases|lia..]|].
  destruct (Z.lt_ge_cases c 65536); [eapply sh3; [unfold enc; cases| |unfold lo3, hi3; cases|lia..]; lia|].
  eapply sh4; [unfold enc; cases| |unfold lo4, hi4; cases|lia..]; lia.
Qed.
Lemma enc1 b : 0 <= b < 128 -> scalar b /\ enc b = [b].
Proof. intros. unfold scalar, enc. split; [lia|cases]. Qed.
Lemma enc2 b b1 : 0xC2 <= b < 0xE0 -> 0x80 <= b1 <= 0xBF -> let c := (b - 0xC0) * 64 + (b1 - 0x80) in scalar c /\ enc c = [b; b1].
Proof. intros ? ? c. unfold scalar, enc. subst c. split; [lia|]. cases. repeat (f_equal; try lia). Qed.
Lemma enc3 b b1 b2 : 0xE0 <= b < 0xF0 -> lo3 b <= b1 <= hi3 b -> 0x80 <= b2 <= 0xBF ->
  let c := ((b - 0xE0) * 64 + (b1 - 0x80)) * 64 + (b2 - 0x80) in scalar c /\ enc c = [b; b1; b2].
Proof.
  intros Hb H1 H2 c. unfold scalar, enc. assert (B : 0x80 <= b1 <= 0xBF /\ (b = 0xE0 -> 0xA0 <= b1) /\ (b = 0xED -> b1 <= 0x9F)) by (revert H1; unfold lo3, hi3; cases).
  clear H1. assert (C1 : 2048 <= c < 65536) by (subst c; lia). assert (C2 : c < 0xD800 \/ 0xE000 <= c) by (subst c; lia).
  split; [lia|]. destruct (Z.ltb_spec c 128); [lia|]. destruct (Z.ltb_spec c 2048); [lia|]. destruct (Z.ltb_spec c 65536); [|lia].
  subst c. repeat (f_equal; try lia).
Qed.
Lemma enc4 b b1 b2 b3 : 0xF0 <= b < 0xF5 -> lo4 b <= b1 <= hi4 b -> 0x80 <= b2 <= 0xBF -> 0x80 <= b3 <= 0xBF ->
  let c := (((b - 0xF0) * 64 + (b1 - 0x80)) * 64 + (b2 - 0x80)) * 64 + (b3 - 0x80) in scalar c /\ enc c = [b; b1; b2; b3].
Proof.
  intros Hb H1 H2 H3 c. unfold scalar, enc. assert (B : 0x80 <= b1 <= 0xBF /\ (b = 0xF0 -> 0x90 <= b1) /\ (b = 0xF4 -> b1 <= 0x8F)) by (revert H1; unfold lo4, hi4; cases).
  clear H1. assert (C1 : 65536 <= c < 0x110000) by (subst c; lia).
  split; [lia|]. destruct (Z.ltb_spec c 128); [lia|]. destruct (Z.ltb_spec c 2048); [lia|]. destruct (Z.ltb_spec c 65536); [lia|].
  subst c. repeat (f_equal; try lia).
Qed.

(** ** Acceptance = well-formedness *)
Lemma run_cons st b l : run st (b :: l) = run (nx st b) l. Proof. reflexivity. Qed.
Lemma run_enc c : scalar c -> run 0 (enc c) = 0.
Proof.
  intros H. destruct (shape_of c H) as [Hc -> |b b1 -> Hb H1 _|b b1 b2 -> Hb H1 _ H2 _|b b1 b2 b3 -> Hb H1 _ H2 H3 _]; rewrite !run_cons, nx0.
  - rewrite lead1 by lia. reflexivity.
  - rewrite lead2, nx24, rng_in by lia. reflexivity.
  - rewrite lead3, nx_st3, rng_in, nx24, rng_in by lia. reflexivity.
  - rewrite lead4, nx_st4, rng_in, nx36, rng_in, nx24, rng_in by lia. reflexivity.
Qed.
Lemma run_all cs : Forall scalar cs -> run 0 (enc_all cs) = 0.
Proof. induction 1 as [|c cs Hc _ IH]; [reflexivity|]. unfold enc_all. cbn [flat_map]. rewrite run_app, run_enc by auto. exact IH. Qed.
Lemma run_rng st lo hi ok l : (forall b, nx st b = rng lo hi b ok) -> st <> 0 -> run st l = 0 ->
  exists b r, l = b :: r /\ lo <= b <= hi /\ run ok r = 0.
Proof.
  intros E Hs H. destruct l as [|b r]; [contradiction|]. rewrite run_cons, E in H. exists b, r. split; [reflexivity|].
  unfold rng in H. destruct (Z.leb_spec lo b), (Z.leb_spec b hi); cbn [andb] in H; rewrite ?run_12 in H; try discriminate. split; [lia|exact H].
Qed.
Lemma wf_nil : well_formed []. Proof. exists []. split; [constructor|reflexivity]. Qed.
Lemma wf_cons c l : scalar c -> well_formed l -> well_formed (enc c ++ l).
Proof. intros Hc (cs & H & ->). exists (c :: cs). split; [now constructor|reflexivity]. Qed.
Lemma run_wf n : forall l, (length l <= n)%nat -> Forall is_byte l -> run 0 l = 0 -> well_formed l.
Proof.
  induction n as [|n IH]; intros l Hl HB H; (destruct l as [|b l]; [exact wf_nil|]); cbn [length] in Hl; [lia|].
  inversion HB as [|? ? Hb HB']; subst. rewrite run_cons, nx0 in H.
  destruct (lead_cases b Hb) as [[R E]|[[R E]|[[R E]|[[R E]|E]]]]; rewrite E in H.
  - destruct (enc1 b R) as [Hs He]. change (b :: l) with ([b] ++ l). rewrite <- He. apply wf_cons; auto. apply IH; auto; lia.
  - apply (run_rng 24 _ _ _ _ nx24 ltac:(lia)) in H as (b1 & r & -> & H1 & H). destruct (enc2 b b1 R H1) as [Hs He].
    change (b :: b1 :: r) with ([b; b1] ++ r). rewrite <- He. cbn [length] in Hl. apply wf_cons; auto. apply IH; [lia| |auto]. now inversion HB'.
  - apply (run_rng (st3 b) _ _ _ _ (nx_st3 b) (proj1 (st3_ne b))) in H as (b1 & r & -> & H1 & H).
    apply (run_rng 24 _ _ _ _ nx24 ltac:(lia)) in H as (b2 & r2 & -> & H2 & H). destruct (enc3 b b1 b2 R H1 H2) as [Hs He].
    change (b :: b1 :: b2 :: r2) with ([b; b1; b2] ++ r2). rewrite <- He. cbn [length] in Hl. apply wf_cons; auto. apply IH; [lia| |auto].
    inversion HB' as [|? ? _ HB2]. now inversion HB2.
  - apply (run_rng (st4 b) _ _ _ _ (nx_st4 b) (proj1 (st4_ne b))) in H as (b1 & r & -> & H1 & H).
    apply (run_rng 36 _ _ _ _ nx36 ltac:(lia)) in H as (b2 & r2 & -> & H2 & H).
    apply (run_rng 24 _ _ _ _ nx24 ltac:(lia)) in H as (b3 & r3 & -> & H3 & H). destruct (enc4 b b1 b2 b3 R H1 H2 H3) as [Hs He].
    change (b :: b1 :: b2 :: b3 :: r3) with ([b; b1; b2; b3] ++ r3). rewrite <- He. cbn [length] in Hl. apply wf_cons; auto. apply IH; [lia| |auto].
    inversion HB' as [|? ? _ HB2]. inversion HB2 as [|? ? _ HB3]. now inversion HB3.
  - rewrite run_12 in H. discriminate.
Qed.
Lemma wf_iff l : Forall is_byte l -> well_formed l <-> run 0 l = 0.
Proof. intros HB. split; [intros (cs & H & ->); now apply run_all|]. intros H. apply (run_wf (length l)); auto. Qed.
Lemma wf_bytes cs : Forall scalar cs -> Forall is_byte (enc_all cs).
Proof. induction 1 as [|c cs Hc _ IH]; [constructor|]. unfold enc_all. cbn [flat_map]. apply Forall_app. split; [now apply enc_bytes|exact IH]. Qed.

(** ** Decoding one code point from a list *)
Definition skip (n : Z) : Z := if 2 <? n then n - 1 else 1.
Fixpoint dl (st cp n : Z) (l : list Z) : bool * Z * Z :=
  match l with
  | [] => (false, 0xFFFD, 0)
  | b :: r =>
    if nx st b =? 0 then (true, ncp st cp b, n + 1)
    else if negb (nx st b =? 12) && (match r with [] => false | _ => true end) then dl (nx st b) (ncp st cp b) (n + 1) r
    else (false, 0xFFFD, skip (n + 1))
  end.
Lemma dl_stop st cp n b r : nx st b = 0 -> dl st cp n (b :: r) = (true, ncp st cp b, n + 1).
Proof. intros E. cbn [dl]. rewrite E. reflexivity. Qed.
Lemma dl_step st cp n b b1 r : nx st b <> 0 -> nx st b <> 12 -> dl st cp n (b :: b1 :: r) = dl (nx st b) (ncp st cp b) (n + 1) (b1 :: r).
Proof. intros E1 E2. cbn [dl]. destruct (Z.eqb_spec (nx st b) 0); [contradiction|]. destruct (Z.eqb_spec (nx st b) 12); [contradiction|]. reflexivity. Qed.
Lemma ncp_mid st cp b : st <> 0 -> 0 <= cp < 0x4400 -> 0x80 <= b <= 0xBF -> ncp st cp b = cp * 64 + (b - 0x80).
Proof. intros Hs Hc Hb. unfold ncp. destruct (Z.eqb_spec st 0); [contradiction|]. change (2 ^ 32) with 4294967296. lia. Qed.
Lemma cp0_2 b : 0xC2 <= b < 0xE0 -> cp0 b = b - 0xC0. Proof. unfold cp0. cases. Qed.
Lemma cp0_3 b : 0xE0 <= b < 0xF0 -> cp0 b = b - 0xE0. Proof. unfold cp0. cases. Qed.
Lemma cp0_4 b : 0xF0 <= b < 0xF5 -> cp0 b = b - 0xF0. Proof. unfold cp0. cases. Qed.
Lemma ncp0 cp b : ncp 0 cp b = cp0 b. Proof. reflexivity. Qed.
Lemma dl_enc c cp r : scalar c -> dl 0 cp 0 (enc c ++ r) = (true, c, zlen (enc c)).
Proof.
  intros H. destruct (shape_of c H) as [Hc -> |b b1 -> Hb H1 ->|b b1 b2 -> Hb H1 K1 H2 ->|b b1 b2 b3 -> Hb H1 K1 H2 H3 ->]; cbn [app].
  - rewrite dl_stop by (rewrite nx0; now apply lead1). unfold ncp, cp0. cases.
  - assert (E : nx 0 b = 24) by (rewrite nx0; now apply lead2). rewrite dl_step by lia. rewrite E, ncp0.
    rewrite dl_stop by (rewrite nx24; apply rng_in; lia). rewrite cp0_2, ncp_mid by lia. reflexivity.
  - assert (E : nx 0 b = st3 b) by (rewrite nx0; now apply lead3). pose proof (st3_ne b) as [N1 N2].
    rewrite dl_step by (rewrite E; lia). rewrite E, ncp0.
    assert (E1 : nx (st3 b) b1 = 24) by (rewrite nx_st3; now apply rng_in). rewrite dl_step by lia. rewrite E1.
    rewrite dl_stop by (rewrite nx24; apply rng_in; lia). rewrite cp0_3 by lia. rewrite (ncp_mid (st3 b)) by lia. rewrite ncp_mid by lia. reflexivity.
  - assert (E : nx 0 b = st4 b) by (rewrite nx0; now apply lead4). pose proof (st4_ne b) as [N1 N2].
    rewrite dl_step by (rewrite E; lia). rewrite E, ncp0.
    assert (E1 : nx (st4 b) b1 = 36) by (rewrite nx_st4; now apply rng_in). rewrite dl_step by lia. rewrite E1.
    assert (E2 : nx 36 b2 = 24) by (rewrite nx36; now apply rng_in). rewrite dl_step by lia. rewrite E2.
    rewrite dl_stop by (rewrite nx24; apply rng_in; lia). rewrite cp0_4 by lia. rewrite (ncp_mid (st4 b)) by lia.
    assert (B4 : 0 <= ((b - 0xF0) * 64 + (b1 - 0x80)) * 64 + (b2 - 0x80) < 0x4400) by (revert H1; unfold lo4, hi4; cases).
    rewrite (ncp_mid 36) by lia. rewrite ncp_mid by lia. reflexivity.
Qed.
Lemma dl_rng st lo hi ok cp n l c k : (forall b, nx st b = rng lo hi b ok) -> dl st cp n l = (true, c, k) ->
  exists b r, l = b :: r /\ lo <= b <= hi /\ (ok = 0 /\ c = ncp st cp b /\ k = n + 1 \/ ok <> 0 /\ dl ok (ncp st cp b) (n + 1) r = (true, c, k)).
Proof.
  intros E H. destruct l as [|b r]; [discriminate|]. exists b, r. split; [reflexivity|]. cbn [dl] in H. rewrite E in H. unfold rng in H.
  destruct (Z.leb_spec lo b), (Z.leb_spec b hi); cbn [andb Z.eqb Pos.eqb negb] in H; try discriminate H. split; [lia|].
  destruct (Z.eqb_spec ok 0); [left; injection H as <- <-; auto|]. destruct (ok =? 12); [discriminate H|]. cbn [negb andb] in H. destruct r; [discriminate H|]. auto.
Qed.
Lemma dl_inv l cp c k : Forall is_byte l -> dl 0 cp 0 l = (true, c, k) -> scalar c /\ (exists r, l = enc c ++ r) /\ k = zlen (enc c).
Proof.
  intros HB H. destruct l as [|b l]; [discriminate H|]. inversion HB as [|? ? Hb HB']; subst.
  assert (T : forall st, lead b = st -> st <> 0 -> dl st (cp0 b) 1 l = (true, c, k)).
  { intros st E Hs. cbn [dl] in H. rewrite nx0, E in H. destruct (Z.eqb_spec st 0); [contradiction|].
    destruct (st =? 12); [discriminate H|]. cbn [negb andb] in H. destruct l; [discriminate H|]. exact H. }
  destruct (lead_cases b Hb) as [[R E]|[[R E]|[[R E]|[[R E]|E]]]].
  - rewrite dl_stop in H by (now rewrite nx0). injection H as <- <-. rewrite ncp0. assert (cp0 b = b) as -> by (unfold cp0; cases).
    destruct (enc1 b R) as [Hs ->]. split; [auto|]. split; [now exists l|reflexivity].
  - specialize (T 24 E ltac:(lia)). apply (dl_rng 24 _ _ _ _ _ _ _ _ nx24) in T as (b1 & r & -> & H1 & [(_ & -> & ->)|[N _]]); [|contradiction].
    rewrite cp0_2, ncp_mid by lia. destruct (enc2 b b1 R H1) as [Hs ->]. split; [auto|]. split; [now exists r|reflexivity].
  - specialize (T _ E (proj1 (st3_ne b))). apply (dl_rng _ _ _ _ _ _ _ _ _ (nx_st3 b)) in T as (b1 & r & -> & H1 & [(N & _)|[_ T]]); [discriminate N|].
    assert (K1 : 0x80 <= b1 <= 0xBF) by (revert H1; unfold lo3, hi3; cases).
    apply (dl_rng 24 _ _ _ _ _ _ _ _ nx24) in T as (b2 & r2 & -> & H2 & [(_ & -> & ->)|[N _]]); [|contradiction].
    rewrite cp0_3 by lia. rewrite (ncp_mid (st3 b)) by (try apply st3_ne; lia). rewrite ncp_mid by lia.
    destruct (enc3 b b1 b2 R H1 H2) as [Hs ->]. split; [auto|]. split; [now exists r2|reflexivity].
  - specialize (T _ E (proj1 (st4_ne b))). apply (dl_rng _ _ _ _ _ _ _ _ _ (nx_st4 b)) in T as (b1 & r & -> & H1 & [(N & _)|[_ T]]); [discriminate N|].
    assert (K1 : 0x80 <= b1 <= 0xBF) by (revert H1; unfold lo4, hi4; cases).
    apply (dl_rng 36 _ _ _ _ _ _ _ _ nx36) in T as (b2 & r2 & -> & H2 & [(N & _)|[_ T]]); [discriminate N|].
    apply (dl_rng 24 _ _ _ _ _ _ _ _ nx24) in T as (b3 & r3 & -> & H3 & [(_ & -> & ->)|[N _]]); [|contradiction].
    assert (B4 : 0 <= ((b - 0xF0) * 64 + (b1 - 0x80)) * 64 + (b2 - 0x80) < 0x4400) by (revert H1; unfold lo4, hi4; cases).
    rewrite cp0_4 by lia. rewrite (ncp_mid (st4 b)) by (try apply st4_ne; lia). rewrite (ncp_mid 36) by lia. rewrite ncp_mid by lia.
    destruct (enc4 b b1 b2 b3 R H1 H2 H3) as [Hs ->]. split; [auto|]. split; [now exists r3|reflexivity].
  - cbn [dl] in H. rewrite nx0, E in H. discriminate H.
Qed.
Lemma nx_cont st b : is_byte b -> st <> 0 -> nx st b <> 12 -> is_cont b = true.
Proof. intros Hb Hs. rewrite cont_range by auto. unfold nx, rng, is_byte in *. destruct (Z.eqb_spec st 0); [contradiction|]. cases; intros H'; try (exfalso; apply H'; reflexivity). Qed.
Lemma dl_fail l : forall st cp n c k, Forall is_byte l -> l <> [] -> dl st cp n l = (false, c, k) ->
  c = 0xFFFD /\ exists j, 1 <= j <= zlen l /\ k = skip (n + j) /\
    forall i b, 0 <= i < j - 1 -> (st = 0 -> 0 < i) -> aget l i = Ok b -> is_cont b = true.
Proof.
  induction l as [|b r IH]; intros st cp n c k HB Hn H; [contradiction|]. inversion HB as [|? ? Hb HB']; subst.
  cbn [dl] in H. destruct (Z.eqb_spec (nx st b) 0) as [E0|E0]; [discriminate H|].
  rewrite zlen_cons. pose proof (zlen_nonneg r).
  assert (Stop : (false, 0xFFFD, skip (n + 1)) = (false, c, k) -> c = 0xFFFD /\ exists j, 1 <= j <= 1 + zlen r /\ k = skip (n + j) /\
    forall i b0, 0 <= i < j - 1 -> (st = 0 -> 0 < i) -> aget (b :: r) i = Ok b0 -> is_cont b0 = true).
  { intros E. injection E as <- <-. split; [reflexivity|]. exists 1. split; [lia|]. split; [reflexivity|]. intros; lia. }
  destruct (Z.eqb_spec (nx st b) 12) as [E1|E1]; [now apply Stop|]. cbn [negb andb] in H. destruct r as [|b1 r]; [now apply Stop|].
  apply IH in H as (Hc & j & Hj & Hk & Hi); auto; [|discriminate]. split; [auto|]. exists (j + 1). split; [lia|]. split; [rewrite Hk; f_equal; lia|].
  intros i x Hr Hst G. rewrite aget_cons in G. destruct (Z.eqb_spec i 0) as [->|Ne].
  - injection G as <-. apply (nx_cont st); auto. intros ->. specialize (Hst eq_refl). lia.
  - apply (Hi (i - 1)); auto; lia.
Qed.
