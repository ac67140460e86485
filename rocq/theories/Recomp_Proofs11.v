(** The lexer stays within the pattern. *)
From Verif Require Import Base Utf8_Tab Utf8_Model Utf8_Spec Utf8_Proofs Utf8_Proofs2 Utf8_Proofs3 Utf8_Proofs4 Utf8_Proofs5 Regex_Model Regex_Spec Regex_Proofs Recomp_Model Recomp_Spec Recomp_Proofs10.

(** * Zero-terminated strings *)
Lemma z_head m s r : zstring m s r -> aget m s = Ok (hd 0 r).
Proof. intros [_ H]. destruct r as [|b r]; cbn [app hd] in *; now apply at_head in H. Qed.
Lemma z_app m s x r : zstring m s (x ++ r) -> zstring m (s + zlen x) r.
Proof. intros [H1 H2]. split; [intros H; apply H1, in_or_app; now right|]. rewrite <- app_assoc in H2. now apply at_app in H2. Qed.
Lemma z_tail m s b r : zstring m s (b :: r) -> zstring m (s + 1) r.
Proof. intros H. apply (z_app m s [b] r). exact H. Qed.
Lemma z_len m s r : zstring m s r -> (length r < length m)%nat.
Proof. intros [_ H]. apply fuel_len in H. rewrite app_length in H. cbn in H. lia. Qed.
Lemma z_hd m s r : zstring m s r -> hd 0 r = 0 -> r = [].
Proof. intros [H _] E. destruct r as [|b r]; [reflexivity|]. cbn in E. subst. exfalso. apply H. now left. Qed.
Lemma dcp_end m start E : zlen m + 1 < E -> forall fuel d s, 0 <= s -> dcp_loop fuel m d start s (-1) = dcp_loop fuel m d start s E.
Proof.
  intros HE. induction fuel as [|fuel IH]; intros d s Hs; [reflexivity|]. cbn [dcp_loop]. destruct (aget m s) as [b|] eqn:Ea; [|reflexivity]. cbn [bind]. apply aget_ok_range in Ea.
  destruct (decode d b) as [d'|]; [|reflexivity]. cbn [bind]. destruct (Z.eqb_spec (s + 1) (-1)); [lia|]. destruct (Z.eqb_spec (s + 1) E); [lia|]. destruct (fst d' =? 0); [reflexivity|]. destruct (negb (fst d' =? 12)); cbn [negb andb]; [|reflexivity]. apply IH. lia.
Qed.
Lemma chr_z m s b l : zstring m s (b :: l) -> Forall is_byte (b :: l) ->
  exists c x r, chr m s = Ok (c, 1 + zlen x) /\ l = x ++ r /\ conts x /\ 0 < c /\ zstring m (s + (1 + zlen x)) r /\ (b < 128 -> c = b /\ x = []) /\ (c < 128 -> c = b /\ x = []).
Proof.
  intros HZ HB. pose proof HZ as [Hz HA]. assert (H0 : Forall is_byte ((b :: l) ++ [0])) by (apply Forall_app; split; [exact HB|repeat constructor; lia]).
  set (E := zlen m + zlen (b :: l) + s + 5). pose proof (at_len _ _ _ HA) as HL. pose proof (zlen_nonneg m). pose proof (zlen_nonneg (b :: l)).
  destruct (dcp_z m s b l 0 E HZ HB) as (c & x & r & D & Er & Hx & Hc & Hs & HZ' & _); [unfold E; lia|].
  assert (DE : decode_codepoint m (0, 0) s (-1) = Ok ((0, c), zlen x)).
  { unfold decode_codepoint in *. rewrite (dcp_end m s E); [exact D|unfold E; lia|lia]. }
  assert (D2 : decode_codepoint m (0, 0) s (s + zlen ((b :: l) ++ [0])) = Ok ((0, c), zlen x)).
  { unfold decode_codepoint in *. pose proof (fuel_len _ _ _ HA) as HF. rewrite app_length in HF. cbn [length] in HF.
    rewrite (dcp_loop_z m s _ _ (b :: l)) in D by (auto; cbn [length]; try lia; try (left; reflexivity); unfold E; lia).
    rewrite (dcp_loop_z m s _ _ (b :: l)) by (auto; cbn [length]; try lia; try (left; reflexivity); rewrite zlen_app; change (zlen [0]) with 1; lia). exact D. }
  destruct x as [|b' x]; [change (zlen (@nil Z)) with 0 in Hx; lia|]. cbn [app] in Er. injection Er as <- ->.
  destruct (dcp_any m s ((b :: x ++ r) ++ [0]) 0 HA ltac:(discriminate) H0) as (c2 & k & D3 & Hk & HD). rewrite D2 in D3. injection D3 as <- <-.
  assert (CX : conts x /\ (b < 128 -> c = b /\ x = []) /\ (c < 128 -> c = b /\ x = [])).
  { destruct HD as [(_ & [r' Hr'] & Hk')|(-> & HN & HI)].
    - destruct (enc_split c Hs ltac:(lia)) as (b1 & r1 & Ee & Hr1 & Hb1 & _).
      assert (EQ : b :: x = enc c).
      { rewrite Ee in *. cbn [app] in Hr'. injection Hr' as <- Hr'. rewrite <- app_assoc in Hr'. rewrite !zlen_cons in Hk'. apply (f_equal (cons b)). apply (f_equal (firstn (length x))) in Hr'. rewrite firstn_app, firstn_all, Nat.sub_diag in Hr'. cbn [firstn] in Hr'. rewrite app_nil_r in Hr'.
        assert (LL : length x = length r1) by (unfold zlen in Hk'; lia). rewrite LL, firstn_app, firstn_all, Nat.sub_diag in Hr'. cbn [firstn] in Hr'. now rewrite app_nil_r in Hr'. }
      rewrite Ee in EQ. injection EQ as -> ->. split; [exact Hr1|]. split; intros HB1.
      + assert (c < 128). { destruct (Z_lt_ge_dec c 128); [assumption|]. exfalso. pose proof (enc_ge128 c b1 Hs ltac:(lia)) as G. rewrite Ee in G. specialize (G (or_introl eq_refl)). lia. }
        unfold enc in Ee. destruct (Z.ltb_spec c 128); [|lia]. injection Ee as -> <-. auto.
      + unfold enc in Ee. destruct (Z.ltb_spec c 128); [|lia]. injection Ee as -> <-. auto.
    - split; [|split; intros HB1; [|lia]].
      + apply Forall_forall. intros y Hy. apply In_aget in Hy as (i & Ri & G). assert (Hi : 0x80 <= y < 0xC0).
        { apply (HI (i + 1) y); [rewrite zlen_cons; lia|]. change ((b :: x ++ r) ++ [0]) with (([b] ++ x ++ r) ++ [0]). rewrite <- !app_assoc. rewrite aget_app2 by (change (zlen [b]) with 1; lia). change (zlen [b]) with 1. replace (i + 1 - 1) with i by lia. rewrite aget_app1 by lia. exact G. }
        rewrite cont_range by (unfold is_byte; lia). unfold is_byte. lia.
      + exfalso. apply (HN b ((x ++ r) ++ [0])); [inversion HB; subst; unfold is_byte, scalar in *; lia|]. unfold enc. destruct (Z.ltb_spec b 128); [reflexivity|lia]. }
  destruct CX as (C1 & C2 & C3). exists c, x, r. unfold chr. rewrite DE. cbn [bind fst snd]. rewrite zlen_cons in *. split; [reflexivity|]. split; [reflexivity|]. auto.
Qed.
Lemma chr_0 m s : zstring m s [] -> chr m s = Ok (0, 1).
Proof.
  intros [_ H]. unfold chr, decode_codepoint. cbn [app] in H. pose proof (fuel_len _ _ _ H) as HF. cbn [length] in HF. destruct (length m); [lia|]. cbn [dcp_loop]. rewrite (at_head _ _ _ _ H). cbn [bind].
  rewrite decode_eq by (try (left; reflexivity); split; lia). cbn [bind fst]. change (nx 0 0) with 0. change (0 =? 0) with true. cbn [bind fst snd]. replace (s + 1 - s) with 1 by lia. reflexivity.
Qed.

(** * Units *)
Lemma slash_skip x r : ~ In 92 x -> slash_ok (x ++ r) -> slash_ok r.
Proof.
  induction x as [|b x IH]; intros HI H; cbn [app] in H; [exact H|]. cbn [slash_ok] in H. destruct (Z.eqb_spec b 92) as [->|_]; [exfalso; apply HI; now left|]. apply IH; [intros Hx; apply HI; now right|exact H].
Qed.
Lemma conts_no x c : conts x -> 0 <= c < 128 -> ~ In c x.
Proof. intros H Hc HI. unfold conts in H. rewrite Forall_forall in H. specialize (H c HI). unfold is_cont in H. assert (Z.land c 192 = 128 -> False); [|apply Z.eqb_eq in H; auto]. intros E. assert (X : forallb (fun i => negb (Z.land i 192 =? 128)) (zseq 0 128) = true) by (vm_compute; reflexivity). pose proof (proj1 (forallb_forall _ _) X c (in_zseq 0 128 c ltac:(lia))) as Y. cbv beta in Y. rewrite E in Y. discriminate Y. Qed.
Lemma classes_app x r : classes_ok (x ++ r) -> classes_ok r.
Proof. intros H a b ->. apply (H (x ++ a) b). now rewrite app_assoc. Qed.
Record at_ (m : list Z) (l : lx) (r : list Z) : Prop := {
  a_z : zstring m (ep l) r;
  a_b : Forall is_byte r;
  a_lit : lit l = false;
  a_sl : slash_ok r;
  a_cl : classes_ok r }.
Lemma at_skip m l x r : at_ m l (x ++ r) -> ~ In 92 x -> at_ m (set_ep l (ep l + zlen x)) r.
Proof.
  intros [h1 h2 h3 h4 h5] HI. constructor; cbn [set_ep ep lit]; [now apply z_app|apply Forall_app in h2; tauto|exact h3|eapply slash_skip; eassumption|eapply classes_app; eassumption].
Qed.
(** Every ] in it is preceded by \ or : . *)
Fixpoint nc (prev : Z) (u : list Z) : bool := match u with [] => true | b :: u => (if b =? 93 then (prev =? 92) || (prev =? 58) else true) && nc b u end.
Lemma nc_no u : forall p, ~ In 93 u -> nc p u = true.
Proof. induction u as [|b u IH]; intros p H; [reflexivity|]. cbn [nc]. destruct (Z.eqb_spec b 93) as [->|_]; [exfalso; apply H; now left|]. apply IH. intros X. apply H. now right. Qed.
Lemma nc_at x m' : forall p, nc p (x ++ 93 :: m') = true -> x = [] /\ (p = 92 \/ p = 58) \/ exists x0 z, x = x0 ++ [z] /\ (z = 92 \/ z = 58).
Proof.
  induction x as [|b x IH]; intros p H; cbn [app nc] in H.
  - left. split; [reflexivity|]. change (93 =? 93) with true in H. cbv iota in H. apply andb_true_iff in H as [H _]. apply orb_true_iff in H as [H|H]; apply Z.eqb_eq in H; auto.
  - right. apply andb_true_iff in H as [_ H]. destruct (IH _ H) as [[-> Hb]|(x0 & z & -> & Hz)]; [exists [], b; auto|exists (b :: x0), z; auto].
Qed.
Lemma closed_step n u r : closed_in n (u ++ r) -> nc 0 u = true -> closed_in (n - zlen u) r.
Proof.
  intros [H|(x & y & E & Hx & HL)] HN; [left; rewrite zlen_app in H; lia|].
  destruct (Recomp_Proofs9.app_cases _ _ _ _ E) as [(w & -> & ->)|(w & -> & E2)].
  - right. exists w, y. rewrite zlen_app in Hx. split; [reflexivity|]. split; [lia|]. intros x0 z ->. apply (HL (u ++ x0) z). now rewrite app_assoc.
  - destruct w as [|b w]; cbn [app] in E2.
    + right. exists [], y. rewrite app_nil_r in *. split; [now rewrite <- E2|]. split; [rewrite zlen_nil; lia|]. intros x0 w0 Hz; destruct x0; discriminate Hz.
    + injection E2 as <- ->. exfalso. destruct (nc_at _ _ _ HN) as [[-> [Hp|Hp]]|(x0 & z0 & -> & Hz)]; try lia. all: specialize (HL x0 z0 eq_refl); tauto.
Qed.
Lemma closed_nonneg n r : closed_in n r -> 0 <= n.
Proof. intros [H|(x & y & _ & H & _)]; [pose proof (zlen_nonneg r)|pose proof (zlen_nonneg x)]; lia. Qed.
(** * strtol *)
Lemma spaces_z m : forall fuel s r, zstring m s r -> (length r < fuel)%nat -> exists x r', skip_spaces m fuel s = Ok (s + zlen x) /\ r = x ++ r' /\ Forall (fun b => b < 64) x.
Proof.
  induction fuel as [|fuel IH]; intros s r HZ Hf; [lia|]. cbn [skip_spaces]. rewrite (z_head _ _ _ HZ). cbn [bind]. destruct (between 9 13 (hd 0 r) || (hd 0 r =? 32)) eqn:E.
  - destruct r as [|b r]; [discriminate E|]. cbn [hd] in E. cbn [length] in Hf. destruct (IH (s + 1) r (z_tail _ _ _ _ HZ) ltac:(lia)) as (x & r' & H1 & -> & H2). exists (b :: x), r'. rewrite zlen_cons. split; [rewrite H1; f_equal; lia|]. split; [reflexivity|].
    constructor; [|exact H2]. unfold between in E. apply orb_true_iff in E as [E|E]; [apply andb_true_iff in E|]; lia.
  - exists [], r. split; [f_equal; rewrite zlen_nil; lia|]. auto.
Qed.
Definition hexy (b : Z) : Prop := hexdig b <> None \/ b = 120 \/ b = 88 \/ b = 43 \/ b = 45.
Lemma hexy_no b : hexy b -> b <> 92 /\ b <> 93.
Proof. unfold hexy, hexdig, c_digit, between. intros H. split; intros ->; cbn in H; destruct H as [H|H]; try congruence; lia. Qed.
Lemma digits_z m : forall fuel s r acc, zstring m s r -> (length r < fuel)%nat -> exists v x r', hex_digits m fuel s acc = Ok (v, s + zlen x) /\ r = x ++ r' /\ Forall hexy x.
Proof.
  induction fuel as [|fuel IH]; intros s r acc HZ Hf; [lia|]. cbn [hex_digits]. rewrite (z_head _ _ _ HZ). cbn [bind]. destruct (hexdig (hd 0 r)) as [d|] eqn:E.
  - destruct r as [|b r]; [discriminate E|]. cbn [hd] in E. cbn [length] in Hf. destruct (IH (s + 1) r (acc * 16 + d) (z_tail _ _ _ _ HZ) ltac:(lia)) as (v & x & r' & H1 & -> & H2). exists v, (b :: x), r'. rewrite zlen_cons. split; [rewrite H1; do 2 f_equal; lia|]. split; [reflexivity|].
    constructor; [|exact H2]. left. congruence.
  - exists acc, [], r. split; [do 2 f_equal; rewrite zlen_nil; lia|]. auto.
Qed.
Lemma strtol_z m s r : zstring m s r -> exists v x r', strtol16 m s = Ok (v, s + zlen x) /\ r = x ++ r' /\ ~ In 92 x /\ ~ In 93 x.
Proof.
  intros HZ. pose proof (z_len _ _ _ HZ) as HL. unfold strtol16. destruct (spaces_z m (S (length m)) s r HZ ltac:(lia)) as (x1 & r1 & E1 & -> & H1). rewrite E1. cbn [bind]. apply z_app in HZ. set (s1 := s + zlen x1) in *.
  rewrite (z_head _ _ _ HZ). cbn [bind]. set (b := hd 0 r1).
  assert (X2 : exists x2 r2, (if (b =? 45) || (b =? 43) then s1 + 1 else s1) = s1 + zlen x2 /\ r1 = x2 ++ r2 /\ Forall hexy x2).
  { destruct ((b =? 45) || (b =? 43)) eqn:E; [|exists [], r1; rewrite zlen_nil; split; [lia|auto]]. destruct r1 as [|c r1]; [discriminate E|]. exists [c], r1. split; [reflexivity|]. split; [reflexivity|]. constructor; [|constructor]. subst b. cbn [hd] in E. right. apply orb_true_iff in E as [E|E]; apply Z.eqb_eq in E; lia. }
  destruct X2 as (x2 & r2 & -> & -> & H2). assert (HL2 : (length r2 < length m)%nat) by (rewrite !app_length in HL; lia). set (bneg := b =? 45). clearbody bneg. clear b. apply z_app in HZ. set (s2 := s1 + zlen x2) in *. rewrite (z_head _ _ _ HZ). cbn [bind].
  assert (X3 : exists x3 r3, (if hd 0 r2 =? 48 then let* x := aget m (s2 + 1) in if (x =? 120) || (x =? 88) then let* d := aget m (s2 + 2) in Ok (match hexdig d with Some _ => s2 + 2 | None => s2 end) else Ok s2 else Ok s2) = Ok (s2 + zlen x3) /\ r2 = x3 ++ r3 /\ Forall hexy x3).
  { assert (N : exists x3 r3, Ok s2 = Ok (s2 + zlen x3) /\ r2 = x3 ++ r3 /\ Forall hexy x3) by (exists [], r2; rewrite zlen_nil, Z.add_0_r; auto).
    destruct (Z.eqb_spec (hd 0 r2) 48) as [E|_]; [|exact N]. destruct r2 as [|c r2]; [discriminate E|]. cbn [hd] in E. subst c. pose proof (z_tail _ _ _ _ HZ) as HZ1. rewrite (z_head _ _ _ HZ1). cbn [bind].
    destruct ((hd 0 r2 =? 120) || (hd 0 r2 =? 88)) eqn:E; [|exact N]. destruct r2 as [|c r2]; [discriminate E|]. cbn [hd] in E. pose proof (z_tail _ _ _ _ HZ1) as HZ2. replace (s2 + 1 + 1) with (s2 + 2) in HZ2 by lia. rewrite (z_head _ _ _ HZ2). cbn [bind].
    destruct (hexdig (hd 0 r2)); [|exact N]. exists [48; c], r2. split; [reflexivity|]. split; [reflexivity|]. constructor; [left; discriminate|constructor; [right|constructor]]. apply orb_true_iff in E as [E|E]; apply Z.eqb_eq in E; lia. }
  destruct X3 as (x3 & r3 & -> & -> & H3). cbn [bind]. apply z_app in HZ. rewrite app_length in HL2.
  destruct (digits_z m (S (length m)) _ r3 0 HZ ltac:(lia)) as (v & x4 & r4 & -> & -> & H4). cbn [bind].
  assert (NO : forall x, Forall hexy x -> ~ In 92 x /\ ~ In 93 x) by (intros x H; rewrite Forall_forall in H; split; intros HI; apply H, hexy_no in HI; tauto).
  assert (NS : ~ In 92 x1 /\ ~ In 93 x1) by (rewrite Forall_forall in H1; split; intros HI; apply H1 in HI; lia).
  destruct (s2 + zlen x3 + zlen x4 =? s2 + zlen x3).
  - eexists _, [], _. rewrite zlen_nil, Z.add_0_r. split; [reflexivity|]. split; [reflexivity|]. auto.
  - exists ((if bneg then Z.max (- v) (- 2 ^ 63) else Z.min v (2 ^ 63 - 1)) mod 2 ^ 32), (x1 ++ x2 ++ x3 ++ x4), r4. rewrite !zlen_app. split; [unfold s2, s1; do 2 f_equal; lia|]. split; [now rewrite <- !app_assoc|].
    destruct (NO _ H2), (NO _ H3), (NO _ H4), NS. split; intros HI; repeat (apply in_app_or in HI as [HI|HI]); contradiction.
Qed.
(** * nextc *)
Definition uni (q : bool) (c : Z) (x : list Z) : Prop :=
  if q then nc 0 x = true else c <> 0 /\ (c <> 93 -> ~ In 93 x) /\ ~ In 92 x /\ (c < 128 -> x = [c]) /\ (c = 91 -> x = [91]).
Lemma nextc_z m l r : at_ m l r -> r <> [] ->
  (exists c, nextc_ m l = fail c) \/
  exists q c x r', nextc_ m l = ret (q, c, set_ep l (ep l + zlen x)) /\ r = x ++ r' /\ at_ m (set_ep l (ep l + zlen x)) r' /\ 0 < zlen x /\ uni q c x.
Proof.
  intros [h1 h2 h3 h4 h5] Hr. destruct r as [|b r]; [congruence|]. clear Hr. unfold nextc_. cbn [nextc].
  destruct (chr_z m (ep l) b r h1 h2) as (c & x & r1 & E & -> & Hx & Hc & HZ & Hb & Hc'). rewrite E. cbn [lift cbind ret]. rewrite h3.
  assert (NX : forall k, 0 <= k < 128 -> ~ In k x) by (intros k Hk; now apply conts_no).
  destruct (Z.eqb_spec c 92) as [->|Hn]; cbn [negb].
  - destruct (Hc' ltac:(lia)) as [<- ->]. cbn [app] in *. cbn [ep set_ep]. rewrite zlen_nil in *. replace (1 + 0) with 1 in * by lia. cbn [slash_ok] in h4. change (92 =? 92) with true in h4. cbv iota in h4.
    destruct r1 as [|b2 r1]; [destruct h4|]. destruct h4 as [Hb2 h4]. assert (h2' : Forall is_byte (b2 :: r1)) by (inversion h2; assumption).
    destruct (chr_z m (ep l + 1) b2 r1 HZ h2') as (c2 & x2 & r2 & E2 & -> & Hx2 & Hc2 & HZ2 & Hb2' & Hc2'). rewrite E2. cbn [lift cbind ret].
    assert (NX2 : forall k, 0 <= k < 128 -> ~ In k x2) by (intros k Hk; now apply conts_no).
    destruct (Z.eqb_spec c2 81) as [->|_]; [destruct (Hc2' ltac:(lia)); congruence|].
    assert (A : at_ m (set_ep l (ep l + 1 + (1 + zlen x2))) r2).
    { constructor; cbn [set_ep ep lit]; [exact HZ2|inversion h2'; subst; apply Forall_app in H2; tauto|exact h3|eapply slash_skip; [|exact h4]; apply NX2; lia|].
      apply (classes_app (92 :: b2 :: x2)). exact h5. }
    assert (PL : exists q c x r', ret (true, c2, set_ep l (ep l + 1 + (1 + zlen x2))) = ret (q, c, set_ep l (ep l + zlen x)) /\ 92 :: b2 :: x2 ++ r2 = x ++ r' /\ at_ m (set_ep l (ep l + zlen x)) r' /\ 0 < zlen x /\ uni q c x).
    { exists true, c2, (92 :: b2 :: x2), r2. rewrite !zlen_cons. replace (ep l + (1 + (1 + zlen x2))) with (ep l + 1 + (1 + zlen x2)) by lia. pose proof (zlen_nonneg x2). split; [reflexivity|]. split; [reflexivity|]. split; [exact A|]. split; [lia|].
      unfold uni. cbn [nc]. change (92 =? 93) with false. change (92 =? 92) with true. cbn [orb andb]. destruct (b2 =? 93); cbn [andb]; apply nc_no; apply NX2; lia. }
    cbn [set_ep ep] in *. destruct (Z.eqb_spec c2 120) as [->|_]; [|right; exact PL]. rewrite (z_head _ _ _ HZ2). cbn [lift cbind ret]. destruct (Z.eqb_spec (hd 0 r2) 123) as [E3|_]; [|right; exact PL].
    destruct r2 as [|b3 r2]; [discriminate E3|]. cbn [hd] in E3. subst b3. destruct (strtol_z _ _ _ (z_tail _ _ _ _ HZ2)) as (v & x3 & r3 & E3 & -> & N1 & N2). rewrite E3. cbn [lift cbind ret].
    pose proof (z_app _ _ _ _ (z_tail _ _ _ _ HZ2)) as HZ3. rewrite (z_head _ _ _ HZ3). cbn [lift cbind ret]. destruct (Z.eqb_spec (hd 0 r3) 125) as [E4|_]; [|left; eexists; reflexivity].
    destruct r3 as [|b4 r3]; [discriminate E4|]. cbn [hd] in E4. subst b4. right.
    change (123 :: x3 ++ 125 :: r3) with ((123 :: x3) ++ [125] ++ r3) in A. rewrite app_assoc in A. apply at_skip in A.
    2:{ intros HI. apply in_app_or in HI as [[HI|HI]|[HI|[]]]; try lia. contradiction. }
    exists true, v, (92 :: b2 :: x2 ++ 123 :: x3 ++ [125]), r3. cbn [set_ep ep] in A.
    assert (EL : ep l + zlen (92 :: b2 :: x2 ++ 123 :: x3 ++ [125]) = ep l + 1 + (1 + zlen x2) + 1 + zlen x3 + 1) by (rewrite !zlen_cons, !zlen_app, zlen_cons, zlen_app; change (zlen [125]) with 1; lia).
    rewrite EL. split; [reflexivity|]. split; [cbn [app]; now rewrite <- app_assoc; cbn [app]; rewrite <- app_assoc|]. split.
    { rewrite !zlen_app, zlen_cons in A. change (zlen [125]) with 1 in A. replace (ep l + 1 + (1 + zlen x2) + (1 + zlen x3 + 1)) with (ep l + 1 + (1 + zlen x2) + 1 + zlen x3 + 1) in A by lia. exact A. }
    split; [rewrite !zlen_cons; pose proof (zlen_nonneg (x2 ++ 123 :: x3 ++ [125])); lia|].
    unfold uni. cbn [nc]. change (92 =? 93) with false. change (92 =? 92) with true. cbn [orb andb].
    assert (NN : ~ In 93 (x2 ++ 123 :: x3 ++ [125])). { intros HI. apply in_app_or in HI as [HI|[HI|HI]]; [apply (NX2 93) in HI; [exact HI|lia]|lia|]. apply in_app_or in HI as [HI|[HI|[]]]; [contradiction|lia]. }
    destruct (b2 =? 93); cbn [andb]; apply nc_no; exact NN.
  - right. exists false, c, (b :: x), r1. rewrite zlen_cons. split; [reflexivity|]. split; [reflexivity|].
    assert (Nb : b <> 92). { intros ->. destruct (Hb ltac:(lia)). congruence. }
    assert (N92 : ~ In 92 (b :: x)) by (intros [HI|HI]; [congruence|apply (NX 92) in HI; [exact HI|lia]]).
    split; [|split; [pose proof (zlen_nonneg x); lia|]].
    + rewrite <- (zlen_cons b x). apply at_skip; [|exact N92]. constructor; assumption.
    + unfold uni. split; [lia|]. split; [|split; [exact N92|split; [intros Hlt; destruct (Hc' Hlt) as [-> ->]; reflexivity|intros ->; destruct (Hc' ltac:(lia)) as [<- ->]; reflexivity]]].
      intros Hn3 [HI|HI]; [|apply (NX 93) in HI; [exact HI|lia]]. subst b. destruct (Hb ltac:(lia)). congruence.
Qed.
Lemma nextc_0 m l : at_ m l [] -> nextc_ m l = ret (false, 0, set_ep l (ep l + 1)).
Proof. intros [h1 _ h3 _ _]. unfold nextc_. cbn [nextc]. rewrite (chr_0 _ _ h1). cbn [lift cbind ret]. rewrite h3. reflexivity. Qed.
