(** From the compiled program to the matcher: accepted spans, and when the theorems about the
    matcher apply. *)
From Verif Require Import Base Utf8_Tab Utf8_Model Utf8_Spec Utf8_Proofs Utf8_Proofs5 Regex_Model Regex_Spec Regex_Proofs Regex_Proofs2 Regex_Proofs3 Recomp_Model Recomp_Spec Recomp_Proofs Recomp_Proofs2 Recomp_Proofs3 Recomp_Proofs4 Recomp_Proofs5 Recomp_Proofs6 Recomp_Proofs7 Recomp_Proofs8 Recomp_Proofs10.

(** * Spans *)
Section Spans.
Variable rm : Z -> Z -> res bool.
Variable cs : list Z.
Variable pos : nat -> Z.
Lemma den_lang ic e x y : den rm ic cs pos e x y -> lang rm ic cs e (fst x) (fst y).
Proof.
  induction 1; cbn [fst] in *; try (now constructor); try (econstructor; eassumption).
Qed.
Lemma lang_den ic e i j : lang rm ic cs e i j -> forall c, exists c', den rm ic cs pos e (i, c) (j, c').
Proof.
  induction 1 as [i|o i c' H1 H2|o i H|k e i j _ IH|e1 e2 i j l _ IH1 _ IH2|e1 e2 i j _ IH|e1 e2 i j _ IH|e i|e i j l _ IH1 _ IH2|e i j l _ IH1 _ IH2|e i|e i j _ IH]; intros c.
  - eexists. constructor.
  - eexists. eapply d_take; eassumption.
  - eexists. now apply d_hold.
  - destruct (IH (set_caps pos (LBRA k) i c)) as [c' H]. eexists. apply d_grp. exact H.
  - destruct (IH1 c) as [c1 H1]. destruct (IH2 c1) as [c2 H2]. eexists. eapply d_cat; eassumption.
  - destruct (IH c) as [c' H]. eexists. now apply d_alt1, H.
  - destruct (IH c) as [c' H]. eexists. now apply d_alt2, H.
  - eexists. constructor.
  - destruct (IH1 c) as [c1 H1]. destruct (IH2 c1) as [c2 H2]. eexists. eapply d_star1; eassumption.
  - destruct (IH1 c) as [c1 H1]. destruct (IH2 c1) as [c2 H2]. eexists. eapply d_plus; eassumption.
  - eexists. constructor.
  - destruct (IH c) as [c' H]. eexists. now apply d_quest1, H.
Qed.
Lemma steps_csteps pr x y : steps rm pr cs x y -> forall c, exists c', csteps rm pr cs pos (x, c) (y, c').
Proof.
  induction 1 as [x|x y z _ IH HS]; intros c; [exists c; constructor|]. destruct (IH c) as [c1 H1].
  destruct HS; eexists; eapply css_snoc; try exact H1; [eapply cs_take|eapply cs_pass|eapply cs_right]; eassumption.
Qed.
Lemma csteps_steps pr x y : csteps rm pr cs pos x y -> steps rm pr cs (fst x) (fst y).
Proof.
  induction 1 as [x|x y z _ IH HS]; [constructor|]. eapply ss_snoc; [exact IH|]. destruct HS; cbn [fst]; [eapply st_take|eapply st_pass|eapply st_right]; eassumption.
Qed.
End Spans.
Lemma accepts_lang rm pr e cs i j : means pr e -> accepts rm pr cs i j <-> (i <= length cs)%nat /\ lang rm (picase pr) cs e i j.
Proof.
  intros HM. unfold accepts. split; intros [Hi H]; (split; [exact Hi|]).
  - destruct H as (pc & HS & HE). destruct (steps_csteps rm cs (fun _ => 0) pr _ _ HS []) as [c' HC].
    apply (den_lang rm cs (fun _ => 0) _ e (i, []) (j, c')). apply HM. exists pc. auto.
  - destruct (lang_den rm cs (fun _ => 0) _ _ _ _ H []) as [c' HD]. apply HM in HD. destruct HD as (pc & HC & HE). exists pc. split; [|exact HE]. apply csteps_steps in HC. exact HC.
Qed.
Lemma lang_le rm ic cs e i j : lang rm ic cs e i j -> (i <= j)%nat.
Proof. induction 1; lia. Qed.

(** * Code points *)
Definition bytes_ (m : list Z) : Prop := Forall is_byte m.
Lemma aget_byte m s b : bytes_ m -> aget m s = Ok b -> is_byte b.
Proof. intros H E. apply aget_In in E. eapply Forall_forall; eassumption. Qed.
Lemma decode_nn d b d' : is_byte b -> decode d b = Ok d' -> 0 <= snd d'.
Proof.
  intros Hb H. unfold decode in H. destruct (aget dtab b) as [ty|] eqn:E; [|discriminate H]. cbn [bind] in H. destruct (aget dtab (256 + fst d + ty)) as [st|]; [|discriminate H]. cbn [bind] in H. injection H as <-. cbn [snd].
  unfold is_byte in Hb. destruct (fst d =? 0); [apply Z.land_nonneg; right; lia|]. apply Z.lor_nonneg. split; [apply Z.land_nonneg; left; lia|]. apply Z.mod_pos_bound. lia.
Qed.
Lemma chr_nn m s c n : bytes_ m -> chr m s = Ok (c, n) -> 0 <= c.
Proof.
  intros Hm H. unfold chr, decode_codepoint in H. destruct (dcp_loop (S (length m)) m (0, 0) s s (-1)) as [[d z]|] eqn:E; [|discriminate H]. cbn [bind fst snd] in H. injection H as <- _.
  assert (X : forall fuel d0 s0, dcp_loop fuel m d0 s s0 (-1) = Ok (d, z) -> 0 <= snd d); [|eapply X; eassumption].
  induction fuel as [|fuel IH]; intros d0 s0 H; [discriminate H|]. cbn [dcp_loop] in H. destruct (aget m s0) as [b|] eqn:Eb; [|discriminate H]. cbn [bind] in H. destruct (decode d0 b) as [d'|] eqn:Ed; [|discriminate H]. cbn [bind] in H. apply decode_nn in Ed; [|eapply aget_byte; eassumption].
  destruct (fst d' =? 0); [injection H as <- _; exact Ed|]. destruct (negb (fst d' =? 12) && negb (s0 + 1 =? -1)); [eapply IH; exact H|]. injection H as <- _. cbn. lia.
Qed.
Lemma lift_inv {A} (x : res A) a : lift x = ret a -> x = Ok a. Proof. destruct x; cbn; [intros [= ->]; reflexivity|discriminate]. Qed.
Lemma strtol_nn m s v e : strtol16 m s = Ok (v, e) -> 0 <= v.
Proof.
  unfold strtol16. destruct (skip_spaces m (S (length m)) s) as [s1|]; [|discriminate]. cbn [bind]. destruct (aget m s1) as [b|]; [|discriminate]. cbn [bind].
  set (s2 := if (b =? 45) || (b =? 43) then s1 + 1 else s1). destruct (aget m s2) as [z|]; [|discriminate]. cbn [bind].
  destruct (if z =? 48 then _ else _) as [s3|]; [|discriminate]. cbn [bind]. destruct (hex_digits m (S (length m)) s3 0) as [[v' e']|]; [|discriminate]. cbn [bind]. intros H. injection H as <- _. apply Z.mod_pos_bound. lia.
Qed.
Lemma nextc_nn m : bytes_ m -> forall fuel l q c l', nextc m fuel l = ret (q, c, l') -> 0 <= c /\ ric l' = ric l.
Proof.
  intros Hm. induction fuel as [|fuel IH]; intros l q c l' H; [discriminate H|]. cbn [nextc] in H.
  apply cbind_inv in H. destruct H as ([r n] & E & H). apply lift_inv in E. apply (chr_nn m _ _ _ Hm) in E.
  destruct (negb (r =? 92)); [injection H as <- <- <-; auto|]. destruct (lit l).
  - apply cbind_inv in H. destruct H as (b & Eb & H). destruct (negb (b =? 69)); [injection H as <- <- <-; auto|]. apply IH in H. exact H.
  - apply cbind_inv in H. destruct H as ([r' n'] & E2 & H). apply lift_inv in E2. apply (chr_nn m _ _ _ Hm) in E2. destruct (r' =? 81); [apply IH in H; exact H|]. destruct (r' =? 120); [|injection H as <- <- <-; auto].
    apply cbind_inv in H. destruct H as (b & _ & H). destruct (b =? 123); [|injection H as <- <- <-; auto]. apply cbind_inv in H. destruct H as ([v e] & E3 & H). apply lift_inv in E3. apply strtol_nn in E3. apply cbind_inv in H. destruct H as (c2 & _ & H). destruct (c2 =? 125); [|discriminate H]. injection H as <- <- <-. auto.
Qed.
Lemma fold_props c : casefold (casefold c) = casefold c /\ (0 <= c -> 0 <= casefold c).
Proof.
  destruct (Z.eq_dec (casefold c) c) as [E|E]; [rewrite !E; auto|]. pose proof (fold_with_dom _ _ E) as HI. pose proof (proj1 (forallb_forall _ _) fold_good c HI) as G. unfold Utf8_Proofs5.good in G. cbv zeta in G.
  apply andb_true_iff in G as [G G4]. apply andb_true_iff in G as [G G3]. apply andb_true_iff in G as [G1 G2]. apply Z.eqb_eq in G4. split; [exact G4|]. intros _. unfold scalarb in G1. apply orb_true_iff in G1 as [G1|G1]; apply andb_true_iff in G1; lia.
Qed.
Local Opaque casefold.
(** * Tokens *)
Definition rune_of (b : bool) (t : token) : Prop :=
  match t with KOp (RUNE c) => b = false /\ 0 <= c | KOp (IRUNE c) => b = true /\ 0 <= c /\ casefold c = c | _ => True end.
Lemma rune_tok_of l c : 0 <= c -> rune_of (ric l) (rune_tok l c).
Proof. intros H. unfold rune_tok. destruct (ric l); cbn; [|auto]. destruct (fold_props c). auto. Qed.
Lemma map_nn r v : rune_mapping r = Some v -> 0 <= v.
Proof. unfold rune_mapping. repeat match goal with |- context [if ?b then _ else _] => destruct b end; intros [= <-]; vm_compute; discriminate. Qed.
Lemma class_ric m : bytes_ m -> forall fuel acc q r l acc' l', class_items m fuel acc q r l = ret (acc', l') -> ric l' = ric l.
Proof.
  intros Hm. induction fuel as [|fuel IH]; intros acc q r l acc' l' H; [discriminate H|]. cbn [class_items] in H. destruct (negb (zlen acc <? NSPAN)); [injection H as <- <-; reflexivity|]. destruct (r =? 0); [discriminate H|]. destruct (negb q && (r =? 93)); [injection H as <- <-; reflexivity|].
  apply cbind_inv in H. destruct H as (b & _ & H). destruct b as [lst|].
  - apply cbind_inv in H. destruct H as ([[q1 r1] l1] & E1 & H). destruct (r1 =? 0); [discriminate H|]. cbv zeta in H. apply cbind_inv in H. destruct H as ([[q2 r2] l2] & E2 & H). apply IH in H. apply (nextc_nn m Hm) in E1, E2. destruct E1, E2. congruence.
  - apply cbind_inv in H. destruct H as ([r1 l1] & E1 & H). apply lift_inv in E1. cbv zeta in H. apply cbind_inv in H. destruct H as ([[q2 r2] l2] & E2 & H). apply IH in H. apply (nextc_nn m Hm) in E2. destruct E2 as [_ E2]. rewrite H, E2.
    assert (AS : forall l c r1 l1, lexasciiclass m l c = Ok (r1, l1) -> ric l1 = ric l). { clear. intros l c r1 l1 H. unfold lexasciiclass in H. destruct (aget m (ep l + 1)) as [b|]; [|discriminate H]. cbn [bind] in H. destruct (lookup m asc_names _) as [[[w t]|]|]; [| |discriminate H]; cbn [bind] in H; injection H as _ <-; reflexivity. }
    assert (US : forall l c r1 l1, lexutfclass m l c = Ok (r1, l1) -> ric l1 = ric l). { clear. intros l c r1 l1 H. unfold lexutfclass in H. destruct (lookup m utf_names _) as [[[w t]|]|]; [| |discriminate H]; cbn [bind] in H; injection H as _ <-; reflexivity. }
    destruct (negb q).
    + destruct (r =? 91); [|injection E1 as _ <-; reflexivity]. destruct (aget m (ep l)) as [c|]; [|discriminate E1]. cbn [bind] in E1. destruct (c =? 58); [eapply AS; exact E1|injection E1 as _ <-; reflexivity].
    + destruct (rune_mapping r); [injection E1 as _ <-; reflexivity|]. destruct ((r =? 112) || (r =? 80)); [eapply US; exact E1|injection E1 as _ <-; reflexivity].
Qed.
Definition flag_tok (t : token) : Prop := t = KOp CASED \/ t = KOp ICASE.
Lemma flags_tok m fuel : forall k en l t l', lex_flags m fuel k en l = ret (t, l') -> t = KEnd \/ flag_tok t.
Proof.
  induction fuel as [|fuel IH]; intros k en l t l' H; [discriminate H|]. cbn [lex_flags] in H. apply cbind_inv in H. destruct H as (b & _ & H).
  repeat match type of H with (if ?b then _ else _) = _ => destruct b end; try discriminate H; try (eapply IH; eassumption); injection H as <- <-; auto. right. destruct (ric l); [right|left]; reflexivity.
Qed.
Lemma utf_nn m l c r1 l1 : 0 <= c -> lexutfclass m l c = Ok (r1, l1) -> 0 <= r1 /\ ric l1 = ric l.
Proof.
  intros Hc H. unfold lexutfclass in H. destruct (lookup m utf_names (ep l)) as [[[w t]|]|] eqn:E; [| |discriminate H]; cbn [bind] in H; injection H as <- <-; [|auto]. split; [|reflexivity].
  assert (In (w, t) utf_names). { revert E. clear. set (tab := utf_names). clearbody tab. induction tab as [|e tab IH]; cbn [lookup]; [discriminate|]. destruct (prefix_at m (fst e) (ep l)) as [[|]|]; cbn [bind]; [intros [= ->]; now left|intros H; right; auto|discriminate]. }
  assert (X : forallb (fun e => 0 <=? snd e) utf_names = true) by (vm_compute; reflexivity). rewrite forallb_forall in X. specialize (X _ H). cbn [snd] in X. assert (0 <= UTF_al + 6) by (vm_compute; discriminate). destruct (ric l && _); destruct (c =? 80); lia.
Qed.
Lemma lex_rune m l t l' : bytes_ m -> lex m l = ret (t, l') -> t <> KEnd -> ~ flag_tok t -> rune_of (ric l) t /\ ric l' = ric l.
Proof.
  intros Hm H Hn Hf. unfold lex in H. apply cbind_inv in H. destruct H as ([[q r] l1] & E & H). apply (nextc_nn m Hm) in E. destruct E as [Hr E]. rewrite <- E. clear E.
  assert (RT : forall c, 0 <= c -> ret (rune_tok l1 c, l1) = ret (t, l') -> rune_of (ric l1) t /\ ric l' = ric l1). { intros c Hc X. injection X as <- <-. split; [now apply rune_tok_of|reflexivity]. }
  destruct q.
  - destruct (lit l1); [now apply (RT r)|]. destruct (rune_mapping r) as [v|] eqn:Ev; [apply (RT v); [eapply map_nn; eassumption|exact H]|].
    repeat match type of H with (if ?b then _ else _) = _ => destruct b end; try (injection H as <- <-; split; [exact Logic.I|reflexivity]); try (now apply (RT r)).
    apply cbind_inv in H. destruct H as ([r' l2] & E2 & H). apply lift_inv in E2. apply utf_nn in E2; [|exact Hr]. destruct E2 as [N2 R2]. injection H as <- <-. split; [rewrite <- R2; now apply rune_tok_of|exact R2].
  - repeat match type of H with (if ?b then _ else _) = _ => destruct b end; try (injection H as <- <-; split; [exact Logic.I|reflexivity]); try (now apply (RT r)).
    + injection H as <- <-. split; [destruct (dnl l1); exact Logic.I|reflexivity].
    + unfold bldcclass in H. destruct (16 <=? ncls l1); [discriminate H|]. apply cbind_inv in H. destruct H as ([[q2 r2] l2] & E2 & H). apply (nextc_nn m Hm) in E2. cbn [ric] in E2. apply cbind_inv in H. destruct H as ([[q3 r3] l3] & E3 & H). apply cbind_inv in H. destruct H as ([acc l4] & E4 & H). apply (class_ric m Hm) in E4. injection H as <- <-.
      assert (ric l3 = ric l2). { destruct (negb q2 && (r2 =? 94)); [apply (nextc_nn m Hm) in E3; tauto|injection E3 as _ _ <-; reflexivity]. }
      split; [destruct (negb q2 && (r2 =? 94)); exact Logic.I|]. destruct E2. congruence.
    + apply cbind_inv in H. destruct H as (b & _ & H). destruct (b =? 63); [|injection H as <- <-; split; [exact Logic.I|reflexivity]]. apply flags_tok in H. destruct H; contradiction.
Qed.
Lemma lexes_rune m l toks : bytes_ m -> lexes m l toks -> (forall t, In t toks -> ~ flag_tok t) -> forall t, In t toks -> rune_of (ric l) t.
Proof.
  intros Hm. induction 1 as [l l' H|l t l' ts H Hn _ IH]; intros HF t0 [Ht|Ht] || intros HF t0 []; [|].
  - subst t0. eapply lex_rune; eauto. apply HF. now left.
  - assert (R : ric l' = ric l) by (eapply lex_rune; eauto; apply HF; now left). rewrite <- R. apply IH; [|exact Ht]. intros t1 H1. apply HF. now right.
Qed.
(** No case flags, no word boundaries. *)
Definition plain (toks : list token) : Prop := forall t, In t toks -> ~ flag_tok t /\ t <> KOp WBOUND /\ t <> KOp NWBOUND.
Lemma plain_core m l toks pr ic k e : bytes_ m -> lexes m l toks -> ric l = ic -> plain toks -> compiled (fun o => In (KOp o) toks) pr ic k e -> core pr /\ first_ok pr.
Proof.
  intros Hm HL HR HP (H1 & H2 & H3 & HW). pose proof (lexes_rune m l toks Hm HL (fun t Ht => proj1 (HP t Ht))) as HRn. rewrite HR in HRn. destruct HW as [W1 W2 W3 W4]. split.
  - intros pc [o n] Hpc. destruct (W2 pc o n Hpc) as [->|[->|[[r ->]|[(k' & [->| ->] & Hk)|HI]]]]; cbn; auto; try lia.
    specialize (HRn _ HI). destruct (HP _ HI) as (P1 & P2 & P3). pose proof (lexes_fine _ _ _ HL) as HF. rewrite Forall_forall in HF. destruct (HF _ HI) as [HO _].
    destruct o; cbn in *; try tauto; try congruence; try (destruct HRn; congruence); exfalso; apply P1; unfold flag_tok; auto.
  - intros o n Hpc. destruct (W2 _ o n Hpc) as [->|[->|[[r ->]|[(k' & [->| ->] & Hk)|HI]]]]; cbn; auto. specialize (HRn _ HI). destruct o; cbn in *; tauto.
Qed.
