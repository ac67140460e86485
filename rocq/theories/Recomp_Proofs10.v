(** From the tokens to the program. *)
From Verif Require Import Base Utf8_Tab Utf8_Model Utf8_Spec Regex_Model Regex_Spec Recomp_Model Recomp_Spec Recomp_Proofs Recomp_Proofs2 Recomp_Proofs3 Recomp_Proofs4 Recomp_Proofs5 Recomp_Proofs6 Recomp_Proofs7 Recomp_Proofs8 Recomp_Proofs9.

Lemma p_fine :
  (forall k ts e k', p_alt k ts e k' -> Forall tok_fine ts) /\
  (forall k ts e k', p_cat k ts e k' -> Forall tok_fine ts) /\
  (forall k ts e k', p_post k ts e k' -> Forall tok_fine ts).
Proof.
  assert (F : forall t, tok_ok t -> t <> KEnd -> tok_fine t) by (split; assumption).
  apply p_mut; intros; auto; try (apply Forall_app; split; [assumption|]); repeat constructor; cbn; auto; try discriminate.
  apply Forall_app. split; [assumption|]. repeat constructor. discriminate.
Qed.
Definition ran (pre ts : list token) (s : sst) : Prop :=
  match sfeeds s ts with Bad c => resource c | Good s' => good (pre ++ ts) s' /\ slw s' = true /\ snb s' = snb s /\ snb s' = nlb (ats s') end.
Lemma sfeeds_app a : forall s b, sfeeds s (a ++ b) = obind (sfeeds s a) (fun s => sfeeds s b).
Proof. induction a as [|t a IH]; intros s b; cbn [app sfeeds obind]; [reflexivity|]. destruct (sfeed s t); cbn [obind]; auto. Qed.
Lemma step1 pre s t : good pre s -> tok_fine t -> needs t s -> snb s = nlb (ats s) ->
  match sfeeds s [t] with Bad c => resource c | Good s' => good (pre ++ [t]) s' /\ after t s s' /\ snb s' = nlb (ats s') end.
Proof.
  intros HG [T1 T2] HN HB. cbn [sfeeds]. pose proof (step_good pre s t HG T1 T2 HN) as H. destruct (sfeed s t) as [s'|c] eqn:E; cbn [obind]; [|exact H].
  destruct H as [H1 H2]. split; [exact H1|]. split; [exact H2|]. apply (feed_del _ _ _ E T1 T2 HB).
Qed.
Lemma ran_app pre s a b : ran pre a s -> (forall s', sfeeds s a = Good s' -> good (pre ++ a) s' -> slw s' = true -> snb s' = snb s -> snb s' = nlb (ats s') ->
  match sfeeds s' b with Bad c => resource c | Good s2 => good ((pre ++ a) ++ b) s2 /\ slw s2 = true /\ snb s2 = snb s /\ snb s2 = nlb (ats s2) end) -> ran pre (a ++ b) s.
Proof.
  intros H K. unfold ran in *. rewrite sfeeds_app, app_assoc. destruct (sfeeds s a) as [s'|c]; cbn [obind]; [|exact H]. destruct H as (H1 & H2 & H3 & H4). apply K; auto.
Qed.
Lemma fine1 t : tok_ok t -> t <> KEnd -> tok_fine t. Proof. split; assumption. Qed.
Lemma p_runs :
  (forall k ts e k', p_alt k ts e k' -> forall pre s, good pre s -> snb s = nlb (ats s) -> ran pre ts s) /\
  (forall k ts e k', p_cat k ts e k' -> forall pre s, good pre s -> snb s = nlb (ats s) -> ran pre ts s) /\
  (forall k ts e k', p_post k ts e k' -> forall pre s, good pre s -> snb s = nlb (ats s) -> ran pre ts s).
Proof.
  assert (PO : forall a, is_post a -> forall pre s, good pre s -> slw s = true -> snb s = nlb (ats s) ->
    match sfeeds s [KAtor a] with Bad c => resource c | Good s2 => good (pre ++ [KAtor a]) s2 /\ slw s2 = true /\ snb s2 = snb s /\ snb s2 = nlb (ats s2) end).
  { intros a Ha pre s HG Hw HN. pose proof (step1 pre s (KAtor a) HG) as H. assert (X : tok_fine (KAtor a)) by (split; [destruct a; try destruct Ha; exact Logic.I|discriminate]).
    assert (Y : needs (KAtor a) s) by (destruct a; try destruct Ha; exact Hw). specialize (H X Y HN). destruct (sfeeds s [KAtor a]); [|exact H]. destruct H as (H1 & H2 & H3). destruct a; try destruct Ha; destruct H2; auto. }
  apply p_mut.
  - auto.
  - intros k ts1 e1 k1 ts2 e2 k2 _ IH1 _ IH2 pre s HG HN. apply ran_app; [now apply IH1|]. intros s' E G W B N. change (KAtor AOr :: ts2) with ([KAtor AOr] ++ ts2). rewrite sfeeds_app.
    pose proof (step1 _ _ (KAtor AOr) G ltac:(apply fine1; [exact Logic.I|discriminate]) W N) as H. destruct (sfeeds s' [KAtor AOr]) as [s2|c]; cbn [obind]; [|exact H]. destruct H as (H1 & (H2 & H2') & H3).
    specialize (IH2 _ _ H1 H3). unfold ran in IH2. rewrite app_assoc. destruct (sfeeds s2 ts2); [|exact IH2]. destruct IH2 as (A & B' & C & D). split; [exact A|]. split; [exact B'|]. split; [congruence|exact D].
  - auto.
  - intros k ts1 e1 k1 ts2 e2 k2 _ IH1 _ IH2 pre s HG HN. apply ran_app; [now apply IH1|]. intros s' E G W B N. specialize (IH2 _ _ G N). unfold ran in IH2. destruct (sfeeds s' ts2); [|exact IH2]. destruct IH2 as (A & B' & C & D). split; [exact A|]. split; [exact B'|]. split; [congruence|exact D].
  - intros k o Ho pre s HG HN. unfold ran. pose proof (step1 pre s (KOp o) HG ltac:(apply fine1; [exact Ho|discriminate]) Logic.I HN) as H. destruct (sfeeds s [KOp o]); [|exact H]. destruct H as (H1 & (H2 & H2') & H3). auto.
  - intros k ts e k' _ IH pre s HG HN. unfold ran. change (KAtor ALbra :: ts ++ [KRbra]) with ([KAtor ALbra] ++ (ts ++ [KRbra])). rewrite sfeeds_app.
    pose proof (step1 pre s (KAtor ALbra) HG ltac:(apply fine1; [exact Logic.I|discriminate]) Logic.I HN) as H. destruct (sfeeds s [KAtor ALbra]) as [s1|c]; cbn [obind]; [|exact H]. destruct H as (H1 & (H2 & H2') & H3).
    specialize (IH _ _ H1 H3). unfold ran in IH. rewrite sfeeds_app. destruct (sfeeds s1 ts) as [s2|c]; cbn [obind]; [|exact IH]. destruct IH as (A & B & C & D).
    pose proof (nlb_nonneg (ats s)) as NN.
    pose proof (step1 _ s2 KRbra A ltac:(apply fine1; [exact Logic.I|discriminate]) ltac:(split; [exact B|lia]) D) as H. destruct (sfeeds s2 [KRbra]) as [s3|c]; [|exact H]. destruct H as (K1 & (K2 & K2') & K3). rewrite !app_assoc. split; [exact K1|]. split; [exact K2|]. split; [lia|exact K3].
  - intros k ts e k' _ IH pre s HG HN. apply ran_app; [now apply IH|]. intros s' E G W B N. pose proof (PO AStar Logic.I _ _ G W N) as H. destruct (sfeeds s' [KAtor AStar]); [|exact H]. intuition congruence.
  - intros k ts e k' _ IH pre s HG HN. apply ran_app; [now apply IH|]. intros s' E G W B N. pose proof (PO APlus Logic.I _ _ G W N) as H. destruct (sfeeds s' [KAtor APlus]); [|exact H]. intuition congruence.
  - intros k ts e k' _ IH pre s HG HN. apply ran_app; [now apply IH|]. intros s' E G W B N. pose proof (PO AQuest Logic.I _ _ G W N) as H. destruct (sfeeds s' [KAtor AQuest]); [|exact H]. intuition congruence.
Qed.

(** * The start *)
Definition s0 : sst := Sst [] [(AStart, 0)] 0 false 0.
Lemma sim0 len : sim (par0 len) s0.
Proof. constructor; cbn; auto; lia || constructor. Qed.
Lemma good0 : good [] s0.
Proof.
  change (@nil token) with (@nil token ++ ([] ++ [] ++ [])). change s0 with (Sst ((([]:list re) ++ [] ++ []) ++ []) (([] ++ [] ++ []) ++ [(AStart, 0)]) 0 false 0).
  eapply good_; [apply ctx_base| |reflexivity]. econstructor; constructor.
Qed.
Lemma wfp0 Q len : wfp Q (par0 len).
Proof. constructor; cbn; try (intros [|?] ? ? H; discriminate H); try (intros [|?] ? H; discriminate H); intros ? []. Qed.

(** A run over given tokens and to the end. *)
Lemma run_toks toks len ic : Forall tok_fine toks -> zlen toks <= 3 * len + 2 ->
  let x := (let! p := feeds (par0 len) toks in finish p ic) in
  (exists c, x = fail c /\ forall e k, parses toks e k -> resource c) \/
  (exists pr e k, x = ret pr /\ parses toks e k /\ compiled (fun o => In (KOp o) toks) pr ic k e).
Proof.
  intros HF HL x. subst x. set (T := fun o => In (KOp o) toks).
  pose proof (tcosts_len toks) as TL.
  assert (HR : room (par0 len) s0 (tcosts toks + 1)).
  { unfold room. cbn [pcode par0 ats s0 icap]. change (zlen (@nil inst)) with 0. change (costs [(AStart, 0)]) with 0. lia. }
  pose proof (feeds_sim toks (par0 len) s0 1 HF (sim0 len) HR ltac:(lia) eq_refl) as H.
  assert (RS : forall c, (exists s, sfeeds s0 toks = Good s /\ exists p, feeds (par0 len) toks = ret p /\ finish p ic = fail c) \/ sfeeds s0 toks = Bad c -> forall e k, parses toks e k -> resource c).
  { intros c HC e k [HP|(-> & -> & ->)].
    - pose proof (proj1 p_runs _ _ _ _ HP [] s0 good0 eq_refl) as RN. unfold ran in RN. destruct HC as [(s & E1 & p & E2 & E3)|E1]; rewrite E1 in *; [|exact RN]. cbn [app] in RN. destruct RN as (R1 & R2 & R3 & R4). exfalso.
      destruct H as (p' & A1 & A2 & A3 & A4 & A5). rewrite E2 in A1. injection A1 as <-.
      assert (HI : inv (Qof T (csub p)) (csub p) p).
      { pose proof (inv_feeds (Qof T (Z.max 0 (csub p))) (Z.max 0 (csub p)) (Q_or T _) (Q_nop T _) (Q_bra T _) toks (par0 len) p HF) as K.
        destruct K as [K1 K2]; auto; [| |cbn in K2; rewrite Z.max_r in K1 by lia; apply K1; lia].
        - apply Forall_forall. intros t Ht o ->. pose proof (proj1 (Forall_forall _ _) HF _ Ht) as [TO _]. cbn in TO. destruct o; cbn in *; try destruct TO; exact Ht.
        - split; [apply wfp0|]. split; [|cbn; lia]. intros q [Hq|[]]. discriminate Hq. }
      destruct (finish_good T p s toks ic A2 A3 HI R1 R2 R3) as (pr & E & P1 & _). rewrite P1 in E3. discriminate E3.
    - exfalso. destruct HC as [(s & E1 & p & E2 & E3)|E1]; cbn in *; [|discriminate E1]. injection E1 as <-. injection E2 as <-.
      destruct (finish_empty T (par0 len) s0 0 ic (sim0 len) HR) as (pr & P1 & _); auto. rewrite P1 in E3. discriminate E3. }
  destruct (sfeeds s0 toks) as [s|c] eqn:Es.
  2:{ left. exists c. rewrite H. split; [reflexivity|]. apply RS. now right. }
  destruct H as (p & A1 & A2 & A3 & A4 & A5). rewrite A1. cbn [cbind ret].
  assert (HI : inv (Qof T (csub p)) (csub p) p).
  { pose proof (inv_feeds (Qof T (Z.max 0 (csub p))) (Z.max 0 (csub p)) (Q_or T _) (Q_nop T _) (Q_bra T _) toks (par0 len) p HF) as K.
    destruct K as [K1 K2]; auto; [| |cbn in K2; rewrite Z.max_r in K1 by lia; apply K1; lia].
    - apply Forall_forall. intros t Ht o ->. pose proof (proj1 (Forall_forall _ _) HF _ Ht) as [TO _]. cbn in TO. destruct o; cbn in *; try destruct TO; exact Ht.
    - split; [apply wfp0|]. split; [|cbn; lia]. intros q [Hq|[]]. discriminate Hq. }
  assert (D0 : del s0 = 0) by reflexivity.
  pose proof (feeds_del _ _ _ Es HF eq_refl) as HD. rewrite D0 in HD.
  destruct (finish_any T p s toks ic A2 A3 HI A4 HD) as [[c Hc]|(pr & E & P1 & P2 & P3)].
  - intros HD'. pose proof (feeds_good toks [] s0 s good0 ltac:(lia) Es HF eq_refl HD') as G. exact G.
  - left. exists c. split; [exact Hc|]. apply RS. left. exists s. split; [reflexivity|]. exists p. auto.
  - right. exists pr, E, (scs s). auto.
Qed.

(** * The lexer's tokens *)
Lemma lift_inv {A} (x : res A) a : lift x = ret a -> x = Ok a.
Proof. destruct x; cbn; [intros [= ->]; reflexivity|discriminate]. Qed.
Lemma rune_ok l r : tok_ok (rune_tok l r). Proof. unfold rune_tok. destruct (ric l); exact Logic.I. Qed.
Lemma flags_ok m fuel : forall k en l t l', lex_flags m fuel k en l = ret (t, l') -> tok_ok t.
Proof.
  induction fuel as [|fuel IH]; intros k en l t l' H; [discriminate H|]. cbn [lex_flags] in H. apply cbind_inv in H. destruct H as (b & _ & H).
  repeat match type of H with (if ?b then _ else _) = _ => destruct b end; try discriminate H; try (eapply IH; eassumption); injection H as <- <-; try exact Logic.I. destruct (ric l); exact Logic.I.
Qed.
Lemma cclass_ok m l t l' : bldcclass m l = ret (t, l') -> tok_ok t.
Proof.
  unfold bldcclass. destruct (16 <=? ncls l); [discriminate|]. intros H. apply cbind_inv in H. destruct H as ([[q r] l1] & _ & H). apply cbind_inv in H. destruct H as ([[q2 r2] l2] & _ & H).
  apply cbind_inv in H. destruct H as ([acc l3] & _ & H). injection H as <- _. destruct (negb q && (r =? 94)); exact Logic.I.
Qed.
Lemma lex_ok m l t l' : lex m l = ret (t, l') -> tok_ok t.
Proof.
  intros H. unfold lex in H. apply cbind_inv in H. destruct H as ([[q r] l1] & _ & H).
  destruct q.
  - destruct (lit l1); [injection H as <- <-; apply rune_ok|]. destruct (rune_mapping r); [injection H as <- <-; apply rune_ok|].
    repeat match type of H with (if ?b then _ else _) = _ => destruct b end; try (injection H as <- <-; try exact Logic.I; apply rune_ok).
    apply cbind_inv in H. destruct H as ([r' l2] & _ & H). injection H as <- <-. apply rune_ok.
  - repeat match type of H with (if ?b then _ else _) = _ => destruct b end; try (injection H as <- <-; try exact Logic.I; apply rune_ok).
    + injection H as <- <-. destruct (dnl l1); exact Logic.I.
    + eapply cclass_ok; eassumption.
    + apply cbind_inv in H. destruct H as (b & _ & H). destruct (b =? 63); [eapply flags_ok; eassumption|]. injection H as <- <-. exact Logic.I.
Qed.
Lemma lexes_fine m l toks : lexes m l toks -> Forall tok_fine toks.
Proof. induction 1 as [|l t l' ts H Hn _ IH]; constructor; [|exact IH]. split; [eapply lex_ok; eassumption|exact Hn]. Qed.
Lemma loop_lexes m l toks : lexes m l toks -> forall fuel p, (length toks < fuel)%nat -> comp_loop fuel m l p = feeds p toks.
Proof.
  induction 1 as [l l' H|l t l' ts H Hn _ IH]; intros fuel p Hf; (destruct fuel as [|fuel]; [cbn in Hf; lia|]); cbn [comp_loop feeds]; rewrite H; cbn [cbind ret]; [reflexivity|].
  cbn [length] in Hf. destruct t; try congruence; (match goal with |- cbind ?x _ = _ => destruct x as [[p'|c]|e] end; cbn [cbind]; auto; apply IH; lia).
Qed.
Lemma loop_inv m fuel : forall l p p', comp_loop fuel m l p = ret p' -> exists toks, lexes m l toks /\ (length toks < fuel)%nat.
Proof.
  induction fuel as [|fuel IH]; intros l p p' H; [discriminate H|]. cbn [comp_loop] in H. apply cbind_inv in H. destruct H as ([t l'] & E & H).
  destruct t; [exists []; split; [eapply lx_end; eassumption|cbn; lia]| | |]; apply cbind_inv in H; destruct H as (p1 & _ & H); destruct (IH _ _ _ H) as (toks & L & F); eexists (_ :: toks); (split; [eapply lx_tok; [exact E|discriminate|exact L]|cbn; lia]).
Qed.
(** The lexer gives [toks] and then the error [c]. *)
Inductive lexes_bad (m : list Z) : lx -> list token -> Z -> Prop :=
| lb_end l c : lex m l = fail c -> lexes_bad m l [] c
| lb_tok l t l' ts c : lex m l = ret (t, l') -> t <> KEnd -> lexes_bad m l' ts c -> lexes_bad m l (t :: ts) c.
Lemma lexes_bad_fine m l toks c : lexes_bad m l toks c -> Forall tok_fine toks.
Proof. induction 1 as [|l t l' ts c H Hn _ IH]; constructor; [|exact IH]. split; [eapply lex_ok; eassumption|exact Hn]. Qed.
Lemma loop_bad m l toks c : lexes_bad m l toks c -> forall fuel p, (length toks < fuel)%nat -> comp_loop fuel m l p = (let! _ := feeds p toks in fail c).
Proof.
  induction 1 as [l c H|l t l' ts c H Hn _ IH]; intros fuel p Hf; (destruct fuel as [|fuel]; [cbn in Hf; lia|]); cbn [comp_loop feeds]; rewrite H; cbn [cbind ret fail]; [reflexivity|].
  cbn [length] in Hf. destruct t; try congruence; (match goal with |- cbind ?x _ = _ => destruct x as [[p'|c']|e] end; cbn [cbind]; auto; apply IH; lia).
Qed.
Lemma compile_lexes m s len ic dn toks : lexes m (Lx s ic dn false 0) toks -> (length toks <= length m)%nat -> zlen toks <= 3 * len + 2 ->
  (exists c, compile m s len ic dn = fail c /\ forall e k, parses toks e k -> resource c) \/
  (exists pr e k, compile m s len ic dn = ret pr /\ parses toks e k /\ compiled (fun o => In (KOp o) toks) pr ic k e).
Proof.
  intros HL Hm Hz. unfold compile. rewrite (loop_lexes _ _ _ HL) by lia. apply run_toks; [eapply lexes_fine; eassumption|exact Hz].
Qed.
Lemma compile_bad m s len ic dn toks c : lexes_bad m (Lx s ic dn false 0) toks c -> (length toks <= length m)%nat -> zlen toks <= 3 * len + 2 ->
  exists c', compile m s len ic dn = fail c'.
Proof.
  intros HL Hm Hz. unfold compile. rewrite (loop_bad _ _ _ _ HL) by lia. pose proof (run_toks toks len ic (lexes_bad_fine _ _ _ _ HL) Hz) as H. cbn zeta in H.
  destruct (feeds (par0 len) toks) as [[p|c']|e] eqn:E; [exists c; reflexivity|exists c'; reflexivity|].
  exfalso. destruct H as [(c' & H & _)|(pr & e' & k & H & _)]; discriminate H.
Qed.
