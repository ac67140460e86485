(** The compiler accepts what the grammar derives, and nothing else. *)
From Verif Require Import Base Utf8_Tab Utf8_Model Utf8_Spec Regex_Model Regex_Spec Recomp_Model Recomp_Spec Recomp_Proofs Recomp_Proofs2 Recomp_Proofs3 Recomp_Proofs4 Recomp_Proofs5 Recomp_Proofs6 Recomp_Proofs7.

Section Fin.
Variables (T : op -> Prop).
Notation Q kmax := (Qof T kmax).
Lemma Q_or kmax q : Q kmax (OR (Some q)). Proof. exact Logic.I. Qed.
Lemma Q_nop kmax : Q kmax NOP. Proof. exact Logic.I. Qed.
Lemma Q_bra kmax k : 1 <= k <= kmax -> Q kmax (LBRA k) /\ Q kmax (RBRA k). Proof. split; assumption. Qed.

Definition compiled (pr : prog) (ic : bool) (k : Z) (e : re) : Prop := nsub pr = Z.to_nat k /\ picase pr = ic /\ means pr e /\ wfprog T pr.
Lemma fr_eqa C lo hi f l e e' : eqa e e' -> fr C lo hi f l e -> fr C lo hi f l e'.
Proof. intros HE H rm ic cs pos. eapply frag_eqv; [apply HE|apply H]. Qed.
Lemma ctx_nb ts a e k : ctx ts a e k -> nlb a = 0 -> ts = [] /\ e = [] /\ k = 0 /\ exists x, a = [(AStart, x)].
Proof.
  intros H. inversion H; subst; [eauto 10|]. rewrite nlb_cons, nlb_app. pose proof (nlb_nonneg a0). pose proof (nlb_nonneg a1). lia.
Qed.
Lemma finish_good p s toks ic : sim p s -> room p s 1 -> inv (Q (csub p)) (csub p) p -> good toks s -> slw s = true -> snb s = 0 ->
  exists pr E, finish p ic = ret pr /\ p_alt 0 toks E (scs s) /\ compiled pr ic (scs s) E.
Proof.
  intros HS HR HI HG Hw Hn. inversion HG as [ts0 a0 e0 k0 t a e k w nb HX HL Hnb]; subst. cbn [slw snb scs] in *. subst w.
  destruct (ctx_nb _ _ _ _ HX Hn) as (-> & -> & -> & x & ->). cbn [app].
  destruct (eval_alt (Some 0) 0 t a e k [] [(AStart, x)]) as (e' & E & (X & X1 & X2)); [|exact HL|].
  { intros b [Hb|[-> | ->]]; [apply go_le; auto; lia|reflexivity|reflexivity]. }
  assert (ES : sop (Sst (e ++ []) (a ++ [(AStart, x)]) k true (nlb [(AStart, x)])) (Some 0) = Good (Sst [e'] [(AStart, x)] k true 0)).
  { unfold sop. cbn [ats es scs slw snb]. rewrite E. reflexivity. }
  pose proof (sop_sim (Some 0) p _ 1 ltac:(intros v [= <-]; lia) HS HR ltac:(lia) ltac:(discriminate)) as H1. rewrite ES in H1. destruct H1 as (p1 & A1 & A2 & A3 & _).
  pose proof A1 as A1'. unfold eval_ in A1'. destruct (inv_eu (Q (csub p)) (Q_or _) (Q_nop _) (csub p) (Q_bra _) _ _ _ _ HI A1') as [I1 K1].
  destruct A2 as [s1 s2 s3 s4 s5 s6 s7]. cbn [es ats scs slw snb] in *.
  inversion s1 as [|f l e1 lo hi an es' HS0 HF]; subst. inversion HS0; subst. destruct p1 as [C an at_ cs w nb cap]. cbn [pcode ands ators csub lw nbra icap] in *. subst.
  destruct I1 as (W & _ & K). unfold wfp in W. cbn [pcode ands map fst snd csub] in W, K. unfold room in A3. cbn [pcode ats icap] in A3.
  pose proof (costs_nonneg [(AStart, x)]) as Hc.
  destruct (fin_code T (csub p) C f l X x (csub p) 0 ic cap) as (pr & P1 & P2 & P3 & P4 & P5); auto; [lia|eapply fr_eqa; eassumption|lia|].
  exists pr, X. split; [|split; [exact X1|]].
  - unfold finish. rewrite A1. cbn [cbind ret]. exact P1.
  - unfold compiled. auto.
Qed.

(** The stack after the first evaluation. *)
Lemma sevu0_start : forall a e a' e', wfa a -> nlb a = 0 -> sevu (Some 0) a e = Good (a', e') -> exists x, a' = [(AStart, x)].
Proof.
  induction a as [|[b z] a IH]; intros e a' e' HW HN H; [destruct HW|]. cbn [sevu] in H. rewrite nlb_cons in HN. pose proof (nlb_nonneg a) as Hp.
  destruct (wfa_one _ _ _ HW) as [[-> ->]|[Hb HW']].
  - cbn in H. injection H as <- <-. eauto.
  - assert (HG : go (Some 0) b = true) by (destruct b; try reflexivity; congruence). rewrite HG in H. destruct (sym b z e) as [e1|]; [|discriminate H].
    assert (HB : match b with ALbra => Good (a, e1) | _ => sevu (Some 0) a e1 end = sevu (Some 0) a e1) by (destruct b; try reflexivity; lia). rewrite HB in H. eapply IH; try eassumption. destruct b; lia.
Qed.
Lemma finish_empty p s x ic : sim p s -> room p s 1 -> es s = [] -> ats s = [(AStart, x)] -> slw s = false -> snb s = 0 -> scs s = 0 ->
  exists pr, finish p ic = ret pr /\ compiled pr ic 0 EEmpty.
Proof.
  intros HS HR H1 H2 H3 H4 H5. destruct HS as [s1 s2 s3 s4 s5 s6 s7]. rewrite H1 in s1. destruct p as [C an at_ cs w nb cap]. unfold room in HR. cbn [pcode ands ators csub lw nbra icap] in *.
  inversion s1 as [Ha Hb Hc|]; subst. assert (C = []) by (destruct C; [reflexivity|discriminate Hc]). subst C. rewrite H2, H3, H4, H5 in *. pose proof (costs_nonneg [(AStart, x)]) as Hz.
  destruct (fin_empty T ic) as (pr & -> & P1 & P2). exists (Prog [I END None] 0 ic 0). split; [|unfold compiled; auto].
  unfold finish. rewrite eval_nil. cbn [cbind ret]. rewrite (operand_end0 _ x) by (cbn [pcode icap ators ands lw]; auto; lia). cbn [cbind ret pcode app length csub nbra icap]. rewrite eval_nil. reflexivity.
Qed.
Lemma finish_any p s toks ic : sim p s -> room p s 1 -> inv (Q (csub p)) (csub p) p -> snb s = nlb (ats s) -> 0 <= del s -> (del s <= 0 -> good toks s) ->
  (exists c, finish p ic = fail c) \/ (exists pr E, finish p ic = ret pr /\ parses toks E (scs s) /\ compiled pr ic (scs s) E).
Proof.
  intros HS HR HI HN HD HG.
  pose proof (sop_sim (Some 0) p s 1 ltac:(intros v [= <-]; lia) HS HR ltac:(lia) ltac:(discriminate)) as H1.
  destruct (sop s (Some 0)) as [s1|c] eqn:E1; [|left; exists c; unfold finish; rewrite H1; reflexivity]. destruct H1 as (p1 & A1 & B1 & C1 & D1 & F1 & G1 & K1 & L1 & _).
  pose proof (soperand_sim p1 s1 END 0 ltac:(now right) B1 C1 ltac:(lia)) as H2.
  destruct (soperand s1 END) as [s2|c] eqn:E2; [|left; exists c; unfold finish; rewrite A1; cbn [cbind ret]; rewrite H2; reflexivity]. destruct H2 as (p2 & A2 & B2 & C2 & D2 & G2 & L2).
  pose proof (sop_sim (Some 0) p2 s2 0 ltac:(intros v [= <-]; lia) B2 C2 ltac:(lia) ltac:(discriminate)) as H3.
  destruct (sop s2 (Some 0)) as [s3|c] eqn:E3; [|left; exists c; unfold finish; rewrite A1; cbn [cbind ret]; rewrite A2; cbn [cbind ret]; rewrite H3; reflexivity]. destruct H3 as (p3 & A3 & B3 & C3 & D3 & F3 & G3 & K3 & L3 & _).
  destruct (Z.eq_dec (snb s) 0) as [Hz|Hz].
  2:{ left. exists UNMATCHEDLEFT. unfold finish. rewrite A1. cbn [cbind ret]. rewrite A2. cbn [cbind ret]. rewrite A3. cbn [cbind ret]. rewrite (m_nb _ _ B3), L3, L2, L1. destruct (Z.eqb_spec (snb s) 0); [contradiction|reflexivity]. }
  right. destruct (sop_del _ _ _ E1) as (Dd & _). pose proof E1 as E1'. unfold sop in E1'. destruct (sevu (Some 0) (ats s) (es s)) as [[a' e']|] eqn:Ev; [|discriminate E1']. cbn [obind fst snd] in E1'. injection E1' as <-. cbn [es ats scs slw snb] in *.
  destruct (sevu0_start _ _ _ _ (m_wfa _ _ HS) ltac:(lia) Ev) as [x ->].
  assert (Hd1 : del s = (if slw s then 1 else 0) - zlen e') by (unfold del in Dd at 1; cbn [ats es slw nbin fold_right fst] in Dd; lia).
  destruct (slw s) eqn:Ew.
  - assert (e' <> []).
    { intros ->. unfold soperand, scat, sop in E2. cbn [slw ats es scs snb sevu go prio] in E2. change (4 <=? -1) with false in E2. cbn [obind fst snd es ats scs slw snb] in E2. unfold spush in E2. cbn [ats length] in E2. change (1 <? NSTACK)%nat with true in E2. cbn [obind slw_ es ats scs slw snb length] in E2. change (0 <? NSTACK)%nat with true in E2. injection E2 as <-.
      unfold sop in E3. cbn [ats es sevu go prio sym] in E3. change (0 <=? 4) with true in E3. discriminate E3. }
    destruct e' as [|y e']; [congruence|]. rewrite zlen_cons' in Hd1. assert (0 <= zlen e') by (unfold zlen; lia).
    destruct (finish_good p s toks ic HS HR HI (HG ltac:(lia)) Ew Hz) as (pr & E & P1 & P2 & P3). exists pr, E. split; [exact P1|]. split; [now left|exact P3].
  - assert (0 <= zlen e') by (unfold zlen; lia). specialize (HG ltac:(lia)).
    inversion HG as [ts0 a0 e0 k0 t a e k w nb HX HL Hnb]; subst. cbn [slw snb scs ats es] in *. subst w. destruct (ctx_nb _ _ _ _ HX Hz) as (-> & -> & -> & x0 & ->).
    inversion HL as [k0' t1 b1 c1 k1 t2 b2 c2 k2 t3 b3 c3 k'' w HO HC HP]; subst. apply curp_false in HP. destruct HP as (-> & -> & -> & ->). cbn [app] in *.
    inversion HC as [|? ? ? ? ? ? ? ?]; subst; [|inversion HO; subst; cbn in Ev; discriminate Ev].
    inversion HO as [|? ? ? ? ? ? ? ?]; subst; [|cbn in Ev; discriminate Ev].
    destruct (finish_empty p _ x0 ic HS HR) as (pr & P1 & P2); auto. exists pr, EEmpty. split; [exact P1|]. split; [right; auto|exact P2].
Qed.
End Fin.
