(** The compiler as a whole. *)
From Verif Require Import Base Utf8_Tab Utf8_Model Utf8_Spec Regex_Model Regex_Spec Recomp_Model Recomp_Spec Recomp_Proofs Recomp_Proofs2 Recomp_Proofs3 Recomp_Proofs4 Recomp_Proofs5.

(** * Operands and operators are balanced *)
Definition nbin (l : list (ator * Z)) : Z := fold_right (fun x s => (match fst x with AOr | ACat => 1 | _ => 0 end) + s) 0 l.
Lemma nbin_cons a s r : nbin ((a, s) :: r) = (match a with AOr | ACat => 1 | _ => 0 end) + nbin r. Proof. reflexivity. Qed.
Definition del (s : sst) : Z := nbin (ats s) + (if slw s then 1 else 0) - zlen (es s).
Lemma zlen_cons' {A} (x : A) l : zlen (x :: l) = 1 + zlen l.
Proof. unfold zlen. cbn [length]. lia. Qed.
Lemma sym_del a sub e e' : sym a sub e = Good e' -> zlen e' = zlen e - (match a with AOr | ACat => 1 | _ => 0 end).
Proof. unfold sym. intros H. destruct a; destruct e as [|x [|y e]]; try discriminate H; injection H as <-; rewrite ?zlen_cons'; lia. Qed.
Lemma sevu_del pri : forall a e a' e', sevu pri a e = Good (a', e') -> nbin a' - zlen e' = nbin a - zlen e.
Proof.
  induction a as [|[b s] a IH]; intros e a' e' H; [discriminate H|]. cbn [sevu] in H. destruct (go pri b); [|injection H as <- <-; reflexivity].
  destruct (sym b s e) as [e1|] eqn:Es; [|discriminate H]. apply sym_del in Es. rewrite nbin_cons. destruct b; try (apply IH in H; lia). injection H as <- <-. lia.
Qed.
Lemma sevu_nlb pri : forall a e a' e', sevu pri a e = Good (a', e') -> match pri with None => nlb a' = nlb a - 1 | Some v => 3 <= v -> nlb a' = nlb a end.
Proof.
  induction a as [|[b s] a IH]; intros e a' e' H; [discriminate H|]. cbn [sevu] in H. rewrite nlb_cons.
  destruct pri as [v|]; cbn [go] in H.
  - destruct (Z.leb_spec v (prio b)); [|injection H as <- <-; intros _; rewrite nlb_cons; reflexivity]. destruct (sym b s e) as [e1|] eqn:Es; [|discriminate H]. intros Hv.
    destruct b; cbn [prio] in *; try lia; specialize (IH _ _ _ H Hv); lia.
  - destruct (sym b s e) as [e1|] eqn:Es; [|discriminate H]. destruct b; try (specialize (IH _ _ _ H); lia). injection H as <- <-. lia.
Qed.
Lemma sop_del s pri s' : sop s pri = Good s' -> del s' = del s /\ slw s' = slw s /\ snb s' = snb s /\ scs s' = scs s.
Proof.
  unfold sop, del. destruct (sevu pri (ats s) (es s)) as [[a e]|] eqn:E; [|discriminate]. intros [= <-]. cbn [ats es slw snb scs fst snd]. apply sevu_del in E. repeat split; lia.
Qed.
Lemma sop_nlb s pri s' : sop s pri = Good s' -> match pri with None => nlb (ats s') = nlb (ats s) - 1 | Some v => 3 <= v -> nlb (ats s') = nlb (ats s) end.
Proof. unfold sop. destruct (sevu pri (ats s) (es s)) as [[a e]|] eqn:E; [|discriminate]. intros [= <-]. cbn [ats fst]. apply sevu_nlb in E. exact E. Qed.
Lemma spush_inv s a s' : spush s a = Good s' -> s' = Sst (es s) ((a, scs s) :: ats s) (scs s) (slw s) (snb s).
Proof. unfold spush. destruct (length (ats s) <? NSTACK)%nat; [|discriminate]. now intros [= <-]. Qed.
Lemma obind_inv {A B} (x : out A) (f : A -> out B) b : obind x f = Good b -> exists a, x = Good a /\ f a = Good b.
Proof. destruct x; cbn; [eauto|discriminate]. Qed.
Lemma scat_del s s' : scat s = Good s' -> slw s = true -> del s' = del s /\ slw s' = false /\ snb s' = snb s /\ scs s' = scs s /\ nlb (ats s') = nlb (ats s).
Proof.
  unfold scat. intros H Hw. apply obind_inv in H. destruct H as (s1 & H1 & H). apply obind_inv in H. destruct H as (s2 & H2 & H). injection H as <-. pose proof (sop_nlb _ _ _ H1 ltac:(lia)) as N.
  apply sop_del in H1. apply spush_inv in H2. subst s2. unfold del in *. cbn [slw_ ats es slw snb scs] in *. rewrite nbin_cons, nlb_cons. destruct H1 as (D1 & D2 & D3 & D4). rewrite Hw in *. rewrite D2 in D1. repeat split; lia.
Qed.
Lemma feed_del s t s' : sfeed s t = Good s' -> tok_ok t -> t <> KEnd -> snb s = nlb (ats s) ->
  del s <= del s' /\ snb s' = nlb (ats s') /\ (del s' = del s -> needs t s).
Proof.
  intros H Ht Hne HN. destruct t as [| |a|o]; [congruence| | |]; cbn [sfeed] in H.
  - unfold srbra in H. destruct (Z.ltb_spec (snb s - 1) 0); [discriminate H|]. apply obind_inv in H. destruct H as (s1 & H1 & H). injection H as <-. pose proof (sop_nlb _ _ _ H1) as N. cbn [ats] in N.
    apply sop_del in H1. unfold del in *. cbn [slw_ ats es slw snb needs] in *. destruct H1 as (D1 & D2 & D3 & _). destruct (slw s), (slw s1); cbn in *; try discriminate; repeat split; lia.
  - destruct a; try destruct Ht; cbn [soperator needs] in *.
    + destruct (32 <=? scs s + 1); [discriminate H|]. cbn zeta in H. cbn [slw] in H. apply obind_inv in H. destruct H as (s1 & H1 & H). apply obind_inv in H. destruct H as (s2 & H2 & H). injection H as <-. apply spush_inv in H2. subst s2.
      cbn [slw_ ats es slw snb scs]. rewrite nlb_cons. unfold del. cbn [slw_ ats es slw snb scs]. rewrite nbin_cons. destruct (slw s) eqn:Ew.
      * apply scat_del in H1; [|reflexivity]. unfold del in H1. cbn [ats es slw snb scs] in H1. destruct H1 as (D1 & D2 & D3 & D4 & D5). rewrite D2 in D1. repeat split; lia.
      * injection H1 as <-. cbn [ats es slw snb scs]. repeat split; lia.
    + apply obind_inv in H. destruct H as (s1 & H1 & H). apply obind_inv in H. destruct H as (s2 & H2 & H). injection H as <-. apply spush_inv in H2. subst s2. pose proof (sop_nlb _ _ _ H1 ltac:(cbn; lia)) as N. apply sop_del in H1.
      unfold del in *. cbn [slw_ ats es slw snb scs] in *. rewrite nlb_cons, nbin_cons. destruct H1 as (D1 & D2 & D3 & _). rewrite D2 in D1. destruct (slw s); repeat split; lia.
    + apply obind_inv in H. destruct H as (s1 & H1 & H). apply obind_inv in H. destruct H as (s2 & H2 & H). injection H as <-. apply spush_inv in H2. subst s2. pose proof (sop_nlb _ _ _ H1 ltac:(cbn; lia)) as N. apply sop_del in H1.
      unfold del in *. cbn [slw_ ats es slw snb scs] in *. rewrite nlb_cons, nbin_cons. destruct H1 as (D1 & D2 & D3 & _). rewrite D2 in D1. destruct (slw s); repeat split; lia.
    + apply obind_inv in H. destruct H as (s1 & H1 & H). apply obind_inv in H. destruct H as (s2 & H2 & H). injection H as <-. apply spush_inv in H2. subst s2. pose proof (sop_nlb _ _ _ H1 ltac:(cbn; lia)) as N. apply sop_del in H1.
      unfold del in *. cbn [slw_ ats es slw snb scs] in *. rewrite nlb_cons, nbin_cons. destruct H1 as (D1 & D2 & D3 & _). rewrite D2 in D1. destruct (slw s); repeat split; lia.
    + apply obind_inv in H. destruct H as (s1 & H1 & H). apply obind_inv in H. destruct H as (s2 & H2 & H). injection H as <-. apply spush_inv in H2. subst s2. pose proof (sop_nlb _ _ _ H1 ltac:(cbn; lia)) as N. apply sop_del in H1.
      unfold del in *. cbn [slw_ ats es slw snb scs] in *. rewrite nlb_cons, nbin_cons. destruct H1 as (D1 & D2 & D3 & _). rewrite D2 in D1. destruct (slw s); repeat split; lia.
  - unfold soperand in H. apply obind_inv in H. destruct H as (s1 & H1 & H). destruct (length (es s1) <? NSTACK)%nat; [|discriminate H]. injection H as <-. unfold del. cbn [ats es slw snb needs]. rewrite zlen_cons'.
    destruct (slw s) eqn:Ew.
    + apply scat_del in H1; [|exact Ew]. unfold del in H1. destruct H1 as (D1 & D2 & D3 & D4 & D5). rewrite D2, Ew in D1. repeat split; lia.
    + injection H1 as <-. repeat split; lia.
Qed.

(** * All tokens *)
Fixpoint feeds (p : par) (ts : list token) : cm par := match ts with [] => ret p | t :: ts => let! p := feed p t in feeds p ts end.
Fixpoint sfeeds (s : sst) (ts : list token) : out sst := match ts with [] => Good s | t :: ts => obind (sfeed s t) (fun s => sfeeds s ts) end.
Definition tok_fine (t : token) : Prop := tok_ok t /\ t <> KEnd.
Fixpoint tcosts (ts : list token) : Z := match ts with [] => 0 | t :: ts => tcost t + tcosts ts end.
Lemma tcost_nonneg t : 0 <= tcost t. Proof. destruct t as [| |a|]; cbn; try lia. apply cost_nonneg. Qed.
Lemma tcosts_nonneg ts : 0 <= tcosts ts. Proof. induction ts as [|t ts IH]; cbn [tcosts]; [lia|]. pose proof (tcost_nonneg t). lia. Qed.
Lemma tcosts_len ts : tcosts ts <= 2 * zlen ts.
Proof. induction ts as [|t ts IH]; [cbn; lia|]. cbn [tcosts]. rewrite zlen_cons'. assert (tcost t <= 2) by (destruct t as [| |a|]; cbn; try lia; destruct a; cbn; lia). lia. Qed.
Lemma feeds_sim ts : forall p s b, Forall tok_fine ts -> sim p s -> room p s (tcosts ts + b) -> 0 <= b -> snb s = nlb (ats s) ->
  match sfeeds s ts with
  | Bad c => feeds p ts = fail c
  | Good s' => exists p', feeds p ts = ret p' /\ sim p' s' /\ room p' s' b /\ snb s' = nlb (ats s') /\ icap p' = icap p
  end.
Proof.
  induction ts as [|t ts IH]; intros p s b HF HS HR Hb HN; cbn [sfeeds feeds tcosts] in *.
  - exists p. auto.
  - inversion HF as [|? ? [T1 T2] HF']; subst. pose proof (tcosts_nonneg ts).
    pose proof (feed_sim p s t (tcosts ts + b) T1 HS ltac:(replace (tcost t + (tcosts ts + b)) with (tcost t + tcosts ts + b) by lia; exact HR) ltac:(lia) HN) as H1.
    destruct (sfeed s t) as [s1|c] eqn:E1; cbn [obind]; [|rewrite H1; reflexivity]. destruct H1 as (p1 & A1 & A2 & A3 & A4). rewrite A1. cbn [cbind ret].
    destruct (feed_del _ _ _ E1 T1 T2 HN) as (_ & N1 & _). specialize (IH p1 s1 b HF' A2 A3 Hb N1). destruct (sfeeds s1 ts); [|exact IH]. rewrite <- A4. exact IH.
Qed.
Lemma feeds_del ts : forall s s', sfeeds s ts = Good s' -> Forall tok_fine ts -> snb s = nlb (ats s) -> del s <= del s'.
Proof.
  induction ts as [|t ts IH]; intros s s' H HF HN; cbn [sfeeds] in H; [injection H as <-; lia|]. inversion HF as [|? ? [T1 T2] HF']; subst.
  apply obind_inv in H. destruct H as (s1 & H1 & H). destruct (feed_del _ _ _ H1 T1 T2 HN) as (D & N & _). apply IH in H; auto. lia.
Qed.
Lemma feeds_good ts : forall pre s s', good pre s -> 0 <= del s -> sfeeds s ts = Good s' -> Forall tok_fine ts -> snb s = nlb (ats s) -> del s' <= 0 -> good (pre ++ ts) s'.
Proof.
  induction ts as [|t ts IH]; intros pre s s' HG HD H HF HN HD'; cbn [sfeeds] in H; [injection H as <-; rewrite app_nil_r; exact HG|]. inversion HF as [|? ? [T1 T2] HF']; subst.
  apply obind_inv in H. destruct H as (s1 & H1 & H). destruct (feed_del _ _ _ H1 T1 T2 HN) as (D & N & HX). pose proof (feeds_del _ _ _ H HF' N) as D2.
  pose proof (step_good pre s t HG T1 T2 (HX ltac:(lia))) as G. rewrite H1 in G. destruct G as [G _]. change (t :: ts) with ([t] ++ ts). rewrite app_assoc. eapply IH; try eassumption. lia.
Qed.
Lemma inv_feeds (Q : op -> Prop) kmax (Qor : forall q, Q (OR (Some q))) (Qnop : Q NOP) (Qbra : forall k, 1 <= k <= kmax -> Q (LBRA k) /\ Q (RBRA k)) ts : forall p p',
  Forall tok_fine ts -> Forall (fun t => forall o, t = KOp o -> Q o) ts -> inv Q kmax p -> feeds p ts = ret p' -> (csub p' <= kmax -> inv Q kmax p') /\ csub p <= csub p'.
Proof.
  induction ts as [|t ts IH]; intros p p' HF HQ HI H; cbn [feeds] in H; [injection H as <-; split; [auto|lia]|]. inversion HF as [|? ? [T1 T2] HF']; subst. inversion HQ as [|? ? HQ1 HQ']; subst.
  apply cbind_inv in H. destruct H as (p1 & H1 & H). destruct (inv_feed Q Qor Qnop kmax Qbra p t p1 T1 HQ1 HI H1) as [I1 K1].
  destruct (Z_le_gt_dec (csub p1) kmax) as [Hk|Hk].
  - destruct (IH p1 p' HF' HQ' (I1 Hk) H) as [I2 K2]. split; [exact I2|lia].
  - assert (K2 : csub p1 <= csub p').
    { clear -H HF'. revert p1 H. induction HF' as [|t ts [T1 T2] _ IH]; intros p1 H; cbn [feeds] in H; [injection H as <-; lia|]. apply cbind_inv in H. destruct H as (p2 & H1 & H). specialize (IH _ H).
      assert (csub p1 <= csub p2); [|lia]. clear -H1 T1. destruct t as [| |a|o]; cbn [feed] in H1.
      - injection H1 as <-. lia.
      - unfold op_rbra in H1. destruct (nbra p1 - 1 <? 0); [discriminate H1|]. apply cbind_inv in H1. destruct H1 as (q & A & H). apply eu_csub in A. injection H as <-. cbn in *. lia.
      - assert (P : forall x y b, pushator x b = ret y -> csub y = csub x) by (intros x y b; unfold pushator; destruct (length (ators x) <? NSTACK)%nat; [intros [= <-]; reflexivity|discriminate]).
        assert (OC : forall x y, op_cat x = ret y -> csub y = csub x).
        { intros x y H. unfold op_cat in H. apply cbind_inv in H. destruct H as (q & A & H). apply eu_csub in A. apply cbind_inv in H. destruct H as (q2 & A2 & H). apply P in A2. injection H as <-. cbn. lia. }
        destruct a; cbn [operator] in H1; try destruct T1.
        2-5: apply cbind_inv in H1; destruct H1 as (q & A & H); apply eu_csub in A; apply cbind_inv in H; destruct H as (q2 & A2 & H); apply P in A2; injection H as <-; cbn; lia.
        destruct (32 <=? csub p1 + 1); [discriminate H1|]. apply cbind_inv in H1. destruct H1 as (q & A & H). apply cbind_inv in H. destruct H as (q2 & A2 & H). apply P in A2. injection H as <-. cbn [set_lw csub].
        match type of A with context [if lw ?q0 then _ else _] => destruct (lw q0) end; [apply OC in A; cbn [csub] in A; lia|injection A as <-; cbn [csub] in *; lia].
      - unfold operand in H1. apply cbind_inv in H1. destruct H1 as (q & A & H). apply cbind_inv in H. destruct H as ([i q2] & A2 & H). apply newinst_inv in A2. destruct A2 as [-> ->]. apply cbind_inv in H. destruct H as (q3 & A3 & H). apply pushand_inv in A3. subst q3. injection H as <-. cbn [set_lw set_ands set_code csub].
        destruct (lw p1); [|injection A as <-; lia]. unfold op_cat in A. apply cbind_inv in A. destruct A as (q4 & A4 & A). apply eu_csub in A4. apply cbind_inv in A. destruct A as (q5 & A5 & A). unfold pushator in A5. destruct (length (ators q4) <? NSTACK)%nat; [|discriminate A5]. injection A5 as <-. injection A as <-. cbn. lia. }
    split; [lia|lia].
Qed.
