(** Skipping NOPs, the end of the compilation. *)
From Verif Require Import Base Utf8_Tab Utf8_Model Utf8_Spec Regex_Model Regex_Spec Recomp_Model Recomp_Spec Recomp_Proofs Recomp_Proofs2 Recomp_Proofs3 Recomp_Proofs4.
From Coq Require Import Wf_nat.

Inductive skips (C : list inst) : nat -> nat -> Prop :=
| sk_here t o n : nth_error C t = Some (I o n) -> o <> NOP -> skips C t t
| sk_nop q q' t : nth_error C q = Some (I NOP (Some q')) -> skips C q' t -> skips C q t.
Lemma skips_end C q t : skips C q t -> exists o n, nth_error C t = Some (I o n) /\ o <> NOP.
Proof. induction 1; eauto. Qed.
Lemma skips_trans C a b c : skips C a b -> skips C b c -> skips C a c.
Proof. induction 1; intros H'; [exact H'|]. eapply sk_nop; eauto. Qed.
Lemma skips_det C a b c : skips C a b -> skips C a c -> b = c.
Proof.
  induction 1 as [t o n Ht Ho|q q' t Hq _ IH]; intros H'; inversion H' as [t' o' n' A B|a q'' t' A B]; subst; try congruence.
  apply IH. congruence.
Qed.

Section Opt.
Variables (C : list inst) (e : nat).
(** The code ends with END at [e]; all others go on; NOP chains go up. *)
Hypothesis Cend : nth_error C e = Some (I END None).
Hypothesis Clen : length C = S e.
Hypothesis Cin : forall pc, (pc < e)%nat -> exists o q, nth_error C pc = Some (I o (Some q)) /\ o <> END /\ (q <= e)%nat /\ (o = NOP -> opat C q = Some NOP -> (pc < q)%nat).
Hypothesis Cright : forall pc r n, nth_error C pc = Some (I (OR r) n) -> exists q, r = Some q /\ (q <= e)%nat /\ opat C q <> Some NOP.

Record rel (c : list inst) (n : nat) : Prop := {
  r_len : length c = S e;
  r_lt : forall pc o q, (pc < n)%nat -> nth_error C pc = Some (I o (Some q)) -> exists t, nth_error c pc = Some (I o (Some t)) /\ skips C q t;
  r_ge : forall pc, (n <= pc)%nat -> nth_error c pc = nth_error C pc }.
Lemma skip_ok c n : rel c n -> (n <= e)%nat -> forall fuel q, (q <= e)%nat -> (e - q < fuel)%nat -> exists t, skip_nop fuel c (Some q) = Ok t /\ skips C q t.
Proof.
  intros HR Hn. induction fuel as [|fuel IH]; intros q Hq Hf; [lia|]. cbn [skip_nop].
  destruct (Nat.eq_dec q e) as [->|Hne].
  { rewrite (r_ge _ _ HR) by lia. rewrite Cend. cbn [iop]. exists e. split; [reflexivity|]. eapply sk_here; [exact Cend|discriminate]. }
  destruct (Cin q ltac:(lia)) as (o & q' & HC & Ho & Hq' & HN). destruct (le_lt_dec n q) as [Hnq|Hnq].
  - rewrite (r_ge _ _ HR) by lia. rewrite HC. cbn [iop inext]. assert (D : o = NOP \/ o <> NOP) by (destruct o; (now left) || (right; discriminate)). destruct D as [->|D].
    + destruct (nth_error C q') as [[o2 n2]|] eqn:Eq2. 2:{ apply nth_error_None in Eq2. lia. }
      assert (D2 : o2 = NOP \/ o2 <> NOP) by (destruct o2; (now left) || (right; discriminate)). destruct D2 as [->|D2].
      * specialize (HN eq_refl). unfold opat in HN. rewrite Eq2 in HN. specialize (HN eq_refl). destruct (IH q' Hq' ltac:(lia)) as (t & E & HS). exists t. split; [exact E|]. eapply sk_nop; eassumption.
      * exists q'. split; [|eapply sk_nop; [eassumption|eapply sk_here; eassumption]]. destruct fuel as [|fuel]; [lia|]. cbn [skip_nop].
        assert (Ec : exists n3, nth_error c q' = Some (I o2 n3)).
        { destruct (le_lt_dec n q') as [H|H]; [rewrite (r_ge _ _ HR) by assumption; eauto|]. destruct (Cin q' ltac:(lia)) as (o4 & q4 & HC4 & _). rewrite HC4 in Eq2. injection Eq2 as -> _.
          destruct (r_lt _ _ HR _ _ _ H HC4) as (t & E & _). eauto. }
        destruct Ec as [n3 ->]. cbn [iop]. destruct o2; congruence || reflexivity.
    + exists q. split; [destruct o; congruence || reflexivity|]. eapply sk_here; eassumption.
  - destruct (r_lt _ _ HR _ _ _ Hnq HC) as (t & E & HS). rewrite E. cbn [iop inext]. assert (D : o = NOP \/ o <> NOP) by (destruct o; (now left) || (right; discriminate)). destruct D as [->|D].
    + destruct (skips_end _ _ _ HS) as (o2 & n2 & Et & D2). exists t. split; [|eapply sk_nop; eassumption]. destruct fuel as [|fuel]; [lia|]. cbn [skip_nop].
      assert (Ec : exists n3, nth_error c t = Some (I o2 n3)).
      { destruct (le_lt_dec n t) as [H|H]; [rewrite (r_ge _ _ HR) by assumption; eauto|]. destruct (Cin t ltac:(lia)) as (o4 & q4 & HC4 & _). rewrite HC4 in Et. injection Et as -> _.
        destruct (r_lt _ _ HR _ _ _ H HC4) as (t' & E' & _). eauto. }
      destruct Ec as [n3 ->]. cbn [iop]. destruct o2; congruence || reflexivity.
    + exists q. split; [destruct o; congruence || reflexivity|]. eapply sk_here; eassumption.
Qed.
Lemma opt_ok : forall k c n fuel, (e - n = k)%nat -> (n <= e)%nat -> (k < fuel)%nat -> rel c n -> exists c', opt_loop fuel c n = Ok c' /\ rel c' e.
Proof.
  induction k as [|k IH]; intros c n fuel Hk Hn Hf HR; (destruct fuel as [|fuel]; [lia|]); cbn [opt_loop].
  - replace n with e in * by lia. rewrite (r_ge _ _ HR) by lia. rewrite Cend. cbn [iop]. eauto.
  - rewrite (r_ge _ _ HR) by lia. destruct (Cin n ltac:(lia)) as (o & q & HC & Ho & Hq & HN). rewrite HC. cbn [iop inext].
    destruct (skip_ok c n HR Hn (S (length c)) q Hq) as (t & E & HS); [rewrite (r_len _ _ HR); lia|].
    assert (EL : match o with END => Ok c | _ => let* n0 := skip_nop (S (length c)) c (Some q) in opt_loop fuel (upd c n (I o (Some n0))) (S n) end = opt_loop fuel (upd c n (I o (Some t))) (S n)) by (rewrite E; destruct o; congruence || reflexivity).
    rewrite EL. apply IH; try lia. destruct HR as [h1 h2 h3]. constructor.
    + now rewrite length_upd.
    + intros pc o' q' Hp HC'. rewrite nth_upd. destruct (Nat.eqb_spec n pc) as [<-|Hne].
      * rewrite HC in HC'. injection HC' as <- <-. destruct (Nat.ltb_spec n (length c)); [|lia]. eauto.
      * apply h2; [lia|exact HC'].
    + intros pc Hp. rewrite nth_error_upd_other by lia. apply h3. lia.
Qed.
Lemma rel0 : rel C 0.
Proof. constructor; auto. intros; lia. Qed.

Variables (c' : list inst) (f : nat) (ic : bool) (ns : nat).
Hypothesis HR : rel c' e.
Let pr := Prog c' f ic ns.
Variables (rm : Z -> Z -> res bool) (cs : list Z) (pos : nat -> Z).
Notation path := (path rm ic cs pos C).

Lemma css_cons x y z : cstep rm pr cs pos x y -> csteps rm pr cs pos y z -> csteps rm pr cs pos x z.
Proof.
  intros H1 H2. induction H2 as [|y z w _ IH H3]; [eapply css_snoc; [apply css_refl|exact H1]|]. eapply css_snoc; [apply IH; exact H1|exact H3].
Qed.
Lemma skip_path q t x : skips C q t -> exists k, path k (st q x) (st t x).
Proof.
  induction 1 as [t o n Ht Ho|q q' t Hq _ [k IH]]; [exists 0%nat; apply p_refl|]. exists (S k). econstructor; [|exact IH]. apply pass_nop. exact Hq.
Qed.
Lemma c_inv pc o n : nth_error c' pc = Some (I o (Some n)) -> (pc < e)%nat /\ exists q, nth_error C pc = Some (I o (Some q)) /\ skips C q n.
Proof.
  intros H. assert (Hl : (pc < length c')%nat) by (apply nth_error_Some; congruence). rewrite (r_len _ _ HR) in Hl.
  destruct (Nat.eq_dec pc e) as [->|Hne]; [rewrite (r_ge _ _ HR), Cend in H by lia; discriminate H|]. split; [lia|].
  destruct (Cin pc ltac:(lia)) as (o1 & q & HC & _). destruct (r_lt _ _ HR pc _ _ ltac:(lia) HC) as (t & E & HS). rewrite H in E. injection E as -> ->. eauto.
Qed.
Lemma cstep_path x y : cstep rm pr cs pos x y -> exists k, path k x y.
Proof.
  intros H. inversion H as [pc i c o n r A B D|pc i c o n A B|pc i c q n A]; subst; cbn [code pr] in A.
  - destruct (c_inv _ _ _ A) as (_ & q & HC & HS). destruct (skip_path _ _ (S i, c) HS) as [k P]. exists (S k). econstructor; [|exact P]. eapply n_take; eassumption.
  - destruct (c_inv _ _ _ A) as (_ & q & HC & HS). destruct (skip_path _ _ (i, set_caps pos o i c) HS) as [k P]. exists (S k). econstructor; [|exact P]. eapply n_pass; [exact HC|]. right. exact B.
  - exists 1%nat. econstructor; [|apply p_refl]. destruct (Nat.eq_dec pc e) as [->|Hne]; [rewrite (r_ge _ _ HR), Cend in A by lia; discriminate A|].
    assert (Hl : (pc < length c')%nat) by (apply nth_error_Some; congruence). rewrite (r_len _ _ HR) in Hl.
    destruct (Cin pc ltac:(lia)) as (o1 & q1 & HC & _). destruct (r_lt _ _ HR pc _ _ ltac:(lia) HC) as (t & E & HS). rewrite A in E. injection E as <- _. eapply n_right; exact HC.
Qed.
Lemma csteps_path x y : csteps rm pr cs pos x y -> exists k, path k x y.
Proof.
  induction 1 as [|x y z _ [k IH] H]; [exists 0%nat; apply p_refl|]. destruct (cstep_path _ _ H) as [k' P]. exists (k + k')%nat. eapply path_app; eassumption.
Qed.
Lemma past_nops k : forall q x t, path k (st q x) t -> cpc t = e -> (q <= e)%nat -> exists t' k', skips C q t' /\ (k' <= k)%nat /\ path k' (st t' x) t.
Proof.
  induction k as [|k IH]; intros q x t H Ht Hq.
  - inversion H; subst. cbn in Ht. subst q. exists e, 0%nat. split; [eapply sk_here; [exact Cend|discriminate]|]. split; [lia|exact H].
  - destruct (Nat.eq_dec q e) as [->|Hne]; [exists e, (S k); split; [eapply sk_here; [exact Cend|discriminate]|]; split; [lia|exact H]|].
    destruct (Cin q ltac:(lia)) as (o & q' & HC & _ & Hq' & _). assert (D : o = NOP \/ o <> NOP) by (destruct o; (now left) || (right; discriminate)). destruct D as [->|D].
    + inversion H as [|? ? y ? Hs Hp]; subst. apply (nop_inv _ _ _ _ _ _ _ _ _ HC) in Hs. subst y. destruct (IH _ _ _ Hp Ht Hq') as (t' & k' & S1 & S2 & S3). exists t', k'. split; [eapply sk_nop; eassumption|]. split; [lia|exact S3].
    + exists q, (S k). split; [eapply sk_here; eassumption|]. split; [lia|exact H].
Qed.
Lemma path_csteps k : forall pc x t, path k (st pc x) t -> cpc t = e -> opat C pc <> Some NOP -> (pc <= e)%nat -> csteps rm pr cs pos (st pc x) t.
Proof.
  induction k as [k IH] using lt_wf_ind. intros pc x t H Ht Hp Hle. inversion H as [y|k0 y z w Hs Hpth]; subst; [apply css_refl|].
  assert (Hlt : (pc < e)%nat).
  { destruct (Nat.eq_dec pc e) as [->|]; [|lia]. exfalso. destruct (nst_inv _ _ _ _ _ _ _ _ _ _ Cend Hs) as [(? & ? & ? & _)|[(? & ? & _)|(? & ? & _)]]; discriminate. }
  destruct (Cin pc Hlt) as (o & q & HC & Ho & Hq & _). destruct (r_lt _ _ HR pc _ _ Hlt HC) as (n & En & HS).
  assert (Hn : opat C n <> Some NOP /\ (n <= e)%nat).
  { destruct (skips_end _ _ _ HS) as (o2 & n2 & E2 & D2). unfold opat. rewrite E2. split; [cbn; congruence|]. assert (n < length C)%nat by (apply nth_error_Some; congruence). lia. }
  assert (Ho' : o <> NOP) by (intros ->; apply Hp; unfold opat; rewrite HC; reflexivity).
  destruct (nst_inv _ _ _ _ _ _ _ _ _ _ HC Hs) as [(q1 & c & E1 & Hc & Htk & ->)|[(q1 & E1 & Hh & ->)|(q1 & -> & ->)]].
  - injection E1 as <-. destruct (past_nops _ _ _ _ Hpth Ht Hq) as (t' & k' & S1 & S2 & S3). assert (t' = n) by (eapply skips_det; eassumption). subst t'.
    eapply css_cons; [|apply (IH k' ltac:(lia) _ _ _ S3 Ht); apply Hn]. apply (cs_take rm pr cs pos pc (fst x) (snd x) o n c En Hc Htk).
  - injection E1 as <-. destruct (past_nops _ _ _ _ Hpth Ht Hq) as (t' & k' & S1 & S2 & S3). assert (t' = n) by (eapply skips_det; eassumption). subst t'.
    eapply css_cons; [|apply (IH k' ltac:(lia) _ _ _ S3 Ht); apply Hn]. destruct Hh as [|Hh]; [congruence|]. apply (cs_pass rm pr cs pos pc (fst x) (snd x) o n En Hh).
  - destruct (Cright _ _ _ HC) as (q2 & [= <-] & Q1 & Q2). eapply css_cons; [|apply (IH k0 ltac:(lia) _ _ _ Hpth Ht); assumption].
    apply (cs_right rm pr cs pos pc (fst x) (snd x) q1 (Some n) En).
Qed.
Lemma end_is pc : is_end pr pc <-> pc = e.
Proof.
  split.
  - intros [n H]. cbn [code pr] in H. assert (Hl : (pc < length c')%nat) by (apply nth_error_Some; congruence). rewrite (r_len _ _ HR) in Hl.
    destruct (Nat.eq_dec pc e) as [|Hne]; [assumption|]. destruct (Cin pc ltac:(lia)) as (o1 & q1 & HC & Ho & _). destruct (r_lt _ _ HR pc _ _ ltac:(lia) HC) as (t & E & HS). congruence.
  - intros ->. exists None. cbn [code pr]. rewrite (r_ge _ _ HR) by lia. exact Cend.
Qed.
End Opt.

(** The finished code of an operand. *)
Lemma means_frag C c' f l e0 hi ic ns x :
  fr C 0 hi f l x -> length C = hi -> opat C f <> Some NOP -> nth_error C l = Some (I e0 None) ->
  let CF := upd (C ++ [I END None]) l (I e0 (Some hi)) in
  (forall pc, (pc < hi)%nat -> exists o q, nth_error CF pc = Some (I o (Some q)) /\ o <> END /\ (q <= hi)%nat /\ (o = NOP -> opat CF q = Some NOP -> (pc < q)%nat)) ->
  (forall pc r n, nth_error CF pc = Some (I (OR r) n) -> exists q, r = Some q /\ (q <= hi)%nat /\ opat CF q <> Some NOP) ->
  rel CF hi c' hi -> means (Prog c' f ic ns) x.
Proof.
  intros HF Hlen Hop Hl CF Cin Cright HR. pose proof (fr_f _ _ _ _ _ _ HF) as Bf. pose proof (fr_l _ _ _ _ _ _ HF) as Bl.
  assert (Cend : nth_error CF hi = Some (I END None)) by (unfold CF; rewrite nth_error_upd_other by lia; rewrite <- Hlen; apply nth_snoc_new).
  assert (Clen : length CF = S hi) by (unfold CF; rewrite length_upd, app_length; cbn; lia).
  assert (HFit : fits C CF 0 hi l hi).
  { constructor; [| |lia].
    - intros pc Hp Hpl. unfold CF. rewrite nth_error_upd_other by congruence. apply nth_snoc_old. lia.
    - intros o Ho. rewrite Hl in Ho. injection Ho as <-. unfold CF. apply nth_error_upd_same. rewrite app_length. cbn. lia. }
  assert (HopF : opat CF f <> Some NOP).
  { unfold CF. rewrite (opat_upd _ _ e0 None); [|rewrite nth_snoc_old by lia; exact Hl]. rewrite opat_snoc_old by lia. exact Hop. }
  intros rm cs pos i c j cc. cbn [startpc picase]. split.
  - intros (pc & HS & HE). apply (end_is CF hi Cend Clen Cin c' f ic ns HR) in HE. subst pc. apply (csteps_path CF hi Cend Clen Cin c' f ic ns HR) in HS. destruct HS as [k P].
    destruct (g_bwd _ _ _ _ _ _ _ _ _ _ (HF rm ic cs pos) _ _ k (i, c) _ HFit P) as ([j' cc'] & k' & D & _ & P'); [cbn; lia|].
    inversion P' as [|? ? y ? Hs Hp]; subst; [exact D|]. exfalso. destruct (nst_inv _ _ _ _ _ _ _ _ _ _ Cend Hs) as [(? & ? & ? & _)|[(? & ? & _)|(? & ? & _)]]; discriminate.
  - intros D. destruct (g_fwd _ _ _ _ _ _ _ _ _ _ (HF rm ic cs pos) _ _ _ _ HFit D) as [k P]. exists hi. split; [|apply (end_is CF hi Cend Clen Cin c' f ic ns HR); reflexivity].
    apply (path_csteps CF hi Cend Clen Cin Cright c' f ic ns HR rm cs pos k f (i, c) _ P); [reflexivity|exact HopF|lia].
Qed.
