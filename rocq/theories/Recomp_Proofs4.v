(** The shape of the code: what is needed of it beyond its meaning. *)
From Verif Require Import Base Utf8_Tab Utf8_Model Utf8_Spec Regex_Model Regex_Spec Recomp_Model Recomp_Spec Recomp_Proofs Recomp_Proofs2 Recomp_Proofs3.

Definition opat (C : list inst) (q : nat) : option op := option_map iop (nth_error C q).
Section Shape.
(** The instructions that may occur. *)
Variable Q : op -> Prop.
Record wfc (C : list inst) (pend fs : list nat) : Prop := {
  w_ops : forall pc o n, nth_error C pc = Some (I o n) -> Q o;
  w_next : forall pc o q, nth_error C pc = Some (I o (Some q)) -> (q < length C)%nat /\ (o = NOP -> opat C q = Some NOP -> (pc < q)%nat);
  w_right : forall pc r n, nth_error C pc = Some (I (OR r) n) -> exists q, r = Some q /\ (q < length C)%nat /\ opat C q <> Some NOP;
  w_none : forall pc o, nth_error C pc = Some (I o None) -> In pc pend;
  w_fs : forall f, In f fs -> (f < length C)%nat /\ opat C f <> Some NOP;
  w_pend : forall l, In l pend -> (l < length C)%nat }.
Lemma opat_snoc_old C i q : (q < length C)%nat -> opat (C ++ [i]) q = opat C q.
Proof. unfold opat. intros H. now rewrite nth_snoc_old. Qed.
Lemma opat_some C q : (q < length C)%nat -> exists o n, nth_error C q = Some (I o n).
Proof. intros H. destruct (nth_error C q) as [[o n]|] eqn:E; [eauto|]. apply nth_error_None in E. lia. Qed.
Lemma wfc_new C pend fs o : wfc C pend fs -> Q o -> (forall r, o = OR r -> exists q, r = Some q /\ (q < length C)%nat /\ opat C q <> Some NOP) ->
  wfc (C ++ [I o None]) (length C :: pend) fs.
Proof.
  intros [h1 h2 h3 h4 h5 h6] HQ HR.
  assert (G : forall pc i, nth_error (C ++ [I o None]) pc = Some i -> nth_error C pc = Some i /\ (pc < length C)%nat \/ pc = length C /\ i = I o None).
  { intros pc i H. assert (Hl : (pc < length (C ++ [I o None]))%nat) by (apply nth_error_Some; congruence). rewrite app_length in Hl. cbn in Hl.
    destruct (Nat.eq_dec pc (length C)) as [->|Hn]; [right; rewrite nth_snoc_new in H; split; congruence|]. left. rewrite nth_snoc_old in H by lia. split; [exact H|lia]. }
  constructor.
  - intros pc o' n H. destruct (G _ _ H) as [[H' _]|[_ E]]; [eapply h1; eassumption|]. injection E as -> _. exact HQ.
  - intros pc o' q H. destruct (G _ _ H) as [[H' Hp]|[_ E]]; [|discriminate E]. destruct (h2 _ _ _ H') as [A B]. rewrite app_length. cbn. split; [lia|]. rewrite opat_snoc_old by assumption. exact B.
  - intros pc r n H. rewrite app_length. cbn. destruct (G _ _ H) as [[H' Hp]|[_ E]].
    + destruct (h3 _ _ _ H') as (q & -> & Hq & Hn). exists q. rewrite opat_snoc_old by assumption. repeat split; auto; lia.
    + injection E as <- _. destruct (HR _ eq_refl) as (q & -> & Hq & Hn). exists q. rewrite opat_snoc_old by assumption. repeat split; auto; lia.
  - intros pc o' H. destruct (G _ _ H) as [[H' Hp]|[-> E]]; [right; eapply h4; eassumption|now left].
  - intros f Hf. destruct (h5 _ Hf) as [A B]. rewrite app_length, opat_snoc_old by assumption. cbn. split; [lia|exact B].
  - intros l [<-|Hl]; rewrite app_length; cbn; [lia|]. specialize (h6 _ Hl). lia.
Qed.
Lemma wfc_first C pend fs o : wfc (C ++ [I o None]) pend fs -> o <> NOP -> wfc (C ++ [I o None]) pend (length C :: fs).
Proof.
  intros [h1 h2 h3 h4 h5 h6] Ho. constructor; auto. intros f [<-|Hf]; [|auto]. rewrite app_length. cbn. split; [lia|]. unfold opat. rewrite nth_snoc_new. cbn. congruence.
Qed.
Lemma opat_upd C l o x n q : nth_error C l = Some (I o x) -> opat (upd C l (I o n)) q = opat C q.
Proof.
  intros H. unfold opat. rewrite nth_upd. destruct (Nat.eqb_spec l q) as [<-|Hn]; [|reflexivity]. rewrite H. assert (l < length C)%nat by (apply nth_error_Some; congruence).
  destruct (Nat.ltb_spec l (length C)); [reflexivity|lia].
Qed.
Lemma wfc_set C pend pend' fs l n o x : wfc C pend fs -> nth_error C l = Some (I o x) -> (n < length C)%nat -> (o = NOP -> opat C n = Some NOP -> (l < n)%nat) ->
  (forall y, In y pend -> y = l \/ In y pend') -> (forall y, In y pend' -> In y pend) -> wfc (upd C l (I o (Some n))) pend' fs.
Proof.
  intros [h1 h2 h3 h4 h5 h6] Hl Hn HN HI HI'. assert (Hll : (l < length C)%nat) by (apply nth_error_Some; congruence).
  assert (G : forall pc i, nth_error (upd C l (I o (Some n))) pc = Some i -> pc = l /\ i = I o (Some n) \/ pc <> l /\ nth_error C pc = Some i).
  { intros pc i H. rewrite nth_upd in H. destruct (Nat.eqb_spec l pc) as [<-|Hne]; [|right; split; [congruence|exact H]]. destruct (Nat.ltb_spec l (length C)); [|lia]. left. split; congruence. }
  constructor; rewrite ?length_upd.
  - intros pc o' n' H. destruct (G _ _ H) as [[-> E]|[Hp H']]; [injection E as -> ->|]; eapply h1; eassumption.
  - intros pc o' q H. rewrite (opat_upd _ _ _ _ _ _ Hl). destruct (G _ _ H) as [[-> E]|[Hp H']]; [injection E as -> ->; split; assumption|]. eapply h2; eassumption.
  - intros pc r n' H. destruct (G _ _ H) as [[-> E]|[Hp H']].
    + injection E as E1 E2. subst o. destruct (h3 _ _ _ Hl) as (q & -> & Hq). exists q. rewrite (opat_upd _ _ _ _ _ _ Hl). auto.
    + destruct (h3 _ _ _ H') as (q & -> & Hq). exists q. rewrite (opat_upd _ _ _ _ _ _ Hl). auto.
  - intros pc o' H. destruct (G _ _ H) as [[-> E]|[Hp H']]; [discriminate E|]. destruct (HI pc (h4 _ _ H')); [congruence|assumption].
  - intros f Hf. rewrite (opat_upd _ _ _ _ _ _ Hl). apply h5. exact Hf.
  - intros y Hy. apply h6, HI', Hy.
Qed.
Lemma wfc_fs C pend fs fs' : wfc C pend fs -> incl fs' fs -> wfc C pend fs'.
Proof. intros [h1 h2 h3 h4 h5 h6] HI. constructor; auto. Qed.

Definition wfp (p : par) : Prop := wfc (pcode p) (map snd (ands p)) (map fst (ands p)).
Hypothesis Qor : forall q, Q (OR (Some q)).
Hypothesis Qnop : Q NOP.
Variable kmax : Z.
Hypothesis Qbra : forall k, 1 <= k <= kmax -> Q (LBRA k) /\ Q (RBRA k).

Lemma newinst_inv p o i p' : newinst p o = ret (i, p') -> i = length (pcode p) /\ p' = set_code p (pcode p ++ [I o None]).
Proof. unfold newinst. destruct (zlen (pcode p) <? icap p); [|discriminate]. intros [= <- <-]. auto. Qed.
Lemma set_next_inv p l n p' : set_next p l n = ret p' -> exists o x, nth_error (pcode p) l = Some (I o x) /\ p' = set_code p (upd (pcode p) l (I o (Some n))).
Proof. unfold set_next. destruct (nth_error (pcode p) l) as [[o x]|]; [|discriminate]. intros [= <-]. eauto. Qed.
Lemma pushand_inv p f l p' : pushand p f l = ret p' -> p' = set_ands p ((f, l) :: ands p).
Proof. unfold pushand. destruct (length (ands p) <? NSTACK)%nat; [|discriminate]. intros [= <-]. reflexivity. Qed.
Lemma popand_inv p f l p' : popand p = ret (f, l, p') -> exists r, ands p = (f, l) :: r /\ p' = set_ands p r.
Proof. unfold popand. destruct (ands p) as [|x r]; [discriminate|]. intros [= -> <-]. eauto. Qed.
Lemma cbind_inv {A B} (x : cm A) (f : A -> cm B) b : cbind x f = ret b -> exists a, x = ret a /\ f a = ret b.
Proof. destruct x as [[a|c]|e]; cbn; intros H; try discriminate H. exists a. auto. Qed.
Ltac pop H f l r E := apply cbind_inv in H; let A := fresh in destruct H as ([[f l] ?] & A & H); apply popand_inv in A; destruct A as (r & E & ->); cbn [pcode ands set_code set_ands] in *.
Ltac new H := apply cbind_inv in H; let A := fresh in destruct H as ([? ?] & A & H); apply newinst_inv in A; destruct A as (-> & ->); cbn [pcode ands set_code set_ands] in *.
Ltac setn H oo yy E := apply cbind_inv in H; let A := fresh in destruct H as (? & A & H); apply set_next_inv in A; destruct A as (oo & yy & E & ->); cbn [pcode ands set_code set_ands] in *.
Ltac push H := apply pushand_inv in H; subst; cbn [pcode ands set_code set_ands map fst snd] in *.
Lemma opat_new C i : opat (C ++ [i]) (length C) = Some (iop i).
Proof. unfold opat. now rewrite nth_snoc_new. Qed.
Ltac inl := cbn [In]; intuition.
Lemma wfp_eval p a sub p' : wfp p -> (a = ALbra -> 1 <= sub <= kmax) -> eval_op p a sub = ret p' -> wfp p'.
Proof.
  unfold wfp. intros HW Hs H. destruct a; cbn [eval_op] in H; [discriminate H| | | | | |].
  - pop H f l r E. rewrite E in HW. cbn [map fst snd] in HW. new H. setn H oa xa E1. new H. setn H oc xc E2. push H.
    pose proof (w_pend _ _ _ HW _ (or_introl eq_refl)) as P0. destruct (w_fs _ _ _ HW _ (or_introl eq_refl)) as [P1 P2]. destruct (Qbra sub (Hs eq_refl)) as [Q1 Q2].
    apply (wfc_new _ _ _ (RBRA sub)) in HW; [|exact Q2|discriminate].
    eapply (wfc_set _ _ (length (pcode p) :: map snd r) _ _ (length (pcode p))) in HW; [|exact E1|lens; lia|rewrite opat_new; discriminate|inl|inl].
    apply (wfc_new _ _ _ (LBRA sub)) in HW; [|exact Q1|discriminate]. apply wfc_first in HW; [|discriminate].
    eapply (wfc_set _ _ (length (pcode p) :: map snd r) _ _ f) in HW; [|exact E2|lens; lia| |inl|inl].
    + eapply wfc_fs; [exact HW|]. intros y. inl.
    + rewrite nth_snoc_new in E2. injection E2 as <- <-. discriminate.
  - pop H f2 l2 r2 E. pop H f1 l1 r E'. subst r2. rewrite E in HW. cbn [map fst snd] in HW. new H. setn H oa xa E1. setn H ob xb E2. new H. setn H oc xc E3. push H.
    pose proof (w_pend _ _ _ HW _ (or_introl eq_refl)) as P0. destruct (w_fs _ _ _ HW _ (or_introl eq_refl)) as [P1 P2].
    pose proof (w_pend _ _ _ HW _ (or_intror (or_introl eq_refl))) as P3. destruct (w_fs _ _ _ HW _ (or_intror (or_introl eq_refl))) as [P4 P5].
    apply (wfc_new _ _ _ NOP) in HW; [|exact Qnop|discriminate].
    eapply (wfc_set _ _ (length (pcode p) :: l1 :: map snd r) _ _ (length (pcode p))) in HW; [|exact E1|lens; lia|intros; assumption|inl|]. 2:{ inl. }
    eapply (wfc_set _ _ (length (pcode p) :: map snd r) _ _ (length (pcode p))) in HW; [|exact E2|lens; lia|intros; assumption|inl|inl].
    apply (wfc_new _ _ _ (OR (Some f1))) in HW; [|apply Qor|].
    2:{ intros q [= <-]. exists f1. split; [reflexivity|]. split; [lens; lia|]. rewrite (opat_upd _ _ _ _ _ _ E2), (opat_upd _ _ _ _ _ _ E1), opat_snoc_old by assumption. exact P5. }
    apply wfc_first in HW; [|discriminate].
    eapply (wfc_set _ _ (length (pcode p) :: map snd r) _ _ f2) in HW; [|exact E3|lens; lia| |inl|inl].
    + eapply wfc_fs; [exact HW|]. intros y. inl.
    + rewrite nth_snoc_new in E3. injection E3 as <- <-. discriminate.
  - pop H f2 l2 r2 E. pop H f1 l1 r E'. subst r2. rewrite E in HW. cbn [map fst snd] in HW. setn H oa xa E1. push H.
    destruct (w_fs _ _ _ HW _ (or_introl eq_refl)) as [P1 P2].
    eapply (wfc_set _ _ (l2 :: map snd r) _ _ f2) in HW; [|exact E1|exact P1|intros _ Hx; congruence|inl|inl].
    eapply wfc_fs; [exact HW|]. intros y. inl.
  - pop H f l r E. rewrite E in HW. cbn [map fst snd] in HW. new H. setn H oa xa E1. push H.
    pose proof (w_pend _ _ _ HW _ (or_introl eq_refl)) as P0. destruct (w_fs _ _ _ HW _ (or_introl eq_refl)) as [P1 P2].
    apply (wfc_new _ _ _ (OR (Some f))) in HW; [|apply Qor|intros q [= <-]; eauto]. apply wfc_first in HW; [|discriminate].
    eapply (wfc_set _ _ (length (pcode p) :: map snd r) _ _ (length (pcode p))) in HW; [|exact E1|lens; lia|rewrite opat_new; discriminate|inl|inl].
    eapply wfc_fs; [exact HW|]. intros y. inl.
  - pop H f l r E. rewrite E in HW. cbn [map fst snd] in HW. new H. setn H oa xa E1. push H.
    pose proof (w_pend _ _ _ HW _ (or_introl eq_refl)) as P0. destruct (w_fs _ _ _ HW _ (or_introl eq_refl)) as [P1 P2].
    apply (wfc_new _ _ _ (OR (Some f))) in HW; [|apply Qor|intros q [= <-]; eauto]. apply wfc_first in HW; [|discriminate].
    eapply (wfc_set _ _ (length (pcode p) :: map snd r) _ _ (length (pcode p))) in HW; [|exact E1|lens; lia|rewrite opat_new; discriminate|inl|inl].
    eapply wfc_fs; [exact HW|]. intros y. inl.
  - pop H f l r E. rewrite E in HW. cbn [map fst snd] in HW. new H. new H. setn H ob xb E1. setn H oa xa E2. push H.
    pose proof (w_pend _ _ _ HW _ (or_introl eq_refl)) as P0. destruct (w_fs _ _ _ HW _ (or_introl eq_refl)) as [P1 P2].
    apply (wfc_new _ _ _ (OR (Some f))) in HW; [|apply Qor|intros q [= <-]; eauto]. apply wfc_first in HW; [|discriminate].
    apply (wfc_new _ _ _ NOP) in HW; [|exact Qnop|discriminate].
    eapply (wfc_set _ _ (length (pcode p ++ [I (OR (Some f)) None]) :: l :: map snd r) _ _ (length (pcode p ++ [I (OR (Some f)) None]))) in HW; [|exact E1|lens; lia| |inl|inl].
    2:{ intros ->. exfalso. rewrite nth_snoc_old, nth_snoc_new in E1 by (lens; lia). discriminate E1. }
    eapply (wfc_set _ _ (length (pcode p ++ [I (OR (Some f)) None]) :: map snd r) _ _ (length (pcode p ++ [I (OR (Some f)) None]))) in HW; [|exact E2|lens; lia| |inl|inl].
    + eapply wfc_fs; [exact HW|]. intros y. inl.
    + intros _ _. lens. lia.
Qed.
Definition subs_ok (l : list (ator * Z)) (k : Z) : Prop := forall s, In (ALbra, s) l -> 1 <= s <= k.
Definition inv (p : par) : Prop := wfp p /\ subs_ok (ators p) (csub p) /\ 0 <= csub p <= kmax.
Lemma eval_keeps p a sub p' : eval_op p a sub = ret p' -> ators p' = ators p /\ csub p' = csub p.
Proof.
  intros H. destruct a; cbn [eval_op] in H; [discriminate H| | | | | |].
  - pop H f l r E. new H. setn H oa xa E1. new H. setn H oc xc E2. push H. auto.
  - pop H f2 l2 r2 E. pop H f1 l1 r E'. new H. setn H oa xa E1. setn H ob xb E2. new H. setn H oc xc E3. push H. auto.
  - pop H f2 l2 r2 E. pop H f1 l1 r E'. setn H oa xa E1. push H. auto.
  - pop H f l r E. new H. setn H oa xa E1. push H. auto.
  - pop H f l r E. new H. setn H oa xa E1. push H. auto.
  - pop H f l r E. new H. new H. setn H oa xa E1. setn H ob xb E2. push H. auto.
Qed.
Lemma subs_incl l l' k : subs_ok l k -> incl l' l -> subs_ok l' k.
Proof. intros H Hi s Hs. apply H, Hi, Hs. Qed.
Lemma inv_eu fuel pri : forall p p', inv p -> evaluntil fuel pri p = ret p' -> inv p' /\ csub p' = csub p.
Proof.
  induction fuel as [|fuel IH]; intros p p' HI H; [discriminate H|]. cbn [evaluntil] in H. apply cbind_inv in H. destruct H as (g & _ & H). destruct g; [|injection H as <-; auto].
  apply cbind_inv in H. destruct H as ([[a sub] p1] & A & H). unfold popator in A. destruct (ators p) as [|x r] eqn:Er; [discriminate A|]. injection A as -> <-.
  apply cbind_inv in H. destruct H as (p2 & A & H). destruct (eval_keeps _ _ _ _ A) as [K1 K2]. cbn in K1, K2. destruct HI as (W & S & K).
  assert (HI2 : inv p2).
  { split; [|split].
    - refine (wfp_eval (set_ators p r) a sub p2 W _ A). intros ->. rewrite Er in S. specialize (S sub (or_introl eq_refl)). lia.
    - rewrite K1, K2. eapply subs_incl; [exact S|]. rewrite Er. apply incl_tl, incl_refl.
    - rewrite K2. exact K. }
  rewrite <- K2. destruct a; try (now apply IH); injection H as <-; auto.
Qed.
Lemma eu_csub fuel pri : forall p p', evaluntil fuel pri p = ret p' -> csub p' = csub p.
Proof.
  induction fuel as [|n IH]; intros q p' H; [discriminate H|].
  cbn [evaluntil] in H. apply cbind_inv in H. destruct H as (g & _ & H). destruct g; [|injection H as <-; auto].
  apply cbind_inv in H. destruct H as ([[a sub] p1] & A & H). unfold popator in A. destruct (ators q) as [|x r] eqn:Er; [discriminate A|]. injection A as -> <-.
  apply cbind_inv in H. destruct H as (p2 & A & H). destruct (eval_keeps _ _ _ _ A) as [_ K]. cbn in K. rewrite <- K. destruct a; try (now apply IH). injection H as <-. reflexivity.
Qed.
Lemma inv_push p a p' : inv p -> (a = ALbra -> 1 <= csub p) -> pushator p a = ret p' -> inv p' /\ csub p' = csub p.
Proof.
  unfold pushator. intros (W & S & K) Ha H. destruct (length (ators p) <? NSTACK)%nat; [|discriminate H]. injection H as <-. split; [|reflexivity]. split; [exact W|]. split; [|exact K].
  intros s [E|Hs]; [injection E as Ea Es; specialize (Ha Ea); cbn; lia|apply S, Hs].
Qed.
Lemma inv_lw p b : inv p -> inv (set_lw p b). Proof. exact (fun H => H). Qed.
Lemma inv_cat p p' : inv p -> op_cat p = ret p' -> inv p' /\ csub p' = csub p.
Proof.
  intros HI H. unfold op_cat in H. apply cbind_inv in H. destruct H as (p1 & A & H). apply inv_eu in A; [|exact HI]. destruct A as [I1 K1].
  apply cbind_inv in H. destruct H as (p2 & A & H). apply inv_push in A; [|exact I1|discriminate]. destruct A as [I2 K2]. injection H as <-. split; [now apply inv_lw|]. cbn. congruence.
Qed.
Lemma inv_operand p o p' : Q o -> o <> NOP -> (forall r, o <> OR r) -> inv p -> operand p o = ret p' -> inv p' /\ csub p' = csub p.
Proof.
  intros HQ Ho Hr HI H. unfold operand in H. apply cbind_inv in H. destruct H as (p1 & A & H).
  assert (HI1 : inv p1 /\ csub p1 = csub p) by (destruct (lw p); [now apply inv_cat|injection A as <-; auto]). destruct HI1 as [HI1 K1]. destruct HI1 as (W & S & K).
  new H. apply cbind_inv in H. destruct H as (p2 & B & H). apply pushand_inv in B. subst p2. injection H as <-. cbn [set_lw set_ands set_code csub]. split; [|exact K1]. split; [|split; [exact S|exact K]].
  unfold wfp. cbn [set_lw set_ands set_code pcode ands map fst snd]. apply wfc_first; [|exact Ho]. apply wfc_new; [exact W|exact HQ|]. intros r Er. now destruct (Hr r).
Qed.
Lemma inv_feed p t p' : tok_ok t -> (forall o, t = KOp o -> Q o) -> inv p -> feed p t = ret p' -> (csub p' <= kmax -> inv p') /\ csub p <= csub p'.
Proof.
  intros Ht HQ HI H. destruct t as [| |a|o]; cbn [feed] in H.
  - injection H as <-. split; [auto|lia].
  - unfold op_rbra in H. destruct (nbra p - 1 <? 0); [discriminate H|]. apply cbind_inv in H. destruct H as (p1 & A & H). apply inv_eu in A; [|exact HI]. destruct A as [I1 K1]. injection H as <-. cbn in *. split; [auto|lia].
  - destruct a; cbn [operator] in H; try destruct Ht.
    + destruct (32 <=? csub p + 1); [discriminate H|]. set (p0 := Par (pcode p) (ands p) (ators p) (csub p + 1) (lw p) (nbra p + 1) (icap p)) in *.
      assert (HP : csub p' <= kmax -> csub p + 1 <= csub p' -> inv p0).
      { intros HK HL. destruct HI as (W & S & K). split; [exact W|]. split; [|cbn; lia]. intros s Hs. specialize (S s Hs). cbn. lia. }
      assert (E0 : exists p1, (if lw p0 then op_cat p0 else ret p0) = ret p1 /\ exists p2, pushator p1 ALbra = ret p2 /\ p' = set_lw p2 false).
      { apply cbind_inv in H. destruct H as (p1 & A & H). exists p1. split; [exact A|]. apply cbind_inv in H. destruct H as (p2 & B & H). exists p2. split; [exact B|]. injection H as <-. reflexivity. }
      destruct E0 as (p1 & A & p2 & B & ->). assert (K2 : csub p2 = csub p1) by (unfold pushator in B; destruct (length (ators p1) <? NSTACK)%nat; [injection B as <-; reflexivity|discriminate B]).
      assert (K1 : csub p1 = csub p + 1).
      { destruct (lw p0) eqn:El; [|injection A as <-; reflexivity]. unfold op_cat in A. apply cbind_inv in A. destruct A as (p3 & A3 & A). apply cbind_inv in A. destruct A as (p4 & A4 & A). injection A as <-. cbn [set_lw csub].
        assert (K4 : csub p4 = csub p3) by (unfold pushator in A4; destruct (length (ators p3) <? NSTACK)%nat; [injection A4 as <-; reflexivity|discriminate A4]). rewrite K4.
        apply eu_csub in A3. rewrite A3. reflexivity. }
      cbn [set_lw csub]. split; [|lia]. intros HK. specialize (HP HK ltac:(cbn; lia)).
      assert (HI1 : inv p1) by (destruct (lw p0); [now apply (inv_cat p0)|injection A as <-; exact HP]).
      apply inv_push in B; [apply B|exact HI1|]. intros _. destruct HI as (_ & _ & K). lia.
    + apply cbind_inv in H. destruct H as (p1 & A & H). apply inv_eu in A; [|exact HI]. destruct A as [I1 K1]. apply cbind_inv in H. destruct H as (p2 & A & H). apply inv_push in A; [|exact I1|discriminate]. destruct A as [I2 K2]. injection H as <-. cbn in *. split; [auto|lia].
    + apply cbind_inv in H. destruct H as (p1 & A & H). apply inv_eu in A; [|exact HI]. destruct A as [I1 K1]. apply cbind_inv in H. destruct H as (p2 & A & H). apply inv_push in A; [|exact I1|discriminate]. destruct A as [I2 K2]. injection H as <-. cbn in *. split; [auto|lia].
    + apply cbind_inv in H. destruct H as (p1 & A & H). apply inv_eu in A; [|exact HI]. destruct A as [I1 K1]. apply cbind_inv in H. destruct H as (p2 & A & H). apply inv_push in A; [|exact I1|discriminate]. destruct A as [I2 K2]. injection H as <-. cbn in *. split; [auto|lia].
    + apply cbind_inv in H. destruct H as (p1 & A & H). apply inv_eu in A; [|exact HI]. destruct A as [I1 K1]. apply cbind_inv in H. destruct H as (p2 & A & H). apply inv_push in A; [|exact I1|discriminate]. destruct A as [I2 K2]. injection H as <-. cbn in *. split; [auto|lia].
  - apply inv_operand in H; [|apply HQ; reflexivity|intros ->; exact Ht|intros r ->; exact Ht|exact HI]. destruct H as [H K]. split; [auto|lia].
Qed.
End Shape.
