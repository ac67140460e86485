(** How many instructions of a compiled program take a character, and when it has no fork. *)
From Verif Require Import Base Utf8_Tab Utf8_Model Utf8_Spec Regex_Model Regex_Spec Recomp_Model Recomp_Spec Recomp_Syntax Recomp_Proofs6 Recomp_Proofs10 Recomp_Proofs16.

Lemma feeds_takes : forall ts p p', feeds p ts = ret p' -> keeps (list_sum (map tok_takes ts)) p p'.
Proof.
  induction ts as [|t ts IH]; intros p p' H; cbn [feeds] in H; [injection H as <-; now apply keeps_same|]. step H E q. apply keeps_feed in E. apply IH in H.
  exact (keeps_trans _ _ _ _ _ E H).
Qed.
Lemma par0_inv len : pinv (par0 len).
Proof. constructor; cbn; [intros pc Hp; cbn in Hp; lia|intros f l []|constructor]. Qed.
Theorem compile_takes m s len ic dn toks pr : lexes m (Lx s ic dn false 0) toks -> (length toks <= length m)%nat -> compile m s len ic dn = ret pr ->
  ntakers (code pr) = list_sum (map tok_takes toks).
Proof.
  intros HL Hl H. unfold compile in H. rewrite (loop_lexes _ _ _ HL) in H by lia. step H E p. apply feeds_takes in E. destruct E as [K T]. apply finish_ending in H as [_ H]; [|apply K, par0_inv].
  rewrite H, T. reflexivity.
Qed.

(** ** No forks *)
Definition straight (a : ator) : bool := match a with AOr | AStar | APlus | AQuest => false | _ => true end.
Definition nf (p : par) : Prop := (forall i, In i (pcode p) -> forks (iop i) = false) /\ (forall a x, In (a, x) (ators p) -> straight a = true).
Lemma nf_code p q : nf p -> pcode q = pcode p -> ators q = ators p -> nf q.
Proof. unfold nf. intros H -> ->. exact H. Qed.
Lemma nf_new p o i p' : nf p -> forks o = false -> newinst p o = ret (i, p') -> nf p'.
Proof. intros [H1 H2] Ho H. apply newinst_inv in H as (_ & E1 & _ & E2 & _). unfold nf. rewrite E1, E2. split; auto. intros j HI. apply in_app_or in HI as [HI|[<-|[]]]; auto. Qed.
Lemma in_upd_or {A} (l : list A) k x y : In y (upd l k x) -> y = x \/ In y l.
Proof. revert k. induction l as [|a l IH]; intros [|k] H; cbn in *; auto; destruct H as [H|H]; auto. apply IH in H as [|]; auto. Qed.
Lemma nf_next p l n p' : nf p -> set_next p l n = ret p' -> nf p'.
Proof.
  intros [H1 H2] H. apply set_next_inv in H as (o & q & Hl & E1 & _ & E2). unfold nf. rewrite E1, E2. split; auto. intros j HI. apply in_upd_or in HI as [->|HI]; auto.
  apply nth_error_In in Hl. apply (H1 _ Hl).
Qed.
Lemma nf_popand p f l p' : nf p -> popand p = ret (f, l, p') -> nf p'.
Proof. intros HN H. apply popand_inv in H as (_ & E1 & E2). eapply nf_code; eauto. Qed.
Lemma nf_pushand p f l p' : nf p -> pushand p f l = ret p' -> nf p'.
Proof. intros HN. unfold pushand. destruct (_ <? _)%nat; [|discriminate]. intros [= <-]. exact HN. Qed.
Lemma nf_eval p a sub p' : nf p -> straight a = true -> eval_op p a sub = ret p' -> nf p'.
Proof.
  intros HN Ha H. destruct a; try discriminate Ha; cbn [eval_op] in H; try discriminate H.
  - step H E1 y. destruct y as [[f l] p1]. apply (nf_popand _ _ _ _ HN) in E1. step H E2 y. destruct y as [i2 p2]. apply (nf_new _ (RBRA sub) _ _ E1 eq_refl) in E2. step H E3 p3. apply (nf_next _ _ _ _ E2) in E3.
    step H E4 y. destruct y as [i1 p4]. apply (nf_new _ (LBRA sub) _ _ E3 eq_refl) in E4. step H E5 p5. apply (nf_next _ _ _ _ E4) in E5. exact (nf_pushand _ _ _ _ E5 H).
  - step H E1 y. destruct y as [[f l] p1]. apply (nf_popand _ _ _ _ HN) in E1. step H E2 y. destruct y as [[f1 l1] p2]. apply (nf_popand _ _ _ _ E1) in E2. step H E3 p3. apply (nf_next _ _ _ _ E2) in E3. exact (nf_pushand _ _ _ _ E3 H).
Qed.
Lemma nf_popator p a x p' : nf p -> popator p = ret (a, x, p') -> nf p' /\ straight a = true.
Proof.
  intros [H1 H2]. unfold popator. destruct (ators p) as [|[b y] r] eqn:E; [discriminate|]. intros [= <- <- <-]. split; [split; [exact H1|]|].
  - intros a0 x0 HI. cbn [ators set_ators] in HI. apply (H2 a0 x0). now right.
  - apply (H2 b y). now left.
Qed.
Lemma nf_pushator p a p' : nf p -> straight a = true -> pushator p a = ret p' -> nf p'.
Proof. intros [H1 H2] Ha. unfold pushator. destruct (_ <? _)%nat; [|discriminate]. intros [= <-]. split; [exact H1|]. cbn [ators set_ators]. intros b x [[= <- <-]|HI]; eauto. Qed.
Lemma nf_until pri : forall fuel p p', nf p -> evaluntil fuel pri p = ret p' -> nf p'.
Proof.
  induction fuel as [|fuel IH]; intros p p' HN H; cbn [evaluntil] in H; [discriminate H|]. step H E go. destruct go; [|injection H as <-; exact HN]. step H E1 y. destruct y as [[a sub] p1]. destruct (nf_popator _ _ _ _ HN E1) as [HN1 Ha].
  step H E2 p2. pose proof (nf_eval _ _ _ _ HN1 Ha E2) as HN2. destruct a; try (injection H as <-; exact HN2); eapply IH; eauto.
Qed.
Lemma nf_cat p p' : nf p -> op_cat p = ret p' -> nf p'.
Proof. intros HN H. unfold op_cat in H. step H E1 q. apply (nf_until _ _ _ _ HN) in E1. step H E2 r. apply (nf_pushator _ ACat _ E1 eq_refl) in E2. injection H as <-. exact E2. Qed.
Lemma nf_if_cat (b : bool) p p' : nf p -> (if b then op_cat p else ret p) = ret p' -> nf p'.
Proof. intros HN. destruct b; intros H; [eapply nf_cat; eauto|injection H as <-; exact HN]. Qed.
Definition tok_straight (t : token) : bool := match t with KAtor a => straight a | KOp o => negb (forks o) | _ => true end.
Lemma nf_operand p o p' : nf p -> forks o = false -> operand p o = ret p' -> nf p'.
Proof. intros HN Ho H. unfold operand in H. step H E1 q. apply (nf_if_cat _ _ _ HN) in E1. step H E2 y. destruct y as [i r]. apply (nf_new _ _ _ _ E1 Ho) in E2. step H E3 z. apply (nf_pushand _ _ _ _ E2) in E3. injection H as <-. exact E3. Qed.
Lemma nf_feed p t p' : nf p -> tok_straight t = true -> feed p t = ret p' -> nf p'.
Proof.
  intros HN Ht H. destruct t as [| |a|o]; cbn [feed tok_straight] in *.
  - injection H as <-. exact HN.
  - unfold op_rbra in H. destruct (_ <? _); [discriminate H|]. step H E1 q. injection H as <-. eapply (nf_until None) in E1; [exact E1|]. exact HN.
  - assert (G : forall q r w, eval_ (Some (prio a)) p = ret q -> pushator q a = ret r -> nf (set_lw r w)).
    { intros q r w H1 H2. apply (nf_until _ _ _ _ HN) in H1. exact (nf_pushator _ _ _ H1 Ht H2). }
    destruct a; cbn [operator] in H; try discriminate Ht;
      lazymatch type of H with (if _ then _ else _) = _ => idtac | _ => step H E1 q; step H E2 r; injection H as <-; exact (G _ _ _ eq_refl E2) end.
    destruct (32 <=? _); [discriminate H|]. step H E1 q. step H E2 r. injection H as <-. eapply nf_if_cat in E1; [|exact HN]. exact (nf_pushator _ ALbra _ E1 eq_refl E2).
  - eapply nf_operand; eauto. now destruct (forks o).
Qed.
Lemma nf_feeds : forall ts p p', nf p -> forallb tok_straight ts = true -> feeds p ts = ret p' -> nf p'.
Proof.
  induction ts as [|t ts IH]; intros p p' HN HT H; cbn [feeds forallb] in *; [injection H as <-; exact HN|]. apply andb_true_iff in HT as [Ht HT]. step H E q. eapply IH; [|exact HT|exact H]. eapply nf_feed; eauto.
Qed.
Lemma nf_opt : forall fuel c pc c', opt_loop fuel c pc = Ok c' -> (forall i, In i c -> forks (iop i) = false) -> forall i, In i c' -> forks (iop i) = false.
Proof.
  induction fuel as [|fuel IH]; intros c pc c' H HN; cbn [opt_loop] in H; [discriminate H|]. destruct (nth_error c pc) as [[o n]|] eqn:Ep; [|discriminate H]. cbn [iop inext] in H.
  assert (D : o = END \/ o <> END) by (destruct o; (now left) || (right; discriminate)). destruct D as [->|D]; [injection H as <-; auto|].
  assert (X : (let* n0 := skip_nop (S (length c)) c n in opt_loop fuel (upd c pc (I o (Some n0))) (S pc)) = Ok c') by (destruct o; congruence || exact H). clear H.
  destruct (skip_nop (S (length c)) c n) as [t|] eqn:Es; [|discriminate X]. cbn [bind] in X. apply (IH _ _ _ X). intros i HI. apply in_upd_or in HI as [->|HI]; auto. apply nth_error_In in Ep. exact (HN _ Ep).
Qed.
Theorem compile_straight m s len ic dn toks pr : lexes m (Lx s ic dn false 0) toks -> (length toks <= length m)%nat -> compile m s len ic dn = ret pr ->
  forallb tok_straight toks = true -> forall pc r n, nth_error (code pr) pc <> Some (I (OR r) n).
Proof.
  intros HL Hl H HT pc r n Hpc. unfold compile in H. rewrite (loop_lexes _ _ _ HL) in H by lia. step H E p. apply nf_feeds in E; [|split; [intros i []|intros a x [[= <- <-]|[]]; reflexivity]|exact HT].
  unfold finish in H. step H E1 q. apply (nf_until _ _ _ _ E) in E1. step H E2 z. apply (nf_operand _ END _ E1 eq_refl) in E2. step H E3 y. apply (nf_until _ _ _ _ E2) in E3.
  destruct (negb _); [discriminate H|]. destruct (ands y) as [|[f l] az]; [discriminate H|]. destruct (opt_loop _ _ _) as [c1|] eqn:Eo; [|discriminate H]. cbn [lift cbind] in H. injection H as <-. cbn [code] in Hpc.
  apply nth_error_In in Hpc. pose proof (nf_opt _ _ _ _ Eo (proj1 E3) _ Hpc) as X. discriminate X.
Qed.

(** ** Elements of a pattern *)
Definition takes_char (e : elem) : bool := match e with SLit _ | SEsc _ | SHex _ | SDot | SClass _ _ | SSet _ _ | SNword => true | _ => false end.
Definition branches (e : elem) : bool := match e with SStar | SPlus | SQuest | SBar => true | _ => false end.
Lemma elem_takes ic dn es toks : Forall2 (elem_tok ic dn) es toks -> list_sum (map tok_takes toks) = length (filter takes_char es).
Proof.
  induction 1 as [|e t es toks H _ IH]; [reflexivity|]. cbn [map list_sum fold_right filter]. fold (list_sum (map tok_takes toks)). rewrite IH.
  destruct e; cbn [elem_tok takes_char] in *; try (subst t; cbn; destruct ic; try destruct dn; reflexivity).
  - destruct H as (v & _ & ->). cbn. destruct ic; reflexivity.
  - destruct H as (sp & -> & _). cbn. destruct neg; reflexivity.
Qed.
Lemma elem_straight ic dn es toks : Forall2 (elem_tok ic dn) es toks -> existsb branches es = false -> forallb tok_straight toks = true.
Proof.
  induction 1 as [|e t es toks H _ IH]; [reflexivity|]. cbn [existsb forallb]. intros HB. apply orb_false_iff in HB as [He HB]. rewrite (IH HB), andb_true_r.
  destruct e; cbn [elem_tok branches] in *; try discriminate He; try (subst t; cbn; destruct ic; try destruct dn; reflexivity).
  - destruct H as (v & _ & ->). cbn. destruct ic; reflexivity.
  - destruct H as (sp & -> & _). cbn. destruct neg; reflexivity.
Qed.
