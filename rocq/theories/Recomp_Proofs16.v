(** The [next] links of a compiled program never lead in a circle. *)
From Verif Require Import Base Utf8_Tab Utf8_Model Utf8_Spec Regex_Model Regex_Spec Recomp_Model.
From Coq Require Import Wf_nat.

(** From [pc], [k] links lead to [e], which has none. *)
Inductive ends (c : list inst) : nat -> nat -> nat -> Prop :=
| ends_here pc o : nth_error c pc = Some (I o None) -> ends c pc pc 0
| ends_next pc o q e k : nth_error c pc = Some (I o (Some q)) -> ends c q e k -> ends c pc e (S k).
Lemma ends_det c pc e k : ends c pc e k -> forall e' k', ends c pc e' k' -> e = e' /\ k = k'.
Proof.
  induction 1 as [pc o H|pc o q e k H _ IH]; intros e' k' H'; inversion H' as [? o' E|? o' q' ? k1 E E']; subst; rewrite H in E; try discriminate E.
  - auto.
  - injection E as -> ->. destruct (IH _ _ E') as [-> ->]. auto.
Qed.
Lemma ends_in c pc e k : ends c pc e k -> (pc < length c)%nat.
Proof. destruct 1 as [pc o H|pc o q e k H _]; apply nth_error_Some; congruence. Qed.
Lemma ends_last c pc e k : ends c pc e k -> exists o, nth_error c e = Some (I o None).
Proof. induction 1; eauto. Qed.
Lemma ends_self c pc e k o : ends c pc e k -> nth_error c e = Some (I o None) -> ends c e e 0.
Proof. intros _ H. econstructor; eauto. Qed.
Lemma ends_snoc c i pc e k : ends c pc e k -> ends (c ++ [i]) pc e k.
Proof.
  induction 1 as [pc o H|pc o q e k H _ IH]; econstructor; try exact IH; rewrite nth_error_app1; eauto; apply nth_error_Some; congruence.
Qed.
(** Every chain ends. *)
Definition ending (c : list inst) : Prop := forall pc, (pc < length c)%nat -> exists e k, ends c pc e k.
Lemma ending_snoc c o : ending c -> ending (c ++ [I o None]).
Proof.
  intros H pc Hp. rewrite app_length in Hp. cbn in Hp. destruct (Nat.eq_dec pc (length c)) as [->|Hn].
  - exists (length c), 0%nat. econstructor. rewrite nth_error_app2, Nat.sub_diag by lia. reflexivity.
  - destruct (H pc ltac:(lia)) as (e & k & E). exists e, k. now apply ends_snoc.
Qed.
(** Linking the end [l] of some chains to the start of another chain. *)
Lemma link_other c l i pc e k : ends c pc e k -> e <> l -> (exists o, nth_error c l = Some (I o None)) -> ends (upd c l i) pc e k.
Proof.
  intros H He [ol Hl]. induction H as [pc o H|pc o q e k H _ IH].
  - econstructor. rewrite nth_error_upd_other by congruence. exact H.
  - econstructor; [|apply IH; exact He]. rewrite nth_error_upd_other; [exact H|]. intros ->. congruence.
Qed.
Lemma link_end c l o n e kn pc k : ends c pc l k -> nth_error c l = Some (I o None) -> ends c n e kn -> e <> l -> exists k', ends (upd c l (I o (Some n))) pc e k'.
Proof.
  intros H Hl Hn He. remember l as l' eqn:El in H. induction H as [pc o' H|pc o' q e' k H _ IH]; subst.
  - exists (S kn). econstructor; [|apply link_other; eauto]. apply nth_error_upd_same. apply nth_error_Some. congruence.
  - destruct (IH eq_refl) as [k' E]. exists (S k'). econstructor; [|exact E]. rewrite nth_error_upd_other; [exact H|]. intros ->. congruence.
Qed.
Lemma link_ending c l o n e kn : ending c -> nth_error c l = Some (I o None) -> ends c n e kn -> e <> l -> ending (upd c l (I o (Some n))).
Proof.
  intros HE Hl Hn He pc Hp. rewrite length_upd in Hp. destruct (HE pc Hp) as (e' & k & E). destruct (Nat.eq_dec e' l) as [->|Hne].
  - destruct (link_end _ _ _ _ _ _ _ _ E Hl Hn He) as [k' E']. eauto.
  - exists e', k. apply link_other; eauto.
Qed.

(** * The stack of operands *)
Definition en c pc e := exists k, ends c pc e k.
Record inv (c : list inst) (a : list (nat * nat)) : Prop := {
  i_end : ending c;
  i_and : forall f l, In (f, l) a -> en c f l;
  i_dis : NoDup (map snd a) }.
Lemma inv_perm c a b : inv c a -> (forall x, In x b -> In x a) -> NoDup (map snd b) -> inv c b.
Proof. intros [h1 h2 h3] Hs Hn. constructor; auto. Qed.
Lemma inv_tail c x a : inv c (x :: a) -> inv c a.
Proof. intros [h1 h2 h3]. constructor; auto. - intros f l H. apply h2. now right. - now inversion h3. Qed.
Lemma en_last c f l : en c f l -> exists o, nth_error c l = Some (I o None).
Proof. intros [k H]. eapply ends_last; eauto. Qed.
Lemma en_det c f l l' : en c f l -> en c f l' -> l = l'.
Proof. intros [k H] [k' H']. now destruct (ends_det _ _ _ _ H _ _ H'). Qed.
(** A new instruction is the whole of its chain. *)
Lemma inv_new c a o : inv c a -> inv (c ++ [I o None]) ((length c, length c) :: a).
Proof.
  intros [h1 h2 h3]. constructor.
  - now apply ending_snoc.
  - intros f l [[= <- <-]|H].
    + exists 0%nat. econstructor. rewrite nth_error_app2, Nat.sub_diag by lia. reflexivity.
    + destruct (h2 _ _ H) as [k E]. exists k. now apply ends_snoc.
  - cbn [map snd]. constructor; auto. intros HI. apply in_map_iff in HI as ([f l] & E & HI). cbn in E. subst l. destruct (en_last _ _ _ (h2 _ _ HI)) as [o' X].
    assert (length c < length c)%nat by (apply nth_error_Some; congruence). lia.
Qed.
(** (f, l) is linked to n, whose chain ends at e; (f, e) is kept, or n's own operand. *)
Lemma inv_link c f l n e a o : inv c ((f, l) :: (n, e) :: a) -> nth_error c l = Some (I o None) ->
  inv (upd c l (I o (Some n))) ((f, e) :: a) /\ forall x, en c x e -> en (upd c l (I o (Some n))) x e.
Proof.
  intros [h1 h2 h3] Hl. cbn [map snd] in h3. inversion h3 as [|x y N1 N2]; subst. inversion N2 as [|x y N3 N4]; subst.
  destruct (h2 n e ltac:(right; now left)) as [kn En]. destruct (h2 f l ltac:(now left)) as [kf Ef].
  assert (He : e <> l) by (intros ->; apply N1; now left).
  split; [constructor|].
  - eapply link_ending; eauto.
  - intros f' l' [[= <- <-]|H].
    + eapply link_end; eauto.
    + destruct (h2 f' l' ltac:(right; now right)) as [k E]. exists k. apply link_other; eauto. intros ->. apply N1. right. apply in_map_iff. exists (f', l). auto.
  - cbn [map snd]. constructor; auto.
  - intros x [k E]. exists k. apply link_other; eauto.
Qed.
Lemma inv_rep c f n e a : inv c ((f, e) :: a) -> en c n e -> inv c ((n, e) :: a).
Proof. intros [h1 h2 h3] H. constructor; auto. intros f' l' [[= <- <-]|HI]; auto. apply h2. now right. Qed.

(** * One operator *)
Definition pinv (p : par) : Prop := inv (pcode p) (ands p).
Lemma newinst_inv p o i p' : newinst p o = ret (i, p') -> i = length (pcode p) /\ pcode p' = pcode p ++ [I o None] /\ ands p' = ands p /\ ators p' = ators p /\ csub p' = csub p /\ nbra p' = nbra p /\ icap p' = icap p.
Proof. unfold newinst. destruct (_ <? _); [|discriminate]. intros [= <- <-]. cbn. auto 10. Qed.
Lemma set_next_inv p l n p' : set_next p l n = ret p' -> exists o q, nth_error (pcode p) l = Some (I o q) /\ pcode p' = upd (pcode p) l (I o (Some n)) /\ ands p' = ands p /\ ators p' = ators p.
Proof. unfold set_next. destruct (nth_error (pcode p) l) as [[o q]|]; [|discriminate]. intros [= <-]. cbn. eauto 10. Qed.
Lemma popand_inv p f l p' : popand p = ret (f, l, p') -> ands p = (f, l) :: ands p' /\ pcode p' = pcode p /\ ators p' = ators p.
Proof. unfold popand. destruct (ands p) as [|[a b] r] eqn:E; [discriminate|]. intros [= <- <- <-]. auto. Qed.
Lemma pushand_inv p f l p' : pushand p f l = ret p' -> ands p' = (f, l) :: ands p /\ pcode p' = pcode p.
Proof. unfold pushand. destruct (_ <? _)%nat; [|discriminate]. intros [= <-]. auto. Qed.
Lemma swap_inv c x y a : inv c (x :: y :: a) -> inv c (y :: x :: a).
Proof.
  intros H. eapply inv_perm; [exact H| |].
  - intros z [<-|[<-|Hz]]; cbn; auto.
  - destruct H as [_ _ h3]. cbn [map] in *. inversion h3 as [|? ? N1 N2]; subst. inversion N2 as [|? ? N3 N4]; subst. constructor; [|constructor; auto].
    + intros [E|H]; [apply N1; left; congruence|auto]. 
    + intros H. apply N1. now right.
Qed.

Lemma link_next p f l n e a p' : inv (pcode p) ((f, l) :: (n, e) :: a) -> set_next p l n = ret p' ->
  inv (pcode p') ((f, e) :: a) /\ ands p' = ands p /\ ators p' = ators p /\ forall x, en (pcode p) x e -> en (pcode p') x e.
Proof.
  intros HI H. apply set_next_inv in H as (o & q & Hl & -> & -> & ->). destruct (en_last _ _ _ (i_and _ _ HI f l (or_introl eq_refl))) as [o' Hl'].
  rewrite Hl' in Hl. injection Hl as <- <-. destruct (inv_link _ _ _ _ _ _ _ HI Hl') as [A B]. auto.
Qed.
Tactic Notation "step" hyp(H) ident(E) ident(y) := match type of H with cbind ?x _ = _ => destruct x as [[y|?]|] eqn:E; cbn [cbind] in H; try discriminate H end.
Lemma eval_op_inv p a sub p' : pinv p -> eval_op p a sub = ret p' -> pinv p'.
Proof.
  unfold pinv. intros HI H. destruct a; cbn [eval_op] in H; try discriminate H.
  - (* ALbra *)
    step H E1 pp. destruct pp as [[f l] p1]. apply popand_inv in E1 as (A1 & C1 & _). rewrite A1, <- C1 in HI.
    step H E2 pp. destruct pp as [i2 p2]. apply newinst_inv in E2 as (-> & C2 & A2 & _). apply inv_new with (o := RBRA sub) in HI. rewrite <- C2 in HI. apply swap_inv in HI.
    step H E3 qE3. apply (link_next _ _ _ _ _ _ _ HI) in E3 as (HI' & A3 & _ & _). clear HI.
    step H E4 pp. destruct pp as [i1 p4]. apply newinst_inv in E4 as (-> & C4 & A4 & _). apply inv_new with (o := LBRA sub) in HI'. rewrite <- C4 in HI'.
    step H E5 qE5. apply (link_next _ _ _ _ _ _ _ HI') in E5 as (HI & A5 & _ & _). apply pushand_inv in H as [-> ->]. congruence.
  - (* AOr *)
    step H E1 pp. destruct pp as [[f2 l2] p1]. apply popand_inv in E1 as (A1 & C1 & _). rewrite A1, <- C1 in HI.
    step H E1' pp. destruct pp as [[f1 l1] p1']. apply popand_inv in E1' as (A1' & C1' & _). rewrite A1', <- C1' in HI.
    step H E2 pp. destruct pp as [i2 p2]. apply newinst_inv in E2 as (-> & C2 & A2 & _). apply inv_new with (o := NOP) in HI. rewrite <- C2 in HI. apply swap_inv in HI.
    pose proof (i_and _ _ HI _ _ (or_intror (or_introl eq_refl))) as En.
    step H E3 qE3. apply (link_next _ _ _ _ _ _ _ HI) in E3 as (HI' & A3 & _ & K3). clear HI. apply K3 in En.
    apply (inv_rep _ _ _ _ _ HI') in En as HI. pose proof (i_and _ _ HI' _ _ (or_introl eq_refl)) as E2. apply swap_inv in HI.
    step H E4 qE4. apply (link_next _ _ _ _ _ _ _ HI) in E4 as (HJ & A4 & _ & K4). apply K4 in E2. apply (inv_rep _ _ _ _ _ HJ) in E2 as HK.
    step H E5 pp. destruct pp as [i1 p5]. apply newinst_inv in E5 as (-> & C5 & A5 & _). apply inv_new with (o := OR (Some f1)) in HK. rewrite <- C5 in HK.
    step H E6 qE6. apply (link_next _ _ _ _ _ _ _ HK) in E6 as (HL & A6 & _ & _). apply pushand_inv in H as [-> ->]. congruence.
  - (* ACat *)
    step H E1 pp. destruct pp as [[f2 l2] p1]. apply popand_inv in E1 as (A1 & C1 & _). rewrite A1, <- C1 in HI.
    step H E1' pp. destruct pp as [[f1 l1] p1']. apply popand_inv in E1' as (A1' & C1' & _). rewrite A1', <- C1' in HI. apply swap_inv in HI.
    step H E3 qE3. apply (link_next _ _ _ _ _ _ _ HI) in E3 as (HI' & A3 & _ & K3). apply pushand_inv in H as [-> ->]. congruence.
  - (* AStar *)
    step H E1 pp. destruct pp as [[f l] p1]. apply popand_inv in E1 as (A1 & C1 & _). rewrite A1, <- C1 in HI.
    step H E2 pp. destruct pp as [i1 p2]. apply newinst_inv in E2 as (-> & C2 & A2 & _). apply inv_new with (o := OR (Some f)) in HI. rewrite <- C2 in HI. apply swap_inv in HI.
    pose proof (i_and _ _ HI _ _ (or_intror (or_introl eq_refl))) as En.
    step H E3 qE3. apply (link_next _ _ _ _ _ _ _ HI) in E3 as (HI' & A3 & _ & K3). apply K3 in En. apply (inv_rep _ _ _ _ _ HI') in En as HJ.
    apply pushand_inv in H as [-> ->]. congruence.
  - (* APlus *)
    step H E1 pp. destruct pp as [[f l] p1]. apply popand_inv in E1 as (A1 & C1 & _). rewrite A1, <- C1 in HI.
    step H E2 pp. destruct pp as [i1 p2]. apply newinst_inv in E2 as (-> & C2 & A2 & _). apply inv_new with (o := OR (Some f)) in HI. rewrite <- C2 in HI. apply swap_inv in HI.
    step H E3 qE3. apply (link_next _ _ _ _ _ _ _ HI) in E3 as (HI' & A3 & _ & K3).
    apply pushand_inv in H as [-> ->]. congruence.
  - (* AQuest *)
    step H E1 pp. destruct pp as [[f l] p1]. apply popand_inv in E1 as (A1 & C1 & _). rewrite A1, <- C1 in HI.
    step H E2 pp. destruct pp as [i1 p2]. apply newinst_inv in E2 as (-> & C2 & A2 & _). apply inv_new with (o := OR (Some f)) in HI. rewrite <- C2 in HI.
    step H E3 pp. destruct pp as [i2 p3]. apply newinst_inv in E3 as (-> & C3 & A3 & _). apply inv_new with (o := NOP) in HI. rewrite <- C3 in HI. apply swap_inv in HI.
    pose proof (i_and _ _ HI _ _ (or_intror (or_introl eq_refl))) as En.
    step H E4 qE4. apply (link_next _ _ _ _ _ _ _ HI) in E4 as (HI' & A4 & _ & K4). apply K4 in En.
    pose proof (i_and _ _ HI' _ _ (or_introl eq_refl)) as E1. apply (inv_rep _ _ _ _ _ HI') in En as HJ. apply swap_inv in HJ.
    step H E5 qE5. apply (link_next _ _ _ _ _ _ _ HJ) in E5 as (HK & A5 & _ & K5). apply K5 in E1. apply (inv_rep _ _ _ _ _ HK) in E1 as HL.
    apply pushand_inv in H as [-> ->]. congruence.
Qed.
(** Instructions that take a character (or, for \B, keep the thread for the next one). *)
Definition taker (o : op) : bool := match o with RUNE _ | IRUNE _ | ANY | ANYNL | CCLASS _ | NCCLASS _ | NWBOUND => true | _ => false end.
Definition forks (o : op) : bool := match o with OR _ => true | _ => false end.
Definition ntakers (c : list inst) : nat := length (filter (fun i => taker (iop i)) c).
Lemma ntakers_app a b : ntakers (a ++ b) = (ntakers a + ntakers b)%nat.
Proof. unfold ntakers. now rewrite filter_app, app_length. Qed.
Lemma ntakers_upd : forall c pc o n n', nth_error c pc = Some (I o n) -> ntakers (upd c pc (I o n')) = ntakers c.
Proof.
  unfold ntakers. induction c as [|i c IH]; intros [|pc] o n n' H; cbn in H; try discriminate H.
  - injection H as ->. cbn. destruct (taker o); reflexivity.
  - cbn. specialize (IH pc o n n' H). destruct (taker (iop i)); cbn; now rewrite IH.
Qed.
Lemma newinst_tk p o i p' : newinst p o = ret (i, p') -> ntakers (pcode p') = (ntakers (pcode p) + if taker o then 1 else 0)%nat.
Proof. intros H. apply newinst_inv in H as (_ & -> & _). rewrite ntakers_app. unfold ntakers. cbn. now destruct (taker o). Qed.
Lemma set_next_tk p l n p' : set_next p l n = ret p' -> ntakers (pcode p') = ntakers (pcode p).
Proof. intros H. apply set_next_inv in H as (o & q & Hl & -> & _). eapply ntakers_upd; eauto. Qed.
Lemma popand_tk p x p' : popand p = ret (x, p') -> ntakers (pcode p') = ntakers (pcode p).
Proof. destruct x as [f l]. intros H. apply popand_inv in H as (_ & -> & _). reflexivity. Qed.
Lemma pushand_tk p f l p' : pushand p f l = ret p' -> ntakers (pcode p') = ntakers (pcode p).
Proof. intros H. apply pushand_inv in H as [_ ->]. reflexivity. Qed.
Lemma eval_op_tk p a sub p' : eval_op p a sub = ret p' -> ntakers (pcode p') = ntakers (pcode p).
Proof.
  intros H. destruct a; cbn [eval_op] in H; try discriminate H;
  repeat match type of H with
  | cbind (popand _) _ = _ => let E := fresh "E" in let y := fresh "y" in step H E y; destruct y as [[? ?] ?]; apply popand_tk in E
  | cbind (newinst _ _) _ = _ => let E := fresh "E" in let y := fresh "y" in step H E y; destruct y as [? ?]; apply newinst_tk in E; cbn [taker] in E
  | cbind (set_next _ _ _) _ = _ => let E := fresh "E" in let y := fresh "y" in step H E y; apply set_next_tk in E
  end; apply pushand_tk in H; lia.
Qed.

(** What an operation keeps: the chains, and how many takers there are. *)
Definition keeps (d : nat) (p p' : par) : Prop := (pinv p -> pinv p') /\ ntakers (pcode p') = (ntakers (pcode p) + d)%nat.
Lemma keeps_same p p' : pcode p' = pcode p -> ands p' = ands p -> keeps 0 p p'.
Proof. unfold keeps, pinv. intros -> ->. split; [auto|lia]. Qed.
Lemma keeps_trans d d' p q r : keeps d p q -> keeps d' q r -> keeps (d + d') p r.
Proof. intros [A B] [C D]. split; [auto|lia]. Qed.
Lemma keeps_eval p a sub p' : eval_op p a sub = ret p' -> keeps 0 p p'.
Proof. intros H. split; [intros HI; eapply eval_op_inv; eauto|rewrite (eval_op_tk _ _ _ _ H); lia]. Qed.
Lemma keeps_popator p x p' : popator p = ret (x, p') -> keeps 0 p p'.
Proof. unfold popator. destruct (ators p); [discriminate|]. intros [= _ <-]. now apply keeps_same. Qed.
Lemma keeps_pushator p a p' : pushator p a = ret p' -> keeps 0 p p'.
Proof. unfold pushator. destruct (_ <? _)%nat; [|discriminate]. intros [= <-]. now apply keeps_same. Qed.
Lemma keeps_until pri : forall fuel p p', evaluntil fuel pri p = ret p' -> keeps 0 p p'.
Proof.
  induction fuel as [|fuel IH]; intros p p' H; cbn [evaluntil] in H; [discriminate H|]. step H E go.
  destruct go; [|injection H as <-; now apply keeps_same]. step H E1 y. destruct y as [[a sub] p1]. step H E2 p2. apply keeps_popator in E1. apply keeps_eval in E2.
  pose proof (keeps_trans _ _ _ _ _ E1 E2) as K. destruct a; try (injection H as <-; exact K); apply IH in H; exact (keeps_trans _ _ _ _ _ K H).
Qed.
Lemma keeps_op_cat p p' : op_cat p = ret p' -> keeps 0 p p'.
Proof.
  unfold op_cat. intros H. step H E1 q. step H E2 r. injection H as <-. apply keeps_until in E1. apply keeps_pushator in E2.
  eapply (keeps_trans 0 0); [exact E1|]. eapply (keeps_trans 0 0); [exact E2|]. now apply keeps_same.
Qed.
Lemma keeps_if_cat (b : bool) p p' : (if b then op_cat p else ret p) = ret p' -> keeps 0 p p'.
Proof. destruct b; intros H; [now apply keeps_op_cat|injection H as <-; now apply keeps_same]. Qed.
Lemma keeps_operator p a p' : operator p a = ret p' -> keeps 0 p p'.
Proof.
  assert (G : forall p q r w, eval_ (Some (prio a)) p = ret q -> pushator q a = ret r -> keeps 0 p (set_lw r w)).
  { intros p0 q r w H1 H2. apply keeps_until in H1. apply keeps_pushator in H2. eapply (keeps_trans 0 0); [exact H1|]. eapply (keeps_trans 0 0); [exact H2|]. now apply keeps_same. }
  intros H. destruct a; cbn [operator] in H; try (step H E1 q; step H E2 r; injection H as <-; eapply G; eauto; fail).
  destruct (32 <=? _); [discriminate H|]. step H E1 q. step H E2 r. injection H as <-. apply keeps_if_cat in E1. apply keeps_pushator in E2.
  eapply (keeps_trans 0 0); [apply keeps_same; [reflexivity|reflexivity]|]. eapply (keeps_trans 0 0); [exact E1|]. eapply (keeps_trans 0 0); [exact E2|]. now apply keeps_same.
Qed.
Lemma keeps_rbra p p' : op_rbra p = ret p' -> keeps 0 p p'.
Proof.
  unfold op_rbra. destruct (_ <? _); [discriminate|]. intros H. step H E1 q. injection H as <-. apply keeps_until in E1.
  eapply (keeps_trans 0 0); [|apply keeps_same; reflexivity]. eapply (keeps_trans 0 0); [|exact E1]. now apply keeps_same.
Qed.
Lemma keeps_operand p o p' : operand p o = ret p' -> keeps (if taker o then 1 else 0) p p'.
Proof.
  unfold operand. intros H. step H E1 q. step H E2 y. destruct y as [i r]. step H E3 z. injection H as <-. apply keeps_if_cat in E1. pose proof (newinst_tk _ _ _ _ E2) as T.
  apply newinst_inv in E2 as (-> & C & A & _). apply pushand_inv in E3 as [A3 C3]. destruct E1 as [K1 K2]. split.
  - intros HI. apply K1 in HI. unfold pinv in *. cbn [pcode ands set_lw]. rewrite A3, C3, C, A. now apply inv_new.
  - cbn [pcode set_lw]. rewrite C3. lia.
Qed.
Definition tok_takes (t : token) : nat := match t with KOp o => if taker o then 1 else 0 | _ => 0 end.
Lemma keeps_feed p t p' : feed p t = ret p' -> keeps (tok_takes t) p p'.
Proof.
  destruct t as [| |a|o]; cbn [feed tok_takes]; intros H.
  - injection H as <-. now apply keeps_same.
  - now apply keeps_rbra.
  - now apply (keeps_operator _ a).
  - now apply keeps_operand.
Qed.
(** The tokens the loop sees. *)
Lemma keeps_comp m : forall fuel l p p', comp_loop fuel m l p = ret p' -> pinv p -> pinv p'.
Proof.
  induction fuel as [|fuel IH]; intros l p p' H HI; cbn [comp_loop] in H; [discriminate H|]. step H E y. destruct y as [t l'].
  destruct t; try (injection H as <-; exact HI); step H E2 q; (apply keeps_feed in E2; apply IH in H; [exact H|]; now apply E2).
Qed.

(** * NOPs skipped *)
Lemma ends_lt c pc e k q e' k' o : ends c pc e k -> nth_error c pc = Some (I o (Some q)) -> ends c q e' k' -> e' = e /\ k = S k'.
Proof. intros H Hq H'. destruct (ends_det _ _ _ _ (ends_next _ _ _ _ _ _ Hq H') _ _ H) as [-> <-]. auto. Qed.
Lemma skip_ends c : forall fuel q t, skip_nop fuel c (Some q) = Ok t -> forall e k, ends c q e k -> exists k', (k' <= k)%nat /\ ends c t e k'.
Proof.
  induction fuel as [|fuel IH]; intros q t H e k HE; cbn [skip_nop] in H; [discriminate H|]. destruct (nth_error c q) as [[o n]|] eqn:Eq; [|discriminate H]. cbn [iop inext] in H.
  assert (D : o = NOP \/ o <> NOP) by (destruct o; (now left) || (right; discriminate)). destruct D as [->|D].
  - destruct n as [n|]; [|destruct fuel; discriminate H]. inversion HE as [? o' X|? o' q' ? k1 X X']; subst; rewrite Eq in X; [discriminate X|]. injection X as <- <-.
    destruct (IH _ _ H _ _ X') as (k' & L & E). exists k'. split; [lia|exact E].
  - assert (X : Ok q = Ok t) by (destruct o; congruence || exact H). injection X as <-. exists k. auto.
Qed.
(** A shortcut along the chain keeps all ends. *)
Lemma cut_ends c pc o q t kt e : nth_error c pc = Some (I o (Some q)) -> ends c t e kt -> forall kp, ends c pc e kp -> (kt < kp)%nat ->
  forall k x e', ends c x e' k -> exists k', ends (upd c pc (I o (Some t))) x e' k'.
Proof.
  intros Hp Ht kp HP Hlt. induction k as [k IH] using lt_wf_ind. intros x e' HX. destruct (Nat.eq_dec x pc) as [->|Hn].
  - destruct (ends_det _ _ _ _ HX _ _ HP) as [-> ->]. destruct (IH kt Hlt _ _ Ht) as [k' E]. exists (S k'). econstructor; [|exact E]. apply nth_error_upd_same. apply nth_error_Some. congruence.
  - inversion HX as [? o' X|? o' q' ? k1 X X']; subst.
    + exists 0%nat. econstructor. rewrite nth_error_upd_other by congruence. exact X.
    + destruct (IH k1 ltac:(lia) _ _ X') as [k' E]. exists (S k'). econstructor; [|exact E]. rewrite nth_error_upd_other by congruence. exact X.
Qed.
Lemma opt_ending : forall fuel c pc c', opt_loop fuel c pc = Ok c' -> ending c -> ending c' /\ ntakers c' = ntakers c.
Proof.
  induction fuel as [|fuel IH]; intros c pc c' H HE; cbn [opt_loop] in H; [discriminate H|]. destruct (nth_error c pc) as [[o n]|] eqn:Ep; [|discriminate H]. cbn [iop inext] in H.
  assert (D : o = END \/ o <> END) by (destruct o; (now left) || (right; discriminate)). destruct D as [->|D]; [injection H as <-; auto|].
  assert (X : (let* n0 := skip_nop (S (length c)) c n in opt_loop fuel (upd c pc (I o (Some n0))) (S pc)) = Ok c') by (destruct o; congruence || exact H). clear H.
  destruct (skip_nop (S (length c)) c n) as [t|] eqn:Es; [|discriminate X]. cbn [bind] in X. destruct n as [q|]; [|discriminate Es].
  apply IH in X.
  - rewrite (ntakers_upd _ _ _ _ _ Ep) in X. exact X.
  - destruct (HE pc ltac:(apply nth_error_Some; congruence)) as (e & kp & HP). assert (HP' := HP). inversion HP' as [? o' Y|? o' q' ? k1 Y Y']; subst; rewrite Ep in Y; [discriminate Y|]. injection Y as <- <-.
    destruct (skip_ends _ _ _ _ Es _ _ Y') as (kt & L & Et).
    intros x Hx. rewrite length_upd in Hx. destruct (HE x Hx) as (e' & k & E). destruct (cut_ends _ _ _ _ _ _ _ Ep Et _ HP ltac:(lia) _ _ _ E) as [k' E']. eauto.
Qed.
Lemma finish_ending p ic pr : finish p ic = ret pr -> pinv p -> ending (code pr) /\ ntakers (code pr) = ntakers (pcode p).
Proof.
  unfold finish. intros H HI. step H E1 q. step H E2 r. step H E3 z. destruct (negb _); [discriminate H|]. destruct (ands z) as [|[f l] az]; [discriminate H|].
  step H E4 c. injection H as <-. cbn [code]. apply keeps_until in E1. apply keeps_operand in E2. apply keeps_until in E3. cbn [taker] in E2.
  destruct (keeps_trans _ _ _ _ _ (keeps_trans _ _ _ _ _ E1 E2) E3) as [K T]. apply K in HI. destruct (opt_loop _ _ _) as [c1|] eqn:Eo; [|discriminate E4]. injection E4 as <-.
  destruct (opt_ending _ _ _ _ Eo (i_end _ _ HI)) as [A B]. split; [exact A|]. rewrite B, T. lia.
Qed.
Theorem compile_ending m s len ic dn pr : compile m s len ic dn = ret pr -> ending (code pr).
Proof.
  unfold compile. intros H. step H E p. apply finish_ending in H; [apply H|]. apply (keeps_comp _ _ _ _ _ E). constructor; cbn.
  - intros pc Hp. cbn in Hp. lia.
  - intros f l [].
  - constructor.
Qed.
(** The chain from [pc] has no more links than there are instructions. *)
Lemma ends_short c pc e k : ends c pc e k -> (k < length c)%nat.
Proof.
  intros H. assert (G : forall x e k, ends c x e k -> exists l, length l = S k /\ NoDup l /\ forall y, In y l -> (y < length c)%nat /\ exists j, (j <= k)%nat /\ ends c y e j).
  { clear. induction 1 as [pc o H|pc o q e k H HE IH].
    - exists [pc]. split; [reflexivity|]. split; [repeat constructor; auto|]. intros y [<-|[]]. split; [apply nth_error_Some; congruence|]. exists 0%nat. split; [lia|]. econstructor; eauto.
    - destruct IH as (l & L & N & F). exists (pc :: l). split; [cbn; lia|]. split.
      + constructor; auto. intros HI. destruct (F _ HI) as (_ & j & Lj & Ej). destruct (ends_det _ _ _ _ (ends_next _ _ _ _ _ _ H HE) _ _ Ej) as [_ X]. lia.
      + intros y [<-|HI]; [split; [apply nth_error_Some; congruence|]; exists (S k); split; [lia|econstructor; eauto]|]. destruct (F _ HI) as (B & j & Lj & Ej). split; auto. exists j. split; [lia|exact Ej]. }
  destruct (G _ _ _ H) as (l & L & N & F). assert (length l <= length (seq 0 (length c)))%nat.
  { apply NoDup_incl_length; auto. intros y HI. apply in_seq. destruct (F _ HI). lia. }
  rewrite seq_length in *. lia.
Qed.
