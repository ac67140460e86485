(** The code of an operand means its expression. *)
From Verif Require Import Base Utf8_Tab Utf8_Model Utf8_Spec Regex_Model Regex_Spec Recomp_Model Recomp_Spec.
From Coq Require Import Wf_nat.

Section Sem.
Variable rm : Z -> Z -> res bool.
Variable ic : bool.
Variable cs : list Z.
Variable pos : nat -> Z.
Notation den := (den rm ic cs pos).
Notation takes_ := (takes_ rm ic).

(** Steps of a program that may still contain NOPs. *)
Definition hold' (o : op) (i : nat) : Prop := o = NOP \/ holds cs o i.
Inductive nst (F : list inst) : conf -> conf -> Prop :=
| n_take pc i e o n c : nth_error F pc = Some (I o (Some n)) -> nth_error cs i = Some c -> takes_ o c -> nst F (pc, i, e) (n, S i, e)
| n_pass pc i e o n : nth_error F pc = Some (I o (Some n)) -> hold' o i -> nst F (pc, i, e) (n, i, set_caps pos o i e)
| n_right pc i e q n : nth_error F pc = Some (I (OR (Some q)) n) -> nst F (pc, i, e) (q, i, e).
Inductive path (F : list inst) : nat -> conf -> conf -> Prop :=
| p_refl x : path F 0 x x
| p_cons k x y z : nst F x y -> path F k y z -> path F (S k) x z.
Lemma path_app F k x y k' z : path F k x y -> path F k' y z -> path F (k + k') x z.
Proof. induction 1; intros H'; cbn; [exact H'|]. econstructor; eauto. Qed.

Definition st (pc : nat) (x : nat * se) : conf := (pc, fst x, snd x).
Definition cpc (t : conf) : nat := fst (fst t).
(** [F] contains the fragment [lo, hi) of [C], with its end [l] leading to [n]. *)
Record fits (C F : list inst) (lo hi l n : nat) : Prop := {
  f_same : forall pc, (lo <= pc < hi)%nat -> pc <> l -> nth_error F pc = nth_error C pc;
  f_last : forall o, nth_error C l = Some (I o None) -> nth_error F l = Some (I o (Some n));
  f_out : (n < lo \/ hi <= n)%nat }.
Record frag (C : list inst) (lo hi f l : nat) (e : re) : Prop := {
  g_f : (lo <= f < hi)%nat;
  g_l : (lo <= l < hi)%nat;
  g_last : exists o, nth_error C l = Some (I o None);
  g_fwd : forall F n x y, fits C F lo hi l n -> den e x y -> exists k, path F k (st f x) (st n y);
  g_bwd : forall F n k x t, fits C F lo hi l n -> path F k (st f x) t -> (cpc t < lo \/ hi <= cpc t)%nat ->
            exists y k', den e x y /\ (k' < k)%nat /\ path F k' (st n y) t }.

Lemma frag_ext C C' lo hi f l e : (forall pc, (lo <= pc < hi)%nat -> nth_error C' pc = nth_error C pc) -> frag C lo hi f l e -> frag C' lo hi f l e.
Proof.
  intros HE H. assert (HF : forall F n, fits C' F lo hi l n -> fits C F lo hi l n).
  { intros F n [h1 h2 h3]. constructor; auto.
    - intros pc Hp Hl. rewrite h1 by assumption. apply HE; assumption.
    - intros o Ho. apply h2. rewrite HE by apply (g_l _ _ _ _ _ _ H). exact Ho. }
  destruct H as [h1 h2 h3 h4 h5]. constructor; [exact h1|exact h2| | |].
  - rewrite HE by assumption. exact h3.
  - intros F n x y HFi. apply h4; auto.
  - intros F n k x t HFi. apply h5; auto.
Qed.
Definition eqv (e e' : re) : Prop := forall x y, den e x y <-> den e' x y.
Lemma frag_eqv C lo hi f l e e' : eqv e e' -> frag C lo hi f l e -> frag C lo hi f l e'.
Proof.
  intros HE [h1 h2 h3 h4 h5]. constructor; auto.
  - intros F n x y HF Hd. apply (h4 F n); auto. apply HE. exact Hd.
  - intros F n k x t HF Hp Ht. destruct (h5 F n k x t HF Hp Ht) as (y & k' & Hd & Hk). exists y, k'. split; [apply HE; exact Hd|exact Hk].
Qed.

Lemma cat_inv e1 e2 x z : den (ECat e1 e2) x z -> exists y, den e1 x y /\ den e2 y z.
Proof. intros H. inversion H; subst. eauto. Qed.
Lemma alt_inv e1 e2 x y : den (EAlt e1 e2) x y -> den e1 x y \/ den e2 x y.
Proof. intros H. inversion H; subst; auto. Qed.
Lemma plus_inv e x z : den (EPlus e) x z -> exists y, den e x y /\ den (EStar e) y z.
Proof. intros H. inversion H; subst. eauto. Qed.
Lemma quest_inv e x y : den (EQuest e) x y -> x = y \/ den e x y.
Proof. intros H. inversion H; subst; auto. Qed.
Lemma grp_inv s e i c z : den (EGrp s e) (i, c) z -> exists j c', z = (j, set_caps pos (RBRA s) j c') /\ den e (i, set_caps pos (LBRA s) i c) (j, c').
Proof. intros H. inversion H; subst. eauto. Qed.

Ltac fstep H := match type of H with path _ _ (st ?f _) _ => inversion H as [|? ? ? ? ?Hs ?Hp]; subst; clear H end.

Lemma conf_eq (x y : nat * se) pc : fst x = fst y -> snd x = snd y -> st pc x = st pc y.
Proof. unfold st. intros -> ->. reflexivity. Qed.
(** The step out of an instruction. *)
Lemma nst_inv F pc x t o n : nth_error F pc = Some (I o n) -> nst F (st pc x) t ->
  (exists q c, n = Some q /\ nth_error cs (fst x) = Some c /\ takes_ o c /\ t = st q (S (fst x), snd x)) \/
  (exists q, n = Some q /\ hold' o (fst x) /\ t = st q (fst x, set_caps pos o (fst x) (snd x))) \/
  (exists q, o = OR (Some q) /\ t = st q x).
Proof.
  intros HF H. destruct x as [i0 c0]. unfold st in *. cbn [fst snd] in *.
  inversion H as [pc' i' e' o' n' c' A B D|pc' i' e' o' n' A B|pc' i' e' q' n' A]; subst; rewrite HF in A; injection A as -> ->.
  - left. exists n', c'. auto.
  - right; left. exists n'. auto.
  - right; right. exists q'. auto.
Qed.

Lemma set_caps_atom o i c : atom_op o \/ o = END -> set_caps pos o i c = c.
Proof. destruct o; cbn; intros [H|H]; try discriminate H; try (now destruct H); reflexivity. Qed.
Lemma frag_atom C lo o : atom_op o \/ o = END -> nth_error C lo = Some (I o None) -> frag C lo (S lo) lo lo (EAtom o).
Proof.
  intros Ho HC. constructor; try lia; [eauto| |].
  - intros F n [i c] y HF Hd. inversion Hd; subst.
    + exists 1%nat. econstructor; [|apply p_refl]. eapply n_take; eauto. apply (f_last _ _ _ _ _ _ HF). exact HC.
    + exists 1%nat. econstructor; [|apply p_refl]. unfold st; cbn [fst snd]. rewrite <- (set_caps_atom o i c Ho) at 2. eapply n_pass; [|right; eassumption].
      apply (f_last _ _ _ _ _ _ HF). exact HC.
  - intros F n k [i c] t HF Hp Ht. pose proof (f_last _ _ _ _ _ _ HF _ HC) as HFl. fstep Hp; [cbn in Ht; lia|].
    apply (nst_inv _ _ _ _ _ _ HFl) in Hs. destruct Hs as [(q & c0 & [= <-] & Hc & Ht0 & ->)|[(q & [= <-] & Hh & ->)|(q & -> & _)]]; [| |destruct Ho as [[]|Ho]; discriminate Ho].
    + eexists _, _. split; [eapply d_take; eassumption|]. split; [|exact Hp0]. lia.
    + eexists _, _. split; [eapply d_hold|]. 2:{ split; [|rewrite set_caps_atom in Hp0 by assumption; exact Hp0]. lia. }
      destruct Hh as [->|Hh]; [destruct Ho as [[]|Ho]; discriminate Ho|exact Hh].
Qed.

Lemma frag_cat C C' lo mid hi f1 l1 f2 l2 e1 e2 o :
  frag C lo mid f1 l1 e1 -> frag C mid hi f2 l2 e2 -> nth_error C l1 = Some (I o None) ->
  (forall pc, pc <> l1 -> nth_error C' pc = nth_error C pc) -> nth_error C' l1 = Some (I o (Some f2)) ->
  frag C' lo hi f1 l2 (ECat e1 e2).
Proof.
  intros H1 H2 Ho HE HL. pose proof (g_f _ _ _ _ _ _ H1). pose proof (g_l _ _ _ _ _ _ H1). pose proof (g_f _ _ _ _ _ _ H2). pose proof (g_l _ _ _ _ _ _ H2).
  assert (HF1 : forall F n, fits C' F lo hi l2 n -> fits C F lo mid l1 f2).
  { intros F n [h1 h2 h3]. constructor.
    - intros pc Hp Hl. rewrite h1 by lia. apply HE; assumption.
    - intros o' Ho'. rewrite h1 by lia. congruence.
    - lia. }
  assert (HF2 : forall F n, fits C' F lo hi l2 n -> fits C F mid hi l2 n).
  { intros F n [h1 h2 h3]. constructor.
    - intros pc Hp Hl. rewrite h1 by lia. apply HE; lia.
    - intros o' Ho'. apply h2. rewrite HE by lia. exact Ho'.
    - lia. }
  constructor; try lia.
  - destruct (g_last _ _ _ _ _ _ H2) as [o2 Ho2]. exists o2. rewrite HE by lia. exact Ho2.
  - intros F n x z HF Hd. apply cat_inv in Hd. destruct Hd as (y & D1 & D2). destruct (g_fwd _ _ _ _ _ _ H1 _ _ _ _ (HF1 _ _ HF) D1) as [k1 P1].
    destruct (g_fwd _ _ _ _ _ _ H2 _ _ _ _ (HF2 _ _ HF) D2) as [k2 P2]. exists (k1 + k2)%nat. eapply path_app; eassumption.
  - intros F n k x t HF Hp Ht. destruct (g_bwd _ _ _ _ _ _ H1 _ _ _ _ _ (HF1 _ _ HF) Hp) as (y & k1 & D1 & Hk1 & P1); [lia|].
    destruct (g_bwd _ _ _ _ _ _ H2 _ _ _ _ _ (HF2 _ _ HF) P1) as (z & k2 & D2 & Hk2 & P2); [lia|].
    exists z, k2. split; [eapply d_cat; eassumption|]. split; [lia|exact P2].
Qed.
Lemma pass_or F pc x q o n : nth_error F pc = Some (I o (Some n)) -> o = OR q -> nst F (st pc x) (st n x).
Proof. intros H ->. apply (n_pass F pc (fst x) (snd x) (OR q) n H). right. exact Logic.I. Qed.
Lemma pass_nop F pc x n : nth_error F pc = Some (I NOP (Some n)) -> nst F (st pc x) (st n x).
Proof. intros H. apply (n_pass F pc (fst x) (snd x) NOP n H). left. reflexivity. Qed.
Lemma pass_right F pc x q n : nth_error F pc = Some (I (OR (Some q)) n) -> nst F (st pc x) (st q x).
Proof. intros H. apply (n_right F pc (fst x) (snd x) q n H). Qed.
Lemma or_inv F pc x t q n : nth_error F pc = Some (I (OR (Some q)) (Some n)) -> nst F (st pc x) t -> t = st q x \/ t = st n x.
Proof.
  intros HF Hs. apply (nst_inv _ _ _ _ _ _ HF) in Hs. destruct Hs as [(? & ? & _ & _ & [] & _)|[(n' & [= <-] & _ & ->)|(q' & [= <-] & ->)]]; auto.
Qed.
Lemma nop_inv F pc x t n : nth_error F pc = Some (I NOP (Some n)) -> nst F (st pc x) t -> t = st n x.
Proof.
  intros HF Hs. apply (nst_inv _ _ _ _ _ _ HF) in Hs. destruct Hs as [(? & ? & _ & _ & [] & _)|[(n' & [= <-] & _ & ->)|(q' & E & _)]]; auto. discriminate E.
Qed.

(** A loop: OR at [m] behind the fragment [lo, m). *)
Lemma loop_fwd F m f e n :
  nth_error F m = Some (I (OR (Some f)) (Some n)) -> (forall x y, den e x y -> exists k, path F k (st f x) (st m y)) ->
  forall x y, den (EStar e) x y -> exists k, path F k (st m x) (st n y).
Proof.
  intros HF He x y Hd. remember (EStar e) as s eqn:Es. induction Hd; inversion Es; subst.
  - exists 1%nat. econstructor; [|apply p_refl]. eapply pass_or; eauto.
  - destruct (He _ _ Hd1) as [k1 P1]. destruct (IHHd2 eq_refl) as [k2 P2]. exists (S (k1 + k2)). econstructor; [eapply pass_right; eassumption|].
    eapply path_app; eassumption.
Qed.
Lemma loop_bwd F lo m f e n :
  nth_error F m = Some (I (OR (Some f)) (Some n)) ->
  (forall k x t, path F k (st f x) t -> (cpc t < lo \/ m <= cpc t)%nat -> exists y k', den e x y /\ (k' < k)%nat /\ path F k' (st m y) t) ->
  forall k x t, path F k (st m x) t -> (cpc t < lo \/ S m <= cpc t)%nat -> (lo <= m)%nat -> exists y k', den (EStar e) x y /\ (k' < k)%nat /\ path F k' (st n y) t.
Proof.
  intros HF He k. induction k as [k IH] using lt_wf_ind. intros x t Hp Ht Hm. fstep Hp; [cbn in Ht; lia|].
  apply (or_inv _ _ _ _ _ _ HF) in Hs. destruct Hs as [->| ->].
  - destruct (He _ _ _ Hp0) as (y & k1 & D1 & Hk1 & P1); [lia|]. destruct (IH k1 ltac:(lia) _ _ P1 Ht Hm) as (z & k2 & D2 & Hk2 & P2).
    exists z, k2. split; [eapply d_star1; eassumption|]. split; [lia|exact P2].
  - exists x, k0. split; [apply d_star0|]. split; [lia|exact Hp0].
Qed.

Section Post.
Variables (C C' : list inst) (lo hi f l : nat) (e : re) (o : op).
Hypothesis H : frag C lo hi f l e.
Hypothesis Ho : nth_error C l = Some (I o None).
Hypothesis Hhi : hi = length C.
Hypothesis HE : forall pc, (pc < hi)%nat -> pc <> l -> nth_error C' pc = nth_error C pc.

Lemma post_star : nth_error C' l = Some (I o (Some hi)) -> nth_error C' hi = Some (I (OR (Some f)) None) -> frag C' lo (S hi) hi hi (EStar e).
Proof.
  intros HL HN. pose proof (g_f _ _ _ _ _ _ H). pose proof (g_l _ _ _ _ _ _ H).
  assert (HF1 : forall F n, fits C' F lo (S hi) hi n -> fits C F lo hi l hi /\ nth_error F hi = Some (I (OR (Some f)) (Some n))).
  { intros F n [h1 h2 h3]. split; [constructor|].
    - intros pc Hp Hl. rewrite h1 by lia. apply HE; lia.
    - intros o' Ho'. rewrite h1 by lia. congruence.
    - lia.
    - apply h2. exact HN. }
  constructor; try lia; [eauto| |].
  - intros F n x y HF Hd. destruct (HF1 _ _ HF) as [F1 F2]. apply (loop_fwd F hi f e n F2); auto. intros. eapply g_fwd; eauto.
  - intros F n k x t HF Hp Ht. destruct (HF1 _ _ HF) as [F1 F2]. eapply (loop_bwd F lo hi f e n F2); eauto; [|lia]. intros. eapply g_bwd; eauto.
Qed.
Lemma post_plus : nth_error C' l = Some (I o (Some hi)) -> nth_error C' hi = Some (I (OR (Some f)) None) -> frag C' lo (S hi) f hi (EPlus e).
Proof.
  intros HL HN. pose proof (g_f _ _ _ _ _ _ H). pose proof (g_l _ _ _ _ _ _ H).
  assert (HF1 : forall F n, fits C' F lo (S hi) hi n -> fits C F lo hi l hi /\ nth_error F hi = Some (I (OR (Some f)) (Some n))).
  { intros F n [h1 h2 h3]. split; [constructor|].
    - intros pc Hp Hl. rewrite h1 by lia. apply HE; lia.
    - intros o' Ho'. rewrite h1 by lia. congruence.
    - lia.
    - apply h2. exact HN. }
  constructor; try lia; [eauto| |].
  - intros F n x z HF Hd. destruct (HF1 _ _ HF) as [F1 F2]. apply plus_inv in Hd. destruct Hd as (y & D1 & D2). destruct (g_fwd _ _ _ _ _ _ H _ _ _ _ F1 D1) as [k1 P1].
    destruct (loop_fwd F hi f e n F2) with (x := y) (y := z) as [k2 P2]; auto; [intros; eapply g_fwd; eauto|].
    exists (k1 + k2)%nat. eapply path_app; eassumption.
  - intros F n k x t HF Hp Ht. destruct (HF1 _ _ HF) as [F1 F2]. destruct (g_bwd _ _ _ _ _ _ H _ _ _ _ _ F1 Hp) as (y & k1 & D1 & Hk1 & P1); [lia|].
    destruct (loop_bwd F lo hi f e n F2) with (k := k1) (x := y) (t := t) as (z & k2 & D2 & Hk2 & P2); auto; [intros; eapply g_bwd; eauto|lia|].
    exists z, k2. split; [eapply d_plus; eassumption|]. split; [lia|exact P2].
Qed.
Lemma post_quest : nth_error C' l = Some (I o (Some (S hi))) -> nth_error C' hi = Some (I (OR (Some f)) (Some (S hi))) -> nth_error C' (S hi) = Some (I NOP None) ->
  frag C' lo (S (S hi)) hi (S hi) (EQuest e).
Proof.
  intros HL HN HM. pose proof (g_f _ _ _ _ _ _ H). pose proof (g_l _ _ _ _ _ _ H).
  assert (HF1 : forall F n, fits C' F lo (S (S hi)) (S hi) n -> fits C F lo hi l (S hi) /\ nth_error F hi = Some (I (OR (Some f)) (Some (S hi))) /\ nth_error F (S hi) = Some (I NOP (Some n))).
  { intros F n [h1 h2 h3]. split; [constructor|split].
    - intros pc Hp Hl. rewrite h1 by lia. apply HE; lia.
    - intros o' Ho'. rewrite h1 by lia. congruence.
    - lia.
    - rewrite h1 by lia. exact HN.
    - apply h2. exact HM. }
  constructor; try lia; [eauto| |].
  - intros F n x y HF Hd. destruct (HF1 _ _ HF) as (F1 & F2 & F3). apply quest_inv in Hd. destruct Hd as [<-|Hd].
    + exists 2%nat. econstructor; [eapply pass_or; eauto|]. econstructor; [eapply pass_nop; eauto|]. apply p_refl.
    + destruct (g_fwd _ _ _ _ _ _ H _ _ _ _ F1 Hd) as [k1 P1]. exists (S (k1 + 1)). econstructor; [eapply pass_right; eauto|]. eapply path_app; [eassumption|].
      econstructor; [eapply pass_nop; eauto|]. apply p_refl.
  - intros F n k x t HF Hp Ht. destruct (HF1 _ _ HF) as (F1 & F2 & F3). fstep Hp; [cbn in Ht; lia|].
    apply (or_inv _ _ _ _ _ _ F2) in Hs. destruct Hs as [->| ->].
    + destruct (g_bwd _ _ _ _ _ _ H _ _ _ _ _ F1 Hp0) as (y & k1 & D1 & Hk1 & P1); [lia|]. fstep P1; [cbn in Ht; lia|]. apply (nop_inv _ _ _ _ _ F3) in Hs. subst.
      exists y, k. split; [apply d_quest1; exact D1|]. split; [lia|exact Hp].
    + fstep Hp0; [cbn in Ht; lia|]. apply (nop_inv _ _ _ _ _ F3) in Hs. subst. exists x, k. split; [apply d_quest0|]. split; [lia|exact Hp].
Qed.
Lemma post_grp s : nth_error C' l = Some (I o (Some hi)) -> nth_error C' hi = Some (I (RBRA s) None) -> nth_error C' (S hi) = Some (I (LBRA s) (Some f)) ->
  frag C' lo (S (S hi)) (S hi) hi (EGrp s e).
Proof.
  intros HL HN HM. pose proof (g_f _ _ _ _ _ _ H). pose proof (g_l _ _ _ _ _ _ H).
  assert (HF1 : forall F n, fits C' F lo (S (S hi)) hi n -> fits C F lo hi l hi /\ nth_error F hi = Some (I (RBRA s) (Some n)) /\ nth_error F (S hi) = Some (I (LBRA s) (Some f))).
  { intros F n [h1 h2 h3]. split; [constructor|split].
    - intros pc Hp Hl. rewrite h1 by lia. apply HE; lia.
    - intros o' Ho'. rewrite h1 by lia. congruence.
    - lia.
    - apply h2. exact HN.
    - rewrite h1 by lia. exact HM. }
  constructor; try lia; [eauto| |].
  - intros F n [i c] z HF Hd. destruct (HF1 _ _ HF) as (F1 & F2 & F3). apply grp_inv in Hd. destruct Hd as (j & c' & -> & Hd). destruct (g_fwd _ _ _ _ _ _ H _ _ _ _ F1 Hd) as [k1 P1].
    exists (S (k1 + 1)). econstructor; [apply (n_pass F _ i c (LBRA s) f F3); right; exact Logic.I|]. eapply path_app; [exact P1|].
    econstructor; [apply (n_pass F _ j c' (RBRA s) n F2); right; exact Logic.I|]. apply p_refl.
  - intros F n k [i c] t HF Hp Ht. destruct (HF1 _ _ HF) as (F1 & F2 & F3). fstep Hp; [cbn in Ht; lia|].
    apply (nst_inv _ _ _ _ _ _ F3) in Hs. destruct Hs as [(? & ? & _ & _ & [] & _)|[(n' & [= <-] & _ & ->)|(q' & E & _)]]; [|discriminate E].
    destruct (g_bwd _ _ _ _ _ _ H _ _ _ _ _ F1 Hp0) as ([j c'] & k1 & D1 & Hk1 & P1); [lia|]. fstep P1; [cbn in Ht; lia|].
    apply (nst_inv _ _ _ _ _ _ F2) in Hs. destruct Hs as [(? & ? & _ & _ & [] & _)|[(n' & [= <-] & _ & ->)|(q' & E & _)]]; [|discriminate E].
    eexists _, _. split; [eapply d_grp; exact D1|]. split; [|exact Hp]. lia.
Qed.
End Post.

Lemma frag_alt C C' lo mid hi f1 l1 f2 l2 e1 e2 o1 o2 :
  frag C lo mid f1 l1 e1 -> frag C mid hi f2 l2 e2 -> hi = length C ->
  nth_error C l1 = Some (I o1 None) -> nth_error C l2 = Some (I o2 None) ->
  (forall pc, (pc < hi)%nat -> pc <> l1 -> pc <> l2 -> nth_error C' pc = nth_error C pc) ->
  nth_error C' l1 = Some (I o1 (Some hi)) -> nth_error C' l2 = Some (I o2 (Some hi)) ->
  nth_error C' hi = Some (I NOP None) -> nth_error C' (S hi) = Some (I (OR (Some f1)) (Some f2)) ->
  frag C' lo (S (S hi)) (S hi) hi (EAlt e1 e2).
Proof.
  intros H1 H2 Hhi Ho1 Ho2 HE HL1 HL2 HN HM.
  pose proof (g_f _ _ _ _ _ _ H1). pose proof (g_l _ _ _ _ _ _ H1). pose proof (g_f _ _ _ _ _ _ H2). pose proof (g_l _ _ _ _ _ _ H2).
  assert (HF : forall F n, fits C' F lo (S (S hi)) hi n -> fits C F lo mid l1 hi /\ fits C F mid hi l2 hi /\ nth_error F hi = Some (I NOP (Some n)) /\ nth_error F (S hi) = Some (I (OR (Some f1)) (Some f2))).
  { intros F n [h1 h2 h3]. split; [constructor|split; [constructor|split]].
    - intros pc Hp Hl. rewrite h1 by lia. apply HE; lia.
    - intros o' Ho'. rewrite h1 by lia. congruence.
    - lia.
    - intros pc Hp Hl. rewrite h1 by lia. apply HE; lia.
    - intros o' Ho'. rewrite h1 by lia. congruence.
    - lia.
    - apply h2. exact HN.
    - rewrite h1 by lia. exact HM. }
  constructor; try lia; [eauto| |].
  - intros F n x y HFi Hd. destruct (HF _ _ HFi) as (F1 & F2 & F3 & F4). apply alt_inv in Hd. destruct Hd as [Hd|Hd].
    + destruct (g_fwd _ _ _ _ _ _ H1 _ _ _ _ F1 Hd) as [k1 P1]. exists (S (k1 + 1)). econstructor; [eapply pass_right; eauto|]. eapply path_app; [eassumption|].
      econstructor; [eapply pass_nop; eauto|]. apply p_refl.
    + destruct (g_fwd _ _ _ _ _ _ H2 _ _ _ _ F2 Hd) as [k1 P1]. exists (S (k1 + 1)). econstructor; [eapply pass_or; eauto|]. eapply path_app; [eassumption|].
      econstructor; [eapply pass_nop; eauto|]. apply p_refl.
  - intros F n k x t HFi Hp Ht. destruct (HF _ _ HFi) as (F1 & F2 & F3 & F4). fstep Hp; [cbn in Ht; lia|].
    apply (or_inv _ _ _ _ _ _ F4) in Hs. destruct Hs as [->| ->].
    + destruct (g_bwd _ _ _ _ _ _ H1 _ _ _ _ _ F1 Hp0) as (y & k1 & D1 & Hk1 & P1); [lia|]. fstep P1; [cbn in Ht; lia|]. apply (nop_inv _ _ _ _ _ F3) in Hs. subst.
      exists y, k. split; [apply d_alt1; exact D1|]. split; [lia|exact Hp].
    + destruct (g_bwd _ _ _ _ _ _ H2 _ _ _ _ _ F2 Hp0) as (y & k1 & D1 & Hk1 & P1); [lia|]. fstep P1; [cbn in Ht; lia|]. apply (nop_inv _ _ _ _ _ F3) in Hs. subst.
      exists y, k. split; [apply d_alt2; exact D1|]. split; [lia|exact Hp].
Qed.

(** Closures commute. *)
Lemma star_trans e x y z : den (EStar e) x y -> den (EStar e) y z -> den (EStar e) x z.
Proof.
  intros H1. remember (EStar e) as s eqn:Es. induction H1; inversion Es; subst; auto. intros H2. eapply d_star1; eauto.
Qed.
Lemma plus_star e x y : den (EPlus e) x y -> den (EStar e) x y.
Proof. intros H. inversion H; subst. eapply d_star1; eassumption. Qed.
Lemma quest_star e x y : den (EQuest e) x y -> den (EStar e) x y.
Proof. intros H. inversion H; subst; [apply d_star0|]. eapply d_star1; [eassumption|apply d_star0]. Qed.
Lemma star_mono e e' : (forall x y, den e x y -> den e' x y) -> forall x y, den (EStar e) x y -> den (EStar e') x y.
Proof.
  intros He x y H. remember (EStar e) as s eqn:Es. induction H; inversion Es; subst; [apply d_star0|]. eapply d_star1; eauto.
Qed.
Lemma star_idem e e' : (forall x y, den e' x y -> den (EStar e) x y) -> forall x y, den (EStar e') x y -> den (EStar e) x y.
Proof.
  intros He x y H. remember (EStar e') as s eqn:Es. induction H; inversion Es; subst; [apply d_star0|]. eapply star_trans; eauto.
Qed.
Definition app_post (a : ator) (e : re) : re := match a with AStar => EStar e | APlus => EPlus e | AQuest => EQuest e | _ => e end.
Definition is_post (a : ator) : Prop := match a with AStar | APlus | AQuest => True | _ => False end.
Lemma app_post_eqv a e e' : eqv e e' -> eqv (app_post a e) (app_post a e').
Proof.
  intros HE. assert (G : forall e e', eqv e e' -> forall x y, den (app_post a e) x y -> den (app_post a e') x y).
  { clear. intros e e' HE x y H. destruct a; cbn in *; try (apply HE; exact H).
    - eapply star_mono; [|exact H]. intros; apply HE; assumption.
    - inversion H; subst. eapply d_plus; [apply HE; eassumption|]. eapply star_mono; [|eassumption]. intros; apply HE; assumption.
    - inversion H; subst; [apply d_quest0|apply d_quest1; apply HE; assumption]. }
  intros x y. split; apply G; [exact HE|]. intros u v. symmetry. apply HE.
Qed.
Definition st1 e x y (H : den e x y) : den (EStar e) x y := d_star1 _ _ _ _ _ _ _ _ H (d_star0 _ _ _ _ _ _).
Definition pl1 e x y (H : den e x y) : den (EPlus e) x y := d_plus _ _ _ _ _ _ _ _ H (d_star0 _ _ _ _ _ _).
Lemma star_ge a e x y : den (app_post a e) x y -> is_post a -> den (EStar e) x y.
Proof. destruct a; cbn; try tauto; intros H _; auto using plus_star, quest_star. Qed.
Lemma ge_1 a e x y : den e x y -> den (app_post a e) x y.
Proof. destruct a; cbn; auto using st1, pl1. intros; now apply d_quest1. Qed.
(** Two different closures together are the star. *)
Lemma two_post a b e : is_post a -> is_post b -> a <> b -> eqv (app_post a (app_post b e)) (EStar e).
Proof.
  intros Ha Hb Hab x y. split.
  - intros H. apply star_ge in H; [|exact Ha]. eapply star_idem; [|exact H]. intros u v Hu. apply star_ge in Hu; auto.
  - intros H. destruct a; try destruct Ha; destruct b; try destruct Hb; try congruence; cbn.
    + eapply star_mono; [|exact H]. intros; now apply pl1.
    + eapply star_mono; [|exact H]. intros; now apply d_quest1.
    + apply pl1. exact H.
    + remember (EStar e) as s eqn:Es. induction H; inversion Es; subst; [apply pl1, d_quest0|]. eapply d_plus; [apply d_quest1; eassumption|]. apply plus_star. auto.
    + apply d_quest1. exact H.
    + inversion H; subst; [apply d_quest0|]. apply d_quest1. eapply d_plus; eassumption.
Qed.
Lemma post_comm a b e : is_post a -> is_post b -> eqv (app_post a (app_post b e)) (app_post b (app_post a e)).
Proof.
  intros Ha Hb. assert (D : a = b \/ a <> b) by (destruct a, b; (now left) || (right; discriminate)). destruct D as [->|D]; [intros x y; reflexivity|].
  intros x y. etransitivity; [apply (two_post a b); auto|]. symmetry. apply (two_post b a); auto.
Qed.
End Sem.
