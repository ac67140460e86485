(** Proof device for smap: the AA-tree as an inductive tree of node indices, the operations
    on such trees, and the balance invariant. *)
From Verif Require Import Base.

Inductive tree : Type := E | N (i lv : Z) (l r : tree).
Definition lvl (t : tree) : Z := match t with E => 0 | N _ lv _ _ => lv end.
Definition rt (t : tree) : Z := match t with E => 0 | N i _ _ _ => i end.
Definition lft (t : tree) : tree := match t with E => E | N _ _ l _ => l end.
Definition rgt (t : tree) : tree := match t with E => E | N _ _ _ r => r end.
Fixpoint inord (t : tree) : list Z :=
  match t with E => [] | N i _ l r => inord l ++ i :: inord r end.

(** AA invariants: a left child is one level below, a right child at most on the same level,
    a right grandchild strictly below. *)
Fixpoint aa (t : tree) : Prop :=
  match t with
  | E => True
  | N i lv l r => lvl l = lv - 1 /\ (lvl r = lv - 1 \/ lvl r = lv) /\ lvl (rgt r) < lv /\ aa l /\ aa r
  end.
Definition sngl (t : tree) : Prop := match t with E => False | N _ lv _ r => lvl r < lv end.

Lemma aa_lvl t : aa t -> 0 <= lvl t.
Proof. induction t; cbn; [lia|]. intros (A & _ & _ & B & _). specialize (IHt1 B). lia. Qed.
Lemma aa_rgt t : aa t -> lvl (rgt t) <= lvl t.
Proof. destruct t; cbn; [lia|]. intros (_ & A & _). lia. Qed.
Lemma aa_rr t : aa t -> t <> E -> lvl (rgt (rgt t)) < lvl t.
Proof. destruct t; cbn; [congruence|]. intros (_ & _ & A & _) _. exact A. Qed.
Lemma lvl_pos t : aa t -> 0 < lvl t -> exists i l r, t = N i (lvl t) l r.
Proof. destruct t; cbn; [lia|]. eauto. Qed.
Lemma lvl_zero t : aa t -> lvl t = 0 -> t = E.
Proof. destruct t; cbn; [auto|]. intros (A & _ & _ & B & _). apply aa_lvl in B. lia. Qed.

Ltac rgts := repeat match goal with H : aa ?t |- _ =>
  lazymatch goal with _ : lvl (rgt t) <= lvl t |- _ => fail | _ => pose proof (aa_rgt _ H) end end; cbn [rgt lvl] in *.

Definition skewT (t : tree) : tree :=
  match t with
  | N i lv (N j lj a b) r => if lj =? lv then N j lj a (N i lv b r) else t
  | _ => t
  end.
Definition splitT (t : tree) : tree :=
  match t with
  | N i lv l (N j lj b c) => if lvl c =? lv then N j (lj + 1) (N i lv l b) c else t
  | _ => t
  end.
Definition set_lvl (x : Z) (t : tree) : tree := match t with E => E | N i _ l r => N i x l r end.
Definition onright (f : tree -> tree) (t : tree) : tree :=
  match t with E => E | N i lv l r => N i lv l (f r) end.

Lemma inord_skew t : inord (skewT t) = inord t.
Proof.
  destruct t as [|i lv [|j lj a b] r]; cbn; auto. destruct (lj =? lv); cbn; auto.
  rewrite <- !app_assoc. reflexivity.
Qed.
Lemma inord_split t : inord (splitT t) = inord t.
Proof.
  destruct t as [|i lv l [|j lj b c]]; cbn; auto. destruct (lvl c =? lv); cbn; auto.
  rewrite <- !app_assoc. reflexivity.
Qed.
Lemma inord_onright f t : inord (f (rgt t)) = inord (rgt t) -> inord (onright f t) = inord t.
Proof. destruct t; cbn; auto. intros ->. reflexivity. Qed.

Lemma skew_aa t : aa t -> skewT t = t.
Proof.
  destruct t as [|i lv [|j lj a b] r]; cbn; auto. intros (A & _). cbn in A.
  destruct (Z.eqb_spec lj lv); [lia|reflexivity].
Qed.
Lemma split_aa t : aa t -> splitT t = t.
Proof.
  destruct t as [|i lv l [|j lj b c]]; cbn; auto. intros (_ & _ & A & _). cbn in A.
  destruct (Z.eqb_spec (lvl c) lv); [lia|reflexivity].
Qed.

(** Insertion of node [p]; [c i] is the comparison of node [i]'s key with the new key. *)
Fixpoint insB (c : Z -> Z) (p : Z) (t : tree) : tree :=
  match t with
  | E => N p 1 E E
  | N i lv l r => if c i <? 0 then N i lv l (insB c p r) else N i lv (insB c p l) r
  end.
Fixpoint insT (c : Z -> Z) (p : Z) (t : tree) : tree :=
  match t with
  | E => N p 1 E E
  | N i lv l r => splitT (skewT (if c i <? 0 then N i lv l (insT c p r) else N i lv (insT c p l) r))
  end.
Lemma inord_insT c p t : inord (insT c p t) = inord (insB c p t).
Proof.
  induction t; cbn [insT insB]; [reflexivity|]. rewrite inord_split, inord_skew.
  destruct (c i <? 0); cbn; congruence.
Qed.

Lemma insT_N c p t : insT c p t <> E.
Proof.
  intros H. pose proof (inord_insT c p t) as I. rewrite H in I. destruct t; cbn in I; [discriminate|].
  destruct (c i <? 0); cbn in I; symmetry in I; now apply app_eq_nil in I as [_ I].
Qed.

Definition post_ins (t t' : tree) : Prop :=
  aa t' /\ (lvl t' = lvl t \/ (lvl t' = lvl t + 1 /\ sngl t')) /\ (sngl t -> lvl t' = lvl t).
Lemma insT_aa c p t : aa t -> post_ins t (insT c p t).
Proof.
  induction t as [|i lv l IHl r IHr].
  - intros _. unfold post_ins. cbn. lia.
  - intros (A & B & C & Hl & Hr). cbn [insT]. specialize (IHl Hl). specialize (IHr Hr).
    pose proof (aa_lvl _ Hl) as Pl. destruct (c i <? 0).
    + destruct IHr as (I1 & I2 & I3). set (r' := insT c p r) in *.
      replace (skewT (N i lv l r')) with (N i lv l r').
      2:{ destruct l as [|j lj a b]; cbn [skewT]; [reflexivity|]. cbn in A. destruct (Z.eqb_spec lj lv); [lia|reflexivity]. }
      assert (Hs : lvl r = lv -> sngl r).
      { destruct r; cbn in *; lia. }
      destruct r' as [|j lj b d] eqn:Er'; [exfalso; exact (insT_N _ _ _ Er')|].
      cbn [splitT]. cbn in I1. destruct I1 as (J1 & J2 & J3 & J4 & J5). unfold post_ins. cbn [lvl] in *.
      destruct (Z.eqb_spec (lvl d) lv).
      * assert (lj = lv).
        { destruct B as [B|B]; [lia|]. specialize (I3 (Hs B)). lia. }
        subst lj.
        pose proof (aa_rgt _ J4). cbn. split; [repeat split; auto; try lia|].
        split; [right; lia|]. intros Hsn. destruct I2 as [I2|[I2 I4]]; cbn in *; lia.
      * assert (lj = lv - 1 \/ lj = lv).
        { destruct I2 as [I2|[I2 I4]]; destruct B as [B|B]; try lia. specialize (I3 (Hs B)). lia. }
        cbn. split; [rgts; repeat split; auto; try lia|lia].
    + destruct IHl as (I1 & I2 & I3). set (l' := insT c p l) in *.
      destruct l' as [|j lj a b] eqn:El'.
      { exfalso. exact (insT_N _ _ _ El'). }
      cbn in I1. destruct I1 as (J1 & J2 & J3 & J4 & J5). cbn [skewT]. cbn [lvl] in I2, I3.
      destruct (Z.eqb_spec lj lv) as [->|N0].
      * assert (Hb : lvl b = lv - 1). { destruct I2 as [I2|[I2 I4]]; cbn in *; lia. }
        cbn [splitT]. destruct (Z.eqb_spec (lvl r) lv) as [Er|Nr].
        { unfold post_ins. cbn. repeat split; auto; try lia. }
        { unfold post_ins. cbn. repeat split; auto; try lia. }
      * replace (splitT (N i lv (N j lj a b) r)) with (N i lv (N j lj a b) r).
        { unfold post_ins. cbn. repeat split; auto; try lia. }
        destruct r as [|q lq e f]; cbn [splitT]; [reflexivity|]. cbn in C. destruct (Z.eqb_spec (lvl f) lv); [lia|reflexivity].
Qed.

(** Rebalancing after an erasure. *)
Definition rebal1 (t : tree) : tree :=
  match t with
  | E => E
  | N i lv l r => skewT (N i (lv - 1) l (if lvl r >? lv - 1 then set_lvl (lv - 1) r else r))
  end.
Definition rebalT (t : tree) : tree :=
  match t with
  | E => E
  | N i lv l r =>
    if (lvl l <? lv - 1) || (lvl r <? lv - 1) then
      onright splitT (splitT (onright (onright skewT) (onright skewT (rebal1 t))))
    else t
  end.
Lemma inord_set_lvl x t : inord (set_lvl x t) = inord t.
Proof. destruct t; reflexivity. Qed.
Lemma inord_rebal1 t : inord (rebal1 t) = inord t.
Proof.
  destruct t as [|i lv l r]; cbn [rebal1]; auto. rewrite inord_skew. cbn [inord].
  destruct (lvl r >? lv - 1); now rewrite ?inord_set_lvl.
Qed.
Lemma inord_rebal t : inord (rebalT t) = inord t.
Proof.
  destruct t as [|i lv l r]; cbn [rebalT]; auto. destruct (_ || _); auto.
  rewrite (inord_onright splitT) by apply inord_split. rewrite inord_split.
  rewrite (inord_onright (onright skewT)) by (apply inord_onright, inord_skew).
  rewrite (inord_onright skewT) by apply inord_skew. apply inord_rebal1.
Qed.

Definition pre_del (t : tree) : Prop :=
  match t with
  | E => True
  | N i lv l r => aa l /\ aa r /\ 1 <= lv /\ lv - 2 <= lvl l <= lv - 1 /\ lv - 2 <= lvl r <= lv /\
      (lvl r = lv -> sngl r) /\ (lvl l = lv - 1 \/ lv - 1 <= lvl r)
  end.
Lemma aa_pre t : aa t -> pre_del t.
Proof.
  destruct t as [|i lv l r]; cbn; auto. intros (A & B & C & D & F). pose proof (aa_lvl _ D).
  repeat split; auto; try lia. intros. destruct r; cbn in *; lia.
Qed.
Lemma rebal_id t : aa t -> rebalT t = t.
Proof.
  destruct t as [|i lv l r]; cbn [rebalT]; auto. cbn. intros (A & B & _).
  destruct (Z.ltb_spec (lvl l) (lv - 1)); [lia|]. destruct (Z.ltb_spec (lvl r) (lv - 1)); [lia|]. reflexivity.
Qed.

(** The steps of an actual rebalancing: which tree results, that the right children the code
    touches exist, and that the levels are right again. *)
Definition needs (t : tree) : Prop :=
  match t with E => False | N i lv l r => lvl l < lv - 1 \/ lvl r < lv - 1 end.
Lemma rebal_steps t : pre_del t -> needs t ->
  let t2 := onright skewT (rebal1 t) in
  let t4 := splitT (onright (onright skewT) t2) in
  let t' := rebalT t in
  rgt (rebal1 t) <> E /\ rgt t2 <> E /\ rgt t4 <> E /\ t' = onright splitT t4 /\ aa t' /\
  (lvl t' = lvl t \/ lvl t' = lvl t - 1) /\ (lvl t' = lvl t -> lvl (rgt t) < lvl t -> sngl t').
Proof.
  destruct t as [|i lv l r]; cbn [pre_del needs]; [tauto|].
  intros (Al & Ar & Hlv & Hl & Hr & Hs & Hd) Hn. cbn zeta.
  assert (Et : rebalT (N i lv l r) = onright splitT (splitT (onright (onright skewT) (onright skewT (rebal1 (N i lv l r)))))).
  { cbn [rebalT]. destruct (Z.ltb_spec (lvl l) (lv - 1)), (Z.ltb_spec (lvl r) (lv - 1)); try reflexivity. lia. }
  rewrite Et. pose proof (aa_lvl _ Al) as Pl. pose proof (aa_lvl _ Ar) as Pr.
  destruct (Z.eq_dec (lvl l) (lv - 2)) as [El|Nl].
  - destruct r as [|j lj b c]; [cbn in *; lia|]. cbn in Ar. destruct Ar as (B1 & B2 & B3 & Ab & Ac).
    cbn [lvl] in *. pose proof (aa_lvl _ Ab) as Pb. pose proof (aa_lvl _ Ac) as Pc.
    assert (Sk : forall x, skewT (N i (lv - 1) l x) = N i (lv - 1) l x).
    { intros x. destruct l as [|a la aa1 ab1]; cbn [skewT]; [reflexivity|]. cbn in El. destruct (Z.eqb_spec la (lv - 1)); [lia|reflexivity]. }
    destruct (Z.eq_dec lj lv) as [->|Nj].
    + (* right child on the same level *)
      cbn [rebal1 lvl]. destruct (Z.gtb_spec lv (lv - 1)); [|lia]. cbn [set_lvl]. rewrite Sk. cbn [onright rgt].
      cbn [sngl] in Hs. specialize (Hs eq_refl).
      assert (Hc : lvl c = lv - 1) by lia.
      destruct b as [|k lk ba bb]; [cbn in *; lia|]. cbn [lvl] in B1. subst lk. cbn in Ab. destruct Ab as (D1 & D2 & D3 & Aba & Abb).
      cbn [skewT]. rewrite Z.eqb_refl. cbn [onright].
      pose proof (aa_lvl _ Aba). pose proof (aa_lvl _ Abb).
      destruct (Z.eq_dec (lvl bb) (lv - 1)) as [Ebb|Nbb].
      * destruct bb as [|m lm ma mb]; [cbn in *; lia|]. cbn [lvl] in Ebb. subst lm. cbn in Abb. destruct Abb as (F1 & F2 & F3 & Ama & Amb).
        cbn [rgt] in D3. cbn [skewT]. rewrite Z.eqb_refl. cbn [splitT lvl]. rewrite Z.eqb_refl. cbn [onright splitT].
        rewrite Hc, Z.eqb_refl. replace (lv - 1 + 1) with lv by lia. cbn.
        split; [discriminate|]. split; [discriminate|]. split; [discriminate|]. split; [reflexivity|].
        split; [rgts; repeat split; auto; lia|]. lia.
      * assert (Sb : skewT (N j (lv - 1) bb c) = N j (lv - 1) bb c).
        { destruct bb as [|m lm ma mb]; cbn [skewT]; [reflexivity|]. cbn in Nbb. destruct (Z.eqb_spec lm (lv - 1)); [lia|reflexivity]. }
        rewrite Sb. cbn [splitT lvl]. rewrite Z.eqb_refl. cbn [onright].
        replace (lv - 1 + 1) with lv by lia.
        destruct c as [|m lm ca cb]; [cbn in *; lia|]. cbn [lvl] in Hc. subst lm. cbn in Ac. destruct Ac as (F1 & F2 & F3 & Aca & Acb).
        cbn [splitT]. destruct (Z.eqb_spec (lvl cb) (lv - 1)) as [Ecb|Ncb].
        -- replace (lv - 1 + 1) with lv by lia. cbn [rgt]. split; [discriminate|]. split; [discriminate|]. split; [discriminate|]. split; [reflexivity|].
           cbn. split; [rgts; repeat split; auto; try lia|lia].
        -- cbn [rgt]. split; [discriminate|]. split; [discriminate|]. split; [discriminate|]. split; [reflexivity|].
           cbn. split; [rgts; repeat split; auto; try lia|lia].
    + (* right child one level down *)
      assert (lj = lv - 1) by lia. subst lj.
      assert (Ar : aa (N j (lv - 1) b c)) by (cbn; repeat split; auto).
      cbn [rebal1 lvl]. destruct (Z.gtb_spec (lv - 1) (lv - 1)); [lia|]. rewrite Sk. cbn [onright rgt].
      rewrite (skew_aa _ Ar). cbn [onright]. rewrite (skew_aa _ Ac). cbn [splitT].
      destruct (Z.eqb_spec (lvl c) (lv - 1)) as [Ec|Nc].
      * cbn [onright]. rewrite (split_aa _ Ac). replace (lv - 1 + 1) with lv by lia. cbn [rgt].
        split; [discriminate|]. split; [discriminate|]. split; [destruct c; [cbn in *; lia|discriminate]|]. split; [reflexivity|].
        pose proof (aa_rgt _ Ac). cbn. split; [rgts; repeat split; auto; try lia|lia].
      * cbn [onright]. rewrite (split_aa _ Ar). cbn [rgt].
        split; [discriminate|]. split; [discriminate|]. split; [discriminate|]. split; [reflexivity|].
        cbn. split; [rgts; repeat split; auto; try lia|lia].
  - assert (El : lvl l = lv - 1) by lia. assert (Er : lvl r = lv - 2) by lia.
    destruct l as [|j lj a b]; [cbn in *; lia|]. cbn [lvl] in El. subst lj. cbn in Al. destruct Al as (B1 & B2 & B3 & Aa & Ab).
    pose proof (aa_lvl _ Aa) as Pa. pose proof (aa_lvl _ Ab) as Pb. cbn [lvl] in *.
    cbn [rebal1]. destruct (Z.gtb_spec (lvl r) (lv - 1)); [lia|]. cbn [skewT]. rewrite Z.eqb_refl. cbn [onright rgt].
    pose proof (aa_rgt _ Ar) as Rr.
    assert (Sp : forall x, splitT (N i (lv - 1) x r) = N i (lv - 1) x r).
    { intros x. destruct r as [|q lq e f]; cbn [splitT]; [reflexivity|]. cbn in Rr, Er. destruct (Z.eqb_spec (lvl f) (lv - 1)); [lia|reflexivity]. }
    destruct (Z.eq_dec (lvl b) (lv - 1)) as [Eb|Nb].
    + destruct b as [|k lk ba bb]; [cbn in *; lia|]. cbn [lvl] in Eb. subst lk. cbn in Ab. destruct Ab as (D1 & D2 & D3 & Aba & Abb).
      cbn [rgt] in B3. cbn [skewT]. rewrite Z.eqb_refl. cbn [onright].
      assert (Sb : skewT (N i (lv - 1) bb r) = N i (lv - 1) bb r).
      { destruct bb as [|m lm ma mb]; cbn [skewT]; [reflexivity|]. cbn in *. destruct (Z.eqb_spec lm (lv - 1)); [lia|reflexivity]. }
      rewrite Sb. cbn [splitT lvl]. rewrite Z.eqb_refl. cbn [onright]. rewrite Sp. replace (lv - 1 + 1) with lv by lia. cbn [rgt].
      split; [discriminate|]. split; [discriminate|]. split; [discriminate|]. split; [reflexivity|].
      cbn. split; [rgts; repeat split; auto; try lia|lia].
    + assert (Sb : skewT (N i (lv - 1) b r) = N i (lv - 1) b r).
      { destruct b as [|m lm ma mb]; cbn [skewT]; [reflexivity|]. cbn in Nb. destruct (Z.eqb_spec lm (lv - 1)); [lia|reflexivity]. }
      rewrite Sb. cbn [onright]. rewrite (skew_aa _ Ar). cbn [splitT]. destruct (Z.eqb_spec (lvl r) (lv - 1)); [lia|].
      cbn [onright]. rewrite Sp. cbn [rgt].
      split; [discriminate|]. split; [discriminate|]. split; [discriminate|]. split; [reflexivity|].
      cbn. split; [rgts; repeat split; auto; try lia|lia].
Qed.

(** What an erasure may do to a subtree. *)
Definition post_del (t t' : tree) : Prop :=
  aa t' /\ (lvl t' = lvl t \/ lvl t' = lvl t - 1) /\ (lvl t' = lvl t -> sngl t -> sngl t').
Lemma rebal_post t : pre_del t ->
  aa (rebalT t) /\ (lvl (rebalT t) = lvl t \/ lvl (rebalT t) = lvl t - 1) /\
  (lvl (rebalT t) = lvl t -> lvl (rgt t) < lvl t -> sngl (rebalT t)).
Proof.
  intros H. destruct t as [|i lv l r]; [cbn; lia|].
  destruct (Z_lt_dec (lvl l) (lv - 1)) as [A|A].
  - destruct (rebal_steps _ H (or_introl A)) as (_ & _ & _ & _ & R). exact R.
  - destruct (Z_lt_dec (lvl r) (lv - 1)) as [B|B].
    + destruct (rebal_steps _ H (or_intror B)) as (_ & _ & _ & _ & R). exact R.
    + assert (Et : rebalT (N i lv l r) = N i lv l r).
      { cbn [rebalT]. destruct (Z.ltb_spec (lvl l) (lv - 1)); [lia|]. destruct (Z.ltb_spec (lvl r) (lv - 1)); [lia|]. reflexivity. }
      rewrite Et. cbn in H. destruct H as (Al & Ar & Hlv & Hl & Hr & Hs & Hd). cbn.
      split; [|lia]. repeat split; auto; try lia.
      pose proof (aa_rgt _ Ar). destruct (Z.eq_dec (lvl r) lv) as [E1|]; [|lia]. specialize (Hs E1). destruct r; cbn in *; [lia|]. lia.
Qed.
Lemma del_left i lv l r l' : aa (N i lv l r) -> post_del l l' -> pre_del (N i lv l' r) /\ post_del (N i lv l r) (rebalT (N i lv l' r)).
Proof.
  intros (A & B & C & D & F) (P & Q & R). pose proof (aa_lvl _ P). pose proof (aa_lvl _ D).
  assert (H1 : pre_del (N i lv l' r)).
  { cbn. repeat split; auto; try lia. destruct r; cbn in *; lia. }
  split; [exact H1|]. destruct (rebal_post _ H1) as (X & Y & W). split; [exact X|]. split; [exact Y|].
  intros E1 S1. apply W; [exact E1|exact S1].
Qed.
Lemma del_right i lv l r r' : aa (N i lv l r) -> post_del r r' -> pre_del (N i lv l r') /\ post_del (N i lv l r) (rebalT (N i lv l r')).
Proof.
  intros (A & B & C & D & F) (P & Q & R). pose proof (aa_lvl _ P). pose proof (aa_lvl _ D).
  assert (H1 : pre_del (N i lv l r')).
  { cbn. repeat split; auto; try lia. intros E1. apply R; [lia|]. destruct r; cbn in *; lia. }
  split; [exact H1|]. destruct (rebal_post _ H1) as (X & Y & W). split; [exact X|]. split; [exact Y|].
  intros E1 S1. apply W; [exact E1|]. cbn in *. lia.
Qed.
(** A node with at most one child is replaced by the child. *)
Lemma del_unlink i lv l r : aa (N i lv l r) -> l = E \/ r = E ->
  let t := match l with E => r | _ => l end in aa t /\ post_del (N i lv l r) t.
Proof.
  intros (A & B & C & D & F) [->| ->]; cbn zeta.
  - split; [exact F|]. split; [exact F|]. cbn in *. split; [lia|]. intros E1 S1. destruct r; cbn in *; lia.
  - cbn in B. assert (lv = 1) by (pose proof (aa_lvl _ D); cbn in *; lia). subst lv.
    assert (l = E) by (apply lvl_zero; auto; lia). subst l. split; [exact I|]. split; [exact I|]. cbn. lia.
Qed.

(** Size, level and height. *)
Fixpoint height (t : tree) : Z := match t with E => 0 | N _ _ l r => 1 + Z.max (height l) (height r) end.
Lemma height_nonneg t : 0 <= height t.
Proof. induction t; cbn [height]; lia. Qed.
Lemma aa_height t : aa t -> height t <= 2 * lvl t /\ (sngl t -> height t <= 2 * lvl t - 1).
Proof.
  induction t as [|i lv l IHl r IHr]; [cbn; lia|]. intros (A & B & C & D & F).
  specialize (IHl D). specialize (IHr F). cbn [height lvl sngl]. 
  assert (lvl r = lv -> sngl r). { destruct r; cbn in *; lia. }
  split.
  - destruct B as [B|B]; [lia|]. specialize (H B). destruct IHr as [_ IHr]. specialize (IHr H). lia.
  - lia.
Qed.
Lemma aa_count t : aa t -> 2 ^ lvl t - 1 <= zlen (inord t).
Proof.
  induction t as [|i lv l IHl r IHr]; [cbn; lia|]. intros (A & B & C & D & F).
  specialize (IHl D). specialize (IHr F). cbn [inord lvl]. rewrite zlen_app, zlen_cons.
  pose proof (aa_lvl _ D) as P.
  replace (2 ^ lv) with (2 * 2 ^ (lv - 1)) by (rewrite <- Z.pow_succ_r by lia; f_equal; lia).
  rewrite A in IHl. assert (2 ^ (lv - 1) <= 2 ^ lvl r) by (apply Z.pow_le_mono_r; lia). lia.
Qed.
Lemma aa_level31 t : aa t -> zlen (inord t) < 2 ^ 31 -> lvl t <= 31.
Proof.
  intros H Hn. pose proof (aa_count _ H). destruct (Z_le_gt_dec (lvl t) 31); [lia|].
  assert (2 ^ 32 <= 2 ^ lvl t) by (apply Z.pow_le_mono_r; lia). lia.
Qed.
