(** Identities over histories of the list specification. *)
From Coq Require Import Permutation.
From Verif Require Import Base Slots Lown_Model Lown_Spec Lown_Proofs Lown_Proofs2.

Section Ids.
Context {A : Type}.
Variable eqb : A -> A -> bool.
Variable keyclone : A -> A.
Notation elem := (@elem A).
Notation astate := (@astate A).
Implicit Types a : astate.
Definition owned (qs : list (option (list elem))) : list Z := flat_map (fun v => match v with Some l => ids l | None => [] end) qs.
Definition upto (m : Z) : list Z := map Z.of_nat (seq 0 (Z.to_nat m)).
Definition idok a : Prop := 0 <= amade a /\ Permutation (held a ++ agone a) (upto (amade a)).
Definition steps (m d : Z) : list Z := map (fun i => m + Z.of_nat i) (seq 0 (Z.to_nat d)).

Lemma upto_add m d : 0 <= m -> 0 <= d -> upto (m + d) = upto m ++ steps m d.
Proof.
  intros Hm Hd. unfold upto, steps. rewrite Z2Nat.inj_add, seq_app, map_app by lia. f_equal. cbn [Nat.add].
  rewrite <- (Nat.add_0_r (Z.to_nat m)) at 1. generalize 0%nat as n0. generalize (Z.to_nat d) as n.
  induction n as [|n IH]; intros n0; cbn; [reflexivity|]. f_equal; [lia|]. rewrite <- Nat.add_succ_r. apply IH.
Qed.
Lemma upto_nodup m : NoDup (upto m).
Proof. unfold upto. apply FinFun.Injective_map_NoDup; [intros ? ? ?; lia|apply seq_NoDup]. Qed.
Lemma upto_in m i : In i (upto m) <-> 0 <= i < m.
Proof.
  unfold upto. rewrite in_map_iff. split.
  - intros (x & <- & Hx). apply in_seq in Hx. lia.
  - intros H. exists (Z.to_nat i). split; [lia|]. apply in_seq. lia.
Qed.
Lemma ids_app (l1 l2 : list elem) : ids (l1 ++ l2) = ids l1 ++ ids l2.
Proof. apply map_app. Qed.
Lemma ids_fresh xs : forall m, ids (fresh (A := A) m xs) = steps m (zlen xs).
Proof.
  unfold steps, zlen. induction xs as [|x t IH]; intros m; cbn [fresh length]; [reflexivity|]. change (ids ((m, x) :: fresh (m + 1) t)) with (m :: ids (fresh (m + 1) t)).
  rewrite IH, !Nat2Z.id. cbn [seq map]. f_equal; [lia|]. rewrite <- seq_shift, map_map. apply map_ext. intros. lia.
Qed.
Lemma owned_set qs i o qs' o' : aget qs i = Ok o -> aset qs i o' = Ok qs' ->
  exists r, Permutation (owned qs) (owned [o] ++ r) /\ Permutation (owned qs') (owned [o'] ++ r).
Proof.
  intros Eg Es. apply aget_nth in Eg as [Hi Eg]. apply aset_inv in Es as [Hr ->].
  apply nth_error_split in Eg as (q1 & q2 & -> & Hl). rewrite <- Hl, upd_app_cons. exists (owned q1 ++ owned q2). unfold owned.
  rewrite !flat_map_app. cbn [flat_map]. rewrite !app_nil_r. split; rewrite !app_assoc; apply Permutation_app_tail, Permutation_app_comm.
Qed.
Lemma ids_pick k (l : list elem) y r : pick k l = Some (y, r) -> Permutation (ids l) (fst y :: ids r).
Proof. intros E. apply pick_split in E as (l1 & l2 & -> & ->). rewrite !ids_app. cbn. symmetry. apply Permutation_middle. Qed.

Ltac perm := apply (Permutation_count_occ Z.eq_dec); let z := fresh "z" in intros z;
  repeat match goal with H : Permutation _ _ |- _ => rewrite (Permutation_count_occ Z.eq_dec) in H; specialize (H z) end;
  repeat rewrite count_occ_app in *; cbn [count_occ] in *; repeat destruct (Z.eq_dec _ z); try lia.

Lemma owned1 l : owned [Some l] = ids l. Proof. cbn. apply app_nil_r. Qed.

(** one variable changes *)
Lemma idok_set a i o v m n d x a' : idok a -> aget (aseqs a) i = Ok o -> achange a i v m n d x = Some a' -> 0 <= d ->
  Permutation (owned [v] ++ ids m ++ ids n ++ ids x) (owned [o] ++ ids (amine a) ++ ids (anodes a) ++ steps (amade a) d) -> idok a'.
Proof.
  intros (Hm & P) Eg E Hd Q. apply achange_inv in E as (q & Es & ->). destruct (owned_set _ _ _ _ _ Eg Es) as (r & P1 & P2). split; [cbn; lia|].
  cbn [amade]. rewrite upto_add by lia. unfold held in *. cbn [aseqs amine anodes agone]. fold (owned (aseqs a)) in P. fold (owned q). perm.
Qed.
(** two variables change *)
Lemma idok_two a i j oi oj vi vj x b a' : idok a -> i <> j -> aget (aseqs a) i = Ok oi -> aget (aseqs a) j = Ok oj -> aput a j vj [] = Some b -> aput b i vi x = Some a' ->
  Permutation (ids vi ++ ids vj ++ ids x) (owned [oi] ++ owned [oj]) -> idok a'.
Proof.
  intros (Hm & P) Hij Ei Ej Eb Ea Q. apply achange_inv in Eb as (q1 & Q1 & ->). apply achange_inv in Ea as (q2 & Q2 & ->). cbn [aseqs amine anodes amade agone] in *.
  destruct (owned_set _ _ _ _ _ Ej Q1) as (r & P1 & P2).
  destruct (owned_set q1 i oi q2 (Some vi)) as (r' & P3 & P4); [rewrite (aget_aset_other _ _ _ _ i Q1 Hij); exact Ei|exact Q2|]. rewrite owned1 in *.
  split; [cbn; lia|]. cbn [amade]. rewrite !Z.add_0_r. unfold held in *. cbn [aseqs amine anodes agone]. fold (owned (aseqs a)) in P. fold (owned q2). change (ids []) with (@nil Z). rewrite app_nil_r. perm.
Qed.
Lemma var_inv a i l : aget_var a i = Some l -> aget (aseqs a) i = Ok (Some l).
Proof. unfold aget_var. destruct (aget _ _) as [[?|]|]; congruence. Qed.
Lemma dead_inv a i : adead a i = true -> aget (aseqs a) i = Ok None.
Proof. unfold adead. destruct (aget _ _) as [[?|]|]; congruence. Qed.
Lemma put_idok a i l l' x a' : idok a -> aget_var a i = Some l -> aput a i l' x = Some a' -> Permutation (ids l' ++ ids x) (ids l) -> idok a'.
Proof.
  intros I El E P. apply var_inv in El. eapply (idok_set a i _ _ _ _ _ _ _ I El E); [lia|]. rewrite !owned1. change (steps (amade a) 0) with (@nil Z). perm.
Qed.
Lemma ids_cut (l : list elem) p q : (p <= q)%nat -> Permutation (ids l) (ids (firstn p l) ++ ids (firstn (q - p) (skipn p l)) ++ ids (skipn q l)).
Proof.
  intros H. rewrite <- (firstn_skipn p l) at 1. rewrite ids_app. apply Permutation_app_head. rewrite <- (firstn_skipn (q - p) (skipn p l)) at 1. rewrite ids_app, skipn_skipn.
  replace (q - p + p)%nat with q by lia. reflexivity.
Qed.
Lemma ids_filter (g : elem -> bool) l : Permutation (ids (filter (fun e => negb (g e)) l) ++ ids (filter g l)) (ids l).
Proof.
  induction l as [|x t IH]; cbn [filter]; [reflexivity|]. destruct (g x); cbn [negb]; change (ids (x :: ?u)) with (fst x :: ids u).
  - rewrite <- Permutation_middle. constructor. exact IH.
  - cbn [app]. constructor. exact IH.
Qed.

Lemma astep_idok a o a' : idok a -> astep eqb keyclone a o = Some a' -> idok a'.
Proof.
  intros I E. destruct o; cbn [astep] in E;
    repeat match type of E with context [match aget_var a ?i with _ => _ end] => let l := fresh "l" in destruct (aget_var a i) as [l|] eqn:?; [|discriminate] end.
  - destruct (adead a i) eqn:D; [|discriminate]. apply dead_inv in D. eapply (idok_set a i _ _ _ _ _ _ _ I D E); [lia|]. cbn. perm.
  - destruct (adead a i) eqn:D; [|discriminate]. apply dead_inv in D. eapply (idok_set a i _ _ _ _ _ _ _ I D E); [apply zlen_nonneg|]. rewrite owned1, ids_fresh. cbn [owned flat_map]. change (ids []) with (@nil Z). perm.
  - apply var_inv in Heqo. eapply (idok_set a i _ _ _ _ _ _ _ I Heqo E); [apply zlen_nonneg|]. rewrite !owned1, ids_app, ids_fresh. change (ids []) with (@nil Z). perm.
  - injection E as <-. destruct I as (Hm & P). split; [cbn; lia|]. cbn [amade]. rewrite upto_add by lia. unfold held in *. cbn [aseqs amine anodes agone].
    change (ids ((amade a, x) :: amine a)) with (amade a :: ids (amine a)). change (steps (amade a) 1) with [amade a + 0]. rewrite Z.add_0_r. perm.
  - destruct (pick k (amine a)) as [[y m]|] eqn:Pk; [|discriminate]. injection E as <-. destruct I as (Hm & P). split; [exact Hm|]. cbn [amade]. unfold held in *. cbn [aseqs amine anodes agone].
    apply ids_pick in Pk. change (ids [y]) with [fst y]. perm.
  - destruct (pick k (amine a)) as [[y m]|] eqn:Pk; [|discriminate]. apply var_inv in Heqo. eapply (idok_set a i _ _ _ _ _ _ _ I Heqo E); [lia|]. rewrite !owned1, ids_app. apply ids_pick in Pk.
    change (steps (amade a) 0) with (@nil Z). change (ids [y]) with [fst y]. change (ids []) with (@nil Z). perm.
  - destruct (pick k (amine a)) as [[y m]|] eqn:Pk; [|discriminate]. apply var_inv in Heqo. eapply (idok_set a i _ _ _ _ _ _ _ I Heqo E); [lia|]. rewrite !owned1. apply ids_pick in Pk.
    change (steps (amade a) 0) with (@nil Z). change (ids (y :: l)) with (fst y :: ids l). change (ids []) with (@nil Z). perm.
  - destruct (pick k (amine a)) as [[y m]|] eqn:Pk; [|discriminate]. destruct (p <=? length l)%nat; [|discriminate]. apply var_inv in Heqo. eapply (idok_set a i _ _ _ _ _ _ _ I Heqo E); [lia|]. rewrite !owned1, ids_app. apply ids_pick in Pk.
    rewrite <- (firstn_skipn p l) at 3. rewrite ids_app. change (steps (amade a) 0) with (@nil Z). change (ids (y :: skipn p l)) with (fst y :: ids (skipn p l)). change (ids []) with (@nil Z). perm.
  - destruct (p <? length l)%nat; [|discriminate]. eapply put_idok; eauto. pose proof (ids_cut l p (S p) ltac:(lia)) as C. replace (S p - p)%nat with 1%nat in C by lia. rewrite ids_app. perm.
  - destruct ((p <=? q)%nat && (q <=? length l)%nat && (1 <=? length l)%nat) eqn:C; [|discriminate]. rewrite !andb_true_iff, !Nat.leb_le in C. eapply put_idok; eauto. pose proof (ids_cut l p q ltac:(lia)) as K. rewrite ids_app. perm.
  - destruct l as [|x l]; [discriminate|]. eapply put_idok; eauto. change (ids (x :: l)) with (fst x :: ids l). change (ids [x]) with [fst x]. perm.
  - eapply put_idok; eauto. apply ids_filter.
  - eapply put_idok; eauto. change (ids []) with (@nil Z). rewrite app_nil_r. unfold ids. apply Permutation_map. symmetry. apply Permutation_rev.
  - eapply put_idok; eauto.
  - apply var_inv in Heqo. eapply (idok_set a i _ _ _ _ _ _ _ I Heqo E); [lia|]. rewrite owned1. change (steps (amade a) 0) with (@nil Z). cbn [owned flat_map]. perm.
  - destruct (adead a i) eqn:D; [|discriminate]. destruct (aput a j [] []) as [b|] eqn:Eb; [|discriminate]. apply dead_inv in D. apply var_inv in Heqo.
    refine (idok_two a i j _ _ _ _ _ _ _ I _ D Heqo Eb E _); [intros ->; congruence|]. rewrite owned1. cbn. now rewrite app_nil_r.
  - destruct (Z.eqb_spec i j) as [->|Hij]; [injection E as <-; exact I|]. destruct (aput a j [] []) as [b|] eqn:Eb; [|discriminate]. apply var_inv in Heqo. apply var_inv in Heqo0.
    refine (idok_two a i j _ _ _ _ _ _ _ I Hij Heqo Heqo0 Eb E _). rewrite !owned1. change (ids []) with (@nil Z). perm.
  - destruct (adead a i) eqn:D; [|discriminate]. apply dead_inv in D. eapply (idok_set a i _ _ _ _ _ _ _ I D E); [apply zlen_nonneg|]. rewrite owned1, ids_fresh. replace (zlen (map _ l)) with (zlen l) by (unfold zlen; now rewrite map_length).
    cbn [owned flat_map]. change (ids []) with (@nil Z). perm.
  - destruct (Z.eqb_spec i j) as [->|Hij]; [injection E as <-; exact I|]. apply var_inv in Heqo. eapply (idok_set a i _ _ _ _ _ _ _ I Heqo E); [apply zlen_nonneg|]. rewrite !owned1, ids_fresh.
    replace (zlen (map _ l0)) with (zlen l0) by (unfold zlen; now rewrite map_length). perm.
  - destruct ((i =? j) || negb (p <=? length l)%nat) eqn:C; [discriminate|]. apply orb_false_iff in C as [C1 C2]. apply Z.eqb_neq in C1. destruct (aput a j [] []) as [b|] eqn:Eb; [|discriminate].
    apply var_inv in Heqo. apply var_inv in Heqo0. refine (idok_two a i j _ _ _ _ _ _ _ I C1 Heqo Heqo0 Eb E _). rewrite !owned1, !ids_app. rewrite <- (firstn_skipn p l) at 3. rewrite ids_app. change (ids []) with (@nil Z). perm.
  - destruct (adead a i && (p <=? q)%nat && (q <=? length l)%nat) eqn:C; [|discriminate]. rewrite !andb_true_iff, !Nat.leb_le in C. destruct C as ((D & C1) & C2).
    destruct (aput a j _ []) as [b|] eqn:Eb; [|discriminate]. apply dead_inv in D. apply var_inv in Heqo. refine (idok_two a i j _ _ _ _ _ _ _ I _ D Heqo Eb E _); [intros ->; congruence|]. rewrite !owned1, !ids_app.
    pose proof (ids_cut l p q C1) as K. change (ids []) with (@nil Z). change (owned [None]) with (@nil Z). perm.
  - destruct (negb (i =? j) && (p <=? length l)%nat && (q <=? r)%nat && (r <=? length l0)%nat) eqn:C; [|discriminate]. rewrite !andb_true_iff, !Nat.leb_le, negb_true_iff, Z.eqb_neq in C. destruct C as (((Hij & C1) & C2) & C3).
    destruct (aput a j _ []) as [b|] eqn:Eb; [|discriminate]. apply var_inv in Heqo. apply var_inv in Heqo0. refine (idok_two a i j _ _ _ _ _ _ _ I Hij Heqo Heqo0 Eb E _). rewrite !owned1, !ids_app.
    pose proof (ids_cut l0 q r C2) as K. rewrite <- (firstn_skipn p l) at 3. rewrite ids_app. change (ids []) with (@nil Z). perm.
  - destruct l as [|x l]; [discriminate|]. apply var_inv in Heqo. eapply (idok_set a i _ _ _ _ _ _ _ I Heqo E); [lia|]. rewrite !owned1. change (ids (x :: ?u)) with (fst x :: ids u). change (steps (amade a) 0) with (@nil Z). change (ids []) with (@nil Z). perm.
  - destruct (pick k (anodes a)) as [[y m]|] eqn:Pk; [|discriminate]. apply var_inv in Heqo. eapply (idok_set a i _ _ _ _ _ _ _ I Heqo E); [lia|]. rewrite !owned1, ids_app. apply ids_pick in Pk.
    change (steps (amade a) 0) with (@nil Z). change (ids [y]) with [fst y]. change (ids []) with (@nil Z). perm.
  - destruct (pick k (anodes a)) as [[y m]|] eqn:Pk; [|discriminate]. apply var_inv in Heqo. eapply (idok_set a i _ _ _ _ _ _ _ I Heqo E); [lia|]. rewrite !owned1. apply ids_pick in Pk.
    change (steps (amade a) 0) with (@nil Z). change (ids (y :: l)) with (fst y :: ids l). change (ids []) with (@nil Z). perm.
  - destruct (pick k (anodes a)) as [[y m]|] eqn:Pk; [|discriminate]. injection E as <-. destruct I as (Hm & P). split; [exact Hm|]. cbn [amade]. unfold held in *. cbn [aseqs amine anodes agone].
    apply ids_pick in Pk. change (ids [y]) with [fst y]. perm.
Qed.
Lemma arun_idok ops : forall a a', idok a -> arun eqb keyclone a ops = Some a' -> idok a'.
Proof.
  induction ops as [|o t IH]; intros a a' I E; cbn [arun] in E; [injection E as <-; exact I|].
  destruct (astep eqb keyclone a o) as [b|] eqn:Eb; [|discriminate]. eapply IH; [|exact E]. eapply astep_idok; eauto.
Qed.
Lemma idok_start n : idok (astart n).
Proof. split; [cbn; lia|]. unfold held. cbn. rewrite !app_nil_r. induction n as [|n IH]; [reflexivity|]. exact IH. Qed.
End Ids.
