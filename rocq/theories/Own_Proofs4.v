(** Identities over histories of the list specification. *)
From Coq Require Import Permutation.
From Verif Require Import Base Slots Own_Model Own_Spec.

(** Identities: the elements held and those destroyed are together the ones made, each once. *)
Section Ids.
Context {A : Type}.
Variable keyclone : A -> A.
Notation elem := (@elem A).
Definition owned (qs : list (option (list elem))) : list Z := flat_map (fun v => match v with Some l => ids l | None => [] end) qs.
Definition upto (m : Z) : list Z := map Z.of_nat (seq 0 (Z.to_nat m)).
Definition idok (a : @astate A) : Prop := 0 <= amade a /\ Permutation (held a ++ agone a) (upto (amade a)).

Lemma upto_add m d : 0 <= m -> 0 <= d -> upto (m + d) = upto m ++ map (fun i => m + Z.of_nat i) (seq 0 (Z.to_nat d)).
Proof.
  intros Hm Hd. unfold upto. rewrite Z2Nat.inj_add, seq_app, map_app by lia. f_equal. cbn [Nat.add].
  rewrite <- (Nat.add_0_r (Z.to_nat m)) at 1. generalize 0%nat as n0. generalize (Z.to_nat d) as n.
  induction n as [|n IH]; intros n0; cbn; [reflexivity|]. f_equal; [lia|]. rewrite <- Nat.add_succ_r. apply IH.
Qed.
Lemma ids_app' (a b : list elem) : ids (a ++ b) = ids a ++ ids b.
Proof. apply flat_map_app. Qed.
Lemma ids_fresh xs : forall m, ids (fresh (A := A) m xs) = map (fun i => m + Z.of_nat i) (seq 0 (length xs)).
Proof.
  induction xs as [|x t IH]; intros m; cbn [fresh length seq map]; [reflexivity|]. change (ids ((Some m, x) :: fresh (m + 1) t)) with (m :: ids (fresh (m + 1) t)).
  rewrite IH. f_equal; [lia|]. rewrite <- seq_shift, map_map. apply map_ext. intros. lia.
Qed.
Lemma ids_copies l : forall m, ids (copies keyclone m l) = map (fun i => m + Z.of_nat i) (seq 0 (length (ids l))).
Proof.
  induction l as [|[[id|] x] t IH]; intros m; cbn [copies]; [reflexivity| |].
  - change (ids ((Some m, keyclone x) :: copies keyclone (m + 1) t)) with (m :: ids (copies keyclone (m + 1) t)). change (ids ((Some id, x) :: t)) with (id :: ids t).
    cbn [length seq map]. rewrite IH. f_equal; [lia|]. rewrite <- seq_shift, map_map. apply map_ext. intros. lia.
  - change (ids ((None, keyclone x) :: copies keyclone m t)) with (ids (copies keyclone m t)). change (ids ((None, x) :: t)) with (ids t). apply IH.
Qed.
Lemma ids_rev (l : list elem) : Permutation (ids (rev l)) (ids l).
Proof. apply Permutation_flat_map. symmetry. apply Permutation_rev. Qed.
Lemma ids_repeat (x : A) n : ids (repeat (None, x) n) = (@nil Z).
Proof. induction n as [|n IH]; [reflexivity|]. exact IH. Qed.

(** replacing variable [i] *)
Lemma owned_set qs i o qs' l0 : aget qs i = Ok o -> aset qs i l0 = Ok qs' ->
  exists r, Permutation (owned qs) (owned [o] ++ r) /\ Permutation (owned qs') (owned [l0] ++ r).
Proof.
  intros Eg Es. apply aget_nth in Eg as [Hi Eg]. apply aset_inv in Es as [Hr ->].
  apply nth_error_split in Eg as (q1 & q2 & -> & Hl). rewrite <- Hl, upd_app_cons. exists (owned q1 ++ owned q2). unfold owned.
  rewrite !flat_map_app. cbn [flat_map]. rewrite app_nil_r. split.
  - rewrite !app_assoc. apply Permutation_app_tail, Permutation_app_comm.
  - rewrite app_nil_r. rewrite !app_assoc. apply Permutation_app_tail, Permutation_app_comm.
Qed.
Lemma pick_perm {X} k : forall (l : list X) x r, pick k l = Some (x, r) -> Permutation l (x :: r).
Proof.
  induction k as [|k IH]; intros [|y t] x r E; cbn in E; try discriminate.
  - injection E as <- <-. reflexivity.
  - destruct (pick k t) as [[z t']|] eqn:P; [|discriminate]. injection E as <- <-. rewrite (IH _ _ _ P). apply perm_swap.
Qed.

Lemma ids_pick k (l : list elem) y r : pick k l = Some (y, r) -> Permutation (ids l) (ids [y] ++ ids r).
Proof.
  intros E. rewrite <- ids_app'. apply pick_perm in E. unfold ids. apply Permutation_flat_map. exact E.
Qed.

Ltac perm := apply (Permutation_count_occ Z.eq_dec); let z := fresh "z" in intros z;
  repeat match goal with H : Permutation _ _ |- _ => rewrite (Permutation_count_occ Z.eq_dec) in H; specialize (H z) end;
  repeat rewrite count_occ_app in *; cbn [count_occ] in *; try lia.

Definition steps (m d : Z) : list Z := map (fun i => m + Z.of_nat i) (seq 0 (Z.to_nat d)).
Lemma idok_set a a' i o o' d x : idok a -> aget (aseqs a) i = Ok o -> aset (aseqs a) i o' = Ok (aseqs a') -> 0 <= d -> amade a' = amade a + d ->
  agone a' = agone a ++ x -> Permutation (owned [o'] ++ ids (amine a') ++ x) (owned [o] ++ ids (amine a) ++ steps (amade a) d) -> idok a'.
Proof.
  intros (Hm & P) Eg Es Hd Em Ex Q. destruct (owned_set _ _ _ _ _ Eg Es) as (r & P1 & P2). split; [lia|].
  rewrite Em, upto_add by lia. fold (steps (amade a) d). unfold held in *. fold (owned (aseqs a)) in P. fold (owned (aseqs a')). rewrite Ex. perm.
Qed.

Lemma owned1 l : owned [Some l] = ids l. Proof. cbn. apply app_nil_r. Qed.
Lemma steps0 m : steps m 0 = []. Proof. reflexivity. Qed.

Lemma aset_var_inv (a : @astate A) i v a' : aset_var a i v = Some a' ->
  aset (aseqs a) i v = Ok (aseqs a') /\ amine a' = amine a /\ amade a' = amade a /\ agone a' = agone a.
Proof. unfold aset_var. destruct (aset _ _ _) as [q|]; [|discriminate]. intros [= <-]. auto. Qed.
Lemma achange_inv (a : @astate A) i l' d x a' : achange a i l' d x = Some a' ->
  aset (aseqs a) i (Some l') = Ok (aseqs a') /\ amine a' = amine a /\ amade a' = amade a + d /\ agone a' = agone a ++ x.
Proof.
  unfold achange. destruct (aset_var a i (Some l')) as [b|] eqn:E; [|discriminate]. apply aset_var_inv in E as (E & E1 & E2 & E3).
  intros [= <-]. cbn. rewrite E1, E2, E3. auto.
Qed.
Lemma afree_inv (a : @astate A) i f d a' : afree a i f d = Some a' -> aget (aseqs a) i = Ok None /\
  aset (aseqs a) i (Some f) = Ok (aseqs a') /\ amine a' = amine a /\ amade a' = amade a + d /\ agone a' = agone a.
Proof.
  unfold afree. destruct (aget (aseqs a) i) as [[l|]|] eqn:Eg; try discriminate. destruct (aset_var a i (Some f)) as [b|] eqn:E; [|discriminate].
  apply aset_var_inv in E as (E & E1 & E2 & E3). intros [= <-]. cbn. rewrite E1, E2, E3. auto.
Qed.
Lemma aget_var_inv (a : @astate A) i l : aget_var a i = Some l -> aget (aseqs a) i = Ok (Some l).
Proof. unfold aget_var. destruct (aget _ _) as [[?|]|]; congruence. Qed.
Lemma last_of_inv (l l' : list elem) y : last_of l = Some (l', y) -> l = l' ++ [y].
Proof.
  unfold last_of. destruct (rev l) as [|z t] eqn:E; [discriminate|]. intros [= <- <-]. rewrite <- (rev_involutive l), E. reflexivity.
Qed.

Lemma free_idok a i f d a' : idok a -> 0 <= d -> afree a i f d = Some a' -> Permutation (ids f) (steps (amade a) d) -> idok a'.
Proof.
  intros I Hd E P. apply afree_inv in E as (Eg & Es & E1 & E2 & E3).
  apply (idok_set a a' i None (Some f) d []); auto; [now rewrite app_nil_r|]. rewrite owned1, E1. cbn [owned flat_map]. perm.
Qed.
Lemma change_idok a i l l' d x a' : idok a -> 0 <= d -> aget_var a i = Some l -> achange a i l' d x = Some a' ->
  Permutation (ids l' ++ x) (ids l ++ steps (amade a) d) -> idok a'.
Proof.
  intros I Hd Eg E P. apply aget_var_inv in Eg. apply achange_inv in E as (Es & E1 & E2 & E3).
  apply (idok_set a a' i (Some l) (Some l') d x); auto. rewrite !owned1, E1. perm.
Qed.

Lemma ids_steps_fresh xs m : ids (fresh (A := A) m xs) = steps m (zlen xs).
Proof. rewrite ids_fresh. unfold steps, zlen. now rewrite Nat2Z.id. Qed.
Lemma ids_steps_copies l m : ids (copies keyclone m l) = steps m (zlen (ids l)).
Proof. rewrite ids_copies. unfold steps, zlen. now rewrite Nat2Z.id. Qed.

Lemma astep_idok k a o a' : idok a -> astep keyclone k a o = Some a' -> idok a'.
Proof.
  intros I E. destruct o; cbn [astep] in E.
  - refine (free_idok _ _ _ _ _ I _ E _); [lia|reflexivity].
  - destruct (0 <=? n); [|discriminate]. refine (free_idok _ _ _ _ _ I _ E _); [lia|reflexivity].
  - destruct (0 <=? n); [|discriminate]. refine (free_idok _ _ _ _ _ I _ E _); [lia|]. rewrite ids_repeat. reflexivity.
  - refine (free_idok _ _ _ _ _ I _ E _); [apply zlen_nonneg|]. now rewrite ids_steps_fresh.
  - injection E as <-. destruct I as (Hm & P). split; [cbn; lia|]. cbn [amade]. rewrite upto_add by lia. unfold held in *. cbn [aseqs amine agone].
    change (ids ((Some (amade a), x) :: amine a)) with ([amade a] ++ ids (amine a)). change (map _ (seq 0 (Z.to_nat 1))) with [amade a + 0]. rewrite Z.add_0_r. perm.
  - destruct (pick k0 (amine a)) as [[y r]|] eqn:Pk; [|discriminate]. injection E as <-. destruct I as (Hm & P). split; [exact Hm|]. cbn [amade]. unfold held in *. cbn [aseqs amine agone].
    apply ids_pick in Pk. match goal with |- Permutation (_ ++ agone a ++ ?q) _ => change q with (ids [y]) end. perm.
  - destruct (aget_var a i) as [l|] eqn:Eg; [|discriminate]. destruct (pick k0 (amine a)) as [[y r]|] eqn:Pk; [|discriminate].
    apply aget_var_inv in Eg. apply achange_inv in E as (Es & E1 & E2 & E3). cbn [aseqs amine amade agone] in *.
    apply (idok_set a a' i (Some l) (Some (l ++ [y])) 0 []); auto; [lia|]. rewrite !owned1, E1, ids_app', steps0.
    apply ids_pick in Pk. perm.
  - destruct (aget_var a i) as [l|] eqn:Eg; [|discriminate]. refine (change_idok _ _ _ _ _ _ _ I _ Eg E _); [apply zlen_nonneg|]. rewrite ids_app', ids_steps_fresh, app_nil_r. reflexivity.
  - destruct (aget_var a i) as [l|] eqn:Eg; [|discriminate]. destruct (last_of l) as [[l' y]|] eqn:El; [|discriminate]. apply last_of_inv in El as ->.
    refine (change_idok _ _ _ _ _ _ _ I _ Eg E _); [lia|]. rewrite ids_app', steps0, app_nil_r. reflexivity.
  - destruct (aget_var a i) as [l|] eqn:Eg; [|discriminate]. destruct (last_of l) as [[l' y]|] eqn:El; [|discriminate]. apply last_of_inv in El as ->.
    apply aget_var_inv in Eg. apply achange_inv in E as (Es & E1 & E2 & E3). cbn [aseqs amine amade agone] in *.
    apply (idok_set a a' i (Some (l' ++ [y])) (Some l') 0 []); auto; [lia|]. rewrite !owned1, E1, ids_app', steps0. change (y :: amine a) with ([y] ++ amine a). rewrite ids_app'. perm.
  - destruct k; [|discriminate]. destruct (aget_var a i) as [l|] eqn:Eg; [|discriminate]. destruct ((0 <=? idx) && (0 <=? n) && (idx + n <=? zlen l)) eqn:C; [|discriminate].
    refine (change_idok _ _ _ _ _ _ _ I _ Eg E _); [lia|]. rewrite ids_app', steps0, app_nil_r. apply andb_prop in C as [C _]. apply andb_prop in C as [C1 C2].
    rewrite <- (firstn_skipn (Z.to_nat idx) l) at 4. rewrite ids_app'. rewrite <- (firstn_skipn (Z.to_nat n) (skipn (Z.to_nat idx) l)) at 2. rewrite ids_app', skipn_skipn.
    replace (Z.to_nat n + Z.to_nat idx)%nat with (Z.to_nat (idx + n)) by lia. perm.
  - destruct k; [|discriminate]. destruct (aget_var a i) as [l|] eqn:Eg; [|discriminate]. destruct (0 <=? n); [|discriminate].
    refine (change_idok _ _ _ _ _ _ _ I _ Eg E _); [lia|]. rewrite ids_app', ids_repeat, steps0, !app_nil_r. rewrite <- ids_app', firstn_skipn. reflexivity.
  - destruct (aget_var a i) as [l|] eqn:Eg; [|discriminate]. refine (change_idok _ _ _ _ _ _ _ I _ Eg E _); [lia|]. rewrite steps0, app_nil_r. apply ids_rev.
  - destruct (aget_var a i) as [l|] eqn:Eg; [|discriminate]. destruct (achange a i [] 0 (ids (rev l))) as [b|] eqn:Eb; [|discriminate].
    assert (Ib : idok b) by (refine (change_idok _ _ _ _ _ _ _ I _ Eg Eb _); [lia|]; rewrite steps0, app_nil_r; apply ids_rev).
    apply achange_inv in Eb as (Es & _). apply aset_var_inv in E as (Es' & E1 & E2 & E3).
    apply (idok_set b a' i (Some []) None 0 []); auto; [eapply aget_aset_same; eauto|lia|lia|now rewrite app_nil_r|]. rewrite E1, steps0. reflexivity.
  - destruct (aget (aseqs a) i) as [[?|]|] eqn:Ei; try discriminate. destruct (aget_var a j) as [l|] eqn:Eg; [|discriminate].
    destruct (achange a j [] 0 []) as [b|] eqn:Eb; [|discriminate]. apply aget_var_inv in Eg. apply achange_inv in Eb as (Es & E1 & E2 & E3).
    apply aset_var_inv in E as (Es' & F1 & F2 & F3). destruct I as (Hm & P). split; [lia|].
    assert (Hij : i <> j) by (intros ->; congruence).
    destruct (owned_set _ _ _ _ _ Eg Es) as (r & P1 & P2).
    destruct (owned_set (aseqs b) i None (aseqs a') (Some l)) as (r' & P3 & P4); [rewrite (aget_aset_other _ _ _ _ i Es Hij); exact Ei|exact Es'|].
    unfold held in *. fold (owned (aseqs a)) in P. fold (owned (aseqs a')). rewrite owned1 in *. rewrite F1, F2, F3, E1, E2, E3, Z.add_0_r.
    cbn [owned flat_map app] in P3. rewrite app_nil_r. cbn [owned flat_map ids app] in P2. perm.
  - destruct (aget_var a i) as [l0|] eqn:Ei; [|discriminate]. destruct (aget_var a j) as [l|] eqn:Eg; [|discriminate]. destruct (Z.eqb_spec i j) as [<-|Hij]; [injection E as <-; exact I|].
    destruct (achange a j [] 0 []) as [b|] eqn:Eb; [|discriminate]. apply aget_var_inv in Eg. apply aget_var_inv in Ei. apply achange_inv in Eb as (Es & E1 & E2 & E3).
    apply achange_inv in E as (Es' & F1 & F2 & F3). destruct I as (Hm & P). split; [lia|].
    destruct (owned_set _ _ _ _ _ Eg Es) as (r & P1 & P2).
    destruct (owned_set (aseqs b) i (Some l0) (aseqs a') (Some l)) as (r' & P3 & P4); [rewrite (aget_aset_other _ _ _ _ i Es Hij); exact Ei|exact Es'|].
    unfold held in *. fold (owned (aseqs a)) in P. fold (owned (aseqs a')). rewrite owned1 in *. rewrite F1, F2, F3, E1, E2, E3, !Z.add_0_r.
    pose proof (ids_rev l0) as P5. cbn [ids flat_map] in P2. perm.
  - destruct (aget_var a j) as [l|] eqn:Eg; [|discriminate]. refine (free_idok _ _ _ _ _ I _ E _); [apply zlen_nonneg|]. now rewrite ids_steps_copies.
  - destruct (aget_var a i) as [l0|] eqn:Ei; [|discriminate]. destruct (aget_var a j) as [l|] eqn:Eg; [|discriminate]. destruct (Z.eqb_spec i j) as [<-|Hij]; [injection E as <-; exact I|].
    refine (change_idok _ _ _ _ _ _ _ I _ Ei E _); [apply zlen_nonneg|]. rewrite ids_steps_copies. pose proof (ids_rev l0) as P5. perm.
  - destruct (aget_var a i); [|discriminate]. destruct (0 <=? n); [|discriminate]. injection E as <-. exact I.
  - destruct (aget_var a i); [|discriminate]. injection E as <-. exact I.
Qed.

Lemma arun_idok k ops : forall a a', idok a -> arun keyclone k a ops = Some a' -> idok a'.
Proof.
  induction ops as [|o t IH]; intros a a' I E; cbn [arun] in E; [injection E as <-; exact I|].
  destruct (astep keyclone k a o) as [b|] eqn:Eb; [|discriminate]. eapply IH; [|exact E]. eapply astep_idok; eauto.
Qed.
Lemma idok_start n : idok (astart n).
Proof.
  split; [cbn; lia|]. unfold held. cbn. rewrite !app_nil_r. induction n as [|n IH]; [reflexivity|]. exact IH.
Qed.
Lemma upto_nodup m : NoDup (upto m).
Proof. unfold upto. apply FinFun.Injective_map_NoDup; [intros ? ? ?; lia|apply seq_NoDup]. Qed.
Lemma upto_in m i : In i (upto m) <-> 0 <= i < m.
Proof.
  unfold upto. rewrite in_map_iff. split.
  - intros (x & <- & Hx). apply in_seq in Hx. lia.
  - intros H. exists (Z.to_nat i). split; [lia|]. apply in_seq. lia.
Qed.
End Ids.

