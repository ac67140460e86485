(** smap: lookup, iteration, erasure at iterators, clear, clone, histories. *)
From Verif Require Import Base Slots Smap_Model Smap_Spec Smap_Tree Smap_Sim Smap_Proofs Smap_Proofs2 Smap_Proofs3.
From Coq Require Import Sorted.
From Verif Require Hmap_Proofs2.

Section Iter.
Context {K V : Type}.
Variable cmp : K -> K -> Z.
Hypothesis CO : cmp_ok cmp.
Implicit Types (d : slots (node K V)) (t l r : tree) (n : node K V) (es : list (K * V)) (s : smap K V) (it : iter).

(** Everything reading functions need. *)
Record readable s T es : Prop := {
  r_reps : reps (nodes s) T;
  r_aa : aa T;
  r_lvl : lvl T <= 31;
  r_root : root s = rt T;
  r_len : zlen (inord T) <= zlen (nodes s);
  r_ents : ents (nodes s) (inord T) es;
  r_inc : increasing cmp es;
}.
Lemma wf_readable s T ds es : wf cmp s T ds es -> head s < 2 ^ 31 -> readable s T es.
Proof.
  intros W H. destruct (wf_height _ _ _ _ _ W H) as [HL _]. constructor; try apply W; auto.
  pose proof (wf_size31 _ _ _ _ _ W). pose proof (b_cap _ _ _ (w_base _ _ _ _ _ W)).
  destruct (b_arr _ _ _ (w_base _ _ _ _ _ W)) as [[A1 A2]|(A1 & A2 & A3)].
  - rewrite A2. change (zlen (@nil (option (node K V)))) with 0. lia.
  - lia.
Qed.

(** Ghost stack frames: node index, its level, its right subtree. *)
Definition frame := (Z * Z * tree)%type.
Definition fidx (f : frame) : Z := fst (fst f).
Definition frame_ok d (f : frame) : Prop :=
  let '(j, lv, R) := f in
  0 < j /\ (exists a o, aget d j = Ok (Some (mknode a (rt R) lv o))) /\ reps d R /\ aa R /\ lvl R <= lv.
Fixpoint lvchain (m : Z) (F : list frame) : Prop :=
  match F with [] => m <= 31 | (_, lv, _) :: F' => m < lv /\ lvchain lv F' end.
Definition flat (F : list frame) : list Z := flat_map (fun f => fidx f :: inord (snd f)) F.

Lemma lvchain_len F : forall m, lvchain m F -> zlen F <= 31 - m.
Proof.
  induction F as [|[[j lv] R] F IH]; intros m; cbn [lvchain]; [change (zlen (@nil frame)) with 0; lia|].
  intros [H1 H2]. specialize (IH _ H2). rewrite zlen_cons. lia.
Qed.
Lemma lvchain_le F m m' : lvchain m F -> m' <= m -> lvchain m' F.
Proof. destruct F as [|[[j lv] R] F]; cbn; [lia|]. intros [H1 H2] H. split; [lia|exact H2]. Qed.

Lemma push_left_ok d fuel : forall t F, reps d t -> aa t -> lvchain (lvl t) F -> Forall (frame_ok d) F -> lvl t < Z.of_nat fuel ->
  exists F', push_left fuel d (rt t) (map fidx F) = Ok (map fidx F') /\ flat F' = inord t ++ flat F /\ lvchain 0 F' /\ Forall (frame_ok d) F'.
Proof.
  induction fuel as [|fuel IH]; intros t F R A LC FO Hf; [pose proof (aa_lvl _ A); lia|]. cbn [push_left].
  destruct t as [|i lv l r].
  - exists F. cbn [rt Z.eqb inord app]. auto.
  - destruct (reps_rd _ _ _ _ _ R) as (o & E1 & Gi). destruct R as (P & L & _ & Rl & Rr). pose proof A as (A1 & A2 & A3 & Al & Ar).
    cbn [rt]. destruct (Z.eqb_spec i 0); [lia|]. pose proof (lvchain_len _ _ LC) as HL. cbn [lvl] in *.
    rewrite zlen_map. destruct (Z.leb_spec 36 (zlen F)); [lia|]. rewrite E1. cbn [bind lk0].
    destruct (IH l ((i, lv, r) :: F)) as (F' & Q1 & Q2 & Q3 & Q4); auto.
    + cbn [lvchain]. split; [lia|exact LC].
    + constructor; [|exact FO]. cbn. split; [exact P|]. split; [eauto|]. split; [exact Rr|]. split; [exact Ar|]. lia.
    + lia.
    + exists F'. split; [exact Q1|]. split; [|auto]. rewrite Q2. cbn [inord flat flat_map fidx fst snd].
      rewrite <- app_assoc. reflexivity.
Qed.

(** [it] is about to visit the nodes [L], in this order. *)
Definition at_rest d it (L : list Z) : Prop :=
  (L = [] /\ ref it = None) \/
  (exists i lv R F, ref it = Some i /\ tn it = Some (rt R) /\ st it = map fidx F /\ L = flat ((i, lv, R) :: F) /\
     lvchain 0 ((i, lv, R) :: F) /\ Forall (frame_ok d) ((i, lv, R) :: F)).
Lemma at_rest_cons d it i L : at_rest d it (i :: L) -> ref it = Some i.
Proof. intros [[H _]|(j & lv & R & F & H1 & _ & _ & H2 & _)]; [discriminate|]. cbn in H2. injection H2 as <- _. exact H1. Qed.
Lemma at_rest_nil d it : at_rest d it [] -> ref it = None.
Proof. intros [[_ H]|(j & lv & R & F & H1 & _ & _ & H2 & _)]; [exact H|]. discriminate. Qed.

(** An iterator on top of a stack of frames. *)
Lemma of_stack d F : Forall (frame_ok d) F -> lvchain 0 F -> F <> [] ->
  exists x rest n, map fidx F = x :: rest /\ rd d x = Ok n /\ at_rest d (mkiter (Some x) (Some (lk1 n)) rest) (flat F).
Proof.
  intros FO LC HN. destruct F as [|[[i lv] R] F]; [congruence|]. pose proof (Forall_inv FO) as (P & (a & o & G) & RR & AR & LR).
  eexists i, (map fidx F), _. split; [reflexivity|]. split; [apply rd_some; exact G|]. cbn [lk1].
  right. exists i, lv, R, F. cbn [ref tn st]. auto 8.
Qed.

Lemma next_ok d it i L : at_rest d it (i :: L) -> exists it', next d it = Ok it' /\ at_rest d it' L.
Proof.
  intros [[H _]|(j & lv & R & F & H1 & H2 & H3 & H4 & LC & FO)]; [discriminate|]. unfold next. rewrite H2, H3.
  cbn [flat flat_map fidx fst snd] in H4. injection H4 as <- ->. fold (flat F).
  pose proof (Forall_inv FO) as (P & _ & RR & AR & LR). apply Forall_inv_tail in FO. cbn [lvchain] in LC. destruct LC as [L0 LC].
  pose proof (lvchain_len _ _ LC) as HL. pose proof (zlen_nonneg F).
  destruct (push_left_ok d 37 R F RR AR (lvchain_le _ _ _ LC LR) FO) as (F' & Q1 & Q2 & Q3 & Q4); [lia|].
  assert (BODY : inord R ++ flat F <> [] -> exists it', (let* stk := push_left 37 d (rt R) (map fidx F) in
     match stk with [] => Err OOB | x :: rest => let* n := rd d x in Ok (mkiter (Some x) (Some (lk1 n)) rest) end) = Ok it' /\ at_rest d it' (inord R ++ flat F)).
  { intros HN. rewrite Q1. cbn [bind]. destruct (of_stack d F' Q4 Q3) as (x & rest & n & M & G & AT).
    { intros ->. cbn in Q2. congruence. }
    rewrite M, G. cbn [bind]. eexists. split; [reflexivity|]. rewrite <- Q2. exact AT. }
  destruct F as [|[[j' lv'] R'] F].
  - cbn [map]. cbn [map flat flat_map] in BODY. destruct (Z.eqb_spec (rt R) 0) as [E0|N0]; cbn [negb].
    + apply (rt_zero d R RR) in E0. subst R. eexists. split; [reflexivity|]. left. auto.
    + apply BODY. rewrite app_nil_r. destruct R as [|ri rlv rl rr]; [cbn in N0; lia|]. cbn. intros X. symmetry in X. now apply app_cons_not_nil in X.
  - cbn [map]. apply BODY. cbn. intros X. symmetry in X. now apply app_cons_not_nil in X.
Qed.

Lemma each_loop_ok d fuel : forall it L es, at_rest d it L -> ents d L es -> zlen es < Z.of_nat fuel -> each_loop fuel d it = Ok es.
Proof.
  induction fuel as [|fuel IH]; intros it L es AT EN Hf; [pose proof (zlen_nonneg es); lia|]. cbn [each_loop].
  destruct L as [|i L].
  - rewrite (at_rest_nil _ _ AT). destruct es; [reflexivity|discriminate].
  - rewrite (at_rest_cons _ _ _ _ AT). apply ents_cons in EN as (e & er & -> & He & Hr). rewrite (get_val_ok _ _ _ He). cbn [bind].
    destruct (next_ok _ _ _ _ AT) as (it' & F & AT'). rewrite F. cbn [bind]. rewrite zlen_cons in Hf.
    rewrite (IH it' L er AT' Hr); [reflexivity|lia].
Qed.

Lemma begin_ok s T es : readable s T es -> exists it, begin s = Ok it /\ at_rest (nodes s) it (inord T).
Proof.
  intros R. unfold begin. rewrite (r_root _ _ _ R). pose proof (r_reps _ _ _ R) as RP. destruct (Z.eqb_spec (rt T) 0) as [E0|N0]; cbn [negb].
  - apply (rt_zero _ _ RP) in E0. subst T. eexists. split; [reflexivity|]. left. auto.
  - unfold next. cbn [st tn]. destruct (Z.eqb_spec (rt T) 0); [lia|]. cbn [negb].
    pose proof (r_lvl _ _ _ R). destruct (push_left_ok (nodes s) 37 T [] RP (r_aa _ _ _ R)) as (F' & Q1 & Q2 & Q3 & Q4); [cbn; lia|constructor|lia|].
    cbn [map] in Q1. rewrite Q1. cbn [bind]. rewrite app_nil_r in Q2. destruct (of_stack (nodes s) F' Q4 Q3) as (x & rest & n' & M & G & AT).
    { intros ->. cbn in Q2. destruct T; [cbn in N0; lia|]. cbn in Q2. now apply app_cons_not_nil in Q2. }
    rewrite M, G. cbn [bind]. eexists. split; [reflexivity|]. rewrite <- Q2. exact AT.
Qed.

Lemma each_from_ok s T es it L es' : readable s T es -> at_rest (nodes s) it L -> ents (nodes s) L es' -> zlen es' <= zlen (inord T) ->
  each_from s it = Ok es'.
Proof.
  intros R AT EN H. unfold each_from. apply (each_loop_ok (nodes s) _ it L es' AT EN). pose proof (r_len _ _ _ R). unfold zlen in *. lia.
Qed.
Lemma each_ok s T es : readable s T es -> each s = Ok es.
Proof.
  intros R. unfold each. destruct (begin_ok s T es R) as (it & F & AT). rewrite F. cbn [bind].
  apply (each_from_ok s T es it (inord T) es R AT (r_ents _ _ _ R)). rewrite (ents_zlen _ _ _ (r_ents _ _ _ R)). lia.
Qed.

(** * Search *)
(** Entries whose key is not below [k]. *)
Definition from (k : K) es : list (K * V) := filter (fun e => 0 <=? cmp (fst e) k) es.
Section FromMid.
Variables (el er : list (K * V)) (e : K * V) (k : K).
Hypothesis INC : increasing cmp (el ++ e :: er).
Lemma from_r : cmp (fst e) k < 0 -> from k (el ++ e :: er) = from k er.
Proof.
  intros H. unfold from. rewrite filter_app. rewrite filter_none.
  - cbn. destruct (Z.leb_spec 0 (cmp (fst e) k)); [lia|reflexivity].
  - intros a Ha. pose proof (left_lt cmp CO _ _ _ k INC a ltac:(lia) Ha). lia.
Qed.
Lemma from_m : cmp (fst e) k = 0 -> from k (el ++ e :: er) = e :: er.
Proof.
  intros H. unfold from. rewrite filter_app. rewrite filter_none.
  - cbn. rewrite H. cbn. f_equal. apply filter_all. intros a Ha. pose proof (right_gt cmp CO _ _ _ k INC a ltac:(lia) Ha). lia.
  - intros a Ha. pose proof (left_lt cmp CO _ _ _ k INC a ltac:(lia) Ha). lia.
Qed.
Lemma from_l : 0 < cmp (fst e) k -> from k (el ++ e :: er) = from k el ++ e :: er.
Proof.
  intros H. unfold from. rewrite filter_app. f_equal. cbn. destruct (Z.leb_spec 0 (cmp (fst e) k)); [|lia]. f_equal.
  apply filter_all. intros a Ha. pose proof (right_gt cmp CO _ _ _ k INC a ltac:(lia) Ha). lia.
Qed.
End FromMid.

Lemma find_loop_ok d k fuel : forall t F es, reps d t -> aa t -> ents d (inord t) es -> increasing cmp es ->
  lvchain (lvl t) F -> Forall (frame_ok d) F -> height t < Z.of_nat fuel ->
  exists it F' L2, find_loop cmp fuel d (rt t) k (map fidx F) = Ok it /\ ents d L2 (from k es) /\ flat F' = L2 ++ flat F /\
    lvchain 0 F' /\ Forall (frame_ok d) F' /\
    match lookup cmp k es with
    | Some e => exists i R lv F0, F' = (i, lv, R) :: F0 /\ it = mkiter (Some i) (Some (rt R)) (map fidx F0) /\ vof d i = Some e
    | None => it = mkiter None None (map fidx F')
    end.
Proof.
  induction fuel as [|fuel IH]; intros t F es R A EN INC LC FO Hf; [pose proof (height_nonneg t); lia|]. cbn [find_loop].
  destruct t as [|i lv l r].
  - cbn [inord] in EN. destruct es; [|discriminate]. cbn [rt Z.eqb lookup find]. exists (mkiter None None (map fidx F)), F, []. cbn. auto 8.
  - destruct (reps_rd _ _ _ _ _ R) as (o & E1 & Gi). destruct R as (P & L & _ & Rl & Rr). pose proof A as (A1 & A2 & A3 & Al & Ar).
    cbn [rt]. destruct (Z.eqb_spec i 0); [lia|]. rewrite E1. cbn [bind lk0 lk1]. cbn [inord] in EN.
    apply ents_mid in EN as (el & e & er & -> & Hl & He & Hr). pose proof INC as INC'. apply inc_mid in INC' as (Il & Ir & _).
    rewrite (get_val_ok _ _ _ He). cbn [bind]. cbn [height] in Hf. pose proof (height_nonneg l). pose proof (height_nonneg r). cbn [lvl] in LC.
    destruct (Z.ltb_spec (cmp (fst e) k) 0) as [C1|C1]; [|destruct (Z.gtb_spec (cmp (fst e) k) 0) as [C2|C2]].
    + rewrite (lookup_r cmp CO) by auto. rewrite from_r by auto. apply (IH r F er); auto; [|lia]. apply (lvchain_le _ lv); [exact LC|lia].
    + rewrite (lookup_l cmp CO) by (auto; lia). rewrite from_l by (auto; lia). pose proof (lvchain_len _ _ LC) as HL.
      rewrite zlen_map. destruct (Z.leb_spec 36 (zlen F)); [lia|].
      destruct (IH l ((i, lv, r) :: F) el) as (it & F' & L2 & Q1 & Q2 & Q3 & Q4 & Q5 & Q6); auto.
      * cbn [lvchain]. split; [lia|exact LC].
      * constructor; [|exact FO]. cbn. split; [exact P|]. split; [eauto|]. split; [exact Rr|]. split; [exact Ar|]. lia.
      * lia.
      * exists it, F', (L2 ++ i :: inord r). split; [exact Q1|]. split; [apply ents_mid; eauto 8|].
        split; [|auto]. rewrite Q3. cbn [flat flat_map fidx fst snd]. rewrite <- app_assoc. reflexivity.
    + assert (C0 : cmp (fst e) k = 0) by lia. rewrite (lookup_m cmp CO) by auto. rewrite from_m by auto.
      eexists _, ((i, lv, r) :: F), (i :: inord r). split; [reflexivity|]. split; [apply ents_cons; eauto 8|]. split; [reflexivity|].
      split; [cbn; split; [lia|exact LC]|]. split.
      * constructor; [|exact FO]. cbn. split; [exact P|]. split; [eauto|]. split; [exact Rr|]. split; [exact Ar|]. lia.
      * exists i, r, lv, F. auto.
Qed.
Lemma find_it_ok s T es k : readable s T es ->
  exists it F' L2, find_it cmp s k = Ok it /\ ents (nodes s) L2 (from k es) /\ flat F' = L2 /\ lvchain 0 F' /\ Forall (frame_ok (nodes s)) F' /\
    match lookup cmp k es with
    | Some e => exists i R lv F0, F' = (i, lv, R) :: F0 /\ it = mkiter (Some i) (Some (rt R)) (map fidx F0) /\ vof (nodes s) i = Some e
    | None => it = mkiter None None (map fidx F')
    end.
Proof.
  intros R. unfold find_it. rewrite (r_root _ _ _ R).
  destruct (find_loop_ok (nodes s) k (S (length (nodes s))) T [] es) as (it & F' & L2 & Q1 & Q2 & Q3 & Q4); try apply R.
  - constructor.
  - pose proof (height_count T). pose proof (r_len _ _ _ R). unfold zlen in *. lia.
  - exists it, F', L2. cbn [map] in Q1. split; [exact Q1|]. split; [exact Q2|]. split; [|exact Q4]. rewrite Q3. apply app_nil_r.
Qed.
(** find: an iterator at the entry, or the end iterator. *)
Lemma find_at s T es k : readable s T es -> exists it, find_it cmp s k = Ok it /\
  match lookup cmp k es with
  | Some e => exists L, at_rest (nodes s) it L /\ ents (nodes s) L (from k es)
  | None => ref it = None
  end.
Proof.
  intros R. destruct (find_it_ok s T es k R) as (it & F' & L2 & Q1 & Q2 & Q3 & Q4 & Q5 & Q6). exists it. split; [exact Q1|].
  destruct (lookup cmp k es) as [e|].
  - destruct Q6 as (i & RR & lv & F0 & -> & -> & He). exists L2. split; [|exact Q2]. right. exists i, lv, RR, F0. cbn [ref tn st]. auto 8.
  - subst it. reflexivity.
Qed.
Lemma get_ok s T es k : readable s T es -> get cmp s k = Ok (lookup cmp k es).
Proof.
  intros R. unfold get. destruct (find_it_ok s T es k R) as (it & F' & L2 & Q1 & Q2 & Q3 & Q4 & Q5 & Q6). rewrite Q1. cbn [bind].
  destruct (lookup cmp k es) as [e|].
  - destruct Q6 as (i & RR & lv & F0 & -> & -> & He). cbn [ref]. rewrite (get_val_ok _ _ _ He). reflexivity.
  - subst it. reflexivity.
Qed.
Lemma contains_ok s T es k : readable s T es -> contains cmp s k = Ok (match lookup cmp k es with Some _ => true | None => false end).
Proof.
  intros R. unfold contains. destruct (find_it_ok s T es k R) as (it & F' & L2 & Q1 & Q2 & Q3 & Q4 & Q5 & Q6). rewrite Q1. cbn [bind].
  destruct (lookup cmp k es) as [e|].
  - destruct Q6 as (i & RR & lv & F0 & -> & -> & He). reflexivity.
  - subst it. reflexivity.
Qed.
Lemma lower_bound_ok s T es k : readable s T es ->
  exists it L, lower_bound cmp s k = Ok it /\ at_rest (nodes s) it L /\ ents (nodes s) L (from k es).
Proof.
  intros R. unfold lower_bound. destruct (find_it_ok s T es k R) as (it & F' & L2 & Q1 & Q2 & Q3 & Q4 & Q5 & Q6). rewrite Q1. cbn [bind].
  destruct (lookup cmp k es) as [e|].
  - destruct Q6 as (i & RR & lv & F0 & -> & -> & He). cbn [ref]. eexists _, L2. split; [reflexivity|]. split; [|exact Q2].
    right. exists i, lv, RR, F0. cbn [ref tn st]. auto 8.
  - subst it. cbn [ref st]. destruct F' as [|f F'].
    + cbn [map]. eexists _, L2. split; [reflexivity|]. split; [|exact Q2]. left. subst L2. auto.
    + destruct (of_stack (nodes s) (f :: F') Q5 Q4) as (x & rest & n & M & G & AT); [discriminate|]. cbn [map] in *. injection M as -> <-.
      rewrite G. cbn [bind]. eexists _, L2. split; [reflexivity|]. split; [|exact Q2]. rewrite <- Q3. exact AT.
Qed.
Lemma front_ok s T es : readable s T es -> match es with [] => True | e :: _ => front s = Ok e end.
Proof.
  intros R. destruct es as [|e es]; [exact I|]. unfold front. rewrite (r_root _ _ _ R).
  destruct (go_left_ok (nodes s) (S (length (nodes s))) T (e :: es)) as (x & e' & es0 & Q1 & Q2 & _ & Q3); try apply R.
  - intros ->. pose proof (r_ents _ _ _ R). discriminate.
  - pose proof (height_count T). pose proof (r_len _ _ _ R). unfold zlen in *. lia.
  - injection Q3 as <- _. rewrite Q1. cbn [bind]. now apply get_val_ok.
Qed.
Lemma back_ok s T es e es0 : readable s T es -> es = es0 ++ [e] -> back s = Ok e.
Proof.
  intros R ->. unfold back. rewrite (r_root _ _ _ R).
  destruct (go_right_ok (nodes s) (S (length (nodes s))) T (es0 ++ [e])) as (x & e' & es1 & Q1 & Q2 & _ & Q3); try apply R.
  - intros ->. pose proof (r_ents _ _ _ R) as X. unfold ents in X. rewrite map_app in X. cbn in X. now apply app_cons_not_nil in X.
  - pose proof (height_count T). pose proof (r_len _ _ _ R). unfold zlen in *. lia.
  - apply app_inj_tail in Q3 as [_ <-]. rewrite Q1. cbn [bind]. now apply get_val_ok.
Qed.
Lemma advance_ok d (n : nat) : forall it L, at_rest d it L -> exists it', advance d it n = Ok it' /\ at_rest d it' (skipn n L).
Proof.
  induction n as [|n IH]; intros it L AT; [exists it; auto|]. cbn [advance]. destruct L as [|i L].
  - rewrite (at_rest_nil _ _ AT). exists it. auto.
  - rewrite (at_rest_cons _ _ _ _ AT). destruct (next_ok _ _ _ _ AT) as (it' & F & AT'). rewrite F. cbn [bind skipn]. apply IH. exact AT'.
Qed.

(** * Erasing at iterators *)
Lemma erase_at_ok s T ds pre e rest it L rv : wf cmp s T ds (pre ++ e :: rest) -> room s rv -> head s < 2 ^ 31 ->
  at_rest (nodes s) it L -> ents (nodes s) L (e :: rest) ->
  exists s1 it' T1 ds1 L', erase_at cmp s it = Ok (s1, value_drop e, it') /\ wf cmp s1 T1 ds1 (pre ++ rest) /\ room s1 rv /\
    head s1 = head s /\ zlen (nodes s1) = zlen (nodes s) /\ at_rest (nodes s1) it' L' /\ ents (nodes s1) L' rest.
Proof.
  intros W RM H31 AT EN. destruct L as [|i L]; [discriminate|]. apply ents_cons in EN as (e' & rest' & [= <- <-] & He & Hr).
  unfold erase_at. rewrite (at_rest_cons _ _ _ _ AT). rewrite (get_val_ok _ _ _ He). cbn [bind].
  destruct (next_ok _ _ _ _ AT) as (it1 & F1 & AT1). rewrite F1. cbn [bind].
  pose proof (w_inc _ _ _ _ _ W) as INC.
  destruct (erase_wf cmp CO s T ds _ (fst e) rv W RM) as (s1 & T1 & ds1 & W1 & RM1 & H1 & Z1 & F2).
  rewrite (lookup_m cmp CO) in F2 by (auto using (co_refl _ CO)). rewrite (remove_m cmp CO) in W1 by (auto using (co_refl _ CO)).
  destruct L as [|j L].
  - rewrite (at_rest_nil _ _ AT1). rewrite F2. cbn [bind fst snd].
    eexists s1, it1, T1, ds1, []. split; [reflexivity|]. split; [exact W1|]. split; [exact RM1|]. split; [exact H1|]. split; [exact Z1|].
    split; [left; split; [reflexivity|]; exact (at_rest_nil _ _ AT1)|]. destruct rest; [reflexivity|discriminate].
  - rewrite (at_rest_cons _ _ _ _ AT1). apply ents_cons in Hr as (e1 & rest1 & -> & He1 & Hr1).
    rewrite (get_val_ok _ _ _ He1). cbn [bind]. rewrite F2. cbn [bind fst snd].
    assert (RD : readable s1 T1 (pre ++ e1 :: rest1)) by (apply (wf_readable s1 T1 ds1); [exact W1|lia]).
    destruct (find_at s1 T1 _ (fst e1) RD) as (it2 & F3 & Q). rewrite F3. cbn [bind].
    pose proof (r_inc _ _ _ RD) as INC1.
    rewrite (lookup_m cmp CO) in Q by (auto using (co_refl _ CO)). rewrite from_m in Q by (auto using (co_refl _ CO)).
    destruct Q as (L2 & AT2 & EN2).
    exists s1, it2, T1, ds1, L2. split; [reflexivity|]. auto 8.
Qed.

Lemma erase_if_ok p fuel rv : forall s T ds pre rest it L, wf cmp s T ds (pre ++ rest) -> room s rv -> head s < 2 ^ 31 ->
  at_rest (nodes s) it L -> ents (nodes s) L rest -> zlen rest < Z.of_nat fuel ->
  exists s1 T1 ds1, erase_if_loop cmp fuel p s it = Ok (s1, flat_map (destroy_entry (V:=V)) (filter p rest), rest) /\
    wf cmp s1 T1 ds1 (pre ++ filter (fun e => negb (p e)) rest) /\ room s1 rv /\ head s1 = head s.
Proof.
  induction fuel as [|fuel IH]; intros s T ds pre rest it L W RM H31 AT EN Hf; [pose proof (zlen_nonneg rest); lia|]. cbn [erase_if_loop].
  destruct L as [|i L].
  - rewrite (at_rest_nil _ _ AT). destruct rest; [|discriminate]. exists s, T, ds. cbn. auto.
  - rewrite (at_rest_cons _ _ _ _ AT). pose proof EN as EN0. apply ents_cons in EN as (e & rest1 & -> & He & Hr). rewrite (get_val_ok _ _ _ He). cbn [bind].
    rewrite zlen_cons in Hf. cbn [filter]. destruct (p e); cbn [negb].
    + destruct (erase_at_ok s T ds pre e rest1 it (i :: L) rv W RM H31 AT EN0) as (s1 & it' & T1 & ds1 & L' & F & W1 & RM1 & H1 & Z1 & AT1 & EN1).
      rewrite F. cbn [bind]. destruct (IH s1 T1 ds1 pre rest1 it' L' W1 RM1 ltac:(lia) AT1 EN1 ltac:(lia)) as (s2 & T2 & ds2 & F2 & W2 & RM2 & H2).
      rewrite F2. cbn [bind]. exists s2, T2, ds2. split; [reflexivity|]. split; [exact W2|]. split; [exact RM2|]. lia.
    + destruct (next_ok _ _ _ _ AT) as (it' & F & AT'). rewrite F. cbn [bind].
      assert (W' : wf cmp s T ds ((pre ++ [e]) ++ rest1)) by (rewrite <- app_assoc; exact W).
      destruct (IH s T ds (pre ++ [e]) rest1 it' L W' RM H31 AT' Hr ltac:(lia)) as (s2 & T2 & ds2 & F2 & W2 & RM2 & H2).
      rewrite F2. cbn [bind]. exists s2, T2, ds2. split; [reflexivity|]. rewrite <- app_assoc in W2. auto.
Qed.

(** erase_range *)
Lemma range_end_ok fuel rv : forall s T ds pre rest it L, wf cmp s T ds (pre ++ rest) -> room s rv -> head s < 2 ^ 31 ->
  at_rest (nodes s) it L -> ents (nodes s) L rest -> zlen rest < Z.of_nat fuel ->
  exists s1 T1 ds1 it', range_to_end cmp fuel s it = Ok (s1, flat_map (destroy_entry (V:=V)) rest, it') /\
    wf cmp s1 T1 ds1 pre /\ room s1 rv /\ head s1 = head s /\ at_rest (nodes s1) it' [].
Proof.
  induction fuel as [|fuel IH]; intros s T ds pre rest it L W RM H31 AT EN Hf; [pose proof (zlen_nonneg rest); lia|]. cbn [range_to_end].
  destruct L as [|i L].
  - rewrite (at_rest_nil _ _ AT). destruct rest; [|discriminate]. exists s, T, ds, it. cbn. rewrite app_nil_r in W. auto.
  - rewrite (at_rest_cons _ _ _ _ AT). pose proof EN as EN0. apply ents_cons in EN as (e & rest1 & -> & He & Hr).
    rewrite zlen_cons in Hf.
    destruct (erase_at_ok s T ds pre e rest1 it (i :: L) rv W RM H31 AT EN0) as (s1 & it' & T1 & ds1 & L' & F & W1 & RM1 & H1 & Z1 & AT1 & EN1).
    rewrite F. cbn [bind]. destruct (IH s1 T1 ds1 pre rest1 it' L' W1 RM1 ltac:(lia) AT1 EN1 ltac:(lia)) as (s2 & T2 & ds2 & it2 & F2 & W2 & RM2 & H2 & AT2).
    rewrite F2. cbn [bind]. exists s2, T2, ds2, it2. split; [reflexivity|]. split; [exact W2|]. split; [exact RM2|]. split; [lia|exact AT2].
Qed.

(** [same] compares representations: it holds for a key and itself, and only for equivalent keys. *)
Lemma range_ok same fuel rv : (forall x, same x x = true) -> (forall x y, same x y = true -> cmp x y = 0) ->
  forall s T ds pre mid c rest it L k1 k2, wf cmp s T ds (pre ++ mid ++ c :: rest) -> room s rv -> head s < 2 ^ 31 ->
  at_rest (nodes s) it L -> ents (nodes s) L (mid ++ c :: rest) ->
  match mid with [] => k1 = fst c | a :: _ => k1 = fst a end -> k2 = fst c -> zlen mid < Z.of_nat fuel ->
  exists s1 T1 ds1 it' L', range_loop cmp fuel same s it k1 k2 = Ok (s1, flat_map (destroy_entry (V:=V)) mid, it') /\
    wf cmp s1 T1 ds1 (pre ++ c :: rest) /\ room s1 rv /\ head s1 = head s /\ at_rest (nodes s1) it' L' /\ ents (nodes s1) L' (c :: rest).
Proof.
  intros Hs1 Hs2. induction fuel as [|fuel IH]; intros s T ds pre mid c rest it L k1 k2 W RM H31 AT EN Hk1 -> Hf; [pose proof (zlen_nonneg mid); lia|].
  cbn [range_loop]. destruct mid as [|a mid].
  - subst k1. rewrite Hs1. exists s, T, ds, it, L. cbn. auto 8.
  - subst k1. pose proof (w_inc _ _ _ _ _ W) as INC. cbn [app] in INC, EN, W.
    assert (Hac : cmp (fst a) (fst c) < 0). { apply inc_mid in INC as (_ & _ & _ & X & _). apply X, in_or_app. right. now left. }
    destruct (same (fst a) (fst c)) eqn:ES; [apply Hs2 in ES; lia|].
    destruct L as [|i L]; [discriminate|]. apply ents_cons in EN as (a' & r' & [= <- <-] & Ha & Hr).
    destruct (next_ok _ _ _ _ AT) as (it1 & F1 & AT1). rewrite F1. cbn [bind].
    destruct L as [|j L]; [destruct mid; discriminate|]. rewrite (at_rest_cons _ _ _ _ AT1).
    pose proof Hr as Hr0. apply ents_cons in Hr0 as (b & r2 & Hb & Hvb & Hr2). rewrite (get_val_ok _ _ _ Hvb). cbn [bind].
    destruct (erase_wf cmp CO s T ds _ (fst a) rv W RM) as (s1 & T1 & ds1 & W1 & RM1 & H1 & Z1 & F2).
    rewrite (lookup_m cmp CO) in F2 by (auto using (co_refl _ CO)). rewrite (remove_m cmp CO) in W1 by (auto using (co_refl _ CO)).
    rewrite F2. cbn [bind fst snd].
    assert (RD : readable s1 T1 (pre ++ mid ++ c :: rest)) by (apply (wf_readable s1 T1 ds1); [exact W1|lia]).
    destruct (find_at s1 T1 _ (fst b) RD) as (it2 & F3 & Q). rewrite F3. cbn [bind].
    pose proof (r_inc _ _ _ RD) as INC1. rewrite Hb in Q, INC1.
    rewrite (lookup_m cmp CO) in Q by (auto using (co_refl _ CO)). rewrite from_m in Q by (auto using (co_refl _ CO)).
    destruct Q as (L2 & AT2 & EN2). rewrite <- Hb in EN2. rewrite zlen_cons in Hf.
    destruct (IH s1 T1 ds1 pre mid c rest it2 L2 (fst b) (fst c) W1 RM1 ltac:(lia) AT2 EN2) as (s2 & T2 & ds2 & it3 & L3 & F4 & W4 & RM4 & H4 & AT4 & EN4); auto; [|lia|].
    { destruct mid; cbn in Hb; injection Hb as <- _; reflexivity. }
    rewrite F4. cbn [bind]. exists s2, T2, ds2, it3, L3. split; [reflexivity|]. split; [exact W4|]. split; [exact RM4|]. split; [lia|]. auto.
Qed.

(** * Dropping *)
Lemma drop_r_ok d fuel : forall t es, reps d t -> ents d (inord t) es -> height t < Z.of_nat fuel ->
  exists ds, drop_r fuel d (rt t) = Ok ds /\ Permutation ds (flat_map (destroy_entry (V:=V)) es).
Proof.
  induction fuel as [|fuel IH]; intros t es R EN Hf; [pose proof (height_nonneg t); lia|]. cbn [drop_r].
  destruct t as [|i lv l r].
  - cbn [inord] in EN. destruct es; [|discriminate]. exists []. cbn. auto.
  - destruct (reps_rd _ _ _ _ _ R) as (o & E1 & Gi). destruct R as (P & L & _ & Rl & Rr).
    cbn [rt]. destruct (Z.eqb_spec i 0); [lia|]. rewrite E1. cbn [bind lk0 lk1]. cbn [inord] in EN.
    apply ents_mid in EN as (el & e & er & -> & Hl & He & Hr). cbn [height] in Hf. pose proof (height_nonneg l). pose proof (height_nonneg r).
    destruct (IH l el Rl Hl ltac:(lia)) as (dl & F1 & P1). destruct (IH r er Rr Hr ltac:(lia)) as (dr & F2 & P2).
    rewrite F1, F2. cbn [bind]. rewrite (get_val_ok _ _ _ He). cbn [bind]. eexists. split; [reflexivity|].
    rewrite flat_map_app. cbn [flat_map]. rewrite P1, P2. apply Permutation_app_head. change (value_drop e) with (destroy_entry e). apply Permutation_app_comm.
Qed.
Lemma drop_ok s T es : readable s T es -> (cap s = 0 -> T = E) -> exists ds, drop s = Ok ds /\ Permutation ds (flat_map (destroy_entry (V:=V)) es).
Proof.
  intros R H. unfold drop. destruct (Z.eqb_spec (cap s) 0) as [C|C]; cbn [negb].
  - specialize (H C). subst T. pose proof (r_ents _ _ _ R) as X. destruct es; [|discriminate]. exists []. cbn. auto.
  - rewrite (r_root _ _ _ R). apply drop_r_ok; try apply R. pose proof (height_count T). pose proof (r_len _ _ _ R). unfold zlen in *. lia.
Qed.
Lemma wf_cap0 s T ds es : wf cmp s T ds es -> cap s = 0 -> T = E.
Proof.
  intros W H. pose proof (b_cap _ _ _ (w_base _ _ _ _ _ W)). pose proof (wf_size31 _ _ _ _ _ W) as X.
  destruct T as [|i lv l r]; [reflexivity|]. cbn [inord] in X. rewrite zlen_app, zlen_cons in X.
  pose proof (zlen_nonneg (inord l)). pose proof (zlen_nonneg (inord r)). lia.
Qed.

(** * Equality *)
Lemma eq_loop_ok eq d1 d2 fuel : forall i j L1 L2 e1 e2, at_rest d1 i L1 -> at_rest d2 j L2 -> ents d1 L1 e1 -> ents d2 L2 e2 ->
  zlen e1 = zlen e2 -> zlen e1 < Z.of_nat fuel ->
  eq_loop fuel eq d1 d2 i j = Ok (forallb (fun p => eq (fst (fst p)) (fst (snd p))) (combine e1 e2)).
Proof.
  induction fuel as [|fuel IH]; intros i j L1 L2 e1 e2 A1 A2 E1 E2 Hz Hf; [pose proof (zlen_nonneg e1); lia|]. cbn [eq_loop].
  destruct L1 as [|x L1].
  - rewrite (at_rest_nil _ _ A1). destruct e1; [reflexivity|discriminate].
  - rewrite (at_rest_cons _ _ _ _ A1). apply ents_cons in E1 as (a & r1 & -> & Ha & Hr1). rewrite (get_val_ok _ _ _ Ha). cbn [bind].
    destruct L2 as [|y L2]; [destruct e2; [|discriminate]; rewrite zlen_cons in Hz; change (zlen (@nil (K * V))) with 0 in Hz; pose proof (zlen_nonneg r1); lia|].
    rewrite (at_rest_cons _ _ _ _ A2). apply ents_cons in E2 as (b & r2 & -> & Hb & Hr2). rewrite (get_val_ok _ _ _ Hb). cbn [bind combine forallb fst snd].
    destruct (eq (fst a) (fst b)); cbn [negb andb]; [|reflexivity].
    destruct (next_ok _ _ _ _ A1) as (i' & F1 & A1'). destruct (next_ok _ _ _ _ A2) as (j' & F2 & A2'). rewrite F1. cbn [bind]. rewrite F2. cbn [bind].
    rewrite !zlen_cons in *. apply (IH i' j' L1 L2); auto; lia.
Qed.
Lemma map_eq_ok eq s o Ts To e1 e2 : readable s Ts e1 -> readable o To e2 -> size s = zlen e1 -> size o = zlen e2 ->
  map_eq eq s o = Ok ((zlen e1 =? zlen e2) && forallb (fun p => eq (fst (fst p)) (fst (snd p))) (combine e1 e2)).
Proof.
  intros R1 R2 S1 S2. unfold map_eq. rewrite S1, S2. destruct (Z.eqb_spec (zlen e1) (zlen e2)) as [E0|N0]; cbn [negb andb]; [|reflexivity].
  destruct (begin_ok s Ts e1 R1) as (i & F1 & A1). destruct (begin_ok o To e2 R2) as (j & F2 & A2). rewrite F1, F2. cbn [bind].
  apply (eq_loop_ok eq _ _ _ i j (inord Ts) (inord To)); auto; try apply R1; try apply R2.
  pose proof (ents_zlen _ _ _ (r_ents _ _ _ R1)). pose proof (r_len _ _ _ R1). unfold zlen in *. lia.
Qed.

(** * Histories *)
Lemma zlen_filter {A} (f : A -> bool) (l : list A) : zlen (filter f l) <= zlen l.
Proof. induction l as [|a l IH]; cbn [filter]; [lia|]. destruct (f a); rewrite !zlen_cons; lia. Qed.

Lemma room_head s rv : room s rv -> rv < 2 ^ 31 -> head s < 2 ^ 31.
Proof. intros [_ H] Hr. unfold max_unreserved in H. lia. Qed.

Lemma zlen_add k v es : increasing cmp es -> lookup cmp k es = None -> zlen (add cmp k v es) = zlen es + 1.
Proof.
  intros _ H. unfold add. rewrite zlen_app, zlen_cons. enough (zlen (below cmp k es) + zlen (above cmp k es) = zlen es) by lia.
  unfold below, above. induction es as [|a es IH]; [reflexivity|]. cbn in H. destruct (Z.eqb_spec (cmp (fst a) k) 0) as [|N]; [discriminate|].
  specialize (IH H). cbn [filter]. destruct (Z.ltb_spec (cmp (fst a) k) 0), (Z.ltb_spec 0 (cmp (fst a) k)); rewrite ?zlen_cons; lia.
Qed.

Lemma zlen_assign k v es : zlen (assign cmp k v es) = zlen es.
Proof. unfold assign. apply zlen_map. Qed.

Lemma step_ok s T ds es rv o : wf cmp s T ds es -> room s rv -> 0 <= rv < 2 ^ 31 ->
  match o with Reserve c => c < 2 ^ 31 | _ => True end ->
  zlen (fst (fst (map_step cmp es o))) <= Z.max rv max_unreserved ->
  exists s1 T1 ds1 dr, step cmp s o = Ok (s1, dr, snd (map_step cmp es o)) /\ Permutation dr (snd (fst (map_step cmp es o))) /\
    wf cmp s1 T1 ds1 (fst (fst (map_step cmp es o))) /\ room s1 (reserved rv o) /\
    head s1 = match o with Clear => 0 | _ => Z.max (head s) (zlen (fst (fst (map_step cmp es o)))) end.
Proof.
  intros W RM Hrv Ho Hz. pose proof (room_head _ _ RM ltac:(lia)) as H31. pose proof (w_inc _ _ _ _ _ W) as INC.
  assert (HES : zlen es <= head s) by (rewrite (ents_zlen _ _ _ (w_ents _ _ _ _ _ W)); exact (wf_size31 _ _ _ _ _ W)).
  destruct o as [k v|k v|k v|k v|k|p| |c]; cbn [step map_step reserved] in *.
  - unfold insert. destruct (lookup cmp k es) as [e|] eqn:EL; cbn [fst snd] in *.
    + destruct (assign_put cmp CO s T ds es k v rv W RM H31 e EL) as (i & s2 & F1 & _). rewrite F1. cbn [bind].
      exists s, T, ds, [DKey k; DVal v]. rewrite Z.max_l by lia. auto.
    + rewrite zlen_add in Hz by auto. destruct (add_put cmp CO s T ds es k v rv W RM H31 EL Hz) as (s1 & p & s2 & T1 & ds1 & F1 & F2 & W2 & RM2 & HD).
      rewrite F1. cbn [bind]. rewrite F2. cbn [bind]. exists s2, T1, ds1, []. rewrite (zlen_add _ _ _ INC EL). auto 6.
  - unfold emplace. destruct (lookup cmp k es) as [e|] eqn:EL; cbn [fst snd] in *.
    + destruct (assign_put cmp CO s T ds es k v rv W RM H31 e EL) as (i & s2 & F1 & _). rewrite F1. cbn [bind].
      exists s, T, ds, []. rewrite Z.max_l by lia. auto.
    + rewrite zlen_add in Hz by auto. destruct (add_put cmp CO s T ds es k v rv W RM H31 EL Hz) as (s1 & p & s2 & T1 & ds1 & F1 & F2 & W2 & RM2 & HD).
      rewrite F1. cbn [bind]. rewrite F2. cbn [bind]. exists s2, T1, ds1, []. rewrite (zlen_add _ _ _ INC EL). auto 6.
  - unfold insert_or_assign. destruct (lookup cmp k es) as [e|] eqn:EL; cbn [fst snd] in *.
    + destruct (assign_put cmp CO s T ds es k v rv W RM H31 e EL) as (i & s2 & F1 & F2 & F3 & W2 & RM2 & HD). rewrite F1. cbn [bind].
      rewrite F2. cbn [bind]. rewrite F3. cbn [bind]. exists s2, T, ds, [DKey k; DVal (snd e)]. rewrite zlen_assign, Z.max_l by lia. auto 6.
    + rewrite zlen_add in Hz by auto. destruct (add_put cmp CO s T ds es k v rv W RM H31 EL Hz) as (s1 & p & s2 & T1 & ds1 & F1 & F2 & W2 & RM2 & HD).
      rewrite F1. cbn [bind]. rewrite F2. cbn [bind]. exists s2, T1, ds1, []. rewrite (zlen_add _ _ _ INC EL). auto 6.
  - unfold emplace_or_assign. destruct (lookup cmp k es) as [e|] eqn:EL; cbn [fst snd] in *.
    + destruct (assign_put cmp CO s T ds es k v rv W RM H31 e EL) as (i & s2 & F1 & F2 & F3 & W2 & RM2 & HD). rewrite F1. cbn [bind].
      rewrite F2. cbn [bind]. rewrite F3. cbn [bind]. exists s2, T, ds, [DVal (snd e)]. rewrite zlen_assign, Z.max_l by lia. auto 6.
    + rewrite zlen_add in Hz by auto. destruct (add_put cmp CO s T ds es k v rv W RM H31 EL Hz) as (s1 & p & s2 & T1 & ds1 & F1 & F2 & W2 & RM2 & HD).
      rewrite F1. cbn [bind]. rewrite F2. cbn [bind]. exists s2, T1, ds1, []. rewrite (zlen_add _ _ _ INC EL). auto 6.
  - destruct (erase_wf cmp CO s T ds es k rv W RM) as (s1 & T1 & ds1 & W1 & RM1 & H1 & Z1 & F). rewrite F.
    destruct (lookup cmp k es) as [e|] eqn:EL; cbn [fst snd].
    + exists s1, T1, ds1, (value_drop e). pose proof (zlen_filter (fun a => negb (cmp (fst a) k =? 0)) es) as X. fold (remove cmp k es) in X. rewrite Z.max_l by lia. auto 6.
    + rewrite (remove_none cmp _ _ EL) in W1. exists s1, T1, ds1, []. rewrite Z.max_l by lia. auto 6.
  - unfold erase_if. pose proof (wf_readable s T ds es W H31) as RD. destruct (begin_ok s T es RD) as (it & F & AT). rewrite F. cbn [bind].
    destruct (erase_if_ok p (S (length (nodes s))) rv s T ds [] es it (inord T) W RM H31 AT (w_ents _ _ _ _ _ W)) as (s1 & T1 & ds1 & F1 & W1 & RM1 & H1).
    { rewrite (ents_zlen _ _ _ (w_ents _ _ _ _ _ W)). pose proof (r_len _ _ _ RD). unfold zlen in *. lia. }
    rewrite F1. cbn [bind fst snd]. eexists s1, T1, ds1, _. split; [reflexivity|]. pose proof (zlen_filter (fun e => negb (p e)) es). rewrite Z.max_l by lia. auto 6.
  - unfold clear. pose proof (wf_readable s T ds es W H31) as RD. destruct (drop_ok s T es RD (wf_cap0 _ _ _ _ W)) as (dr & F & P). rewrite F. cbn [bind fst snd].
    exists init, E, [], dr. split; [reflexivity|]. split; [exact P|]. split; [apply wf_init|]. split; [split; cbn; unfold max_unreserved; lia|reflexivity].
  - destruct (reserve_ok s (inord T) ds c (w_base _ _ _ _ _ W)) as (s1 & b & F & B1 & R1 & R2 & R3 & R4 & R5 & R6 & R7). rewrite F. cbn [bind fst snd].
    exists s1, T, ds, []. split; [reflexivity|]. split; [constructor|]. split.
    + assert (X : forall i, In i (inord T) -> aget (nodes s1) i = aget (nodes s) i) by (intros i Hi; apply R7, in_or_app; auto). constructor; auto; try apply W.
      * apply (reps_frame (nodes s)); auto. apply W.
      * rewrite R1. apply W.
      * rewrite R4. apply W.
      * apply (ents_ext (nodes s)); [|apply W]. intros i Hi. apply vof_aget. auto.
    + destruct RM. split; [split|]; lia.
Qed.

Lemma run_ok ops : forall s T ds es rv, wf cmp s T ds es -> room s rv -> 0 <= rv < 2 ^ 31 -> legal cmp rv es ops ->
  exists s1 T1 ds1 outs rv1, run cmp s ops = Ok (s1, outs) /\ same_outs outs (snd (map_run cmp es ops)) /\
    wf cmp s1 T1 ds1 (fst (map_run cmp es ops)) /\ room s1 rv1 /\ 0 <= rv1 < 2 ^ 31 /\ head s1 = peak cmp (head s) es ops.
Proof.
  induction ops as [|o ops IH]; intros s T ds es rv W RM Hrv LG.
  - exists s, T, ds, [], rv. cbn. split; [reflexivity|]. split; [constructor|]. auto.
  - cbn [legal] in LG. destruct LG as (L1 & L2 & L3). destruct (step_ok s T ds es rv o W RM Hrv L1 L2) as (s1 & T1 & ds1 & dr & F & P & W1 & RM1 & HD).
    cbn [run map_run peak]. rewrite F. cbn [bind]. destruct (map_step cmp es o) as [[l1 dm] b]. cbn [fst snd] in *.
    assert (Hr1 : 0 <= reserved rv o < 2 ^ 31) by (destruct o; cbn [reserved]; lia).
    destruct (IH s1 T1 ds1 l1 (reserved rv o) W1 RM1 Hr1 L3) as (s2 & T2 & ds2 & outs & rv2 & F2 & P2 & W2 & RM2 & Hr2 & HP).
    rewrite F2. cbn [bind fst snd]. exists s2, T2, ds2, ((dr, b) :: outs), rv2. split; [reflexivity|]. split; [constructor; auto|]. rewrite HD in HP. auto 6.
Qed.
End Iter.
