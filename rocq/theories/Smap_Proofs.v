(** smap: ordered lists, insertion and erasure on the node array. *)
From Verif Require Import Base Slots Smap_Model Smap_Spec Smap_Tree Smap_Sim.
From Coq Require Import Sorted.

Section Lists.
Context {K V : Type}.
Variable cmp : K -> K -> Z.
Hypothesis CO : cmp_ok cmp.
Implicit Types (l : list (K * V)) (e : K * V) (k : K).

Lemma cmp_eq_sym x y : cmp x y = 0 -> cmp y x = 0.
Proof.
  intros H. destruct (Z.lt_trichotomy (cmp y x) 0) as [A|[A|A]]; auto.
  - apply (co_opp _ CO) in A. lia.
  - apply (co_opp _ CO) in A. lia.
Qed.
Lemma cmp_pos x y : 0 < cmp x y <-> cmp y x < 0.
Proof. symmetry. apply (co_opp _ CO). Qed.
Lemma cmp_eq_trans x y z : cmp x y = 0 -> cmp y z = 0 -> cmp x z = 0.
Proof.
  intros A B. destruct (Z.lt_trichotomy (cmp x z) 0) as [C|[C|C]]; auto.
  - pose proof (co_eq_l _ CO y x z (cmp_eq_sym _ _ A) C). lia.
  - apply cmp_pos in C. pose proof (co_eq_r _ CO _ _ _ C A). apply (cmp_eq_sym) in B. lia.
Qed.

Lemma inc_app l1 l2 : increasing cmp (l1 ++ l2) <->
  increasing cmp l1 /\ increasing cmp l2 /\ (forall a b, In a l1 -> In b l2 -> cmp (fst a) (fst b) < 0).
Proof.
  induction l1 as [|a l1 IH]; cbn [app].
  - split; [intros H; repeat split; auto; [constructor|intros a b []]|tauto].
  - split.
    + intros H. inversion H as [|? ? H1 H2]; subst. apply IH in H1 as (P & Q & R). rewrite Forall_forall in H2.
      split; [constructor; auto; rewrite Forall_forall; intros x Hx; apply H2, in_or_app; auto|]. split; [exact Q|].
      intros x b [<-|Hx] Hb; [apply H2, in_or_app; auto|auto].
    + intros (H & Q & R). inversion H as [|? ? H1 H2]; subst. constructor.
      * apply IH. split; [exact H1|]. split; [exact Q|]. intros; apply R; [now right|auto].
      * rewrite Forall_forall in *. intros x Hx. apply in_app_or in Hx as [Hx|Hx]; [auto|]. apply R; [now left|exact Hx].
Qed.
Lemma inc_mid l1 e l2 : increasing cmp (l1 ++ e :: l2) <->
  increasing cmp l1 /\ increasing cmp l2 /\ (forall a, In a l1 -> cmp (fst a) (fst e) < 0) /\
  (forall b, In b l2 -> cmp (fst e) (fst b) < 0) /\ (forall a b, In a l1 -> In b l2 -> cmp (fst a) (fst b) < 0).
Proof.
  rewrite inc_app. split.
  - intros (A & B & C). inversion B as [|? ? B1 B2]; subst. rewrite Forall_forall in B2. repeat split; auto.
    + intros a Ha. apply C; [auto|now left].
    + intros a b Ha Hb. apply C; [auto|now right].
  - intros (A & B & C & D & F). split; [exact A|]. split.
    + constructor; [exact B|]. now rewrite Forall_forall.
    + intros a b Ha [<-|Hb]; auto.
Qed.

Lemma filter_none {A} (f : A -> bool) (l : list A) : (forall a, In a l -> f a = false) -> filter f l = [].
Proof. induction l as [|a l IH]; cbn; auto. intros H. rewrite H by auto. auto. Qed.
Lemma filter_all {A} (f : A -> bool) (l : list A) : (forall a, In a l -> f a = true) -> filter f l = l.
Proof. induction l as [|a l IH]; cbn; auto. intros H. rewrite H by auto. f_equal. auto. Qed.
Lemma find_none_app {A} (f : A -> bool) (l1 l2 : list A) : (forall a, In a l1 -> f a = false) -> find f (l1 ++ l2) = find f l2.
Proof. induction l1 as [|a l1 IH]; cbn; auto. intros H. rewrite H by auto. auto. Qed.
Lemma find_none_all {A} (f : A -> bool) (l : list A) : (forall a, In a l -> f a = false) -> find f l = None.
Proof. induction l as [|a l IH]; cbn; auto. intros H. rewrite H by auto. auto. Qed.
Lemma find_app {A} (f : A -> bool) (l1 l2 : list A) :
  find f (l1 ++ l2) = match find f l1 with Some a => Some a | None => find f l2 end.
Proof. induction l1 as [|a l1 IH]; cbn; auto. destruct (f a); auto. Qed.

(** Everything left of an entry below [k] is below [k], and so on. *)
Section Mid.
Variables (el er : list (K * V)) (e : K * V) (k : K).
Hypothesis INC : increasing cmp (el ++ e :: er).
Lemma left_lt a : cmp (fst e) k <= 0 -> In a el -> cmp (fst a) k < 0.
Proof.
  intros H Ha. apply inc_mid in INC as (_ & _ & B & _). specialize (B a Ha).
  destruct (Z.eq_dec (cmp (fst e) k) 0) as [E0|]; [exact (co_eq_r _ CO _ _ _ B E0)|apply (co_trans _ CO _ (fst e)); [exact B|lia]].
Qed.
Lemma right_gt a : 0 <= cmp (fst e) k -> In a er -> 0 < cmp (fst a) k.
Proof.
  intros H Ha. apply inc_mid in INC as (_ & _ & _ & B & _). specialize (B a Ha). apply cmp_pos.
  destruct (Z.eq_dec (cmp (fst e) k) 0) as [E0|].
  - exact (co_eq_l _ CO _ _ _ (cmp_eq_sym _ _ E0) B).
  - apply (co_trans _ CO _ (fst e)); [apply cmp_pos; lia|exact B].
Qed.
Lemma lookup_r : cmp (fst e) k < 0 -> lookup cmp k (el ++ e :: er) = lookup cmp k er.
Proof.
  intros H. unfold lookup. rewrite find_none_app.
  - cbn. destruct (Z.eqb_spec (cmp (fst e) k) 0); [lia|reflexivity].
  - intros a Ha. pose proof (left_lt a ltac:(lia) Ha). destruct (Z.eqb_spec (cmp (fst a) k) 0); [lia|reflexivity].
Qed.
Lemma lookup_m : cmp (fst e) k = 0 -> lookup cmp k (el ++ e :: er) = Some e.
Proof.
  intros H. unfold lookup. rewrite find_none_app.
  - cbn. now rewrite H.
  - intros a Ha. pose proof (left_lt a ltac:(lia) Ha). destruct (Z.eqb_spec (cmp (fst a) k) 0); [lia|reflexivity].
Qed.
Lemma lookup_l : 0 < cmp (fst e) k -> lookup cmp k (el ++ e :: er) = lookup cmp k el.
Proof.
  intros H. unfold lookup. rewrite find_app. destruct (find _ el); [reflexivity|].
  apply find_none_all. intros a [<-|Ha].
  - destruct (Z.eqb_spec (cmp (fst e) k) 0); [lia|reflexivity].
  - pose proof (right_gt a ltac:(lia) Ha). destruct (Z.eqb_spec (cmp (fst a) k) 0); [lia|reflexivity].
Qed.
Lemma remove_r : cmp (fst e) k < 0 -> remove cmp k (el ++ e :: er) = el ++ e :: remove cmp k er.
Proof.
  intros H. unfold remove. rewrite filter_app. rewrite filter_all.
  - cbn. destruct (Z.eqb_spec (cmp (fst e) k) 0); [lia|reflexivity].
  - intros a Ha. pose proof (left_lt a ltac:(lia) Ha). destruct (Z.eqb_spec (cmp (fst a) k) 0); [lia|reflexivity].
Qed.
Lemma remove_m : cmp (fst e) k = 0 -> remove cmp k (el ++ e :: er) = el ++ er.
Proof.
  intros H. unfold remove. rewrite filter_app. rewrite filter_all.
  - cbn. rewrite H. cbn. f_equal. apply filter_all. intros a Ha. pose proof (right_gt a ltac:(lia) Ha). destruct (Z.eqb_spec (cmp (fst a) k) 0); [lia|reflexivity].
  - intros a Ha. pose proof (left_lt a ltac:(lia) Ha). destruct (Z.eqb_spec (cmp (fst a) k) 0); [lia|reflexivity].
Qed.
Lemma remove_l : 0 < cmp (fst e) k -> remove cmp k (el ++ e :: er) = remove cmp k el ++ e :: er.
Proof.
  intros H. unfold remove. rewrite filter_app. f_equal. cbn. destruct (Z.eqb_spec (cmp (fst e) k) 0); [lia|]. cbn. f_equal.
  apply filter_all. intros a Ha. pose proof (right_gt a ltac:(lia) Ha). destruct (Z.eqb_spec (cmp (fst a) k) 0); [lia|reflexivity].
Qed.
Lemma add_r v : cmp (fst e) k < 0 -> add cmp k v (el ++ e :: er) = el ++ e :: add cmp k v er.
Proof.
  intros H. unfold add, below, above. rewrite !filter_app. cbn [filter].
  destruct (Z.ltb_spec (cmp (fst e) k) 0); [|lia]. destruct (Z.ltb_spec 0 (cmp (fst e) k)); [lia|].
  rewrite (filter_all (fun x => cmp (fst x) k <? 0) el), (filter_none (fun x => 0 <? cmp (fst x) k) el).
  - rewrite <- app_assoc. reflexivity.
  - intros a Ha. pose proof (left_lt a ltac:(lia) Ha). lia.
  - intros a Ha. pose proof (left_lt a ltac:(lia) Ha). lia.
Qed.
Lemma add_l v : 0 < cmp (fst e) k -> add cmp k v (el ++ e :: er) = add cmp k v el ++ e :: er.
Proof.
  intros H. unfold add, below, above. rewrite !filter_app. cbn [filter].
  destruct (Z.ltb_spec (cmp (fst e) k) 0); [lia|]. destruct (Z.ltb_spec 0 (cmp (fst e) k)); [|lia].
  rewrite (filter_none (fun x => cmp (fst x) k <? 0) er), (filter_all (fun x => 0 <? cmp (fst x) k) er).
  - rewrite app_nil_r, <- app_assoc. reflexivity.
  - intros a Ha. pose proof (right_gt a ltac:(lia) Ha). lia.
  - intros a Ha. pose proof (right_gt a ltac:(lia) Ha). lia.
Qed.
Lemma assign_r v : cmp (fst e) k < 0 -> assign cmp k v (el ++ e :: er) = el ++ e :: assign cmp k v er.
Proof.
  intros H. unfold assign. rewrite map_app. cbn [map]. destruct (Z.eqb_spec (cmp (fst e) k) 0); [lia|]. f_equal.
  rewrite <- (map_id el) at 2. apply map_ext_in. intros a Ha. pose proof (left_lt a ltac:(lia) Ha). destruct (Z.eqb_spec (cmp (fst a) k) 0); [lia|reflexivity].
Qed.
Lemma assign_l v : 0 < cmp (fst e) k -> assign cmp k v (el ++ e :: er) = assign cmp k v el ++ e :: er.
Proof.
  intros H. unfold assign. rewrite map_app. cbn [map]. destruct (Z.eqb_spec (cmp (fst e) k) 0); [lia|]. f_equal. f_equal.
  rewrite <- (map_id er) at 2. apply map_ext_in. intros a Ha. pose proof (right_gt a ltac:(lia) Ha). destruct (Z.eqb_spec (cmp (fst a) k) 0); [lia|reflexivity].
Qed.
Lemma assign_m v : cmp (fst e) k = 0 -> assign cmp k v (el ++ e :: er) = el ++ (fst e, v) :: er.
Proof.
  intros H. unfold assign. rewrite map_app. cbn [map]. rewrite H. cbn [Z.eqb]. f_equal; [|f_equal].
  - rewrite <- (map_id el) at 2. apply map_ext_in. intros a Ha. pose proof (left_lt a ltac:(lia) Ha). destruct (Z.eqb_spec (cmp (fst a) k) 0); [lia|reflexivity].
  - rewrite <- (map_id er) at 2. apply map_ext_in. intros a Ha. pose proof (right_gt a ltac:(lia) Ha). destruct (Z.eqb_spec (cmp (fst a) k) 0); [lia|reflexivity].
Qed.
End Mid.

Lemma inc_filter (f : K * V -> bool) l : increasing cmp l -> increasing cmp (filter f l).
Proof.
  induction l as [|a l IH]; cbn; auto. intros H. inversion H as [|? ? H1 H2]; subst. specialize (IH H1).
  destruct (f a); [|exact IH]. constructor; [exact IH|]. rewrite Forall_forall in *. intros x Hx. apply filter_In in Hx as [Hx _]. auto.
Qed.
Lemma inc_assign k v l : increasing cmp l -> increasing cmp (assign cmp k v l).
Proof.
  induction l as [|a l IH]; [constructor|]. intros H. inversion H as [|? ? H1 H2]; subst. specialize (IH H1).
  cbn [assign map]. constructor; [exact IH|]. rewrite Forall_forall in *. intros x Hx. apply in_map_iff in Hx as (y & <- & Hy).
  specialize (H2 y Hy). unfold entry_lt in *. destruct (cmp (fst a) k =? 0), (cmp (fst y) k =? 0); exact H2.
Qed.
Lemma inc_add k v l : increasing cmp l -> lookup cmp k l = None -> increasing cmp (add cmp k v l).
Proof.
  intros H HN. unfold add. apply inc_mid. repeat split.
  - apply inc_filter; auto.
  - apply inc_filter; auto.
  - intros a Ha. apply filter_In in Ha as [_ Ha]. cbn. lia.
  - intros b Hb. apply filter_In in Hb as [_ Hb]. cbn. apply cmp_pos. lia.
  - intros a b Ha Hb. apply filter_In in Ha as [_ Ha]. apply filter_In in Hb as [_ Hb].
    apply (co_trans _ CO _ k); [lia|]. apply cmp_pos. lia.
Qed.
End Lists.

Section Proofs.
Context {K V : Type}.
Variable cmp : K -> K -> Z.
Hypothesis CO : cmp_ok cmp.
Implicit Types (d : slots (node K V)) (t l r : tree) (n : node K V) (es : list (K * V)).

Definition ents d (L : list Z) es : Prop := map (vof d) L = map Some es.
Lemma ents_app d L1 L2 es : ents d (L1 ++ L2) es <-> exists e1 e2, es = e1 ++ e2 /\ ents d L1 e1 /\ ents d L2 e2.
Proof.
  unfold ents. rewrite map_app. split.
  - intros H. symmetry in H. apply map_eq_app in H as (e1 & e2 & -> & A & B). exists e1, e2. auto.
  - intros (e1 & e2 & -> & A & B). now rewrite map_app, A, B.
Qed.
Lemma ents_cons d i L es : ents d (i :: L) es <-> exists e er, es = e :: er /\ vof d i = Some e /\ ents d L er.
Proof.
  unfold ents. cbn [map]. split.
  - destruct es as [|e er]; cbn [map]; [discriminate|]. intros [= A B]. eauto.
  - intros (e & er & -> & A & B). cbn. now rewrite A, B.
Qed.
Lemma ents_mid d L1 i L2 es : ents d (L1 ++ i :: L2) es <->
  exists e1 e e2, es = e1 ++ e :: e2 /\ ents d L1 e1 /\ vof d i = Some e /\ ents d L2 e2.
Proof.
  rewrite ents_app. split.
  - intros (e1 & e2 & -> & A & B). apply ents_cons in B as (e & er & -> & B & C). eauto 8.
  - intros (e1 & e & e2 & -> & A & B & C). exists e1, (e :: e2). split; [reflexivity|]. split; [exact A|]. apply ents_cons. eauto.
Qed.
Lemma ents_ext d d' L es : (forall i, In i L -> vof d' i = vof d i) -> ents d L es -> ents d' L es.
Proof. intros H A. unfold ents in *. rewrite <- A. now apply map_ext_in. Qed.
Lemma ents_zlen d L es : ents d L es -> zlen es = zlen L.
Proof. unfold ents. intros H. apply (f_equal (@length _)) in H. rewrite !map_length in H. unfold zlen. lia. Qed.

Lemma vof_aget d d' i : aget d' i = aget d i -> vof d' i = vof d i.
Proof. unfold vof. now intros ->. Qed.
Lemma get_val_ok d i e : vof d i = Some e -> get_val d i = Ok e.
Proof.
  unfold vof, get_val, rd. destruct (aget d i) as [[n|]|]; cbn; try discriminate. intros ->. reflexivity.
Qed.

(** * Search *)
Definition kc d (k : K) (i : Z) : Z := match vof d i with Some e => cmp (fst e) k | None => 0 end.
Fixpoint path (c : Z -> Z) t (up : list Z) : list Z :=
  match t with E => up | N i lv l r => if c i <? 0 then path c r (i :: up) else path c l (i :: up) end.
Fixpoint locate (c : Z -> Z) t : option Z :=
  match t with E => None | N i lv l r => if c i =? 0 then Some i else if c i <? 0 then locate c r else locate c l end.
Fixpoint lastdir (c : Z -> Z) t (b : bool) : bool :=
  match t with E => b | N i lv l r => if c i <? 0 then lastdir c r true else lastdir c l false end.

Lemma locate_ok d t k : forall es, ents d (inord t) es -> increasing cmp es ->
  match locate (kc d k) t with
  | Some i => In i (inord t) /\ exists e, vof d i = Some e /\ cmp (fst e) k = 0 /\ lookup cmp k es = Some e
  | None => lookup cmp k es = None
  end.
Proof.
  induction t as [|i lv l IHl r IHr]; cbn [inord locate]; intros es H INC.
  - destruct es; [reflexivity|discriminate].
  - apply ents_mid in H as (el & e & er & -> & Hl & He & Hr). pose proof INC as INC'. apply inc_mid in INC' as (Il & Ir & _).
    unfold kc at 1 2. rewrite He. destruct (Z.eqb_spec (cmp (fst e) k) 0) as [E0|N0].
    + split; [apply in_or_app; right; now left|]. exists e. split; [exact He|]. split; [exact E0|]. now apply (lookup_m cmp CO).
    + destruct (Z.ltb_spec (cmp (fst e) k) 0).
      * specialize (IHr er Hr Ir). rewrite (lookup_r cmp CO) by auto. destruct (locate (kc d k) r); [|exact IHr].
        destruct IHr as [A B]. split; [apply in_or_app; right; now right|exact B].
      * specialize (IHl el Hl Il). rewrite (lookup_l cmp CO) by (auto; lia). destruct (locate (kc d k) l); [|exact IHl].
        destruct IHl as [A B]. split; [apply in_or_app; now left|exact B].
Qed.

Lemma reps_rd d i lv l r : reps d (N i lv l r) -> exists o, rd d i = Ok (mknode (rt l) (rt r) lv o) /\ aget d i = Ok (Some (mknode (rt l) (rt r) lv o)).
Proof. intros (_ & _ & (o & C) & _). exists o. unfold rd. rewrite C. auto. Qed.

Lemma descend_ok d k fuel : forall t up dir es, reps d t -> ents d (inord t) es -> zlen up + height t <= 64 -> height t < Z.of_nat fuel ->
  descend cmp fuel d (rt t) k up dir =
    Ok (match locate (kc d k) t with Some i => inl i | None => inr (path (kc d k) t up, lastdir (kc d k) t dir) end).
Proof.
  induction fuel as [|fuel IH]; intros t up dir es R H Hu Hf; [pose proof (height_nonneg t); lia|].
  cbn [descend]. destruct t as [|i lv l r]; [reflexivity|].
  destruct (reps_rd _ _ _ _ _ R) as (o & Erd & _). destruct R as (P & L & _ & Rl & Rr).
  cbn [inord] in H. apply ents_mid in H as (el & e & er & -> & Hl & He & Hr). cbn [rt locate path lastdir]. cbn [height] in Hu, Hf.
  pose proof (height_nonneg l). pose proof (height_nonneg r).
  destruct (Z.eqb_spec i 0); [lia|]. destruct (Z.leb_spec 64 (zlen up)); [lia|]. rewrite Erd. cbn [bind].
  rewrite (get_val_ok _ _ _ He). cbn [bind]. assert (Hc : kc d k i = cmp (fst e) k) by (unfold kc; now rewrite He). rewrite Hc.
  destruct (Z.eqb_spec (cmp (fst e) k) 0); [reflexivity|].
  destruct (cmp (fst e) k <? 0); cbn [link lk0 lk1].
  - apply (IH r _ _ er); auto; [rewrite zlen_cons; lia|lia].
  - apply (IH l _ _ el); auto; [rewrite zlen_cons; lia|lia].
Qed.

(** * Insertion *)
Lemma insB_rt c p t : t <> E -> rt (insB c p t) = rt t.
Proof. destruct t; [congruence|]. intros _. cbn. destruct (c i <? 0); reflexivity. Qed.
Lemma insB_In c p t x : In x (inord (insB c p t)) <-> x = p \/ In x (inord t).
Proof.
  induction t as [|i lv l IHl r IHr]; cbn [insB].
  - cbn. intuition.
  - destruct (c i <? 0); cbn [inord]; rewrite !in_app_iff; cbn [In].
    + rewrite IHr. tauto.
    + rewrite IHl. tauto.
Qed.
Lemma insB_perm c p t : Permutation (inord (insB c p t)) (p :: inord t).
Proof.
  induction t as [|i lv l IHl r IHr]; cbn [insB inord].
  - reflexivity.
  - destruct (c i <? 0); cbn [inord].
    + rewrite IHr. rewrite (Permutation_middle (inord l) (i :: inord r) p). apply Permutation_app_head. constructor.
    + rewrite IHl. reflexivity.
Qed.
Lemma insB_ents d d' p k v t : forall es, ents d (inord t) es -> increasing cmp es -> locate (kc d k) t = None ->
  (forall i, In i (inord t) -> vof d' i = vof d i) -> vof d' p = Some (k, v) ->
  ents d' (inord (insB (kc d k) p t)) (add cmp k v es).
Proof.
  induction t as [|i lv l IHl r IHr]; cbn [inord insB locate]; intros es H INC HN Hv Hp.
  - destruct es; [|discriminate]. cbn. unfold ents. cbn. now rewrite Hp.
  - apply ents_mid in H as (el & e & er & -> & Hl & He & Hr). pose proof INC as INC'. apply inc_mid in INC' as (Il & Ir & _).
    assert (Hc : kc d k i = cmp (fst e) k) by (unfold kc; now rewrite He). rewrite Hc in *.
    destruct (Z.eqb_spec (cmp (fst e) k) 0); [discriminate|]. destruct (Z.ltb_spec (cmp (fst e) k) 0); cbn [inord].
    + rewrite (add_r cmp CO) by auto. apply ents_mid. exists el, e, (add cmp k v er). split; [reflexivity|].
      split; [apply (ents_ext d); auto; intros; apply Hv, in_or_app; auto|].
      split; [rewrite Hv; [exact He|]; apply in_or_app; right; now left|].
      apply IHr; auto. intros; apply Hv, in_or_app; right; now right.
    + rewrite (add_l cmp CO) by (auto; lia). apply ents_mid. exists (add cmp k v el), e, er. split; [reflexivity|].
      split; [apply IHl; auto; intros; apply Hv, in_or_app; auto|].
      split; [rewrite Hv; [exact He|]; apply in_or_app; right; now left|].
      apply (ents_ext d); auto; intros; apply Hv, in_or_app; right; now right.
Qed.

Lemma attach d c p t : forall up b, t <> E -> reps d t -> NoDup (p :: inord t) -> 0 < p ->
  (exists o, aget d p = Ok (Some (mknode 0 0 1 o))) -> locate c t = None ->
  exists u d', (exists rest, path c t up = u :: rest) /\ In u (inord t) /\ set_link d u (lastdir c t b) p = Ok d' /\
    reps d' (insB c p t) /\ chg [u] d d'.
Proof.
  induction t as [|i lv l IHl r IHr]; intros up b HE R ND Hp0 Hp HN; [congruence|].
  pose proof R as (P & L & (o & G) & Rl & Rr). cbn [locate] in HN. destruct (c i =? 0) eqn:E0; [discriminate|].
  cbn [path lastdir insB]. apply NoDup_cons_iff in ND as (Np & ND). destruct (nd_node _ _ _ _ ND) as (Nl & Nr & Il & Ir & Dis).
  cbn [inord] in Np. assert (Npl : ~ In p (inord l)) by (intros X; apply Np, in_or_app; auto).
  assert (Npr : ~ In p (inord r)) by (intros X; apply Np, in_or_app; right; now right).
  assert (Npi : p <> i) by (intros ->; apply Np, in_or_app; right; now left).
  destruct (c i <? 0).
  - destruct r as [|j lj a e].
    + cbn [path lastdir insB]. destruct (set_link_ok d i true p _ G) as (d' & F & G' & C). exists i, d'.
      split; [eauto|]. split; [cbn; apply in_or_app; right; now left|]. split; [exact F|]. split; [|exact C].
      cbn [reps rt]. split; [exact P|]. split; [exact L|]. split; [exists o; exact G'|]. split.
      * apply (reps_chg [i] d d' l C); auto. intros x Hx [->|[]]. auto.
      * split; [exact Hp0|]. split; [lia|]. split; [|auto]. destruct Hp as [o' Hp]. exists o'. rewrite (proj1 (proj2 C)); [exact Hp|]. intros [->|[]]. auto.
    + destruct (IHr (i :: up) true) as (u & d' & Hpath & Hu & F & R' & C); auto; try discriminate; [constructor; auto|].
      exists u, d'. split; [exact Hpath|]. split; [cbn [inord]; apply in_or_app; right; now right|]. split; [exact F|]. split; [|exact C].
      cbn [reps]. split; [exact P|]. split; [exact L|]. split.
      * exists o. rewrite insB_rt by discriminate. rewrite (proj1 (proj2 C)); [exact G|]. intros [<-|[]]. auto.
      * split; [|exact R']. apply (reps_chg [u] d d' l C); auto. intros x Hx [<-|[]]. exact (Dis u Hx Hu).
  - destruct l as [|j lj a e].
    + cbn [path lastdir insB]. destruct (set_link_ok d i false p _ G) as (d' & F & G' & C). exists i, d'.
      split; [eauto|]. split; [cbn; now left|]. split; [exact F|]. split; [|exact C].
      cbn [reps rt]. split; [exact P|]. split; [exact L|]. split; [exists o; exact G'|]. split.
      * split; [exact Hp0|]. split; [lia|]. split; [|auto]. destruct Hp as [o' Hp]. exists o'. rewrite (proj1 (proj2 C)); [exact Hp|]. intros [->|[]]. auto.
      * apply (reps_chg [i] d d' r C); auto. intros x Hx [->|[]]. auto.
    + destruct (IHl (i :: up) false) as (u & d' & Hpath & Hu & F & R' & C); auto; try discriminate; [constructor; auto|].
      exists u, d'. split; [exact Hpath|]. split; [cbn [inord]; apply in_or_app; now left|]. split; [exact F|]. split; [|exact C].
      cbn [reps]. split; [exact P|]. split; [exact L|]. split.
      * exists o. rewrite insB_rt by discriminate. rewrite (proj1 (proj2 C)); [exact G|]. intros [<-|[]]. auto.
      * split; [exact R'|]. apply (reps_chg [u] d d' r C); auto. intros x Hx [<-|[]]. exact (Dis u Hu Hx).
Qed.

Lemma fix_one d d0 S rest i lv l r x : reps d (N i lv l r) -> good0 d -> NoDup (inord (N i lv l r)) ->
  S = inord (N i lv l r) -> x = splitT (skewT (N i lv l r)) ->
  match rest with [] => True | u :: _ => ~ In u S /\ aget d u = aget d0 u end ->
  exists d', reps d' x /\ chg S d d' /\
    fix_loop d (i :: rest) = match rest with
      | [] => Ok (d', rt x)
      | u :: _ => let* n := rd d0 u in let* d2 := set_link d' u (lk1 n =? i) (rt x) in fix_loop d2 rest end.
Proof.
  intros R G ND -> -> Hr. cbn [fix_loop].
  destruct (skew_sim d _ R G ND) as (d1 & F1 & R1 & C1). cbn [rt] in F1.
  assert (G1 : good0 d1) by (apply (good0_chg _ d d1 (N i lv l r) G C1 R), incl_refl).
  assert (HE : skewT (N i lv l r) <> E). { intros X. pose proof (inord_skew (N i lv l r)) as Y. rewrite X in Y. cbn in Y. symmetry in Y. now apply app_eq_nil in Y as [_ Y]. }
  destruct (split_sim d1 _ R1 G1) as (d2 & F2 & R2 & C2); [now rewrite inord_skew|exact HE|].
  exists d2. split; [exact R2|]. rewrite inord_skew in C2.
  split; [apply (chg_trans _ _ _ _ _ _ C1 C2); apply incl_refl|].
  destruct rest as [|u rest].
  - cbn [bind]. rewrite F1. cbn [bind fst snd]. rewrite F2. reflexivity.
  - destruct Hr as [_ Hu]. unfold rd at 1 2. rewrite Hu. destruct (aget d0 u) as [[n|]|]; cbn [bind]; try reflexivity.
    rewrite F1. cbn [bind fst snd]. rewrite F2. reflexivity.
Qed.

Lemma fix_ok c p t : forall d rest, t <> E -> reps d (insB c p t) -> good0 d -> NoDup (inord (insB c p t)) -> locate c t = None ->
  match rest with [] => True | u :: _ => ~ In u (inord (insB c p t)) end ->
  exists d', reps d' (insT c p t) /\ chg (inord (insB c p t)) d d' /\
    fix_loop d (path c t rest) = match rest with
      | [] => Ok (d', rt (insT c p t))
      | u :: _ => let* n := rd d u in let* d2 := set_link d' u (lk1 n =? rt t) (rt (insT c p t)) in fix_loop d2 rest end.
Proof.
  induction t as [|i lv l IHl r IHr]; intros d rest HE R G ND HN Hr; [congruence|].
  cbn [locate] in HN. destruct (c i =? 0) eqn:E0; [discriminate|]. cbn [path insB insT rt] in *. destruct (c i <? 0).
  - destruct r as [|j lj a e].
    + cbn [path insT insB] in *. destruct (fix_one d d (inord (N i lv l (N p 1 E E))) rest i lv l (N p 1 E E) _ R G ND eq_refl eq_refl) as (d' & R' & C & F).
      { destruct rest; auto. }
      exists d'. auto.
    + set (r := N j lj a e) in *. destruct (nd_node _ _ _ _ ND) as (Nl & Nr & Il & Ir & Dis).
      pose proof R as (P & L & (o & Gi) & Rl & Rr).
      destruct (IHr d (i :: rest)) as (d1 & R1 & C1 & F1); auto; try discriminate.
      rewrite F1. unfold rd at 1. rewrite Gi. cbn [bind lk1]. rewrite insB_rt by discriminate. rewrite Z.eqb_refl.
      destruct (right_sim (inord (insB c p r)) d d1 i lv l (insB c p r) (insT c p r) R ND C1 (incl_refl _) R1) as (d2 & F2 & R2 & C2).
      { intros x. now rewrite inord_insT. }
      rewrite F2. cbn [bind].
      assert (T : inord (N i lv l (insT c p r)) = inord (N i lv l (insB c p r))) by (cbn [inord]; now rewrite inord_insT).
      assert (G2 : good0 d2) by (apply (good0_chg _ d d2 _ G C2 R), incl_refl).
      destruct (fix_one d2 d (inord (N i lv l (insB c p r))) rest i lv l (insT c p r) (splitT (skewT (N i lv l (insT c p r)))) R2 G2) as (d3 & R3 & C3 & F3); auto.
      { now rewrite T. }
      { destruct rest as [|u rest]; auto. split; [exact Hr|]. now apply C2. }
      exists d3. split; [exact R3|]. split; [apply (chg_trans _ _ _ _ _ _ C2 C3); apply incl_refl|]. exact F3.
  - destruct l as [|j lj a e].
    + cbn [path insT insB] in *. destruct (fix_one d d (inord (N i lv (N p 1 E E) r)) rest i lv (N p 1 E E) r _ R G ND eq_refl eq_refl) as (d' & R' & C & F).
      { destruct rest; auto. }
      exists d'. auto.
    + set (l := N j lj a e) in *. destruct (nd_node _ _ _ _ ND) as (Nl & Nr & Il & Ir & Dis).
      pose proof R as (P & L & (o & Gi) & Rl & Rr).
      destruct (IHl d (i :: rest)) as (d1 & R1 & C1 & F1); auto; try discriminate.
      rewrite F1. unfold rd at 1. rewrite Gi. cbn [bind lk1].
      assert (Hd : (rt r =? rt l) = false).
      { apply Z.eqb_neq. intros X. destruct (reps_rt _ _ Rr) as [->|[_ Y]].
        - cbn in X. destruct (reps_rt _ _ Rl) as [Z|[Z _]]; rewrite ?insB_rt in Z by discriminate; [|cbn [rt l] in *; lia].
          assert (In p (inord (insB c p l))) by (apply insB_In; auto). rewrite Z in H. exact H.
        - rewrite X in Y. apply (Dis (rt l)); [apply insB_In|exact Y]. right. unfold l. cbn. apply in_or_app. right. now left. }
      rewrite Hd.
      destruct (left_sim (inord (insB c p l)) d d1 i lv (insB c p l) r (insT c p l) R ND C1 (incl_refl _) R1) as (d2 & F2 & R2 & C2).
      { intros x. now rewrite inord_insT. }
      rewrite F2. cbn [bind].
      assert (T : inord (N i lv (insT c p l) r) = inord (N i lv (insB c p l) r)) by (cbn [inord]; now rewrite inord_insT).
      assert (G2 : good0 d2) by (apply (good0_chg _ d d2 _ G C2 R), incl_refl).
      destruct (fix_one d2 d (inord (N i lv (insB c p l) r)) rest i lv (insT c p l) r (splitT (skewT (N i lv (insT c p l) r))) R2 G2) as (d3 & R3 & C3 & F3); auto.
      { now rewrite T. }
      { destruct rest as [|u rest]; auto. split; [exact Hr|]. now apply C2. }
      exists d3. split; [exact R3|]. split; [apply (chg_trans _ _ _ _ _ _ C2 C3); apply incl_refl|]. exact F3.
Qed.
End Proofs.
