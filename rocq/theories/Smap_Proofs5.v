(** smap: clone, and the lemmas about histories the property file quotes. *)
From Verif Require Import Base Slots Smap_Model Smap_Spec Smap_Tree Smap_Sim Smap_Proofs Smap_Proofs2 Smap_Proofs3 Smap_Proofs4.
From Verif Require Hmap_Proofs2.

Section Clone.
Context {K V : Type}.
Variable cmp : K -> K -> Z.
Hypothesis CO : cmp_ok cmp.
Implicit Types (d : slots (node K V)) (t l r : tree) (n : node K V) (es : list (K * V)) (s : smap K V).

Fixpoint shape t t' : Prop :=
  match t, t' with
  | E, E => True
  | N _ lv l r, N _ lv' l' r' => lv = lv' /\ shape l l' /\ shape r r'
  | _, _ => False
  end.
Lemma shape_lvl t t' : shape t t' -> lvl t = lvl t'.
Proof. destruct t, t'; cbn; tauto. Qed.
Lemma shape_rgt t t' : shape t t' -> shape (rgt t) (rgt t').
Proof. destruct t, t'; cbn; tauto. Qed.
Lemma shape_aa t : forall t', shape t t' -> aa t -> aa t'.
Proof.
  induction t as [|i lv l IHl r IHr]; intros [|i' lv' l' r']; cbn; try tauto. intros (<- & S1 & S2) (A & B & C & D & F).
  rewrite <- (shape_lvl _ _ S1), <- (shape_lvl _ _ S2), <- (shape_lvl _ _ (shape_rgt _ _ S2)). auto 8.
Qed.

Lemma put_gen s L ds i e n : base s L ds -> In i L -> aget (nodes s) i = Ok (Some n) ->
  exists s', put_val s i e = Ok s' /\ base s' L ds /\ aget (nodes s') i = Ok (Some (with_val (Some e) n)) /\
    (forall j, j <> i -> aget (nodes s') j = aget (nodes s) j) /\
    root s' = root s /\ size s' = size s /\ head s' = head s /\ cap s' = cap s /\ disp s' = disp s.
Proof.
  intros B Hi Hn. unfold put_val. destruct (set_val_ok (nodes s) i e n Hn) as (d' & F & G & Z & X & _). rewrite F. cbn [bind].
  eexists. split; [reflexivity|]. cbn [nodes root size head cap disp]. split; [apply base_chg; auto; intros j Hj; apply X; intros ->; auto|]. auto 8.
Qed.
Lemma link_gen s L ds i b x n : base s L ds -> In i L -> aget (nodes s) i = Ok (Some n) ->
  exists d', set_link (nodes s) i b x = Ok d' /\ base (mksmap d' (root s) (disp s) (head s) (size s) (cap s)) L ds /\
    aget d' i = Ok (Some (with_link b x n)) /\ (forall j, j <> i -> aget d' j = aget (nodes s) j).
Proof.
  intros B Hi Hn. destruct (set_link_ok (nodes s) i b x n Hn) as (d' & F & G & (Z & X & _)). exists d'. split; [exact F|].
  assert (X' : forall j, j <> i -> aget d' j = aget (nodes s) j) by (intros j Hj; apply X; intros [->|[]]; auto).
  split; [|auto]. apply base_chg; auto. intros j Hj. apply X'. intros ->. auto.
Qed.
Lemma base_head s L : base s L [] -> head s = zlen L.
Proof. intros B. rewrite <- (b_len _ _ _ B), app_nil_r. reflexivity. Qed.

Lemma clone_r_ok src fuel : forall t s L es, reps src t -> ents src (inord t) es -> height t < Z.of_nat fuel ->
  base s L [] -> zlen L + zlen (inord t) <= cap s ->
  exists s' T', clone_r fuel s src (rt t) = Ok (s', rt T') /\ base s' (inord T' ++ L) [] /\ reps (nodes s') T' /\ shape t T' /\
    ents (nodes s') (inord T') es /\ (forall i, In i L -> aget (nodes s') i = aget (nodes s) i) /\ cap s' = cap s.
Proof.
  induction fuel as [|fuel IH]; intros t s L es R EN Hf B HC; [pose proof (height_nonneg t); lia|]. cbn [clone_r].
  destruct t as [|i lv l r].
  { cbn [rt Z.eqb]. exists s, E. cbn. destruct es; [|discriminate]. auto 8. }
  destruct (reps_rd _ _ _ _ _ R) as (o & E1 & Gi). destruct R as (P & Lv & _ & Rl & Rr).
  cbn [rt]. destruct (Z.eqb_spec i 0); [lia|]. rewrite E1. cbn [bind lk0 lk1 lev].
  cbn [inord] in EN, HC. rewrite zlen_app, zlen_cons in HC. apply ents_mid in EN as (el & e & er & -> & Hl & He & Hr).
  cbn [height] in Hf. pose proof (height_nonneg l). pose proof (height_nonneg r). pose proof (zlen_nonneg (inord l)). pose proof (zlen_nonneg (inord r)).
  assert (RM : room s (cap s)) by (split; [lia|]; pose proof (b_cap _ _ _ B); lia).
  destruct (new_node_ok s L [] (cap s) lv B RM) as (s1 & p & ds1 & F1 & B1 & RM1 & _ & _ & Gp & FR1 & _ & _ & Hh & Hc1); [lia|].
  specialize (Hc1 ltac:(lia)). pose proof (base_head _ _ B) as HH.
  assert (ds1 = []). { pose proof (b_len _ _ _ B1) as X. cbn [app] in X. rewrite zlen_cons, zlen_app in X. destruct ds1; [auto|]. rewrite zlen_cons in X. pose proof (zlen_nonneg ds1). lia. }
  subst ds1. rewrite F1. cbn [bind fst snd]. rewrite (get_val_ok _ _ _ He). cbn [bind].
  destruct (put_gen s1 (p :: L) [] p e _ B1 ltac:(now left) Gp) as (s2 & F2 & B2 & Gp2 & X2 & _ & _ & Hh2 & Hc2 & _). rewrite F2. cbn [bind].
  destruct (IH l s2 (p :: L) el Rl Hl ltac:(lia) B2) as (s3 & l' & F3 & B3 & R3 & S3 & N3 & X3 & Hc3); [rewrite zlen_cons; lia|].
  rewrite F3. cbn [bind fst snd].
  assert (Gp3 : aget (nodes s3) p = Ok (Some (with_val (Some e) (mknode 0 0 lv None)))) by (rewrite X3 by (now left); exact Gp2).
  assert (Hp3 : In p (inord l' ++ p :: L)) by (apply in_or_app; right; now left).
  destruct (link_gen s3 _ [] p false (rt l') _ B3 Hp3 Gp3) as (d4 & F4 & B4 & Gp4 & X4). rewrite F4. cbn [bind].
  set (s4 := mksmap d4 (root s3) (disp s3) (head s3) (size s3) (cap s3)) in *.
  destruct (IH r s4 (inord l' ++ p :: L) er Rr Hr ltac:(lia) B4) as (s5 & r' & F5 & B5 & R5 & S5 & N5 & X5 & Hc5).
  { rewrite zlen_app, zlen_cons. assert (zlen (inord l') = zlen (inord l)) by (rewrite <- (ents_zlen _ _ _ N3), (ents_zlen _ _ _ Hl); reflexivity). unfold s4. cbn [cap]. lia. }
  rewrite F5. cbn [bind fst snd].
  assert (Gp5 : aget (nodes s5) p = Ok (Some (mknode (rt l') 0 lv (Some e)))) by (rewrite X5 by exact Hp3; exact Gp4).
  assert (Hp5 : In p (inord r' ++ inord l' ++ p :: L)) by (apply in_or_app; right; exact Hp3).
  destruct (link_gen s5 _ [] p true (rt r') _ B5 Hp5 Gp5) as (d6 & F6 & B6 & Gp6 & X6). rewrite F6. cbn [bind].
  pose proof (b_nd _ _ _ B5) as ND. rewrite app_nil_r in ND. apply nodup_app in ND as (ND1 & ND2 & ND3). apply nodup_app in ND2 as (ND4 & ND5 & ND6).
  apply NoDup_cons_iff in ND5 as (ND5 & ND7).
  assert (Np1 : forall x, In x (inord l') -> x <> p) by (intros x Hx ->; apply (ND6 p Hx); now left).
  assert (Np2 : forall x, In x (inord r') -> x <> p) by (intros x Hx ->; exact (ND3 p Hx Hp3)).
  assert (Xl : forall x, In x (inord l') -> aget d6 x = aget (nodes s3) x).
  { intros x Hx. rewrite X6 by auto. rewrite X5 by (apply in_or_app; auto). cbn [nodes s4]. apply X4. auto. }
  eexists _, (N p lv l' r'). split; [reflexivity|]. cbn [nodes cap inord rt].
  split; [|split; [|split; [|split; [|split]]]].
  - apply (base_perm _ (inord r' ++ inord l' ++ p :: L)); [exact B6|].
    rewrite <- app_assoc. rewrite Permutation_app_swap_app. apply Permutation_app_head. cbn [app].
    rewrite <- Permutation_middle. reflexivity.
  - cbn [reps]. assert (1 <= p) by (apply (b_rng _ _ _ B1); now left). split; [lia|]. split; [exact Lv|]. split; [exists (Some e); exact Gp6|]. split.
    + apply (reps_frame (nodes s3)); auto.
    + apply (reps_frame (nodes s5)); auto.
  - cbn. auto.
  - apply ents_mid. exists el, e, er. split; [reflexivity|]. split; [|split].
    + apply (ents_ext (nodes s3)); auto. intros x Hx. apply vof_aget. auto.
    + unfold vof. rewrite Gp6. reflexivity.
    + apply (ents_ext (nodes s5)); auto. intros x Hx. apply vof_aget. auto.
  - intros x Hx. assert (x <> p) by (intros ->; auto). rewrite X6 by auto.
    rewrite X5 by (apply in_or_app; right; now right). cbn [nodes s4]. rewrite X4 by auto. rewrite X3 by (now right). rewrite X2 by auto. auto.
  - unfold s4 in Hc5. cbn [cap] in Hc5. lia.
Qed.

Lemma base_init : base (K:=K) (V:=V) init [] [].
Proof. constructor; cbn; auto; try lia. constructor. Qed.

(** The clone: readable in any case; as good as the original if no node is disposed. *)
Lemma clone_ok s T ds es : wf cmp s T ds es -> head s < 2 ^ 31 ->
  exists c T', clone s = Ok c /\ readable cmp c T' es /\ size c = size s /\ head c = head s /\ cap c = size s /\ disp c = 0 /\
    (cap c = 0 -> T' = E) /\ zlen (nodes c) = (if size s =? 0 then 0 else size s + 1) /\ (ds = [] -> wf cmp c T' [] es /\ room c (size s)).
Proof.
  intros W H31. unfold clone. pose proof (zlen_nonneg (inord T)) as Z0. pose proof (w_size _ _ _ _ _ W) as HS.
  destruct (reserve_ok init [] [] (size s) base_init) as (s0 & b & F & B0 & R1 & R2 & R3 & R4 & R5 & R6 & _). rewrite F. cbn [bind fst].
  cbn [cap init] in R5. rewrite (w_root _ _ _ _ _ W).
  pose proof (wf_readable cmp s T ds es W H31) as RD.
  destruct (clone_r_ok (nodes s) (S (length (nodes s))) T s0 [] es) as (s1 & T' & F1 & B1 & RR & SH & EN & _ & HC); try apply W; auto.
  { pose proof (height_count T). pose proof (r_len _ _ _ _ RD). unfold zlen in *. lia. }
  { change (zlen (@nil Z)) with 0. lia. }
  rewrite F1. cbn [bind fst snd]. rewrite app_nil_r in B1.
  assert (AA : aa T') by (apply (shape_aa T); auto; apply W).
  assert (Zl : zlen (inord T') = zlen (inord T)) by (rewrite <- (ents_zlen _ _ _ EN), (ents_zlen _ _ _ (w_ents _ _ _ _ _ W)); reflexivity).
  pose proof (b_chain _ _ _ B1) as Hd. cbn in Hd. pose proof (base_head _ _ B1) as HH. pose proof (b_cap _ _ _ B1) as HCp.
  eexists _, T'. split; [reflexivity|]. cbn [size head cap disp nodes].
  assert (RDc : readable cmp (mksmap (nodes s1) (rt T') (disp s1) (head s) (size s) (cap s1)) T' es).
  { constructor; cbn [nodes root]; auto.
    - rewrite <- (shape_lvl _ _ SH). apply RD.
    - destruct (b_arr _ _ _ B1) as [[A1 A2]|(A1 & A2 & A3)]; [|lia]. rewrite A2. change (zlen (@nil (option (node K V)))) with 0. lia.
    - apply W. }
  split; [exact RDc|]. split; [reflexivity|]. split; [reflexivity|]. split; [lia|]. split; [exact Hd|].
  split.
  { intros C0. destruct T' as [|ti tl t1 t2]; [reflexivity|]. cbn [inord] in *. rewrite zlen_app, zlen_cons in HH.
    pose proof (zlen_nonneg (inord t1)). pose proof (zlen_nonneg (inord t2)). lia. }
  split.
  { destruct (b_arr _ _ _ B1) as [[A1 A2]|(A1 & A2 & A3)].
    - rewrite A2. destruct (Z.eqb_spec (size s) 0); [reflexivity|lia].
    - destruct (Z.eqb_spec (size s) 0); lia. }
  intros ->. pose proof (base_head _ _ (w_base _ _ _ _ _ W)) as HHs. split.
  - constructor; cbn [nodes root size]; auto; try lia; [|apply W]. constructor; cbn [nodes root size cap head disp]; try apply B1; try lia.
    + intros x Hx. pose proof (b_rng _ _ _ B1 x Hx). lia.
    + rewrite app_nil_r. lia.
  - split; cbn [cap head]; lia.
Qed.

Lemma shrink_ok s T ds es : wf cmp s T ds es -> head s < 2 ^ 31 ->
  exists c T' dr, shrink_to_fit s = Ok (c, dr) /\ clone s = Ok c /\ readable cmp c T' es /\ Permutation dr (flat_map (destroy_entry (V:=V)) es).
Proof.
  intros W H31. unfold shrink_to_fit. destruct (clone_ok s T ds es W H31) as (c & T' & F & RD & _). rewrite F. cbn [bind].
  destruct (drop_ok cmp s T es (wf_readable cmp s T ds es W H31) (wf_cap0 cmp s T ds es W)) as (dr & F2 & P). rewrite F2. cbn [bind].
  exists c, T', dr. auto.
Qed.

(** * Histories from an empty map *)
Lemma hist ops : legal cmp 0 [] ops ->
  exists s T ds outs rv, run cmp init ops = Ok (s, outs) /\ same_outs outs (snd (map_run cmp [] ops)) /\
    wf cmp s T ds (fst (map_run cmp [] ops)) /\ room s rv /\ 0 <= rv < 2 ^ 31 /\ head s = peak cmp 0 [] ops /\ head s < 2 ^ 31 /\
    readable cmp s T (fst (map_run cmp [] ops)) /\ size s = zlen (fst (map_run cmp [] ops)).
Proof.
  intros LG. destruct (run_ok cmp CO ops init E [] [] 0 (wf_init cmp)) as (s & T & ds & outs & rv & F & SO & W & RM & Hrv & HP); auto.
  { split; cbn; unfold max_unreserved; lia. }
  { lia. }
  pose proof (room_head _ _ RM ltac:(lia)) as H31. exists s, T, ds, outs, rv.
  split; [exact F|]. split; [exact SO|]. split; [exact W|]. split; [exact RM|]. split; [exact Hrv|]. split; [exact HP|]. split; [exact H31|].
  split; [apply (wf_readable cmp s T ds); auto|]. rewrite (w_size _ _ _ _ _ W), (ents_zlen _ _ _ (w_ents _ _ _ _ _ W)). reflexivity.
Qed.

Lemma history_ok ops : legal cmp 0 [] ops ->
  exists s outs, run cmp init ops = Ok (s, outs) /\
    let l := fst (map_run cmp [] ops) in
    same_outs outs (snd (map_run cmp [] ops)) /\ size s = zlen l /\
    (forall k, get cmp s k = Ok (lookup cmp k l) /\
               contains cmp s k = Ok (match lookup cmp k l with Some _ => true | None => false end)).
Proof.
  intros LG. destruct (hist ops LG) as (s & T & ds & outs & rv & F & SO & W & RM & Hrv & HP & H31 & RD & HS).
  exists s, outs. split; [exact F|]. split; [exact SO|]. split; [exact HS|]. intros k.
  split; [exact (get_ok cmp CO s T _ k RD)|exact (contains_ok cmp CO s T _ k RD)].
Qed.
Lemma at_hist_ok ops k e : legal cmp 0 [] ops -> lookup cmp k (fst (map_run cmp [] ops)) = Some e ->
  exists s outs, run cmp init ops = Ok (s, outs) /\ at_ cmp s k = Ok (snd e).
Proof.
  intros LG HL. destruct (hist ops LG) as (s & T & ds & outs & rv & F & SO & W & RM & Hrv & HP & H31 & RD & HS).
  exists s, outs. split; [exact F|]. unfold at_. rewrite (get_ok cmp CO s T _ k RD), HL. reflexivity.
Qed.

End Clone.

Section Hist.
Context {K V : Type}.
Variable cmp : K -> K -> Z.
Hypothesis CO : cmp_ok cmp.
Implicit Types (l es : list (K * V)) (s : smap K V).

(** The laws of the finite map of the specification. *)
Lemma map_step_inc l o : increasing cmp l -> increasing cmp (fst (fst (map_step cmp l o))).
Proof.
  intros H. destruct o as [k v|k v|k v|k v|k|p| |c]; cbn [map_step]; try destruct (lookup cmp k l) eqn:EL; cbn [fst]; auto using (inc_add cmp CO), (inc_assign cmp).
  - apply inc_filter. exact H.
  - apply inc_filter. exact H.
  - constructor.
Qed.
Lemma map_run_inc ops : forall l, increasing cmp l -> increasing cmp (fst (map_run cmp l ops)).
Proof.
  induction ops as [|o ops IH]; intros l H; [exact H|]. cbn [map_run]. pose proof (map_step_inc l o H) as X.
  destruct (map_step cmp l o) as [[l1 dm] b]. cbn [fst] in *. auto.
Qed.
Lemma lookup_add k v l k' : increasing cmp l -> lookup cmp k l = None ->
  lookup cmp k' (add cmp k v l) = if cmp k k' =? 0 then Some (k, v) else lookup cmp k' l.
Proof.
  intros INC HN. pose proof (inc_add cmp CO k v l INC HN) as IA. destruct (Z.eqb_spec (cmp k k') 0) as [E0|N0].
  - unfold add in *. apply (lookup_m cmp CO); auto.
  - unfold add. unfold lookup. rewrite find_app. cbn [find fst]. destruct (Z.eqb_spec (cmp k k') 0); [lia|].
    unfold below, above. clear IA INC. induction l as [|a l IH]; [reflexivity|]. cbn [lookup find] in HN.
    unfold lookup in HN. cbn [find] in HN. destruct (Z.eqb_spec (cmp (fst a) k) 0) as [|Na]; [discriminate|]. specialize (IH HN). cbn [filter find].
    destruct (Z.ltb_spec (cmp (fst a) k) 0), (Z.ltb_spec 0 (cmp (fst a) k)); try lia; cbn [find]; destruct (Z.eqb_spec (cmp (fst a) k') 0) as [Ea|]; auto.
    destruct (find _ (filter (fun e => cmp (fst e) k <? 0) l)) as [q|] eqn:EF; [|reflexivity]. exfalso.
    apply find_some in EF as [Q1 Q2]. apply filter_In in Q1 as [Q1 Q3].
    assert (X : cmp (fst q) (fst a) = 0) by (apply (cmp_eq_trans cmp CO _ k'); [lia|apply (cmp_eq_sym cmp CO); exact Ea]).
    assert (cmp (fst a) k < 0). { apply (co_eq_l _ CO _ (fst q)); [apply (cmp_eq_sym cmp CO); exact X|lia]. }
    lia.
Qed.
Lemma lookup_assign k v l k' : increasing cmp l ->
  option_map snd (lookup cmp k' (assign cmp k v l)) =
    match lookup cmp k' l with None => None | Some e => if cmp k k' =? 0 then Some v else Some (snd e) end.
Proof.
  intros _. unfold lookup, assign. induction l as [|a l IH]; [reflexivity|]. cbn [map find].
  destruct (Z.eqb_spec (cmp (fst a) k) 0) as [E1|N1]; cbn [fst]; destruct (Z.eqb_spec (cmp (fst a) k') 0) as [E2|N2]; auto.
  - rewrite (cmp_eq_trans cmp CO _ _ _ (cmp_eq_sym cmp CO _ _ E1) E2). reflexivity.
  - cbn. destruct (Z.eqb_spec (cmp k k') 0) as [E3|]; [|reflexivity]. exfalso. apply N1. apply (cmp_eq_trans cmp CO _ k'); auto. apply (cmp_eq_sym cmp CO); auto.
Qed.
Lemma lookup_remove k l k' : lookup cmp k' (remove cmp k l) = if cmp k k' =? 0 then None else lookup cmp k' l.
Proof.
  unfold lookup, remove. induction l as [|a l IH]; [cbn; destruct (cmp k k' =? 0); reflexivity|]. cbn [filter find].
  destruct (Z.eqb_spec (cmp (fst a) k) 0) as [E1|N1]; cbn [negb find].
  - rewrite IH. destruct (Z.eqb_spec (cmp k k') 0) as [E3|N3]; [reflexivity|]. destruct (Z.eqb_spec (cmp (fst a) k') 0) as [E2|]; [|reflexivity].
    exfalso. apply N3. apply (cmp_eq_trans cmp CO _ (fst a)); auto. apply (cmp_eq_sym cmp CO); auto.
  - destruct (Z.eqb_spec (cmp (fst a) k') 0) as [E2|N2]; [|exact IH]. destruct (Z.eqb_spec (cmp k k') 0) as [E3|]; [|reflexivity].
    exfalso. apply N1. apply (cmp_eq_trans cmp CO _ k'); auto. apply (cmp_eq_sym cmp CO); auto.
Qed.
Lemma map_laws l k v k' : increasing cmp l ->
  let l1 := fst (fst (map_step cmp l (InsertOrAssign k v))) in
  let l2 := fst (fst (map_step cmp l (Insert k v))) in
  let l3 := fst (fst (map_step cmp l (Erase k))) in
  option_map snd (lookup cmp k' l1) = (if cmp k k' =? 0 then Some v else option_map snd (lookup cmp k' l)) /\
  option_map snd (lookup cmp k' l2) =
    (match lookup cmp k l with Some _ => option_map snd (lookup cmp k' l)
     | None => if cmp k k' =? 0 then Some v else option_map snd (lookup cmp k' l) end) /\
  lookup cmp k' l3 = (if cmp k k' =? 0 then None else lookup cmp k' l) /\
  increasing cmp l1 /\ increasing cmp l2 /\ increasing cmp l3.
Proof.
  intros INC. cbn zeta. split; [|split; [|split; [|split; [|split]]]]; try (apply map_step_inc; exact INC); cbn [map_step].
  - destruct (lookup cmp k l) as [e|] eqn:EL; cbn [fst].
    + rewrite lookup_assign by auto. destruct (Z.eqb_spec (cmp k k') 0) as [E0|N0].
      * assert (X : lookup cmp k' l <> None); [|destruct (lookup cmp k' l); congruence].
        unfold lookup in *. apply find_some in EL as [Q1 Q2]. intros Y. pose proof (find_none _ _ Y e Q1) as Z. cbn in Z.
        apply Z.eqb_neq in Z. apply Z. apply (cmp_eq_trans cmp CO _ k); auto. lia.
      * destruct (lookup cmp k' l); reflexivity.
    + rewrite lookup_add by auto. destruct (cmp k k' =? 0); reflexivity.
  - destruct (lookup cmp k l) as [e|] eqn:EL; cbn [fst]; [reflexivity|].
    rewrite lookup_add by auto. destruct (cmp k k' =? 0); reflexivity.
  - destruct (lookup cmp k l) as [e|] eqn:EL; cbn [fst]; [apply lookup_remove|].
    rewrite <- (remove_none cmp k l EL) at 1. apply lookup_remove.
Qed.

Lemma order_ok ops : legal cmp 0 [] ops ->
  exists s outs, run cmp init ops = Ok (s, outs) /\
    let l := fst (map_run cmp [] ops) in
    each s = Ok l /\ increasing cmp l /\
    (forall k, exists it, lower_bound cmp s k = Ok it /\ each_from s it = Ok (filter (fun e => 0 <=? cmp (fst e) k) l)) /\
    (forall e rest, l = e :: rest -> front s = Ok e) /\ (forall e rest, l = rest ++ [e] -> back s = Ok e).
Proof.
  intros LG. destruct (hist cmp CO ops LG) as (s & T & ds & outs & rv & F & SO & W & RM & Hrv & HP & H31 & RD & HS).
  exists s, outs. split; [exact F|]. cbn zeta. split; [exact (each_ok cmp s T _ RD)|]. split; [apply RD|]. split; [|split].
  - intros k. destruct (lower_bound_ok cmp CO s T _ k RD) as (it & L & F2 & AT & EN). exists it. split; [exact F2|].
    apply (each_from_ok cmp s T _ it L _ RD AT EN). unfold from. rewrite <- (ents_zlen _ _ _ (r_ents _ _ _ _ RD)). apply zlen_filter.
  - intros e rest HE. pose proof (front_ok cmp s T _ RD) as X. rewrite HE in X. exact X.
  - intros e rest HE. exact (back_ok cmp s T _ e rest RD HE).
Qed.
Lemma find_each_ok ops k : legal cmp 0 [] ops ->
  exists s outs it, run cmp init ops = Ok (s, outs) /\ find_it cmp s k = Ok it /\
    let l := fst (map_run cmp [] ops) in
    match lookup cmp k l with
    | Some _ => each_from s it = Ok (filter (fun e => 0 <=? cmp (fst e) k) l)
    | None => ref it = None
    end.
Proof.
  intros LG. destruct (hist cmp CO ops LG) as (s & T & ds & outs & rv & F & SO & W & RM & Hrv & HP & H31 & RD & HS).
  destruct (find_at cmp CO s T _ k RD) as (it & F2 & Q). exists s, outs, it. split; [exact F|]. split; [exact F2|]. cbn zeta.
  destruct (lookup cmp k _); [|exact Q]. destruct Q as (L & AT & EN). apply (each_from_ok cmp s T _ it L _ RD AT EN).
  unfold from. rewrite <- (ents_zlen _ _ _ (r_ents _ _ _ _ RD)). apply zlen_filter.
Qed.
Lemma advance_hist_ok ops n : legal cmp 0 [] ops ->
  exists s outs it it', run cmp init ops = Ok (s, outs) /\ begin s = Ok it /\ advance (nodes s) it n = Ok it' /\
    each_from s it' = Ok (skipn n (fst (map_run cmp [] ops))).
Proof.
  intros LG. destruct (hist cmp CO ops LG) as (s & T & ds & outs & rv & F & SO & W & RM & Hrv & HP & H31 & RD & HS).
  destruct (begin_ok cmp s T _ RD) as (it & F2 & AT). destruct (advance_ok (nodes s) n it _ AT) as (it' & F3 & AT').
  exists s, outs, it, it'. split; [exact F|]. split; [exact F2|]. split; [exact F3|].
  apply (each_from_ok cmp s T _ it' (skipn n (inord T)) _ RD AT').
  - unfold ents. rewrite <- !skipn_map. now rewrite (r_ents _ _ _ _ RD).
  - rewrite <- (ents_zlen _ _ _ (r_ents _ _ _ _ RD)). unfold zlen. rewrite skipn_length. lia.
Qed.

(** Balance *)
Lemma path_height (d : slots (node K V)) : forall t n, reps d t -> path_from d (rt t) n -> n <= height t.
Proof.
  induction t as [|i lv l IHl r IHr]; intros n R P.
  - cbn [rt height] in *. inversion P; subst; [lia|congruence].
  - inversion P as [|i0 nd b m Hi Hnd Hp]; subst; [apply height_nonneg|].
    destruct (reps_rd _ _ _ _ _ R) as (o & _ & G). destruct R as (_ & _ & _ & Rl & Rr). cbn [rt] in Hnd. rewrite G in Hnd. injection Hnd as <-.
    cbn [height]. destruct b; cbn [link lk0 lk1] in Hp; [specialize (IHr _ Rr Hp)|specialize (IHl _ Rl Hp)]; lia.
Qed.
Lemma path_nonneg d i n : path_from (K:=K) (V:=V) d i n -> 0 <= n.
Proof. induction 1; lia. Qed.
Lemma balance_ok ops : legal cmp 0 [] ops ->
  exists s outs, run cmp init ops = Ok (s, outs) /\
    forall n, path_from (nodes s) (root s) n -> 2 ^ n <= (size s + 1) ^ 2.
Proof.
  intros LG. destruct (hist cmp CO ops LG) as (s & T & ds & outs & rv & F & SO & W & RM & Hrv & HP & H31 & RD & HS).
  exists s, outs. split; [exact F|]. intros n P. rewrite (r_root _ _ _ _ RD) in P. pose proof (path_nonneg _ _ _ P).
  pose proof (path_height _ T n (r_reps _ _ _ _ RD) P) as H1. pose proof (proj1 (aa_height T (r_aa _ _ _ _ RD))) as H2.
  pose proof (aa_count T (r_aa _ _ _ _ RD)) as H3. pose proof (aa_lvl _ (r_aa _ _ _ _ RD)) as H4. rewrite (w_size _ _ _ _ _ W).
  assert (2 ^ n <= 2 ^ (lvl T * 2)) by (apply Z.pow_le_mono_r; lia).
  rewrite Z.pow_mul_r in H0 by lia. assert ((2 ^ lvl T) ^ 2 <= (zlen (inord T) + 1) ^ 2) by (apply Z.pow_le_mono_l; lia). lia.
Qed.

(** erase_at at the entry of a key, erase_range between two keys, erase_if. *)
Lemma erase_at_hist ops k e rest pre : legal cmp 0 [] ops -> fst (map_run cmp [] ops) = pre ++ e :: rest -> cmp (fst e) k = 0 ->
  exists s outs it s' it', run cmp init ops = Ok (s, outs) /\ find_it cmp s k = Ok it /\ erase_at cmp s it = Ok (s', destroy_entry e, it') /\
    each s' = Ok (pre ++ rest) /\ size s' = zlen (pre ++ rest) /\ each_from s' it' = Ok rest.
Proof.
  intros LG HL HK. destruct (hist cmp CO ops LG) as (s & T & ds & outs & rv & F & SO & W & RM & Hrv & HP & H31 & RD & HS). rewrite HL in *.
  destruct (find_at cmp CO s T _ k RD) as (it & F2 & Q). pose proof (r_inc _ _ _ _ RD) as INC.
  rewrite (lookup_m cmp CO) in Q by auto. rewrite (from_m cmp CO) in Q by auto. destruct Q as (L & AT & EN).
  destruct (erase_at_ok cmp CO s T ds pre e rest it L rv W RM H31 AT EN) as (s1 & it' & T1 & ds1 & L' & F3 & W1 & RM1 & H1 & Z1 & AT1 & EN1).
  assert (RD1 : readable cmp s1 T1 (pre ++ rest)) by (apply (wf_readable cmp s1 T1 ds1); auto; lia).
  exists s, outs, it, s1, it'. split; [exact F|]. split; [exact F2|]. split; [exact F3|]. split; [exact (each_ok cmp s1 T1 _ RD1)|].
  split; [rewrite (w_size _ _ _ _ _ W1), <- (ents_zlen _ _ _ (w_ents _ _ _ _ _ W1)); reflexivity|].
  apply (each_from_ok cmp s1 T1 _ it' L' rest RD1 AT1 EN1). rewrite <- (ents_zlen _ _ _ (r_ents _ _ _ _ RD1)), zlen_app. pose proof (zlen_nonneg pre). lia.
Qed.
Lemma erase_range_hist same ops k1 k2 pre mid rest : (forall x, same x x = true) -> (forall x y, same x y = true -> cmp x y = 0) ->
  legal cmp 0 [] ops -> fst (map_run cmp [] ops) = pre ++ mid ++ rest ->
  Forall (fun e => cmp (fst e) k1 < 0) pre -> Forall (fun e => 0 <= cmp (fst e) k1 /\ cmp (fst e) k2 < 0) mid ->
  Forall (fun e => 0 <= cmp (fst e) k1 /\ 0 <= cmp (fst e) k2) rest ->
  (forall x, cmp x k1 < 0 -> cmp x k2 < 0) ->
  exists s outs i1 i2 s' dr it', run cmp init ops = Ok (s, outs) /\ lower_bound cmp s k1 = Ok i1 /\ lower_bound cmp s k2 = Ok i2 /\
    erase_range cmp same s i1 i2 = Ok (s', dr, it') /\ dr = flat_map (destroy_entry (V:=V)) mid /\
    each s' = Ok (pre ++ rest) /\ size s' = zlen (pre ++ rest) /\ each_from s' it' = Ok rest.
Proof.
  intros Hs1 Hs2 LG HL H1 H2 H3 H4. destruct (hist cmp CO ops LG) as (s & T & ds & outs & rv & F & SO & W & RM & Hrv & HP & H31 & RD & HS). rewrite HL in *.
  destruct (lower_bound_ok cmp CO s T _ k1 RD) as (i1 & L1 & F1 & AT1 & EN1). destruct (lower_bound_ok cmp CO s T _ k2 RD) as (i2 & L2 & F2 & AT2 & EN2).
  rewrite Forall_forall in *.
  assert (X1 : from cmp k1 (pre ++ mid ++ rest) = mid ++ rest).
  { unfold from. rewrite filter_app. rewrite filter_none, filter_all; [reflexivity| |].
    - intros a Ha. apply in_app_or in Ha as [Ha|Ha]; [specialize (H2 a Ha)|specialize (H3 a Ha)]; lia.
    - intros a Ha. specialize (H1 a Ha). lia. }
  assert (X2 : from cmp k2 (pre ++ mid ++ rest) = rest).
  { unfold from. rewrite !filter_app. rewrite (filter_none _ pre), (filter_none _ mid), filter_all; [reflexivity| | |].
    - intros a Ha. specialize (H3 a Ha). lia.
    - intros a Ha. specialize (H2 a Ha). lia.
    - intros a Ha. specialize (H1 a Ha). apply H4 in H1. lia. }
  rewrite X1 in EN1. rewrite X2 in EN2. clear X1 X2.
  assert (FIN : forall s1 T1 ds1 it' L', wf cmp s1 T1 ds1 (pre ++ rest) -> head s1 = head s -> at_rest (nodes s1) it' L' -> ents (nodes s1) L' rest ->
    each s1 = Ok (pre ++ rest) /\ size s1 = zlen (pre ++ rest) /\ each_from s1 it' = Ok rest).
  { intros s1 T1 ds1 it' L' W1 Hh AT EN. assert (RD1 : readable cmp s1 T1 (pre ++ rest)) by (apply (wf_readable cmp s1 T1 ds1); auto; lia).
    split; [exact (each_ok cmp s1 T1 _ RD1)|].
    split; [rewrite (w_size _ _ _ _ _ W1), <- (ents_zlen _ _ _ (w_ents _ _ _ _ _ W1)); reflexivity|].
    apply (each_from_ok cmp s1 T1 _ it' L' rest RD1 AT EN). rewrite <- (ents_zlen _ _ _ (r_ents _ _ _ _ RD1)), zlen_app. pose proof (zlen_nonneg pre). lia. }
  assert (HF : zlen (pre ++ mid ++ rest) <= zlen (nodes s)) by (rewrite (ents_zlen _ _ _ (r_ents _ _ _ _ RD)); apply RD).
  rewrite !zlen_app in HF. pose proof (zlen_nonneg pre). pose proof (zlen_nonneg rest).
  exists s, outs, i1, i2. unfold erase_range. destruct L2 as [|j L2].
  - assert (rest = []) by (destruct rest; [auto|discriminate]). subst rest. rewrite (at_rest_nil _ _ AT2). rewrite app_nil_r in EN1, W.
    destruct (range_end_ok cmp CO (S (length (nodes s))) rv s T ds pre mid i1 L1 W RM H31 AT1 EN1) as (s1 & T1 & ds1 & it' & F3 & W1 & _ & Hh & AT3).
    { unfold zlen in *. lia. }
    rewrite F3. eexists s1, _, it'. split; [exact F|]. split; [exact F1|]. split; [exact F2|]. split; [reflexivity|]. split; [reflexivity|].
    rewrite app_nil_r in *. apply (FIN s1 T1 ds1 it' []); auto; reflexivity.
  - rewrite (at_rest_cons _ _ _ _ AT2). apply ents_cons in EN2 as (c & rest' & -> & Hc & EN2).
    destruct L1 as [|i L1]; [destruct mid; discriminate|]. rewrite (at_rest_cons _ _ _ _ AT1). pose proof EN1 as EN1'.
    apply ents_cons in EN1' as (a & r1 & Ha & Hva & _). rewrite (get_val_ok _ _ _ Hva). cbn [bind]. rewrite (get_val_ok _ _ _ Hc). cbn [bind].
    destruct (range_ok cmp CO same (S (length (nodes s))) rv Hs1 Hs2 s T ds pre mid c rest' i1 (i :: L1) (fst a) (fst c) W RM H31 AT1 EN1)
      as (s1 & T1 & ds1 & it' & L' & F3 & W1 & _ & Hh & AT3 & EN3); auto.
    { destruct mid; cbn in Ha; congruence. }
    { unfold zlen in *. lia. }
    rewrite F3. eexists s1, _, it'. split; [exact F|]. split; [exact F1|]. split; [exact F2|]. split; [reflexivity|]. split; [reflexivity|].
    exact (FIN s1 T1 ds1 it' L' W1 Hh AT3 EN3).
Qed.
Lemma erase_if_hist ops p : legal cmp 0 [] ops ->
  exists s outs s' dr, run cmp init ops = Ok (s, outs) /\
    let l := fst (map_run cmp [] ops) in
    erase_if cmp p s = Ok (s', dr, l) /\ each s' = Ok (filter (fun e => negb (p e)) l) /\ dr = flat_map (destroy_entry (V:=V)) (filter p l).
Proof.
  intros LG. destruct (hist cmp CO ops LG) as (s & T & ds & outs & rv & F & SO & W & RM & Hrv & HP & H31 & RD & HS).
  destruct (begin_ok cmp s T _ RD) as (it & F2 & AT).
  destruct (erase_if_ok cmp CO p (S (length (nodes s))) rv s T ds [] _ it (inord T) W RM H31 AT (w_ents _ _ _ _ _ W)) as (s1 & T1 & ds1 & F3 & W1 & RM1 & H1).
  { rewrite (ents_zlen _ _ _ (w_ents _ _ _ _ _ W)). pose proof (r_len _ _ _ _ RD). unfold zlen in *. lia. }
  eexists s, outs, s1, _. split; [exact F|]. cbn zeta. split; [unfold erase_if; rewrite F2; cbn [bind]; exact F3|].
  split; [|reflexivity]. apply (each_ok cmp s1 T1). apply (wf_readable cmp s1 T1 ds1); [exact W1|lia].
Qed.
Lemma drop_hist ops : legal cmp 0 [] ops ->
  exists s outs dr, run cmp init ops = Ok (s, outs) /\ drop s = Ok dr /\ Permutation dr (flat_map (destroy_entry (V:=V)) (fst (map_run cmp [] ops))).
Proof.
  intros LG. destruct (hist cmp CO ops LG) as (s & T & ds & outs & rv & F & SO & W & RM & Hrv & HP & H31 & RD & HS).
  destruct (drop_ok cmp s T _ RD (wf_cap0 cmp s T ds _ W)) as (dr & F2 & P). exists s, outs, dr. auto.
Qed.
Lemma eq_hist eq ops1 ops2 : legal cmp 0 [] ops1 -> legal cmp 0 [] ops2 ->
  exists s1 o1 s2 o2, run cmp init ops1 = Ok (s1, o1) /\ run cmp init ops2 = Ok (s2, o2) /\
    let l1 := fst (map_run cmp [] ops1) in let l2 := fst (map_run cmp [] ops2) in
    exists b, map_eq eq s1 s2 = Ok b /\ (b = true <-> Forall2 (fun a c => eq (fst a) (fst c) = true) l1 l2).
Proof.
  intros LG1 LG2. destruct (hist cmp CO ops1 LG1) as (s1 & T1 & ds1 & o1 & rv1 & F1 & _ & W1 & _ & _ & _ & _ & RD1 & HS1).
  destruct (hist cmp CO ops2 LG2) as (s2 & T2 & ds2 & o2 & rv2 & F2 & _ & W2 & _ & _ & _ & _ & RD2 & HS2).
  exists s1, o1, s2, o2. split; [exact F1|]. split; [exact F2|]. cbn zeta.
  rewrite (map_eq_ok cmp eq s1 s2 T1 T2 _ _ RD1 RD2 HS1 HS2). eexists. split; [reflexivity|].
  generalize (fst (map_run cmp [] ops2)). generalize (fst (map_run cmp [] ops1)). clear.
  induction l as [|a l IH]; intros [|c l0].
  - cbn. split; [constructor|reflexivity].
  - rewrite zlen_cons. change (zlen (@nil (K * V))) with 0. pose proof (zlen_nonneg l0).
    destruct (Z.eqb_spec 0 (1 + zlen l0)) as [|]; [lia|]. cbn. split; [discriminate|]. intros X; inversion X.
  - rewrite zlen_cons. change (zlen (@nil (K * V))) with 0. pose proof (zlen_nonneg l).
    destruct (Z.eqb_spec (1 + zlen l) 0) as [|]; [lia|]. cbn. split; [discriminate|]. intros X; inversion X.
  - specialize (IH l0). rewrite !zlen_cons. cbn [combine forallb fst snd].
    replace (1 + zlen l =? 1 + zlen l0) with (zlen l =? zlen l0) by (destruct (Z.eqb_spec (zlen l) (zlen l0)), (Z.eqb_spec (1 + zlen l) (1 + zlen l0)); auto; lia).
    rewrite andb_true_iff in IH. rewrite !andb_true_iff. split.
    + intros (A & B & C). constructor; [exact B|]. apply IH. auto.
    + intros X. inversion X; subst. apply IH in H4. tauto.
Qed.

(** Clone *)
Lemma clone_read_hist ops : legal cmp 0 [] ops ->
  exists s outs c dr, run cmp init ops = Ok (s, outs) /\ clone s = Ok c /\
    let l := fst (map_run cmp [] ops) in
    each c = Ok l /\ size c = zlen l /\ (forall k, get cmp c k = Ok (lookup cmp k l)) /\
    drop c = Ok dr /\ Permutation dr (flat_map (destroy_entry (V:=V)) l).
Proof.
  intros LG. destruct (hist cmp CO ops LG) as (s & T & ds & outs & rv & F & SO & W & RM & Hrv & HP & H31 & RD & HS).
  destruct (clone_ok cmp s T ds _ W H31) as (c & T' & F2 & RDc & Sc & _ & _ & _ & C0 & _).
  destruct (drop_ok cmp c T' _ RDc C0) as (dr & F3 & P). exists s, outs, c, dr. split; [exact F|]. split; [exact F2|]. cbn zeta.
  split; [exact (each_ok cmp c T' _ RDc)|]. split; [lia|]. split; [|auto]. intros k. exact (get_ok cmp CO c T' _ k RDc).
Qed.
Lemma clone_run_hist ops ops2 : legal cmp 0 [] ops ->
  let l := fst (map_run cmp [] ops) in
  peak cmp 0 [] ops = zlen l -> legal cmp (zlen l) l ops2 ->
  exists s outs c c' outs', run cmp init ops = Ok (s, outs) /\ clone s = Ok c /\ run cmp c ops2 = Ok (c', outs') /\
    same_outs outs' (snd (map_run cmp l ops2)) /\ each c' = Ok (fst (map_run cmp l ops2)) /\
    (exists dr, shrink_to_fit s = Ok (c, dr) /\ Permutation dr (flat_map (destroy_entry (V:=V)) l)).
Proof.
  intros LG l HPk LG2. destruct (hist cmp CO ops LG) as (s & T & ds & outs & rv & F & SO & W & RM & Hrv & HP & H31 & RD & HS). fold l in W, RD, HS.
  assert (ds = []). { pose proof (b_len _ _ _ (w_base _ _ _ _ _ W)) as X. rewrite zlen_app in X. rewrite <- (w_size _ _ _ _ _ W) in X.
    destruct ds; [auto|]. rewrite zlen_cons in X. pose proof (zlen_nonneg ds). lia. }
  subst ds. destruct (clone_ok cmp s T [] _ W H31) as (c & T' & F2 & RDc & Sc & Hc & _ & _ & _ & _ & Q). destruct (Q eq_refl) as (Wc & RMc). rewrite HS in RMc.
  destruct (run_ok cmp CO ops2 c T' [] l (zlen l) Wc RMc) as (c' & T2 & ds2 & outs' & rv2 & F3 & SO2 & W2 & RM2 & Hrv2 & _); [pose proof (zlen_nonneg l); lia|exact LG2|].
  pose proof (room_head _ _ RM2 ltac:(lia)) as H31'.
  exists s, outs, c, c', outs'. split; [exact F|]. split; [exact F2|]. split; [exact F3|]. split; [exact SO2|].
  split; [apply (each_ok cmp c' T2), (wf_readable cmp c' T2 ds2); auto|].
  destruct (shrink_ok cmp s T [] l W H31) as (c2 & T3 & dr & F4 & F5 & _ & P). exists dr. assert (c2 = c) by congruence. subst c2. auto.
Qed.
(** A map that has held more entries before: the next insertion into the clone goes wrong. *)
Lemma clone_bad ops k v : legal cmp 0 [] ops ->
  let l := fst (map_run cmp [] ops) in
  zlen l < peak cmp 0 [] ops -> lookup cmp k l = None ->
  exists s outs c dr, run cmp init ops = Ok (s, outs) /\ clone s = Ok c /\ insert cmp c k v = Err OOB /\ shrink_to_fit s = Ok (c, dr).
Proof.
  intros LG l HPk HL. destruct (hist cmp CO ops LG) as (s & T & ds & outs & rv & F & SO & W & RM & Hrv & HP & H31 & RD & HS). fold l in W, RD, HS.
  destruct (clone_ok cmp s T ds _ W H31) as (c & T' & F2 & RDc & Sc & Hc & Cc & Dc & _ & Zc & _).
  destruct (shrink_ok cmp s T ds l W H31) as (c2 & T3 & dr & F4 & F5 & _ & _). assert (c2 = c) by congruence. subst c2.
  exists s, outs, c, dr. split; [exact F|]. split; [exact F2|]. split; [|exact F4].
  unfold insert, insert_entry. rewrite (r_root _ _ _ _ RDc).
  pose proof (r_lvl _ _ _ _ RDc). pose proof (proj1 (aa_height _ (r_aa _ _ _ _ RDc))).
  rewrite (descend_ok cmp (nodes c) k 65 T' [] false l (r_reps _ _ _ _ RDc) (r_ents _ _ _ _ RDc)); [|change (zlen (@nil Z)) with 0; lia|lia].
  pose proof (locate_ok cmp CO (nodes c) T' k l (r_ents _ _ _ _ RDc) (r_inc _ _ _ _ RDc)) as LO. cbn [bind].
  destruct (locate (kc cmp (nodes c) k) T'); [destruct LO as (_ & e & _ & _ & X); congruence|].
  unfold new_node. rewrite Dc. cbn [Z.eqb negb]. rewrite Hc, Cc.
  destruct (Z.eqb_spec (head s) (size s)); [lia|]. cbn [bind fst snd negb]. rewrite Hc.
  unfold wr, aset. pose proof (zlen_nonneg l).
  assert (Hz : zlen (nodes c) <= head s + 1) by (rewrite Zc; destruct (Z.eqb_spec (size s) 0); lia).
  destruct (Z.ltb_spec (head s + 1) (zlen (nodes c))); [lia|]. rewrite andb_false_r. reflexivity.
Qed.
End Hist.
