(** smap: the representation invariant; insertion and erasure preserve it. *)
From Verif Require Import Base Slots Smap_Model Smap_Spec Smap_Tree Smap_Sim Smap_Proofs Smap_Proofs2.
From Verif Require Hmap_Proofs2.

Lemma height_count t : height t <= zlen (inord t).
Proof.
  induction t as [|i lv l IHl r IHr]; cbn [height inord]; [reflexivity|]. rewrite zlen_app, zlen_cons.
  pose proof (zlen_nonneg (inord l)). pose proof (zlen_nonneg (inord r)). lia.
Qed.

Section Wf.
Context {K V : Type}.
Variable cmp : K -> K -> Z.
Hypothesis CO : cmp_ok cmp.
Implicit Types (d : slots (node K V)) (t l r : tree) (n : node K V) (es : list (K * V)) (s : smap K V).

(** The list of disposed nodes, linked through link[1]. *)
Fixpoint chain d (dp : Z) (ds : list Z) : Prop :=
  match ds with
  | [] => dp = 0
  | x :: ds' => dp = x /\ exists n, aget d x = Ok (Some n) /\ chain d (lk1 n) ds'
  end.
Lemma chain_frame d d' ds : forall dp, (forall i, In i ds -> aget d' i = aget d i) -> chain d dp ds -> chain d' dp ds.
Proof.
  induction ds as [|x ds IH]; intros dp F; [auto|]. cbn [chain]. intros (-> & n & H & C). split; [reflexivity|].
  exists n. rewrite F by now left. split; [exact H|]. apply IH; auto. intros; apply F; now right.
Qed.

(** The array: [L] are the nodes in use, [ds] the disposed ones. *)
Record base s (L ds : list Z) : Prop := {
  b_arr : (cap s = 0 /\ nodes s = []) \/ (0 < cap s /\ zlen (nodes s) = cap s + 1 /\ good0 (nodes s));
  b_nd : NoDup (L ++ ds);
  b_rng : forall i, In i (L ++ ds) -> 1 <= i <= head s;
  b_len : zlen (L ++ ds) = head s;
  b_cap : head s <= cap s;
  b_chain : chain (nodes s) (disp s) ds;
}.
Record wf s T ds es : Prop := {
  w_base : base s (inord T) ds;
  w_reps : reps (nodes s) T;
  w_aa : aa T;
  w_root : root s = rt T;
  w_size : size s = zlen (inord T);
  w_ents : ents (nodes s) (inord T) es;
  w_inc : increasing cmp es;
}.
Lemma wf_init : wf init E [] [].
Proof.
  constructor; try reflexivity; cbn; auto.
  - constructor; cbn; auto; try lia. constructor.
  - constructor.
Qed.

Lemma rd_some d i n : aget d i = Ok (Some n) -> rd d i = Ok n.
Proof. intros H. unfold rd. now rewrite H. Qed.
Lemma wr_some d i n : 0 <= i < zlen d -> exists d', wr d i n = Ok d' /\ zlen d' = zlen d /\ aget d' i = Ok (Some n) /\ (forall j, j <> i -> aget d' j = aget d j).
Proof.
  intros H. unfold wr. destruct (aset_some d i (Some n) H) as [d' E1]. exists d'. split; [exact E1|].
  split; [exact (aset_zlen _ _ _ _ E1)|]. split; [exact (aget_aset_same _ _ _ _ E1)|]. intros j Hj. now apply (aget_aset_other _ _ _ _ _ E1).
Qed.

Lemma base_head0 s L ds : base s L ds -> 0 <= head s.
Proof. intros B. rewrite <- (b_len _ _ _ B). apply zlen_nonneg. Qed.

Lemma aget_realloc d c i : 0 <= i < zlen d -> i < c -> aget (realloc d c) i = aget d i.
Proof.
  intros H1 H2. unfold realloc. rewrite aget_app1.
  - apply aget_firstn; lia.
  - rewrite zlen_firstn by lia. lia.
Qed.
(** Reserving keeps the contents of the nodes in use. *)
Lemma reserve_ok s L ds c : base s L ds ->
  exists s' b, reserve s c = Ok (s', b) /\ base s' L ds /\ root s' = root s /\ disp s' = disp s /\ head s' = head s /\ size s' = size s /\
    cap s' = Z.max c (cap s) /\ b = (cap s <? c) /\ (forall i, In i (L ++ ds) -> aget (nodes s') i = aget (nodes s) i).
Proof.
  intros B. unfold reserve. pose proof (base_head0 _ _ _ B) as H0. pose proof (b_cap _ _ _ B) as Hc. destruct (Z.leb_spec c (cap s)).
  { exists s, false. split; [reflexivity|]. split; [exact B|]. repeat split; auto; try lia. }
  assert (Zr : zlen (realloc (nodes s) (c + 1)) = c + 1) by (apply zlen_realloc; lia).
  destruct (wr_some (realloc (nodes s) (c + 1)) 0 node0) as (d' & F & Z1 & G1 & X1); [lia|]. rewrite F. cbn [bind].
  eexists _, true. split; [reflexivity|]. cbn [root disp head size cap nodes].
  assert (FR : forall i, In i (L ++ ds) -> aget d' i = aget (nodes s) i).
  { intros i Hi. pose proof (b_rng _ _ _ B i Hi) as Hr. rewrite X1 by lia. apply aget_realloc.
    destruct (b_arr _ _ _ B) as [[A1 A2]|(A1 & A2 & A3)]; lia. lia. }
  split.
  - constructor; cbn [root disp head size cap nodes].
    + right. split; [lia|]. split; [lia|exact G1].
    + apply B.
    + apply B.
    + apply B.
    + lia.
    + apply (chain_frame (nodes s)); [|apply B]. intros; apply FR, in_or_app; auto.
  - repeat split; auto; try lia.
Qed.

(** How many entries the array can hold without overflowing the growth computation. *)
Definition room s (rv : Z) : Prop := rv <= cap s /\ head s <= Z.max rv max_unreserved.

Lemma new_node_ok s L ds rv lv : base s L ds -> room s rv -> zlen L + 1 <= Z.max rv max_unreserved ->
  exists s1 p ds1, new_node s lv = Ok (s1, p) /\ base s1 (p :: L) ds1 /\ room s1 rv /\ root s1 = root s /\ size s1 = size s /\
    aget (nodes s1) p = Ok (Some (mknode 0 0 lv None)) /\ (forall i, In i L -> aget (nodes s1) i = aget (nodes s) i) /\
    (0 < cap s -> good0 (nodes s) -> good0 (nodes s1)) /\
    cap s <= cap s1 /\ head s1 = Z.max (head s) (zlen L + 1) /\ (zlen L + 1 <= cap s -> cap s1 = cap s).
Proof.
  intros B (Hr1 & Hr2) Hlim. unfold new_node. pose proof (base_head0 _ _ _ B) as H0. pose proof (b_cap _ _ _ B) as Hc.
  destruct ds as [|x ds].
  - pose proof (b_chain _ _ _ B) as Hd. cbn in Hd. rewrite Hd. cbn [Z.eqb negb].
    pose proof (b_len _ _ _ B) as HL. rewrite app_nil_r in HL.
    assert (Hr : exists s1, (if head s =? cap s then if 2 ^ 31 <=? head s * 3 then Err Overflow else reserve s (head s * 3 / 2 + 4) else Ok (s, true)) = Ok (s1, true) /\
      base s1 L [] /\ root s1 = root s /\ disp s1 = disp s /\ head s1 = head s /\ size s1 = size s /\ head s < cap s1 /\ cap s <= cap s1 /\
      (forall i, In i (L ++ []) -> aget (nodes s1) i = aget (nodes s) i) /\ (zlen L + 1 <= cap s -> cap s1 = cap s)).
    { destruct (Z.eqb_spec (head s) (cap s)) as [Eq|Ne].
      - unfold max_unreserved in *. destruct (Z.leb_spec (2 ^ 31) (head s * 3)); [lia|].
        pose proof (Z.div_pos (head s * 3) 2 ltac:(lia) ltac:(lia)).
        assert (head s <= head s * 3 / 2) by (apply Z.div_le_lower_bound; lia).
        destruct (reserve_ok s L [] (head s * 3 / 2 + 4) B) as (s1 & b & F & B1 & R1 & R2 & R3 & R4 & R5 & R6 & R7).
        exists s1. rewrite F. replace b with true by (destruct (Z.ltb_spec (cap s) (head s * 3 / 2 + 4)); [congruence|lia]).
        split; [reflexivity|]. split; [exact B1|]. repeat split; auto; try lia.
      - exists s. split; [reflexivity|]. split; [exact B|]. repeat split; auto; try lia. }
    destruct Hr as (s1 & -> & B1 & R1 & R2 & R3 & R4 & R5 & R6 & R7 & R8). cbn [bind fst snd negb].
    destruct (b_arr _ _ _ B1) as [[A1 A2]|(A1 & A2 & A3)]; [lia|].
    destruct (wr_some (nodes s1) (head s1 + 1) (mknode 0 0 lv None)) as (d' & F & Z1 & G1 & X1); [lia|]. rewrite F. cbn [bind].
    eexists _, (head s1 + 1), []. split; [reflexivity|]. cbn [root disp head size cap nodes].
    assert (Hrng : forall i, In i L -> 1 <= i <= head s) by (intros i Hi; rewrite <- R3; apply (b_rng _ _ _ B1), in_or_app; auto).
    assert (Gd : good0 d') by (unfold good0; rewrite X1 by lia; exact A3).
    split; [|split; [|repeat split; auto; try lia]].
    + constructor; cbn [root disp head size cap nodes app].
      * right. split; [lia|]. split; [lia|exact Gd].
      * constructor; [|apply (b_nd _ _ _ B1)]. rewrite app_nil_r. intros X. apply Hrng in X. lia.
      * rewrite app_nil_r. intros i [<-|Hi]; [lia|]. specialize (Hrng i Hi). lia.
      * rewrite app_nil_r, zlen_cons. lia.
      * lia.
      * cbn. lia.
    + split; cbn [cap head]; lia.
    + intros i Hi. rewrite X1; [apply R7, in_or_app; auto|]. specialize (Hrng i Hi). lia.
  - pose proof (b_chain _ _ _ B) as (Hd & n & Hn & Hch). rewrite Hd.
    pose proof (b_rng _ _ _ B x ltac:(apply in_or_app; right; now left)) as Hx.
    destruct (Z.eqb_spec x 0); [lia|]. cbn [negb]. rewrite (rd_some _ _ _ Hn). cbn [bind].
    destruct (b_arr _ _ _ B) as [[A1 A2]|(A1 & A2 & A3)]; [lia|].
    destruct (wr_some (nodes s) x (mknode 0 0 lv None)) as (d' & F & Z1 & G1 & X1); [lia|]. rewrite F. cbn [bind].
    eexists _, x, ds. split; [reflexivity|]. cbn [root disp head size cap nodes].
    pose proof (b_nd _ _ _ B) as ND. assert (PM : Permutation ((x :: L) ++ ds) (L ++ x :: ds)) by (cbn; apply Permutation_middle).
    assert (ND1 : NoDup ((x :: L) ++ ds)) by (apply (Permutation_NoDup (Permutation_sym PM)); exact ND).
    pose proof ND1 as ND2. cbn [app] in ND2. apply NoDup_cons_iff in ND2 as (Nx & _).
    assert (HLl : zlen L + 1 <= head s). { rewrite <- (b_len _ _ _ B), zlen_app, zlen_cons. pose proof (zlen_nonneg ds). lia. }
    assert (Gd : good0 d') by (unfold good0; rewrite X1 by lia; exact A3).
    split; [|split; [|repeat split; auto; try lia]].
    + constructor; cbn [root disp head size cap nodes].
      * right. split; [lia|]. split; [lia|exact Gd].
      * exact ND1.
      * intros i Hi. apply (b_rng _ _ _ B). apply (Permutation_in _ PM). exact Hi.
      * rewrite <- (b_len _ _ _ B). apply Hmap_Proofs2.zlen_perm. exact PM.
      * lia.
      * apply (chain_frame (nodes s)); [|exact Hch]. intros i Hi. apply X1. intros ->. apply Nx, in_or_app; auto.
    + split; cbn [cap head]; lia.
    + intros i Hi. apply X1. intros ->. apply Nx, in_or_app; auto.
Qed.

Lemma base_perm s L L' ds : base s L ds -> Permutation L L' -> base s L' ds.
Proof.
  intros B P. assert (P2 : Permutation (L ++ ds) (L' ++ ds)) by now apply Permutation_app_tail.
  constructor; try apply B.
  - apply (Permutation_NoDup P2), B.
  - intros i Hi. apply (b_rng _ _ _ B), (Permutation_in _ (Permutation_sym P2) Hi).
  - rewrite <- (b_len _ _ _ B). apply Hmap_Proofs2.zlen_perm. now apply Permutation_sym.
Qed.
(** Writing only nodes in use keeps the array well formed. *)
Lemma base_chg s L ds d rt' sz : base s L ds -> zlen d = zlen (nodes s) -> (forall i, ~ In i L -> aget d i = aget (nodes s) i) ->
  base (mksmap d rt' (disp s) (head s) sz (cap s)) L ds.
Proof.
  intros B Z X. constructor; cbn [cap nodes head disp]; try apply B.
  - destruct (b_arr _ _ _ B) as [[A1 A2]|(A1 & A2 & A3)]; [left|right].
    + split; [exact A1|]. rewrite A2 in Z. destruct d; [reflexivity|]. rewrite zlen_cons in Z. pose proof (zlen_nonneg d). change (zlen (@nil (option (node K V)))) with 0 in Z. lia.
    + split; [exact A1|]. split; [lia|]. unfold good0. rewrite X; [exact A3|]. intros Y.
      pose proof (b_rng _ _ _ B 0 ltac:(apply in_or_app; auto)). lia.
  - apply (chain_frame (nodes s)); [|apply B]. intros i Hi. apply X. intros Y.
    pose proof (b_nd _ _ _ B) as ND. apply nodup_app in ND as (_ & _ & D). exact (D i Y Hi).
Qed.

Lemma wf_good0 s T ds es : wf s T ds es -> T <> E -> good0 (nodes s).
Proof.
  intros W HE. destruct (b_arr _ _ _ (w_base _ _ _ _ W)) as [[_ A]|(_ & _ & A)]; [|exact A].
  destruct T as [|i lv l r]; [congruence|]. pose proof (w_reps _ _ _ _ W) as (_ & _ & (o & H) & _). rewrite A in H. apply aget_ok_range in H. cbn in H. lia.
Qed.
Lemma wf_size31 s T ds es : wf s T ds es -> zlen (inord T) <= head s.
Proof. intros W. rewrite <- (b_len _ _ _ (w_base _ _ _ _ W)), zlen_app. pose proof (zlen_nonneg ds). lia. Qed.
Lemma wf_height s T ds es : wf s T ds es -> head s < 2 ^ 31 -> lvl T <= 31 /\ height T <= 62.
Proof.
  intros W H. pose proof (wf_size31 _ _ _ _ W). pose proof (w_aa _ _ _ _ W) as A.
  assert (lvl T <= 31) by (apply aa_level31; auto; lia). pose proof (proj1 (aa_height _ A)). lia.
Qed.

(** A node written with a value only. *)
Lemma reps_val d d' i : forall t, (forall j, j <> i -> aget d' j = aget d j) ->
  (forall n, aget d i = Ok (Some n) -> exists o, aget d' i = Ok (Some (with_val o n))) -> reps d t -> reps d' t.
Proof.
  induction t as [|j lv l IHl r IHr]; [auto|]. cbn [reps]. intros X Y (P & L & (o & G) & Rl & Rr).
  split; [exact P|]. split; [exact L|]. split; [|split; auto].
  destruct (Z.eq_dec j i) as [->|N].
  - destruct (Y _ G) as [o' G']. exists o'. exact G'.
  - exists o. rewrite X; auto.
Qed.

Lemma insert_entry_ok s T ds es k rv : wf s T ds es -> room s rv -> head s < 2 ^ 31 ->
  match lookup cmp k es with
  | Some e => exists i, insert_entry cmp s k = Ok (s, i, false) /\ In i (inord T) /\ vof (nodes s) i = Some e
  | None => zlen es + 1 <= Z.max rv max_unreserved ->
      exists s1 p ds1 T1, insert_entry cmp s k = Ok (s1, p, true) /\ base s1 (inord T1) ds1 /\ reps (nodes s1) T1 /\ aa T1 /\
      root s1 = rt T1 /\ size s1 = size s + 1 /\ zlen (inord T1) = size s + 1 /\ In p (inord T1) /\ room s1 rv /\
      head s1 = Z.max (head s) (zlen es + 1) /\
      (forall v d', (forall i, i <> p -> vof d' i = vof (nodes s1) i) -> vof d' p = Some (k, v) -> ents d' (inord T1) (add cmp k v es))
  end.
Proof.
  intros W RM H31. unfold insert_entry. destruct (wf_height _ _ _ _ W H31) as (HL & HH).
  rewrite (w_root _ _ _ _ W). rewrite (descend_ok cmp (nodes s) k 65 T [] false es); try apply W; [|cbn; lia|lia]. cbn [bind].
  pose proof (locate_ok cmp CO (nodes s) T k es (w_ents _ _ _ _ W) (w_inc _ _ _ _ W)) as LO.
  destruct (locate (kc cmp (nodes s) k) T) as [i|] eqn:EL.
  { destruct LO as (Hi & e & He & _ & ->). exists i. auto. }
  rewrite LO. intros Hlim. pose proof (ents_zlen _ _ _ (w_ents _ _ _ _ W)) as HZ.
  destruct (new_node_ok s (inord T) ds rv 1 (w_base _ _ _ _ W) RM) as (s1 & p & ds1 & F & B1 & RM1 & R1 & R2 & Gp & FR & _ & Hc & Hh & _); [lia|].
  rewrite F. cbn [bind fst snd].
  assert (Hp : 0 < p). { pose proof (b_rng _ _ _ B1 p ltac:(now left)). lia. }
  destruct (Z.eqb_spec p 0); [lia|].
  pose proof (b_nd _ _ _ B1) as ND. cbn [app] in ND.
  assert (NDp : NoDup (p :: inord T)) by (apply (nodup_app (p :: inord T) ds1) in ND; tauto).
  assert (VF : forall i, In i (inord T) -> vof (nodes s1) i = vof (nodes s) i) by (intros; apply vof_aget; auto).
  destruct T as [|ri rlv rl rr].
  - cbn [path]. eexists _, p, ds1, (N p 1 E E). split; [reflexivity|]. cbn [root size nodes].
    assert (es = []) by (pose proof (w_ents _ _ _ _ W) as X; destruct es; [auto|discriminate]). subst es.
    split.
    { destruct s1. exact B1 || (constructor; apply B1). }
    split; [cbn; split; [exact Hp|]; split; [lia|]; split; [eauto|auto]|]. split; [cbn; lia|]. split; [reflexivity|].
    split; [lia|]. split; [rewrite (w_size _ _ _ _ W); reflexivity|]. split; [now left|]. split; [exact RM1|]. split; [exact Hh|].
    intros v d' _ Hv. unfold ents. cbn. now rewrite Hv.
  - set (T := N ri rlv rl rr) in *. assert (HE : T <> E) by discriminate. set (c := kc cmp (nodes s) k) in *.
    assert (RT1 : reps (nodes s1) T) by (apply (reps_frame (nodes s)); auto; apply W).
    destruct (attach (nodes s1) c p T [] false HE RT1 NDp Hp) as (u & d2 & (rest & Hpath) & Hu & F2 & R3 & C2); eauto.
    rewrite Hpath. rewrite F2. cbn [bind].
    assert (G1 : good0 (nodes s1)).
    { destruct (b_arr _ _ _ B1) as [[A1 A2]|(_ & _ & A)]; [|exact A]. rewrite A2 in Gp. apply aget_ok_range in Gp. cbn in Gp. lia. }
    assert (PB : Permutation (inord (insB c p T)) (p :: inord T)) by apply insB_perm.
    assert (NDB : NoDup (inord (insB c p T))) by (apply (Permutation_NoDup (Permutation_sym PB)); exact NDp).
    assert (G2 : good0 d2). { unfold good0. rewrite (proj1 (proj2 C2)); [exact G1|]. intros [X|[]]. subst u. pose proof (reps_pos _ _ _ RT1 Hu). lia. }
    destruct (fix_ok c p T d2 [] HE R3 G2 NDB EL I) as (d3 & R4 & C3 & F3). rewrite Hpath in F3. rewrite F3. cbn [bind fst snd].
    eexists _, p, ds1, (insT c p T). split; [reflexivity|]. cbn [root size nodes head].
    rewrite inord_insT.
    assert (PT : zlen (inord (insB c p T)) = size s + 1).
    { rewrite (w_size _ _ _ _ W). rewrite (Hmap_Proofs2.zlen_perm _ _ PB), zlen_cons. lia. }
    split.
    { apply (base_perm _ (p :: inord T)); [|now apply Permutation_sym]. apply base_chg; auto.
      - destruct C2 as (Z2 & _). destruct C3 as (Z3 & _). lia.
      - intros i Hi. rewrite (proj1 (proj2 C3)), (proj1 (proj2 C2)); auto.
        + intros [<-|[]]. apply Hi. now right.
        + intros Y. apply Hi. apply (Permutation_in _ PB). exact Y. }
    split; [exact R4|]. split; [apply insT_aa, W|]. split; [reflexivity|]. split; [lia|]. split; [exact PT|].
    split; [apply insB_In; auto|]. split; [exact RM1|]. split; [cbn [head]; lia|].
    intros v d' Hv Hvp. apply (insB_ents cmp CO (nodes s)); auto; try apply W.
    intros i Hi. rewrite Hv.
    + destruct C2 as (_ & _ & V2). destruct C3 as (_ & _ & V3). rewrite V3, V2. auto.
    + intros ->. apply NoDup_cons_iff in NDp. tauto.
Qed.

Lemma put_val_ok s T ds i e : base s (inord T) ds -> reps (nodes s) T -> In i (inord T) ->
  exists s', put_val s i e = Ok s' /\ base s' (inord T) ds /\ reps (nodes s') T /\ root s' = root s /\ size s' = size s /\
    head s' = head s /\ cap s' = cap s /\ (forall j, j <> i -> vof (nodes s') j = vof (nodes s) j) /\ vof (nodes s') i = Some e.
Proof.
  intros B R Hi. unfold put_val.
  assert (Hn : exists n, aget (nodes s) i = Ok (Some n)).
  { clear B. induction T as [|j lv l IHl r IHr]; [destruct Hi|]. destruct R as (_ & _ & (o & G) & Rl & Rr). cbn [inord] in Hi.
    apply in_app_or in Hi as [Hi|[<-|Hi]]; eauto. }
  destruct Hn as [n Hn]. destruct (set_val_ok (nodes s) i e n Hn) as (d' & F & G & Z & X & Vi). rewrite F. cbn [bind].
  eexists. split; [reflexivity|]. cbn [nodes root size head cap].
  split; [apply base_chg; auto; intros j Hj; apply X; intros ->; auto|].
  split; [apply (reps_val (nodes s) d' i); auto; intros n' Hn'; rewrite Hn in Hn'; injection Hn' as <-; eauto|].
  repeat split; auto. intros j Hj. apply vof_aget; auto.
Qed.

Lemma add_put s T ds es k v rv : wf s T ds es -> room s rv -> head s < 2 ^ 31 -> lookup cmp k es = None -> zlen es + 1 <= Z.max rv max_unreserved ->
  exists s1 p s2 T1 ds1, insert_entry cmp s k = Ok (s1, p, true) /\ put_val s1 p (k, v) = Ok s2 /\ wf s2 T1 ds1 (add cmp k v es) /\ room s2 rv /\
    head s2 = Z.max (head s) (zlen es + 1).
Proof.
  intros W RM H31 HL Hlim. pose proof (insert_entry_ok s T ds es k rv W RM H31) as IE. rewrite HL in IE.
  destruct (IE Hlim) as (s1 & p & ds1 & T1 & F & B1 & R1 & A1 & Ro & Si & Zi & Hp & RM1 & Hh & EN).
  destruct (put_val_ok s1 T1 ds1 p (k, v) B1 R1 Hp) as (s2 & F2 & B2 & R2 & P1 & P2 & P3 & P4 & V1 & V2).
  exists s1, p, s2, T1, ds1. split; [exact F|]. split; [exact F2|]. split.
  - constructor; auto; try congruence; try lia. apply (inc_add cmp CO); auto. apply W.
  - destruct RM1. split; [split; lia|lia].
Qed.

Lemma ents_assign s T ds es k v i e s' : wf s T ds es -> In i (inord T) -> vof (nodes s) i = Some e -> cmp (fst e) k = 0 ->
  (forall j, j <> i -> vof (nodes s') j = vof (nodes s) j) -> vof (nodes s') i = Some (fst e, v) ->
  ents (nodes s') (inord T) (assign cmp k v es).
Proof.
  intros W Hi He Hk X Y. apply in_split in Hi as (L1 & L2 & HL). pose proof (w_ents _ _ _ _ W) as EN. rewrite HL in EN.
  apply ents_mid in EN as (e1 & e' & e2 & -> & H1 & H2 & H3). assert (e' = e) by congruence. subst e'.
  pose proof (b_nd _ _ _ (w_base _ _ _ _ W)) as ND. apply nodup_app in ND as (ND & _). rewrite HL in ND.
  apply nodup_app in ND as (_ & ND2 & ND3). apply NoDup_cons_iff in ND2 as (ND2 & _).
  rewrite (assign_m cmp CO); [|apply W|exact Hk]. rewrite HL. apply ents_mid. exists e1, (fst e, v), e2. split; [reflexivity|].
  split; [|split; [exact Y|]].
  - apply (ents_ext (nodes s)); auto. intros j Hj. apply X. intros ->. apply (ND3 i Hj). now left.
  - apply (ents_ext (nodes s)); auto. intros j Hj. apply X. intros ->. auto.
Qed.
Lemma assign_put s T ds es k v rv : wf s T ds es -> room s rv -> head s < 2 ^ 31 -> forall e, lookup cmp k es = Some e ->
  exists i s2, insert_entry cmp s k = Ok (s, i, false) /\ get_val (nodes s) i = Ok e /\ put_val s i (fst e, v) = Ok s2 /\
    wf s2 T ds (assign cmp k v es) /\ room s2 rv /\ head s2 = head s.
Proof.
  intros W RM H31 e HL. pose proof (insert_entry_ok s T ds es k rv W RM H31) as IE. rewrite HL in IE.
  destruct IE as (i & F & Hi & He). destruct (put_val_ok s T ds i (fst e, v) (w_base _ _ _ _ W) (w_reps _ _ _ _ W) Hi) as (s2 & F2 & B2 & R2 & P1 & P2 & P3 & P4 & V1 & V2).
  exists i, s2. split; [exact F|]. split; [apply get_val_ok; exact He|]. split; [exact F2|]. split.
  - constructor; auto; try apply W.
    + rewrite P1. apply W.
    + rewrite P2. apply W.
    + apply (ents_assign s T ds es k v i e s2); auto. unfold lookup in HL. apply find_some in HL as [_ HL]. lia.
    + apply inc_assign. apply W.
  - destruct RM. split; [split; lia|lia].
Qed.

Lemma remove_none k es : lookup cmp k es = None -> remove cmp k es = es.
Proof.
  intros H. unfold remove. apply filter_all. intros a Ha. unfold lookup in H. pose proof (find_none _ _ H a Ha) as X. cbn in X. now rewrite X.
Qed.
Lemma erase_wf s T ds es k rv : wf s T ds es -> room s rv ->
  exists s1 T1 ds1, wf s1 T1 ds1 (remove cmp k es) /\ room s1 rv /\ head s1 = head s /\ zlen (nodes s1) = zlen (nodes s) /\
    erase cmp s k = Ok (s1, match lookup cmp k es with Some e => value_drop e | None => [] end,
                            match lookup cmp k es with Some _ => true | None => false end).
Proof.
  intros W RM. unfold erase. destruct T as [|ri rlv rl rr].
  - rewrite (w_root _ _ _ _ W). cbn [rt erase_r Z.eqb bind].
    assert (es = []) by (pose proof (w_ents _ _ _ _ W) as X; destruct es; [auto|discriminate]). subst es.
    eexists s, E, ds. split; [exact W|]. split; [exact RM|]. split; [reflexivity|]. split; [reflexivity|]. cbn.
    pose proof (w_root _ _ _ _ W) as X. cbn in X. destruct s; cbn in *. now subst.
  - set (T := N ri rlv rl rr) in *. assert (HE : T <> E) by discriminate.
    pose proof (wf_good0 _ _ _ _ W HE) as G. pose proof (w_base _ _ _ _ W) as B.
    pose proof (b_nd _ _ _ B) as ND. pose proof ND as ND0. apply nodup_app in ND0 as (ND0 & ND1 & ND2).
    pose proof (height_count T) as HC. pose proof (wf_size31 _ _ _ _ W) as HS. pose proof (b_cap _ _ _ B) as HCp.
    destruct (b_arr _ _ _ B) as [[_ A2]|(A1 & A2 & A3)].
    { rewrite A2 in G. apply aget_ok_range in G. cbn in G. lia. }
    pose proof (erase_ok cmp CO (S (length (nodes s))) T (nodes s) (disp s) k 0 es (w_reps _ _ _ _ W) G ND0 (w_aa _ _ _ _ W) (w_ents _ _ _ _ W) (w_inc _ _ _ _ W)) as EO.
    unfold zlen in A2. specialize (EO ltac:(lia) ltac:(unfold zlen; lia) ltac:(lia)). rewrite (w_root _ _ _ _ W).
    destruct (lookup cmp k es) as [e|] eqn:EL.
    + destruct EO as (d' & T' & f & er' & F & Her & (Q1 & Q2 & Q3 & Q4 & Q5 & Q6 & (n & Q7 & Q8))). rewrite F. cbn [bind Z.eqb].
      destruct (Z.eqb_spec er' 0); [lia|].
      assert (PM : Permutation (inord T' ++ f :: ds) (inord T ++ ds)).
      { rewrite <- Q3. cbn. symmetry. apply Permutation_middle. }
      exists (mksmap d' (rt T') f (head s) (size s - 1) (cap s)), T', (f :: ds).
      split; [|split; [destruct RM; split; auto|split; [reflexivity|split; [exact Q5|reflexivity]]]].
      constructor; cbn [nodes root size]; auto.
      * constructor; cbn [cap nodes head disp].
        -- right. split; [exact A1|]. split; [unfold zlen in *; lia|].
           exact (good0_fr (nodes s) d' T A3 (w_reps _ _ _ _ W) Q6).
        -- apply (Permutation_NoDup (Permutation_sym PM)). exact ND.
        -- intros i Hi. apply (b_rng _ _ _ B). apply (Permutation_in _ PM Hi).
        -- rewrite <- (b_len _ _ _ B). apply Hmap_Proofs2.zlen_perm. exact PM.
        -- exact HCp.
        -- cbn [chain]. split; [reflexivity|]. exists n. split; [exact Q7|]. rewrite Q8.
           apply (chain_frame (nodes s)); [|apply B]. intros i Hi. apply Q6. intros X. exact (ND2 i X Hi).
      * apply Q2.
      * rewrite (w_size _ _ _ _ W). pose proof (Hmap_Proofs2.zlen_perm _ _ Q3) as X. rewrite zlen_cons in X. lia.
      * unfold remove. apply inc_filter. apply W.
    + rewrite EO. cbn [bind Z.eqb]. eexists s, T, ds. rewrite (remove_none _ _ EL). split; [exact W|]. split; [exact RM|]. split; [reflexivity|].
      split; [reflexivity|]. pose proof (w_root _ _ _ _ W) as X. destruct s; cbn in *. now subst.
Qed.
End Wf.
