(** Proofs about the hash map: every operation refines the finite map. *)
From Verif Require Import Base Slots Pow2 Float32 Hmap_Model Hmap_Spec Hmap_Proofs Hmap_Proofs2.

Section Hmap3.
Context {K V : Type}.
Variable hash : K -> Z.
Variable eqb : K -> K -> bool.
Hypothesis KO : key_ok hash eqb.

Local Notation RH := (@RH K V hash).
Local Notation repr := (@repr K V hash eqb).
Local Notation table_ok := (@table_ok K V hash eqb).

Lemma init_repr : repr init [].
Proof. left. auto. Qed.

Lemma reserve_ok (h : hmap K V) l cap : repr h l -> 0 <= cap <= 2 ^ 61 ->
  (zlen l <= cap -> spread_in hash (buckets_for cap) l) ->
  exists h', reserve hash eqb h cap = Ok h' /\ repr h' l /\
    (zlen l <= cap -> table_ok h' l /\ 100 * cap <= 81 * bcount h') /\
    (cap < zlen l -> h' = h).
Proof.
  intros Hr Hc Hsp. unfold reserve. rewrite (repr_size _ _ _ _ Hr).
  destruct (buckets_for_ok cap Hc) as (P & B4 & B1 & B2). set (nb := buckets_for cap) in *.
  destruct (Z.ltb_spec cap (zlen l)); cbn [orb].
  { exists h. split; [reflexivity|]. split; [exact Hr|]. split; [lia|]. reflexivity. }
  destruct (Z.eqb_spec nb (bcount h)) as [E|N].
  - exists h. split; [reflexivity|]. split; [exact Hr|]. split; [|lia]. intros _. destruct Hr as [[-> ->]|Hr].
    + cbn in E. lia.
    + split; [exact Hr|]. lia.
  - destruct (aset_some (repeat meta0 (Z.to_nat (nb + 1))) nb (mkmeta 0 distmask)) as [ms Hms]; [rewrite zlen_repeat; lia|].
    rewrite Hms. cbn [bind]. destruct (fresh_RH (V := V) hash nb ms P Hms) as (HRn & Hem).
    assert (Hgoal : exists h', rehash_loop hash eqb (S (Z.to_nat (bcount h))) h
       (mkhmap (repeat None (Z.to_nat nb)) ms (zlen l) nb) 0 = Ok h' /\ table_ok h' l /\ bcount h' = nb).
    { destruct Hr as [[-> ->]|(HR & Hsz & Hld & Hdist & HP)].
      - cbn [bcount init]. cbn [Z.to_nat rehash_loop bcount Z.ltb Z.compare]. eexists. split; [reflexivity|]. split; [|reflexivity].
        split; [exact HRn|]. cbn [metas table bcount size]. split; [reflexivity|]. split; [unfold zlen; cbn [length]; lia|]. split; [exact I|].
        rewrite Hem. constructor.
      - pose proof (RH_pos _ _ _ _ HR) as Hb.
        destruct (rehash_ok hash eqb KO (bcount h) h l nb (S (Z.to_nat (bcount h)))
          (mkhmap (repeat None (Z.to_nat nb)) ms (zlen l) nb) 0 []) as (h' & E & R & Bc & Sz & P');
          cbn [metas table bcount size]; auto; try lia.
        + rewrite Hem. constructor.
        + exists h'. split; [exact E|]. split; [|exact Bc]. rewrite <- Bc in R. split; [exact R|].
          split; [exact Sz|]. split; [lia|]. auto. }
    destruct Hgoal as (h' & E & T & Bc). exists h'. split; [exact E|]. split; [now right|]. split; [|lia].
    intros _. split; [exact T|]. lia.
Qed.

(** * Looking up *)
Lemma lookup_none k (l : list (K * V)) : lookup eqb k l = None <-> forall e, In e l -> eqb (fst e) k = false.
Proof.
  unfold lookup. split.
  - intros H e He. exact (find_none _ _ H e He).
  - intros H. destruct (List.find _ l) as [e|] eqn:E; [|reflexivity].
    apply find_some in E as [Hin Hk]. rewrite H in Hk by assumption. discriminate.
Qed.
Lemma lookup_some k (l : list (K * V)) e : distinct_keys eqb l -> In e l -> eqb (fst e) k = true -> lookup eqb k l = Some e.
Proof.
  unfold lookup. induction l as [|x l IH]; cbn [distinct_keys List.find In]; [intros _ []|].
  intros [A B] [->|Hin] Hk; [now rewrite Hk|].
  destruct (eqb (fst x) k) eqn:E; [|now apply IH].
  exfalso. specialize (A e Hin).
  rewrite (ko_trans _ _ KO (fst x) k (fst e)) in A; [discriminate|exact E|now apply (ko_sym _ _ KO)].
Qed.

Lemma In_view (h : hmap K V) l p e : table_ok h l -> aget (view (metas h) (table h)) p = Ok (Some e) -> In e l.
Proof. intros (_ & _ & _ & _ & HP) H. eapply Permutation_in; [exact HP|]. apply somes_In. eauto. Qed.

Lemma view_rd (h : hmap K V) l p e : table_ok h l -> 0 <= p < bcount h ->
  aget (view (metas h) (table h)) p = Ok (Some e) -> rd (table h) p = Ok e.
Proof.
  intros (HR & _) Hp He. destruct (RH_view_get hash _ _ _ p HR Hp) as (o & Ho & Hc).
  rewrite He in Ho. injection Ho as <-. destruct Hc as (_ & Hc & _). unfold rd. now rewrite Hc.
Qed.

(** A probe finds the bucket of the key exactly when the key is present. *)
Lemma probe_ok (h : hmap K V) l k : table_ok h l ->
  exists r, bucket_lookup hash eqb h k = Ok r /\
    match r_ref r with
    | Some p => 0 <= p < bcount h /\ exists e, aget (view (metas h) (table h)) p = Ok (Some e) /\
        rd (table h) p = Ok e /\ lookup eqb k l = Some e
    | None => lookup eqb k l = None
    end.
Proof.
  intros HT. pose proof HT as (HR & Hsz & Hld & Hdist & HP).
  destruct (bucket_lookup_ok hash eqb KO (bcount h) h k HR eq_refl) as (r & Hr & _ & _ & Hc).
  exists r. split; [exact Hr|]. destruct (r_ref r) as [p|].
  - destruct Hc as (Hp & e & He & Hk). split; [exact Hp|]. exists e. split; [exact He|].
    split; [eapply view_rd; eauto|]. apply lookup_some; auto. eapply In_view; eauto.
  - destruct Hc as (_ & _ & _ & _ & Hno). apply lookup_none. intros e He. apply Hno.
    eapply Permutation_in; [symmetry; exact HP|exact He].
Qed.

Lemma get_ok (h : hmap K V) l k : repr h l -> get hash eqb h k = Ok (lookup eqb k l).
Proof.
  intros Hr. unfold get. rewrite (repr_size _ _ _ _ Hr). destruct Hr as [[-> ->]|HT]; [reflexivity|].
  destruct (Z.eqb_spec (zlen l) 0) as [E|N].
  - destruct l; [reflexivity|]. rewrite zlen_cons in E. pose proof (zlen_nonneg l). lia.
  - destruct (probe_ok h l k HT) as (r & Hr & Hc). rewrite Hr. cbn [bind].
    destruct (r_ref r) as [p|]; [|now rewrite Hc].
    destruct Hc as (Hp & e & He & Hrd & Hl). rewrite Hrd, Hl. reflexivity.
Qed.

Lemma at_ok (h : hmap K V) l k e : repr h l -> lookup eqb k l = Some e -> at_ hash eqb h k = Ok (snd e).
Proof.
  intros Hr Hl. unfold at_. destruct Hr as [[-> ->]|HT]; [discriminate|].
  destruct (probe_ok h l k HT) as (r & Hr & Hc). rewrite Hr. cbn [bind].
  destruct (r_ref r) as [p|]; [|congruence].
  destruct Hc as (Hp & e' & He & Hrd & Hl'). rewrite Hrd. cbn [bind]. congruence.
Qed.

(** * Inserting *)
Lemma legal_cap n : 0 <= n < 2 ^ 60 -> n + 1 <= n * 3 / 2 + 2 /\ 0 <= n * 3 / 2 + 2 <= 2 ^ 61.
Proof. intros H. split; [apply Z.le_trans with (n + 2); [lia|]; apply Z.add_le_mono_r, Z.div_le_lower_bound; lia|].
  assert (0 <= n * 3 / 2) by (apply Z.div_pos; lia).
  assert (n * 3 / 2 <= 2 ^ 61 - 2) by (apply Z.div_le_upper_bound; lia). lia. Qed.

Lemma spread_table l nb cap : spread hash l -> is_pow2 nb -> 100 * cap <= 81 * nb -> zlen l <= cap -> spread_in (V := V) hash nb l.
Proof. intros H (k & Hk & ->) Hc Hl. apply H; lia. Qed.

Lemma spread_sub (l a c : list (K * V)) : Permutation (a ++ c) l -> spread hash l -> 
  forall nb, is_pow2 nb -> 100 * zlen l <= 81 * nb -> spread_in hash nb a.
Proof.
  intros HP HS nb (k & Hk & ->) Hl. apply (spread_in_sub hash _ l a c HP). now apply HS.
Qed.

Lemma spread_assign k v (l : list (K * V)) : spread hash (assign eqb k v l) -> spread hash l.
Proof.
  intros HS j Hj Hb. apply (spread_in_keys hash _ (assign eqb k v l)).
  - unfold assign. rewrite map_map. apply map_ext. intros e. now destruct (eqb (fst e) k).
  - apply HS; [assumption|]. unfold assign, zlen. rewrite map_length. exact Hb.
Qed.

(** hmap.h 118-119: the growth step of an insertion leaves room for one more. *)
Lemma grow_ok (h : hmap K V) l : repr h l -> zlen l < 2 ^ 60 ->
  (forall nb, is_pow2 nb -> 100 * (zlen l + 1) <= 81 * nb -> spread_in hash nb l) ->
  exists h1, (if size h >=? load_limit (bcount h) then reserve hash eqb h (size h * 3 / 2 + 2) else Ok h) = Ok h1 /\
     table_ok h1 l /\ 100 * (zlen l + 1) <= 81 * bcount h1.
Proof.
  intros Hr Hl60 HS. pose proof (zlen_nonneg l) as Hl0.
  rewrite (repr_size _ _ _ _ Hr). rewrite Z.geb_leb. destruct (Z.leb_spec (load_limit (bcount h)) (zlen l)) as [Hge|Hlt].
  - destruct (legal_cap (zlen l) ltac:(lia)) as (C1 & C2).
    destruct (reserve_ok h l (zlen l * 3 / 2 + 2) Hr C2) as (h1 & E & _ & HT & _).
    { intros _. destruct (buckets_for_ok _ C2) as (P & _ & B1 & _). apply HS; [exact P|lia]. }
    destruct (HT ltac:(lia)) as (HT1 & HT2). exists h1. split; [exact E|]. split; [exact HT1|]. lia.
  - exists h. split; [reflexivity|]. destruct Hr as [[-> ->]|HT].
    + cbn in Hlt. unfold load_limit in Hlt. unfold zlen in Hlt; cbn in Hlt. lia.
    + split; [exact HT|]. pose proof (RH_pos _ _ _ _ (proj1 HT)).
      destruct (f32_mul080_bounds (bcount h) ltac:(lia)) as (_ & Hb). unfold load_limit in Hlt. cbn zeta in Hb. lia.
Qed.

(** The entry to be written is the one the caller will write through the result. *)
Lemma insert_entry_ok (h : hmap K V) l k v : repr h l -> zlen l < 2 ^ 60 ->
  spread hash (match lookup eqb k l with None => (k, v) :: l | Some _ => l end) ->
  exists h' r p, insert_entry hash eqb h k = Ok (h', r) /\ r_ref r = Some p /\
   ( (exists e, r_inserted r = false /\ lookup eqb k l = Some e /\ table_ok h' l /\ 0 <= p < bcount h' /\
       aget (view (metas h') (table h')) p = Ok (Some e) /\ rd (table h') p = Ok e)
   \/ (r_inserted r = true /\ lookup eqb k l = None /\
       exists T', aset (table h') p (Some (k, v)) = Ok T' /\
         table_ok (mkhmap T' (metas h') (size h') (bcount h')) ((k, v) :: l)) ).
Proof.
  intros Hr Hl60 HS. pose proof (zlen_nonneg l) as Hl0. unfold insert_entry.
  assert (HL : zlen (match lookup eqb k l with None => (k, v) :: l | Some _ => l end) <= zlen l + 1).
  { destruct (lookup eqb k l); rewrite ?zlen_cons; lia. }
  destruct (grow_ok h l Hr Hl60) as (h1 & E1 & HT & Hroom).
  { intros nb P Hnb. apply (spread_sub _ l (match lookup eqb k l with None => [(k, v)] | Some _ => [] end)) with (2 := HS); auto; [|lia].
    destruct (lookup eqb k l); [now rewrite app_nil_r|]. symmetry. apply Permutation_cons_append. }
  rewrite E1. cbn [bind].
  pose proof HT as (HR & Hsz & Hld & Hdist & HP).
  destruct (bucket_insert_ok hash eqb KO (bcount h1) h1 k v l HR eq_refl HP) as (h' & r & p & E & Er & Hp & Hc).
  { now apply (table_lt hash eqb). }
  { intros Hno. apply lookup_none in Hno. rewrite Hno in HS. 
    apply (spread_table _ _ (zlen l + 1) HS); [apply (rh_pow2 _ _ _ _ HR)|lia|rewrite zlen_cons; lia]. }
  rewrite E. cbn [bind fst snd].
  eexists _, r, p. split; [reflexivity|]. split; [exact Er|].
  destruct Hc as [(Ei & -> & e & He & Hk)|(Ei & Hno & Hsz' & Hbc' & T' & HT' & HRT & HPT)].
  - left. exists e. split; [exact Ei|]. rewrite Ei. cbn [table metas size bcount]. rewrite Z.add_0_r.
    assert (HT1 : table_ok (mkhmap (table h1) (metas h1) (size h1) (bcount h1)) l).
    { split; [exact HR|]. split; [exact Hsz|]. split; [exact Hld|]. split; [exact Hdist|exact HP]. }
    split; [|split; [exact HT1|split; [exact Hp|split; [exact He|]]]].
    + apply lookup_some; auto. eapply In_view; eauto.
    + eapply view_rd; eauto.
  - right. split; [exact Ei|]. pose proof Hno as Hno'. apply lookup_none in Hno'. split; [exact Hno'|].
    exists T'. rewrite Ei. cbn [table metas size bcount]. split; [exact HT'|].
    rewrite Hbc'. split; [exact HRT|]. cbn [metas table size bcount]. split; [rewrite zlen_cons; lia|].
    split; [rewrite zlen_cons; lia|]. split; [|exact HPT].
    cbn [distinct_keys]. split; [|exact Hdist]. intros e' He'. cbn [fst].
    destruct (eqb k (fst e')) eqn:Q; [|reflexivity]. apply (ko_sym _ _ KO) in Q. rewrite Hno in Q by assumption. discriminate.
Qed.

(** Overwriting the value of a found entry. *)
Lemma assign_perm k v (l l' : list (K * V)) e : distinct_keys eqb l -> eqb (fst e) k = true ->
  Permutation (e :: l') l -> Permutation ((fst e, v) :: l') (assign eqb k v l).
Proof.
  intros Hd Hk HP. unfold assign. rewrite <- HP. cbn [map]. rewrite Hk. apply perm_skip.
  pose proof (distinct_perm hash eqb KO _ _ (Permutation_sym HP) Hd) as [A _].
  replace (map _ l') with l'; [reflexivity|]. symmetry. rewrite <- (map_id l') at 2. apply map_ext_in.
  intros x Hx. destruct (eqb (fst x) k) eqn:E; [|reflexivity].
  exfalso. specialize (A x Hx). rewrite (ko_trans _ _ KO (fst e) k (fst x)) in A; [discriminate|exact Hk|now apply (ko_sym _ _ KO)].
Qed.
Lemma assign_keys k v (l : list (K * V)) : map fst (assign eqb k v l) = map fst l.
Proof. unfold assign. rewrite map_map. apply map_ext. intros e. now destruct (eqb (fst e) k). Qed.
Lemma distinct_by_keys (l1 l2 : list (K * V)) : map fst l1 = map fst l2 -> distinct_keys eqb l1 -> distinct_keys eqb l2.
Proof.
  revert l2. induction l1 as [|x l1 IH]; intros [|y l2] HM; cbn in HM; try discriminate; [auto|].
  injection HM as E HM. cbn [distinct_keys]. intros [A B]. split; [|now apply IH].
  intros e' He'. rewrite <- E. apply (in_map fst) in He'. rewrite <- HM in He'. apply in_map_iff in He' as (e0 & <- & Hin). now apply A.
Qed.
Lemma assign_zlen k v (l : list (K * V)) : zlen (assign eqb k v l) = zlen l.
Proof. unfold assign, zlen. now rewrite map_length. Qed.

Lemma put_value_ok (h : hmap K V) l k v p e : table_ok h l -> 0 <= p < bcount h -> lookup eqb k l = Some e ->
  aget (view (metas h) (table h)) p = Ok (Some e) ->
  exists h', put_ref h p (fst e, v) = Ok h' /\ table_ok h' (assign eqb k v l).
Proof.
  intros HT Hp Hl He. pose proof HT as (HR & Hsz & Hld & Hdist & HP).
  pose proof (rh_lt _ _ _ _ HR) as LT. pose proof (rh_lm _ _ _ _ HR) as LM.
  destruct (RH_view_get hash _ _ _ p HR Hp) as (o & Ho & Hc). rewrite He in Ho. injection Ho as <-.
  destruct Hc as (HDp & Htp & Hhh & (m & Hm & Hhx & Hdm)).
  destruct (aset_some (table h) p (Some (fst e, v))) as [T HT']; [lia|].
  rewrite (put_ok _ _ _ _ HT'). eexists. split; [reflexivity|].
  assert (HV : aset (view (metas h) (table h)) p (Some (fst e, v)) = Ok (view (metas h) T)).
  { pose proof (view_aset _ _ _ _ _ _ _ (RH_len hash _ _ _ HR) (aset_same _ _ _ Hm) HT') as G.
    destruct (Z.eqb_spec (dist m) 0); [lia|]. exact G. }
  split; [|cbn [size bcount metas table]; rewrite assign_zlen; split; [exact Hsz|split; [exact Hld|split]]].
  - cbn [bcount metas table]. split.
    + apply (rh_pow2 _ _ _ _ HR).
    + now rewrite (aset_zlen _ _ _ _ HT').
    + exact LM.
    + apply (rh_mark _ _ _ _ HR).
    + apply (rh_rng _ _ _ _ HR).
    + intros q Hq Hnz. rewrite (aget_aset _ _ _ _ q HT'). destruct (Z.eqb_spec q p) as [->|]; [|now apply (rh_slot _ _ _ _ HR)].
      exists m, (fst e, v). cbn [fst]. rewrite Hdm. auto.
    + apply (rh_chain _ _ _ _ HR).
  - apply (distinct_by_keys l); [now rewrite assign_keys|exact Hdist].
  - apply find_some in Hl as [Hin Hk].
    pose proof (aset_Permutation _ _ _ _ _ He HV) as PA. apply somes_perm in PA. rewrite !somes_cons in PA.
    (* e :: new ~ (k', v) :: old *)
    destruct (in_split _ _ Hin) as (l1 & l2 & El).
    assert (HPl : Permutation (e :: l1 ++ l2) l) by (rewrite El; apply Permutation_middle).
    rewrite <- (assign_perm k v l (l1 ++ l2) e Hdist Hk HPl).
    apply Permutation_cons_inv with (a := e). rewrite PA, HP, <- HPl. apply perm_swap.
Qed.

(** * Erasing *)
Lemma remove_perm k (l l' : list (K * V)) e : distinct_keys eqb l -> eqb (fst e) k = true ->
  Permutation (e :: l') l -> Permutation l' (remove eqb k l).
Proof.
  intros Hd Hk HP. unfold remove. rewrite <- (filter_perm _ _ _ HP). cbn [filter]. rewrite Hk. cbn [negb].
  pose proof (distinct_perm hash eqb KO _ _ (Permutation_sym HP) Hd) as [A _].
  replace (filter _ l') with l'; [reflexivity|]. clear HP. induction l' as [|x l' IH]; [reflexivity|]. cbn [filter].
  replace (eqb (fst x) k) with false.
  - cbn [negb]. f_equal. apply IH. intros e' He'. apply A. now right.
  - symmetry. destruct (eqb (fst x) k) eqn:E; [|reflexivity]. exfalso.
    specialize (A x (or_introl eq_refl)). rewrite (ko_trans _ _ KO (fst e) k (fst x)) in A; [discriminate|exact Hk|now apply (ko_sym _ _ KO)].
Qed.

Lemma erase_at_pos_ok (h : hmap K V) l i e : table_ok h l -> 0 <= i < bcount h ->
  aget (view (metas h) (table h)) i = Ok (Some e) ->
  exists h' l' s, erase_entry h i = Ok (h', destroy_entry e) /\ table_ok h' l' /\ Permutation (e :: l') l /\
    bcount h' = bcount h /\ 0 <= s < bcount h - 1 /\
    shifted (bcount h) i s (view (metas h) (table h)) (view (metas h') (table h')) None.
Proof.
  intros HT Hi He. pose proof HT as (HR & Hsz & Hld & Hdist & HP).
  destruct (erase_entry_ok hash (bcount h) h i e l HR eq_refl HP (table_lt _ _ _ _ HT) Hi He)
    as (h' & s & E & HR' & Hbc & Hsz' & HP' & Hs & Hsh).
  exists h', (somes (view (metas h') (table h'))), s. split; [exact E|].
  pose proof (zlen_perm _ _ HP') as L. rewrite zlen_cons in L.
  split; [|auto].
  split; [now rewrite Hbc|]. split; [lia|]. split; [lia|]. split; [|reflexivity].
  pose proof (distinct_perm hash eqb KO _ _ (Permutation_sym HP') Hdist) as [_ B]. exact B.
Qed.

Lemma table_perm h (l1 l2 : list (K * V)) : Permutation l1 l2 -> table_ok h l1 -> table_ok h l2.
Proof.
  intros HP (A & B & C & D1 & E). pose proof (zlen_perm _ _ HP) as L. split; [exact A|]. split; [lia|]. split; [lia|].
  split; [now apply (distinct_perm hash eqb KO l1)|]. now rewrite E.
Qed.

Lemma erase_ok (h : hmap K V) l k : repr h l ->
  exists h', erase hash eqb h k = Ok (h', snd (fst (map_step eqb l (Erase k))), snd (map_step eqb l (Erase k))) /\
    repr h' (fst (fst (map_step eqb l (Erase k)))).
Proof.
  intros Hr. unfold erase. rewrite (repr_size _ _ _ _ Hr). cbn [map_step]. destruct Hr as [[-> ->]|HT].
  { cbn. exists init. split; [reflexivity|]. apply init_repr. }
  destruct (Z.eqb_spec (zlen l) 0) as [E|N].
  - destruct l; [|rewrite zlen_cons in E; pose proof (zlen_nonneg l); lia]. cbn. exists h. split; [reflexivity|]. now right.
  - destruct (probe_ok h l k HT) as (r & Hr & Hc). rewrite Hr. cbn [bind].
    destruct (r_ref r) as [p|].
    + destruct Hc as (Hp & e & He & Hrd & Hl). rewrite Hl.
      destruct (erase_at_pos_ok h l p e HT Hp He) as (h' & l' & s & E & HT' & HP & _).
      rewrite E. cbn [bind fst snd]. exists h'. split; [reflexivity|]. right.
      apply find_some in Hl as [_ Hk]. apply (table_perm _ l'); [|exact HT'].
      apply (remove_perm k l l' e); auto. apply HT.
    + rewrite Hc. exists h. split; [reflexivity|]. now right.
Qed.

(** * Destroying everything *)
Lemma wipe_loop_ok (h : hmap K V) fuel : forall i, RH (bcount h) (metas h) (table h) -> 0 <= i <= bcount h ->
  bcount h - i < Z.of_nat fuel ->
  wipe_loop fuel h i = Ok (flat_map destroy_entry (somes (skipn (Z.to_nat i) (view (metas h) (table h))))).
Proof.
  induction fuel as [|fuel IH]; intros i HR Hi Hf; [lia|]. cbn [wipe_loop].
  destruct (Z.eqb_spec i (bcount h)) as [->|N].
  - rewrite skipn_all2; [reflexivity|].
    pose proof (zlen_view _ _ (RH_len hash _ _ _ HR)) as LV. rewrite (rh_lt _ _ _ _ HR) in LV. unfold zlen in LV. lia.
  - destruct (RH_meta hash _ _ _ i HR ltac:(lia)) as (m & Hm & Hmd). rewrite Hm. cbn [bind].
    destruct (RH_view_get hash _ _ _ i HR ltac:(lia)) as (o & Ho & Hcase).
    rewrite (somes_skip _ _ _ Ho). rewrite (IH (i + 1)) by (auto; lia). destruct o as [e|].
    + destruct Hcase as (HDi & Hti & _). rewrite Hmd. destruct (Z.eqb_spec (D (metas h) i) 0); [lia|]. cbn [negb].
      unfold rd. rewrite Hti. cbn [bind app]. reflexivity.
    + rewrite Hmd, Hcase. reflexivity.
Qed.

Lemma wipe_ok (h : hmap K V) l : repr h l -> exists d, wipe h = Ok d /\ Permutation d (flat_map destroy_entry l).
Proof.
  intros Hr. unfold wipe. rewrite (repr_size _ _ _ _ Hr). destruct Hr as [[-> ->]|HT].
  { exists []. split; [reflexivity|constructor]. }
  destruct (Z.eqb_spec (zlen l) 0) as [E|N].
  - destruct l; [|rewrite zlen_cons in E; pose proof (zlen_nonneg l); lia]. exists []. split; [reflexivity|constructor].
  - destruct HT as (HR & _ & _ & _ & HP). pose proof (RH_pos _ _ _ _ HR).
    rewrite wipe_loop_ok by (auto; lia). eexists. split; [reflexivity|]. change (Z.to_nat 0) with 0%nat. cbn [skipn].
    now apply Permutation_flat_map.
Qed.

Lemma clear_ok (h : hmap K V) l : repr h l ->
  exists h' d, clear h = Ok (h', d) /\ Permutation d (flat_map destroy_entry l) /\ repr h' [] /\ bcount h' = bcount h.
Proof.
  intros Hr. destruct (wipe_ok h l Hr) as (d & Ed & HPd). unfold clear. rewrite Ed. cbn [bind].
  destruct Hr as [[-> ->]|HT].
  { exists init, d. split; [reflexivity|]. split; [exact HPd|]. split; [apply init_repr|reflexivity]. }
  destruct HT as (HR & _ & _ & _ & HP). pose proof (RH_pos _ _ _ _ HR) as Hb. pose proof (rh_lm _ _ _ _ HR) as LM.
  destruct (ablit_some (metas h) 0 (repeat meta0 (Z.to_nat (bcount h)))) as [ms Hms]; try rewrite zlen_repeat; try lia.
  rewrite Hms. cbn [bind]. eexists _, d. split; [reflexivity|]. split; [exact HPd|]. split; [|reflexivity].
  apply ablit_inv in Hms as (_ & _ & Lms & Gms). rewrite zlen_repeat in Gms by lia.
  assert (HD : forall p, 0 <= p < bcount h -> D ms p = 0).
  { intros p Hp. unfold D. rewrite Gms. replace ((0 <=? p) && (p <? 0 + bcount h)) with true by lia.
    rewrite aget_repeat by lia. reflexivity. }
  assert (Hview : somes (view ms (table h)) = []).
  { destruct (somes (view ms (table h))) as [|e r] eqn:Es; [reflexivity|]. exfalso.
    assert (Hin : In e (somes (view ms (table h)))) by (rewrite Es; now left).
    apply somes_In in Hin as [p Hp]. pose proof (aget_ok_range _ _ _ Hp) as Hrg.
    pose proof (RH_len hash _ _ _ HR). rewrite zlen_view in Hrg by lia. rewrite (rh_lt _ _ _ _ HR) in Hrg.
    destruct (aget_some ms p) as [m Hm]; [lia|]. destruct (aget_some (table h) p) as [o Ho]; [rewrite (rh_lt _ _ _ _ HR); lia|].
    rewrite (aget_view _ _ _ _ _ Hm Ho) in Hp. pose proof (HD p ltac:(lia)) as E. rewrite (D_get _ _ _ Hm) in E. rewrite E in Hp. discriminate. }
  right. split; [|cbn [size bcount metas table]; split; [reflexivity|split; [unfold zlen; cbn [length]; lia|split; [exact I|now rewrite Hview]]]].
  cbn [metas table bcount]. split.
  - apply (rh_pow2 _ _ _ _ HR).
  - apply (rh_lt _ _ _ _ HR).
  - lia.
  - unfold D. rewrite Gms. replace ((0 <=? bcount h) && (bcount h <? 0 + bcount h)) with false by lia. exact (rh_mark _ _ _ _ HR).
  - intros p Hp. rewrite HD by assumption. lia.
  - intros p Hp. rewrite HD by assumption. lia.
  - intros x. rewrite !HD by (apply mod_rng; lia). lia.
Qed.

(** * Iterating *)
Definition it_at (h : hmap K V) (p : Z) : iter := mkiter (if p =? bcount h then None else Some p) p.

Lemma skip_ok (h : hmap K V) fuel : forall p, RH (bcount h) (metas h) (table h) -> 0 <= p <= bcount h ->
  bcount h - p < Z.of_nat fuel ->
  exists q, skip_empty fuel (metas h) p = Ok q /\ p <= q <= bcount h /\ D (metas h) q <> 0 /\
    (forall x, p <= x < q -> aget (view (metas h) (table h)) x = Ok None) /\
    somes (skipn (Z.to_nat p) (view (metas h) (table h))) = somes (skipn (Z.to_nat q) (view (metas h) (table h))).
Proof.
  induction fuel as [|fuel IH]; intros p HR Hp Hf; [lia|]. cbn [skip_empty].
  destruct (RH_meta hash _ _ _ p HR ltac:(lia)) as (m & Hm & Hmd). rewrite Hm. cbn [bind]. rewrite Hmd.
  destruct (Z.eqb_spec (D (metas h) p) 0) as [E|N].
  - assert (p <> bcount h) by (intros ->; rewrite (rh_mark _ _ _ _ HR) in E; lia).
    destruct (IH (p + 1)) as (q & Eq & Hq & Hnz & Hem & Hs); auto; try lia.
    destruct (RH_view_get hash _ _ _ p HR ltac:(lia)) as (o & Ho & Hcase).
    destruct o as [e|]; [destruct Hcase; lia|].
    exists q. split; [exact Eq|]. split; [lia|]. split; [exact Hnz|]. split.
    + intros x Hx. destruct (Z.eq_dec x p) as [->|]; [exact Ho|]. apply Hem. lia.
    + rewrite (somes_skip _ _ _ Ho). exact Hs.
  - exists p. split; [reflexivity|]. split; [lia|]. split; [exact N|]. split; [intros; lia|reflexivity].
Qed.

Lemma next_ok (h : hmap K V) p : RH (bcount h) (metas h) (table h) -> 0 <= p < bcount h ->
  exists q, next h (it_at h p) = Ok (it_at h q) /\ p < q <= bcount h /\ D (metas h) q <> 0 /\
    (forall x, p < x < q -> aget (view (metas h) (table h)) x = Ok None) /\
    somes (skipn (Z.to_nat (p + 1)) (view (metas h) (table h))) = somes (skipn (Z.to_nat q) (view (metas h) (table h))).
Proof.
  intros HR Hp. unfold next, it_at. cbn [ref mref]. destruct (Z.eqb_spec p (bcount h)); [lia|].
  destruct (skip_ok h (S (S (Z.to_nat (bcount h)))) (p + 1) HR ltac:(lia) ltac:(lia)) as (q & E & Hq & Hnz & Hem & Hs).
  rewrite E. cbn [bind]. exists q. replace (p + (q - p)) with q by lia. split; [reflexivity|]. split; [lia|].
  split; [exact Hnz|]. split; [|exact Hs]. intros x Hx. apply Hem. lia.
Qed.

Lemma begin_ok (h : hmap K V) : RH (bcount h) (metas h) (table h) ->
  exists q, begin h = Ok (it_at h q) /\ 0 <= q <= bcount h /\ D (metas h) q <> 0 /\
    (forall x, 0 <= x < q -> aget (view (metas h) (table h)) x = Ok None) /\
    somes (view (metas h) (table h)) = somes (skipn (Z.to_nat q) (view (metas h) (table h))).
Proof.
  intros HR. pose proof (RH_pos _ _ _ _ HR) as Hb. unfold begin. destruct (Z.eqb_spec (bcount h) 0); [lia|].
  destruct (skip_ok h (S (S (Z.to_nat (bcount h)))) 0 HR ltac:(lia) ltac:(lia)) as (q & E & Hq & Hnz & Hem & Hs).
  rewrite E. cbn [bind]. exists q. split; [reflexivity|]. split; [lia|]. auto.
Qed.

Lemma view_at (h : hmap K V) p : RH (bcount h) (metas h) (table h) -> 0 <= p < bcount h -> D (metas h) p <> 0 ->
  exists e, aget (view (metas h) (table h)) p = Ok (Some e) /\ rd (table h) p = Ok e.
Proof.
  intros HR Hp Hnz. destruct (RH_view_get hash _ _ _ p HR Hp) as (o & Ho & Hc). destruct o as [e|]; [|lia].
  exists e. split; [exact Ho|]. destruct Hc as (_ & Ht & _). unfold rd. now rewrite Ht.
Qed.

Lemma each_loop_ok (h : hmap K V) fuel : forall p, RH (bcount h) (metas h) (table h) -> 0 <= p <= bcount h ->
  D (metas h) p <> 0 -> bcount h - p < Z.of_nat fuel ->
  each_loop fuel h (it_at h p) = Ok (somes (skipn (Z.to_nat p) (view (metas h) (table h)))).
Proof.
  induction fuel as [|fuel IH]; intros p HR Hp Hnz Hf; [lia|]. cbn [each_loop]. unfold it_at at 1. cbn [ref].
  destruct (Z.eqb_spec p (bcount h)) as [->|N].
  - rewrite skipn_all2; [reflexivity|].
    pose proof (zlen_view _ _ (RH_len hash _ _ _ HR)) as LV. rewrite (rh_lt _ _ _ _ HR) in LV. unfold zlen in LV. lia.
  - destruct (view_at h p HR ltac:(lia) Hnz) as (e & He & Hrd). rewrite Hrd. cbn [bind].
    destruct (next_ok h p HR ltac:(lia)) as (q & E & Hq & Hqnz & _ & Hs). rewrite E. cbn [bind].
    rewrite IH by (auto; lia). cbn [bind]. rewrite (somes_skip _ _ _ He), Hs. reflexivity.
Qed.

Lemma each_ok (h : hmap K V) l : repr h l -> exists es, each h = Ok es /\ Permutation es l.
Proof.
  intros [[-> ->]|(HR & _ & _ & _ & HP)].
  - exists []. split; [reflexivity|constructor].
  - unfold each. pose proof (RH_pos _ _ _ _ HR) as Hb.
    destruct (begin_ok h HR) as (q & E & Hq & Hnz & _ & Hs). rewrite E. cbn [bind].
    rewrite each_loop_ok by (auto; lia). eexists. split; [reflexivity|]. now rewrite <- Hs.
Qed.

(** * Erasing while iterating *)
Lemma shifted_before b i s (v v' : list (option (K * V))) q : shifted b i s v v' None -> 0 <= i < b -> 0 <= s < b - 1 ->
  0 <= q < i -> exists q', 0 <= q' < i /\ (aget v' q = aget v q' \/ aget v' q = Ok None).
Proof.
  intros Hsh Hi Hs Hq. specialize (Hsh (q - i + b) ltac:(lia)).
  replace (i + (q - i + b)) with (q + 1 * b) in Hsh by lia.
  rewrite Z.mod_add, mod_id in Hsh by lia.
  destruct (Z.ltb_spec (q - i + b) s).
  - exists (q + 1). split; [lia|]. left. rewrite Hsh. replace (q + 1 * b + 1) with (q + 1 + 1 * b) by lia.
    now rewrite Z.mod_add, mod_id by lia.
  - destruct (Z.eqb_spec (q - i + b) s); [exists q; auto|]. exists q. auto.
Qed.

Lemma filter_all_false {X} (P : X -> bool) l : (forall e, In e l -> P e = false) ->
  filter P l = [] /\ filter (fun e => negb (P e)) l = l.
Proof.
  induction l as [|x l IH]; intros H; [auto|]. cbn [filter]. rewrite (H x (or_introl eq_refl)). cbn [negb].
  destruct (IH (fun e He => H e (or_intror He))) as [A B]. split; [exact A|]. now rewrite B.
Qed.

Lemma erase_if_loop_ok P fuel : forall (h : hmap K V) l p seen0, table_ok h l -> 0 <= p <= bcount h -> D (metas h) p <> 0 ->
  (forall q e, 0 <= q < p -> aget (view (metas h) (table h)) q = Ok (Some e) -> P e = false /\ In e seen0) ->
  bcount h - p + size h < Z.of_nat fuel ->
  exists h' d seen, erase_if_loop fuel P h (it_at h p) = Ok (h', d, seen) /\ bcount h' = bcount h /\
    table_ok h' (filter (fun e => negb (P e)) l) /\ Permutation d (flat_map destroy_entry (filter P l)) /\
    (forall e, In e l -> In e (seen0 ++ seen)) /\ (forall e, In e seen -> In e l).
Proof.
  induction fuel as [|fuel IH]; intros h l p seen0 HT Hp Hnz Hinv Hf.
  { pose proof HT as (_ & Hsz & _). pose proof (zlen_nonneg l). lia. }
  pose proof HT as (HR & Hsz & Hld & Hdist & HP).
  cbn [erase_if_loop]. unfold it_at at 1. cbn [ref]. destruct (Z.eqb_spec p (bcount h)) as [->|N].
  - exists h, [], []. split; [reflexivity|]. split; [reflexivity|].
    assert (Hall : forall e, In e l -> P e = false /\ In e seen0).
    { intros e He. assert (Hin : In e (somes (view (metas h) (table h)))) by (eapply Permutation_in; [symmetry; exact HP|exact He]).
      apply somes_In in Hin as [q Hq]. apply (Hinv q); [|exact Hq]. pose proof (aget_ok_range _ _ _ Hq) as Hr.
      rewrite (zlen_view _ _ (RH_len hash _ _ _ HR)), (rh_lt _ _ _ _ HR) in Hr. lia. }
    destruct (filter_all_false P l (fun e He => proj1 (Hall e He))) as [A B]. rewrite A, B.
    split; [exact HT|]. split; [constructor|]. split; [intros e He; rewrite app_nil_r; apply Hall; exact He|intros e []].
  - destruct (view_at h p HR ltac:(lia) Hnz) as (e & He & Hrd). rewrite Hrd. cbn [bind].
    destruct (P e) eqn:HPe.
    + unfold erase_at. unfold it_at at 1. cbn [ref]. destruct (Z.eqb_spec p (bcount h)); [lia|].
      destruct (erase_at_pos_ok h l p e HT ltac:(lia) He) as (h' & l' & s & E & HT' & HP' & Hbc & Hs & Hsh).
      rewrite E. cbn [bind fst snd]. pose proof HT' as (HR' & Hsz' & _ & _ & HPv').
      pose proof (zlen_perm _ _ HP') as L. rewrite zlen_cons in L.
      destruct (RH_meta hash _ _ _ p HR' ltac:(lia)) as (m & Hm & Hmd). cbn [mref it_at]. rewrite Hm. cbn [bind]. rewrite Hmd.
      assert (Hinv' : forall q e', 0 <= q < p -> aget (view (metas h') (table h')) q = Ok (Some e') -> P e' = false /\ In e' seen0).
      { intros q e' Hq He'. destruct (shifted_before _ _ _ _ _ q Hsh ltac:(lia) Hs Hq) as (q' & Hq' & [G|G]); [|congruence].
        apply (Hinv q'); [lia|congruence]. }
      assert (Hit : it_at h p = it_at h' p) by (unfold it_at; now rewrite Hbc). 
      assert (Hstep : forall q (seenx : list (K * V)), p <= q <= bcount h' -> D (metas h') q <> 0 ->
        (forall x e', p <= x < q -> aget (view (metas h') (table h')) x = Ok (Some e') -> False) ->
        exists h2 d seen, (let* w := erase_if_loop fuel P h' (it_at h' q) in
            let '(h2, d2, s2) := w in Ok (h2, value_drop e ++ d2, e :: s2)) = Ok (h2, d, seen) /\ bcount h2 = bcount h /\
          table_ok h2 (filter (fun e => negb (P e)) l) /\ Permutation d (flat_map destroy_entry (filter P l)) /\
          (forall e, In e l -> In e (seen0 ++ seen)) /\ (forall e, In e seen -> In e l)).
      { intros q _ Hq Hqnz Hgap.
        destruct (IH h' l' q (seen0 ++ [e])) as (h2 & d & seen & E2 & Hbc2 & HT2 & HPd & Hs1 & Hs2); auto; try lia.
        { intros x e' Hx He'. destruct (Z.lt_ge_cases x p) as [Hxp|Hxp].
          - destruct (Hinv' x e' ltac:(lia) He'). split; [assumption|]. apply in_or_app. now left.
          - exfalso. apply (Hgap x e'); [lia|exact He']. }
        rewrite E2. cbn [bind]. exists h2, (value_drop e ++ d), (e :: seen). split; [reflexivity|]. split; [lia|].
        split.
        { apply (table_perm _ (filter (fun e => negb (P e)) l')); [|exact HT2].
          rewrite <- (filter_perm _ _ _ HP'). cbn [filter]. rewrite HPe. reflexivity. }
        split.
        { rewrite <- (Permutation_flat_map _ (filter_perm P _ _ HP')). cbn [filter]. rewrite HPe. cbn [flat_map].
          apply Permutation_app; [reflexivity|exact HPd]. }
        split.
        { intros x Hx. apply (Permutation_in _ (Permutation_sym HP')) in Hx as [->|Hx].
          - apply in_or_app. right. now left.
          - specialize (Hs1 x Hx). rewrite <- app_assoc in Hs1. exact Hs1. }
        { intros x [<-|Hx]; apply (Permutation_in _ HP'); [now left|right; auto]. } }
      destruct (Z.eqb_spec (D (metas h') p) 0) as [E0|N0].
      * rewrite Hit. destruct (next_ok h' p HR' ltac:(lia)) as (q & Eq & Hq & Hqnz & Hem & _).
        rewrite Eq. cbn [bind]. apply (Hstep q []); [lia|exact Hqnz|].
        intros x e' Hx He'. destruct (Z.eq_dec x p) as [->|].
        { destruct (RH_view_get hash _ _ _ p HR' ltac:(lia)) as (o & Ho & Hc). rewrite He' in Ho. injection Ho as <-. destruct Hc; lia. }
        rewrite Hem in He' by lia. discriminate.
      * cbn [bind]. rewrite Hit. apply (Hstep p []); [lia|exact N0|]. intros; lia.
    + destruct (next_ok h p HR ltac:(lia)) as (q & Eq & Hq & Hqnz & Hem & _). rewrite Eq. cbn [bind].
      destruct (IH h l q (seen0 ++ [e])) as (h2 & d & seen & E2 & Hbc2 & HT2 & HPd & Hs1 & Hs2); auto; try lia.
      { intros x e' Hx He'. destruct (Z.lt_ge_cases x p) as [Hxp|Hxp].
        - destruct (Hinv x e' ltac:(lia) He'). split; [assumption|]. apply in_or_app. now left.
        - destruct (Z.eq_dec x p) as [->|].
          + assert (e' = e) by congruence. subst. split; [exact HPe|]. apply in_or_app. right. now left.
          + rewrite Hem in He' by lia. discriminate. }
      rewrite E2. cbn [bind]. exists h2, d, (e :: seen). split; [reflexivity|]. split; [exact Hbc2|]. split; [exact HT2|]. split; [exact HPd|].
      split.
      * intros x Hx. specialize (Hs1 x Hx). rewrite <- app_assoc in Hs1. exact Hs1.
      * intros x [<-|Hx]; [|auto]. eapply In_view; eauto.
Qed.

Lemma erase_if_ok P (h : hmap K V) l : repr h l ->
  exists h' d seen, erase_if P h = Ok (h', d, seen) /\ repr h' (filter (fun e => negb (P e)) l) /\
    Permutation d (flat_map destroy_entry (filter P l)) /\
    (forall e, In e l <-> In e seen).
Proof.
  intros [[-> ->]|HT].
  - exists init, [], []. split; [reflexivity|]. split; [apply init_repr|]. split; [constructor|]. tauto.
  - pose proof HT as (HR & Hsz & _). pose proof (RH_pos _ _ _ _ HR) as Hb. pose proof (zlen_nonneg l).
    unfold erase_if. destruct (begin_ok h HR) as (q & E & Hq & Hnz & Hem & _). rewrite E. cbn [bind].
    destruct (erase_if_loop_ok P (S (S (Z.to_nat (bcount h + size h)))) h l q []) as (h2 & d & seen & E2 & Hbc2 & HT2 & HPd & Hs1 & Hs2); auto; try lia.
    { intros x e Hx He. rewrite Hem in He by lia. discriminate. }
    exists h2, d, seen. split; [exact E2|]. split; [now right|]. split; [exact HPd|].
    intros e. split; [apply Hs1|apply Hs2].
Qed.

(** * One operation, then every history *)
Definition same_out (a c : list (destroyed K V) * bool) : Prop := Permutation (fst a) (fst c) /\ snd a = snd c.

Lemma step_ok (h : hmap K V) l o : repr h l -> legal_op l o -> spread hash (fst (fst (map_step eqb l o))) ->
  exists h' d c, step hash eqb h o = Ok (h', d, c) /\ repr h' (fst (fst (map_step eqb l o))) /\
    same_out (d, c) (snd (fst (map_step eqb l o)), snd (map_step eqb l o)).
Proof.
  intros Hr Hleg HS. unfold same_out. destruct o as [k v|k v|k v|k v|k|P| |cap|]; cbn [step legal_op] in *.
  1-4: assert (HS' : spread hash (match lookup eqb k l with None => (k, v) :: l | Some _ => l end))
    by (cbn [map_step] in HS; destruct (lookup eqb k l); cbn [fst] in HS; first [exact HS|now apply spread_assign in HS]);
    destruct (insert_entry_ok h l k v Hr Hleg HS') as (h' & r & p & E & Er & [(e & Ei & Hl & HT & Hp & He & Hrd)|(Ei & Hl & T' & HT' & HT)]);
    unfold insert, emplace, insert_or_assign, emplace_or_assign; rewrite E; cbn [bind fst snd];
    unfold the_ref; rewrite Er, Ei; cbn [bind map_step]; rewrite Hl; cbn [fst snd].
  - eexists _, _, _. split; [reflexivity|]. split; [now right|]. auto.
  - rewrite (put_ok _ _ _ _ HT'). cbn [bind]. eexists _, _, _. split; [reflexivity|]. split; [now right|]. auto.
  - eexists _, _, _. split; [reflexivity|]. split; [now right|]. auto.
  - rewrite (put_ok _ _ _ _ HT'). cbn [bind]. eexists _, _, _. split; [reflexivity|]. split; [now right|]. auto.
  - rewrite Hrd. cbn [bind]. destruct (put_value_ok h' l k v p e HT Hp Hl He) as (h2 & E2 & HT2). rewrite E2. cbn [bind].
    eexists _, _, _. split; [reflexivity|]. split; [now right|]. auto.
  - rewrite (put_ok _ _ _ _ HT'). cbn [bind]. eexists _, _, _. split; [reflexivity|]. split; [now right|]. auto.
  - rewrite Hrd. cbn [bind]. destruct (put_value_ok h' l k v p e HT Hp Hl He) as (h2 & E2 & HT2). rewrite E2. cbn [bind].
    eexists _, _, _. split; [reflexivity|]. split; [now right|]. auto.
  - rewrite (put_ok _ _ _ _ HT'). cbn [bind]. eexists _, _, _. split; [reflexivity|]. split; [now right|]. auto.
  - destruct (erase_ok h l k Hr) as (h' & E & Hr'). rewrite E. eexists _, _, _. split; [reflexivity|]. split; [exact Hr'|]. auto.
  - destruct (erase_if_ok P h l Hr) as (h' & d & seen & E & Hr' & HP & _). rewrite E. cbn [bind].
    eexists _, _, _. split; [reflexivity|]. split; [exact Hr'|]. auto.
  - destruct (clear_ok h l Hr) as (h' & d & E & HP & Hr' & _). rewrite E. cbn [bind fst snd].
    eexists _, _, _. split; [reflexivity|]. split; [exact Hr'|]. auto.
  - cbn [map_step fst snd] in *.
    destruct (reserve_ok h l cap Hr ltac:(lia)) as (h' & E & Hr' & _).
    { intros Hc. destruct (buckets_for_ok cap ltac:(lia)) as (P & _ & B & _). apply (spread_table _ _ cap HS P B Hc). }
    rewrite E. cbn [bind]. eexists _, _, _. split; [reflexivity|]. split; [exact Hr'|]. auto.
  - cbn [map_step fst snd] in *. unfold shrink_to_fit. rewrite (repr_size _ _ _ _ Hr). pose proof (zlen_nonneg l).
    destruct (reserve_ok h l (zlen l) Hr ltac:(lia)) as (h' & E & Hr' & _).
    { intros Hc. destruct (buckets_for_ok (zlen l) ltac:(lia)) as (P & _ & B & _). apply (spread_table _ _ (zlen l) HS P B Hc). }
    rewrite E. cbn [bind]. eexists _, _, _. split; [reflexivity|]. split; [exact Hr'|]. auto.
Qed.

Lemma run_ok ops : forall (h : hmap K V) l, repr h l -> legal hash eqb l ops ->
  exists h' outs, run hash eqb h ops = Ok (h', outs) /\ repr h' (fst (map_run eqb l ops)) /\
    Forall2 same_out outs (snd (map_run eqb l ops)).
Proof.
  induction ops as [|o ops IH]; intros h l Hr Hl; cbn [run map_run].
  - exists h, []. split; [reflexivity|]. split; [exact Hr|]. constructor.
  - cbn [legal] in Hl. destruct Hl as (Hlo & HS & Hl).
    destruct (step_ok h l o Hr Hlo HS) as (h1 & d & c & E & Hr1 & Hso). rewrite E. cbn [bind].
    destruct (map_step eqb l o) as [[l1 d1] c1]. cbn [fst snd] in *.
    destruct (IH h1 l1 Hr1 Hl) as (h2 & outs & E2 & Hr2 & HF). rewrite E2. cbn [bind fst snd].
    exists h2, ((d, c) :: outs). split; [reflexivity|]. split; [exact Hr2|]. constructor; assumption.
Qed.

(** * Cloning, comparing, dropping *)
Lemma clone_slots_ok b ms t : RH b ms t -> exists t', clone_slots ms t = Ok t' /\ view ms t' = view ms t /\ zlen t' = zlen t /\
  (forall p e, D ms p <> 0 -> aget t p = Ok (Some e) -> aget t' p = Ok (Some e)).
Proof.
  intros HR. assert (Hs : forall p m, 0 <= p < zlen t -> aget ms p = Ok m -> dist m <> 0 -> exists e, aget t p = Ok (Some e)).
  { intros p m Hp Hm Hn. rewrite (rh_lt _ _ _ _ HR) in Hp. destruct (rh_slot _ _ _ _ HR p Hp) as (m' & e & _ & G & _); [|eauto].
    now rewrite (D_get _ _ _ Hm). }
  assert (HL : zlen t < zlen ms) by (rewrite (rh_lt _ _ _ _ HR), (rh_lm _ _ _ _ HR); lia).
  clear HR. revert ms HL Hs. induction t as [|o t IH]; intros ms HL Hs; cbn [clone_slots].
  - exists []. split; [destruct ms; reflexivity|]. split; [reflexivity|]. split; [reflexivity|]. auto.
  - destruct ms as [|m ms]; [unfold zlen in HL; cbn [length] in HL; lia|]. rewrite !zlen_cons in HL. cbn [clone_slots].
    pose proof (zlen_nonneg t).
    destruct (IH ms) as (t' & E & HV & HLt & HG); [lia| |].
    { intros p m' Hp Hm Hn. destruct (Hs (p + 1) m') as [e He]; [rewrite zlen_cons; lia| |assumption|].
      - rewrite aget_cons. destruct (Z.eqb_spec (p + 1) 0); [lia|]. replace (p + 1 - 1) with p by lia. exact Hm.
      - rewrite aget_cons in He. destruct (Z.eqb_spec (p + 1) 0); [lia|]. replace (p + 1 - 1) with p in He by lia. eauto. }
    rewrite E. cbn [bind]. destruct (Z.eqb_spec (dist m) 0) as [E0|N0]; cbn [negb].
    + exists (None :: t'). split; [reflexivity|]. cbn [view]. rewrite E0. cbn [Z.eqb]. rewrite HV. split; [reflexivity|].
      split; [rewrite !zlen_cons; lia|].
      intros p e. unfold D. rewrite !aget_cons. destruct (Z.eqb_spec p 0); [lia|]. apply HG.
    + destruct (Hs 0 m) as [e He]; [rewrite zlen_cons; lia|reflexivity|assumption|]. rewrite aget_cons in He. injection He as ->.
      exists (Some e :: t'). split; [reflexivity|]. cbn [view]. rewrite HV. split; [reflexivity|].
      split; [rewrite !zlen_cons; lia|].
      intros p e'. unfold D. rewrite !aget_cons. destruct (Z.eqb_spec p 0); [auto|]. apply HG.
Qed.

Lemma clone_ok (h : hmap K V) l : repr h l -> exists h', clone h = Ok h' /\ repr h' l /\ bcount h' = bcount h.
Proof.
  intros [[-> ->]|HT].
  - exists init. split; [reflexivity|]. split; [apply init_repr|reflexivity].
  - pose proof HT as (HR & Hsz & Hld & Hdist & HP). pose proof (RH_pos _ _ _ _ HR).
    unfold clone. destruct (Z.eqb_spec (bcount h) 0); [lia|]. cbn [negb].
    destruct (clone_slots_ok _ _ _ HR) as (t' & E & HV & HLt & HG). rewrite E. cbn [bind].
    eexists. split; [reflexivity|]. split; [|reflexivity]. right.
    split; [|cbn [size bcount metas table]; rewrite HV; auto].
    cbn [metas table bcount]. split.
    + apply (rh_pow2 _ _ _ _ HR).
    + rewrite HLt. apply (rh_lt _ _ _ _ HR).
    + apply (rh_lm _ _ _ _ HR).
    + apply (rh_mark _ _ _ _ HR).
    + apply (rh_rng _ _ _ _ HR).
    + intros p Hp Hn. destruct (rh_slot _ _ _ _ HR p Hp Hn) as (m & e & G1 & G2 & G3). exists m, e. eauto.
    + apply (rh_chain _ _ _ _ HR).
Qed.

Lemma contains_ok (h : hmap K V) l k : repr h l ->
  contains hash eqb h k = Ok (match lookup eqb k l with Some _ => true | None => false end).
Proof. intros Hr. unfold contains. now rewrite (get_ok h l k Hr). Qed.

Lemma eq_loop_ok (h other : hmap K V) l2 fuel : forall p, RH (bcount h) (metas h) (table h) -> repr other l2 -> 0 <= p <= bcount h ->
  D (metas h) p <> 0 -> bcount h - p < Z.of_nat fuel ->
  eq_loop hash eqb fuel h other (it_at h p) =
    Ok (forallb (fun e => match lookup eqb (fst e) l2 with Some _ => true | None => false end)
         (somes (skipn (Z.to_nat p) (view (metas h) (table h))))).
Proof.
  induction fuel as [|fuel IH]; intros p HR Hr2 Hp Hnz Hf; [lia|]. cbn [eq_loop]. unfold it_at at 1. cbn [ref].
  destruct (Z.eqb_spec p (bcount h)) as [->|N].
  - rewrite skipn_all2; [reflexivity|].
    pose proof (zlen_view _ _ (RH_len hash _ _ _ HR)) as LV. rewrite (rh_lt _ _ _ _ HR) in LV. unfold zlen in LV. lia.
  - destruct (view_at h p HR ltac:(lia) Hnz) as (e & He & Hrd). rewrite Hrd. cbn [bind].
    rewrite (contains_ok other l2 _ Hr2). cbn [bind]. rewrite (somes_skip _ _ _ He). cbn [app forallb].
    destruct (lookup eqb (fst e) l2); cbn [negb andb]; [|reflexivity].
    destruct (next_ok h p HR ltac:(lia)) as (q & E & Hq & Hqnz & _ & Hs). rewrite E. cbn [bind].
    rewrite IH by (auto; lia). rewrite Hs. reflexivity.
Qed.

Lemma eq_ok (h1 h2 : hmap K V) l1 l2 : repr h1 l1 -> repr h2 l2 ->
  exists c, eq hash eqb h1 h2 = Ok c /\
    (c = true <-> zlen l1 = zlen l2 /\ forall k, (lookup eqb k l1 = None <-> lookup eqb k l2 = None)).
Proof.
  intros H1 H2. pose proof (repr_distinct _ _ _ _ H1) as D1. pose proof (repr_distinct _ _ _ _ H2) as D2.
  unfold eq. rewrite (repr_size _ _ _ _ H1), (repr_size _ _ _ _ H2).
  destruct (Z.eqb_spec (zlen l1) (zlen l2)) as [E|N]; cbn [negb].
  2:{ exists false. split; [reflexivity|]. split; [discriminate|intros [? _]; lia]. }
  assert (Hfa : exists vs, Permutation vs l1 /\ (let* it := begin h1 in eq_loop hash eqb (S (S (Z.to_nat (bcount h1)))) h1 h2 it) =
     Ok (forallb (fun e => match lookup eqb (fst e) l2 with Some _ => true | None => false end) vs)).
  { destruct H1 as [[-> ->]|(HR & _ & _ & _ & HP)].
    - exists []. split; [constructor|reflexivity].
    - pose proof (RH_pos _ _ _ _ HR). destruct (begin_ok h1 HR) as (q & Eb & Hq & Hnz & _ & Hs). rewrite Eb. cbn [bind].
      rewrite (eq_loop_ok h1 h2 l2) by (auto; lia). eexists. split; [|reflexivity]. now rewrite <- Hs. }
  destruct Hfa as (vs & HPv & ->). eexists. split; [reflexivity|]. rewrite forallb_forall. split.
  - intros Hall. split; [exact E|].
    assert (Hall' : forall e, In e l1 -> exists e2, In e2 l2 /\ eqb (fst e2) (fst e) = true).
    { intros e He. specialize (Hall e (Permutation_in _ (Permutation_sym HPv) He)).
      destruct (lookup eqb (fst e) l2) as [e2|] eqn:L; [|discriminate]. apply find_some in L as [A B]. eauto. }
    (* as many keys on both sides: an injection is onto *)
    assert (Honto : forall e2, In e2 l2 -> exists e, In e l1 /\ eqb (fst e) (fst e2) = true).
    { clear HPv Hall H1 H2. revert l2 D2 E Hall'. induction l1 as [|x l1 IH]; intros l2 D2 E Hall'.
      - destruct l2; [intros e2 []|]. rewrite zlen_cons in E. pose proof (zlen_nonneg l2). unfold zlen in E at 1. cbn [length] in E. lia.
      - destruct D1 as [Dx D1]. destruct (Hall' x (or_introl eq_refl)) as (y & Hy & Hxy).
        destruct (in_split _ _ Hy) as (a & c & El).
        assert (HPl : Permutation (y :: a ++ c) l2) by (rewrite El; apply Permutation_middle).
        pose proof (distinct_perm hash eqb KO _ _ (Permutation_sym HPl) D2) as [Dy Dac].
        pose proof (zlen_perm _ _ HPl) as L. rewrite zlen_cons in L, E.
        assert (IHs : forall e2, In e2 (a ++ c) -> exists e, In e l1 /\ eqb (fst e) (fst e2) = true).
        { apply (IH D1 (a ++ c)); [exact Dac|lia|].
          intros e He. destruct (Hall' e (or_intror He)) as (z & Hz & Hez).
          apply (Permutation_in _ (Permutation_sym HPl)) in Hz as [<-|Hz]; [|eauto].
          exfalso. specialize (Dx e He). rewrite (ko_trans _ _ KO (fst x) (fst y) (fst e)) in Dx; [discriminate|now apply (ko_sym _ _ KO)|exact Hez]. }
        intros e2 He2. apply (Permutation_in _ (Permutation_sym HPl)) in He2 as [<-|He2].
        + exists x. split; [now left|]. now apply (ko_sym _ _ KO).
        + destruct (IHs e2 He2) as (e & He & Hk). exists e. split; [now right|exact Hk]. }
    intros k. rewrite !lookup_none. split.
    + intros Hno e2 He2. destruct (eqb (fst e2) k) eqn:Q; [|reflexivity]. destruct (Honto e2 He2) as (e & He & Hk).
      rewrite <- (Hno e He). symmetry. now apply (ko_trans _ _ KO _ (fst e2)).
    + intros Hno e He. destruct (eqb (fst e) k) eqn:Q; [|reflexivity]. destruct (Hall' e He) as (e2 & He2 & Hk).
      rewrite <- (Hno e2 He2). symmetry. now apply (ko_trans _ _ KO _ (fst e)).
  - intros [_ Hk] e He. destruct (lookup eqb (fst e) l2) eqn:L; [reflexivity|].
    apply Hk in L. rewrite lookup_none in L. specialize (L e (Permutation_in _ HPv He)). now rewrite (ko_refl _ _ KO) in L.
Qed.

Lemma drop_ok (h : hmap K V) l : repr h l -> exists d, drop h = Ok d /\ Permutation d (flat_map destroy_entry l).
Proof.
  intros Hr. unfold drop. rewrite Z.gtb_ltb. destruct (Z.ltb_spec 0 (bcount h)) as [Hb|Hb]; [now apply wipe_ok|].
  destruct Hr as [[-> ->]|(HR & _)].
  - exists []. split; [reflexivity|constructor].
  - pose proof (RH_pos _ _ _ _ HR). lia.
Qed.

(** * Ownership: what was moved in is in the map or was destroyed, each exactly once *)
Lemma perm_filter_split {X} (P : X -> bool) (l : list X) : Permutation (filter (fun e => negb (P e)) l ++ filter P l) l.
Proof.
  induction l as [|x l IH]; [constructor|]. cbn [filter]. destruct (P x); cbn [negb].
  - rewrite <- Permutation_middle. now constructor.
  - cbn [app]. now constructor.
Qed.
Lemma owned_assign k v (l : list (K * V)) e : distinct_keys eqb l -> lookup eqb k l = Some e ->
  Permutation (flat_map destroy_entry (assign eqb k v l) ++ [DVal (snd e)]) (DVal v :: flat_map destroy_entry l).
Proof.
  intros Hd Hl. apply find_some in Hl as [Hin Hk]. destruct (in_split _ _ Hin) as (a & c & El).
  assert (HPl : Permutation (e :: a ++ c) l) by (rewrite El; apply Permutation_middle).
  rewrite <- (Permutation_flat_map destroy_entry (assign_perm k v l (a ++ c) e Hd Hk HPl)).
  rewrite <- (Permutation_flat_map destroy_entry HPl). cbn [flat_map destroy_entry fst snd app].
  rewrite <- Permutation_cons_append. rewrite (perm_swap (DKey (fst e)) (DVal v)).
  rewrite perm_swap. apply perm_skip. rewrite perm_swap. reflexivity.
Qed.

Lemma owned_step (l : list (K * V)) o : distinct_keys eqb l ->
  Permutation (flat_map destroy_entry (fst (fst (map_step eqb l o))) ++ snd (fst (map_step eqb l o)))
              (moved_in eqb l o ++ flat_map destroy_entry l).
Proof.
  intros Hd. destruct o as [k v|k v|k v|k v|k|P| |cap|]; cbn [map_step moved_in].
  - destruct (lookup eqb k l); cbn [fst snd flat_map].
    + apply Permutation_app_comm.
    + rewrite app_nil_r. reflexivity.
  - destruct (lookup eqb k l); cbn [fst snd flat_map]; rewrite app_nil_r; reflexivity.
  - destruct (lookup eqb k l) as [e|] eqn:L; cbn [fst snd flat_map].
    + cbn [app]. rewrite <- (owned_assign k v l e Hd L).
      change [DKey k; DVal (snd e)] with ([DKey k] ++ [@DVal K V (snd e)]). rewrite app_assoc.
      rewrite <- (Permutation_cons_append _ (DKey k)). reflexivity.
    + rewrite app_nil_r. reflexivity.
  - destruct (lookup eqb k l) as [e|] eqn:L; cbn [fst snd flat_map].
    + apply owned_assign; assumption.
    + rewrite app_nil_r. reflexivity.
  - destruct (lookup eqb k l) as [e|] eqn:L; cbn [fst snd app]; [|rewrite app_nil_r; reflexivity].
    apply find_some in L as [Hin Hk]. destruct (in_split _ _ Hin) as (a & c & El).
    assert (HPl : Permutation (e :: a ++ c) l) by (rewrite El; apply Permutation_middle).
    rewrite <- (Permutation_flat_map destroy_entry (remove_perm k l (a ++ c) e Hd Hk HPl)).
    rewrite <- (Permutation_flat_map destroy_entry HPl). cbn [flat_map]. apply Permutation_app_comm.
  - cbn [fst snd app]. rewrite <- flat_map_app. apply Permutation_flat_map, perm_filter_split.
  - reflexivity.
  - cbn [fst snd app]. rewrite app_nil_r. reflexivity.
  - cbn [fst snd app]. rewrite app_nil_r. reflexivity.
Qed.

Lemma distinct_step (l : list (K * V)) o : distinct_keys eqb l -> distinct_keys eqb (fst (fst (map_step eqb l o))).
Proof.
  intros Hd.
  assert (Hf : forall P, distinct_keys eqb (filter P l)).
  { intros P. clear o. induction l as [|x r IH]; [exact I|]. destruct Hd as [A B]. cbn [filter]. destruct (P x); [|auto].
    cbn [distinct_keys]. split; [|auto]. intros e' He'. apply filter_In in He' as [He' _]. now apply A. }
  assert (Hc : forall k v, lookup eqb k l = None -> distinct_keys eqb ((k, v) :: l)).
  { intros k v L. cbn [distinct_keys]. split; [|exact Hd]. intros e' He'. cbn [fst]. destruct (eqb k (fst e')) eqn:Q; [|reflexivity].
    apply (ko_sym _ _ KO) in Q. rewrite lookup_none in L. rewrite L in Q by assumption. discriminate. }
  assert (Ha : forall k v, distinct_keys eqb (assign eqb k v l)).
  { intros k v. apply (distinct_by_keys l); [now rewrite assign_keys|exact Hd]. }
  destruct o as [k v|k v|k v|k v|k|P| |cap|]; cbn [map_step]; try destruct (lookup eqb k l) eqn:L; cbn [fst]; auto; try apply Hf; exact I.
Qed.

Lemma owned_run ops : forall (l : list (K * V)), distinct_keys eqb l ->
  Permutation (flat_map destroy_entry (fst (map_run eqb l ops)) ++ flat_map fst (snd (map_run eqb l ops)))
              (moved_in_all eqb l ops ++ flat_map destroy_entry l).
Proof.
  induction ops as [|o ops IH]; intros l Hd; cbn [map_run moved_in_all].
  - cbn [fst snd flat_map app]. rewrite app_nil_r. reflexivity.
  - pose proof (owned_step l o Hd) as HO. pose proof (distinct_step l o Hd) as Hd1.
    destruct (map_step eqb l o) as [[l1 d1] c1]. cbn [fst snd] in *. cbn [flat_map fst].
    specialize (IH l1 Hd1).
    transitivity (d1 ++ (moved_in_all eqb l1 ops ++ flat_map destroy_entry l1)).
    + rewrite <- IH, !app_assoc. apply Permutation_app_tail, Permutation_app_comm.
    + transitivity (moved_in_all eqb l1 ops ++ (flat_map destroy_entry l1 ++ d1)).
      * rewrite (Permutation_app_comm d1), <- app_assoc. reflexivity.
      * rewrite HO, !app_assoc. apply Permutation_app_tail, Permutation_app_comm.
Qed.

Lemma outs_perm outs souts : Forall2 same_out outs souts -> Permutation (flat_map fst outs) (flat_map fst souts).
Proof. induction 1 as [|a c outs souts [H _] _ IH]; cbn [flat_map]; [constructor|]. now apply Permutation_app. Qed.

(** * Summary for every history *)
(** At most 1023 entries: any hash function will do. *)
Lemma spread_small (l : list (K * V)) : zlen l <= 1023 -> spread hash l.
Proof.
  intros Hl j Hj _ start n Hn.
  assert (zlen (filter (fun e => in_window hash (2 ^ j) start n (fst e)) l) <= zlen l); [|lia].
  generalize (fun e : K * V => in_window hash (2 ^ j) start n (fst e)) as P. intros P. clear. 
  induction l as [|x l IH]; [apply Z.le_refl|]. cbn [filter]. destruct (P x); rewrite ?zlen_cons; lia.
Qed.
Lemma small_legal ops : forall (l : list (K * V)), sizes_le eqb 1023 l ops -> legal hash eqb l ops.
Proof.
  induction ops as [|o ops IH]; intros l; cbn [sizes_le legal]; [auto|].
  intros (A & B & C). split; [exact A|]. split; [now apply spread_small|now apply IH].
Qed.

Lemma history_ok (ops : list (op K V)) : legal hash eqb [] ops ->
  exists h outs es, run hash eqb init ops = Ok (h, outs) /\ each h = Ok es /\
    let l := fst (map_run eqb [] ops) in
    same_outs outs (snd (map_run eqb [] ops)) /\
    size h = zlen l /\ distinct_keys eqb l /\ Permutation es l /\
    (forall k, get hash eqb h k = Ok (lookup eqb k l)).
Proof.
  intros Hl. destruct (run_ok ops init [] init_repr Hl) as (h & outs & E & Hr & HF).
  destruct (each_ok h _ Hr) as (es & Ees & HPes). exists h, outs, es. split; [exact E|]. split; [exact Ees|]. cbn zeta.
  split; [exact HF|]. split; [now apply (repr_size hash eqb)|]. split; [now apply (repr_distinct hash eqb h)|].
  split; [exact HPes|]. intros k. now apply get_ok.
Qed.

Lemma own_ok (ops : list (op K V)) : legal hash eqb [] ops ->
  exists h outs d, run hash eqb init ops = Ok (h, outs) /\ drop h = Ok d /\
    Permutation (d ++ flat_map fst outs) (moved_in_all eqb [] ops).
Proof.
  intros Hl. destruct (run_ok ops init [] init_repr Hl) as (h & outs & E & Hr & HF).
  destruct (drop_ok h _ Hr) as (d & Ed & HPd). exists h, outs, d. split; [exact E|]. split; [exact Ed|].
  pose proof (owned_run ops [] I) as HO. cbn [flat_map] in HO. rewrite app_nil_r in HO. rewrite <- HO.
  apply Permutation_app; [exact HPd|now apply outs_perm].
Qed.

Lemma reserve_hist_ok (ops : list (op K V)) cap : legal hash eqb [] ops -> spread hash (fst (map_run eqb [] ops)) -> 0 <= cap <= 2 ^ 60 ->
  exists h outs h', run hash eqb init ops = Ok (h, outs) /\ reserve hash eqb h cap = Ok h' /\
    size h' = size h /\ (forall k, get hash eqb h' k = get hash eqb h k) /\
    (exists es es', each h = Ok es /\ each h' = Ok es' /\ Permutation es' es) /\
    (size h <= cap -> 100 * cap <= 81 * bcount h') /\
    (cap < size h -> h' = h).
Proof.
  intros Hl HS Hc. destruct (run_ok ops init [] init_repr Hl) as (h & outs & E & Hr & HF).
  set (l := fst (map_run eqb [] ops)) in *.
  destruct (reserve_ok h l cap Hr ltac:(lia)) as (h' & Er & Hr' & Hbig & Hsm).
  { intros Hle. destruct (buckets_for_ok cap ltac:(lia)) as (P & _ & B & _). apply (spread_table _ _ cap HS P B Hle). }
  exists h, outs, h'. split; [exact E|]. split; [exact Er|].
  rewrite (repr_size _ _ _ _ Hr), (repr_size _ _ _ _ Hr'). split; [reflexivity|].
  split; [intros k; now rewrite (get_ok h l k Hr), (get_ok h' l k Hr')|].
  split; [|split; [intros Hle; now apply Hbig|exact Hsm]].
  destruct (each_ok h l Hr) as (es & E1 & P1). destruct (each_ok h' l Hr') as (es' & E2 & P2).
  exists es, es'. split; [exact E1|]. split; [exact E2|]. now rewrite P2, P1.
Qed.

Lemma room_ok (ops : list (op K V)) : legal hash eqb [] ops ->
  exists h outs, run hash eqb init ops = Ok (h, outs) /\ 100 * size h <= 81 * bcount h /\
    (0 < bcount h -> exists p m, 0 <= p < bcount h /\ aget (metas h) p = Ok m /\ dist m = 0).
Proof.
  intros Hl. destruct (run_ok ops init [] init_repr Hl) as (h & outs & E & Hr & HF).
  exists h, outs. split; [exact E|]. destruct Hr as [[-> _]|HT]; [cbn; split; [lia|lia]|].
  pose proof HT as (HR & Hsz & Hld & _ & HP). split; [lia|]. intros _.
  destruct (RH_empty hash _ _ _ _ HR HP (table_lt _ _ _ _ HT)) as (q & Hq & Hq0).
  destruct (RH_meta hash _ _ _ q HR ltac:(lia)) as (m & Hm & Hd). exists q, m. split; [exact Hq|]. split; [exact Hm|]. lia.
Qed.

Lemma erase_if_hist_ok (ops : list (op K V)) P : legal hash eqb [] ops ->
  exists h outs h' d seen, run hash eqb init ops = Ok (h, outs) /\ erase_if P h = Ok (h', d, seen) /\
    let l := fst (map_run eqb [] ops) in
    (forall e, In e l <-> In e seen) /\
    size h' = zlen (filter (fun e => negb (P e)) l) /\
    (forall k, get hash eqb h' k = Ok (lookup eqb k (filter (fun e => negb (P e)) l))) /\
    Permutation d (flat_map destroy_entry (filter P l)).
Proof.
  intros Hl. destruct (run_ok ops init [] init_repr Hl) as (h & outs & E & Hr & HF).
  destruct (erase_if_ok P h _ Hr) as (h' & d & seen & E2 & Hr2 & HPd & Hs).
  exists h, outs, h', d, seen. split; [exact E|]. split; [exact E2|]. cbn zeta. split; [exact Hs|].
  split; [now apply (repr_size hash eqb)|]. split; [intros k; now apply get_ok|exact HPd].
Qed.

Lemma clone_hist_ok (ops : list (op K V)) : legal hash eqb [] ops ->
  exists h outs h', run hash eqb init ops = Ok (h, outs) /\ clone h = Ok h' /\ eq hash eqb h' h = Ok true /\
    size h' = size h /\ (forall k, get hash eqb h' k = get hash eqb h k) /\
    (forall ops2, legal hash eqb (fst (map_run eqb [] ops)) ops2 ->
      exists h2 outs2, run hash eqb h' ops2 = Ok (h2, outs2) /\
        same_outs outs2 (snd (map_run eqb (fst (map_run eqb [] ops)) ops2)) /\
        forall k, get hash eqb h2 k = Ok (lookup eqb k (fst (map_run eqb (fst (map_run eqb [] ops)) ops2)))).
Proof.
  intros Hl. destruct (run_ok ops init [] init_repr Hl) as (h & outs & E & Hr & HF).
  set (l := fst (map_run eqb [] ops)) in *.
  destruct (clone_ok h l Hr) as (h' & E2 & Hr2 & _). exists h, outs, h'. split; [exact E|]. split; [exact E2|].
  split. { destruct (eq_ok h' h l l Hr2 Hr) as (c & Ec & Hc). rewrite Ec. f_equal. apply Hc. split; [reflexivity|tauto]. }
  split; [now rewrite (repr_size _ _ _ _ Hr), (repr_size _ _ _ _ Hr2)|].
  split; [intros k; now rewrite (get_ok h l k Hr), (get_ok h' l k Hr2)|].
  intros ops2 Hl2. destruct (run_ok ops2 h' l Hr2 Hl2) as (h2 & outs2 & E3 & Hr3 & HF3).
  exists h2, outs2. split; [exact E3|]. split; [exact HF3|]. intros k. now apply get_ok.
Qed.

Lemma eq_hist_ok (ops1 ops2 : list (op K V)) : legal hash eqb [] ops1 -> legal hash eqb [] ops2 ->
  exists h1 o1 h2 o2 c, run hash eqb init ops1 = Ok (h1, o1) /\ run hash eqb init ops2 = Ok (h2, o2) /\
    eq hash eqb h1 h2 = Ok c /\
    (c = true <-> size h1 = size h2 /\
       forall k, (lookup eqb k (fst (map_run eqb [] ops1)) = None <-> lookup eqb k (fst (map_run eqb [] ops2)) = None)).
Proof.
  intros Hl1 Hl2. destruct (run_ok ops1 init [] init_repr Hl1) as (h1 & o1 & E1 & Hr1 & _).
  destruct (run_ok ops2 init [] init_repr Hl2) as (h2 & o2 & E2 & Hr2 & _).
  destruct (eq_ok h1 h2 _ _ Hr1 Hr2) as (c & Ec & Hc). exists h1, o1, h2, o2, c.
  split; [exact E1|]. split; [exact E2|]. split; [exact Ec|].
  rewrite (repr_size _ _ _ _ Hr1), (repr_size _ _ _ _ Hr2). exact Hc.
Qed.

Lemma each_hist_ok (ops : list (op K V)) : legal hash eqb [] ops ->
  exists h outs es, run hash eqb init ops = Ok (h, outs) /\ each h = Ok es /\
    Permutation es (fst (map_run eqb [] ops)) /\ distinct_keys eqb es.
Proof.
  intros Hl. destruct (history_ok ops Hl) as (h & outs & es & E & Ee & _ & _ & Hd & HP & _).
  exists h, outs, es. split; [exact E|]. split; [exact Ee|]. split; [exact HP|].
  exact (distinct_perm hash eqb KO _ _ (Permutation_sym HP) Hd).
Qed.
Lemma each_hist_empty_ok (ops : list (op K V)) : legal hash eqb [] ops ->
  exists h outs es, run hash eqb init ops = Ok (h, outs) /\ each h = Ok es /\
    Permutation es (fst (map_run eqb [] ops)) /\ (fst (map_run eqb [] ops) = [] -> es = []).
Proof.
  intros Hl. destruct (history_ok ops Hl) as (h & outs & es & E & Ee & _ & _ & Hd & HP & _).
  exists h, outs, es. split; [exact E|]. split; [exact Ee|]. split; [exact HP|].
  intros H0. rewrite H0 in HP. now apply Permutation_nil, Permutation_sym.
Qed.

Lemma lookup_cons k e (l : list (K * V)) : lookup eqb k (e :: l) = if eqb (fst e) k then Some e else lookup eqb k l.
Proof. reflexivity. Qed.
Lemma eqb_cong x y k : eqb x y = true -> eqb x k = eqb y k.
Proof.
  intros H. destruct (eqb y k) eqn:E.
  - now apply (ko_trans _ _ KO _ y).
  - destruct (eqb x k) eqn:E2; [|reflexivity]. rewrite <- E. symmetry. apply (ko_trans _ _ KO _ x); [now apply (ko_sym _ _ KO)|assumption].
Qed.
Lemma lookup_assign k v k' (l : list (K * V)) :
  option_map snd (lookup eqb k' (assign eqb k v l)) =
  if eqb k k' then option_map (fun _ => v) (lookup eqb k l) else option_map snd (lookup eqb k' l).
Proof.
  induction l as [|x l IH]; [cbn; now destruct (eqb k k')|]. unfold assign in *. cbn [map]. rewrite !lookup_cons.
  destruct (eqb (fst x) k) eqn:E; cbn [fst].
  - rewrite (eqb_cong _ _ k' E). destruct (eqb k k') eqn:E2; [reflexivity|]. exact IH.
  - destruct (eqb (fst x) k') eqn:E2; [|exact IH].
    destruct (eqb k k') eqn:E3; [|reflexivity]. exfalso.
    rewrite (eqb_cong _ _ k E2) in E. apply (ko_sym _ _ KO) in E3. congruence.
Qed.
Lemma lookup_remove k k' (l : list (K * V)) :
  lookup eqb k' (remove eqb k l) = if eqb k k' then None else lookup eqb k' l.
Proof.
  induction l as [|x l IH]; [cbn; now destruct (eqb k k')|]. unfold remove in *. cbn [filter].
  destruct (eqb (fst x) k) eqn:E; cbn [negb]; rewrite !lookup_cons.
  - rewrite (eqb_cong _ _ k' E). rewrite IH. now destruct (eqb k k').
  - rewrite IH. destruct (eqb k k') eqn:E3; [|reflexivity].
    destruct (eqb (fst x) k') eqn:E2; [|reflexivity]. exfalso.
    rewrite (eqb_cong _ _ k E2) in E. apply (ko_sym _ _ KO) in E3. congruence.
Qed.
Lemma lookup_cong k k' (l : list (K * V)) : eqb k k' = true -> lookup eqb k l = lookup eqb k' l.
Proof.
  intros H. induction l as [|x l IH]; [reflexivity|]. rewrite !lookup_cons, IH.
  assert (eqb (fst x) k = eqb (fst x) k') as ->; [|reflexivity].
  destruct (eqb (fst x) k) eqn:E.
  - symmetry. now apply (ko_trans _ _ KO _ k).
  - destruct (eqb (fst x) k') eqn:E2; [|reflexivity]. rewrite <- E. apply (ko_trans _ _ KO _ k'); [assumption|now apply (ko_sym _ _ KO)].
Qed.
Lemma finite_map_laws (l : list (K * V)) k v k' : distinct_keys eqb l ->
  let l1 := fst (fst (map_step eqb l (InsertOrAssign k v))) in
  let l2 := fst (fst (map_step eqb l (Insert k v))) in
  let l3 := fst (fst (map_step eqb l (Erase k))) in
  option_map snd (lookup eqb k' l1) = (if eqb k k' then Some v else option_map snd (lookup eqb k' l)) /\
  option_map snd (lookup eqb k' l2) =
    (match lookup eqb k l with Some _ => option_map snd (lookup eqb k' l)
     | None => if eqb k k' then Some v else option_map snd (lookup eqb k' l) end) /\
  lookup eqb k' l3 = (if eqb k k' then None else lookup eqb k' l).
Proof.
  intros Hd. cbn [map_step]. destruct (lookup eqb k l) as [e|] eqn:L; cbn [fst].
  - rewrite lookup_assign, lookup_remove, L. repeat split. 
  - rewrite lookup_cons. cbn [fst]. split; [|split].
    + now destruct (eqb k k').
    + now destruct (eqb k k').
    + destruct (eqb k k') eqn:E; [|reflexivity]. now rewrite <- (lookup_cong _ _ _ E).
Qed.

(** * The distance field overflows *)
Lemma somes_prefix (v : list (option (K * V))) n : (forall p e, aget v p = Ok (Some e) -> p < n) -> 0 <= n -> n <= zlen (somes v) ->
  forall p, 0 <= p < n -> exists e, aget v p = Ok (Some e).
Proof.
  revert n. induction v as [|o v IH]; intros n Hin Hn Hlen p Hp.
  - unfold zlen in Hlen. cbn in Hlen. lia.
  - assert (Hin' : forall q e, aget v q = Ok (Some e) -> q < n - 1).
    { intros q e Hq. pose proof (aget_ok_range _ _ _ Hq). specialize (Hin (q + 1) e). rewrite aget_cons in Hin.
      destruct (Z.eqb_spec (q + 1) 0); [lia|]. replace (q + 1 - 1) with q in Hin by lia. specialize (Hin Hq). lia. }
    assert (Hb : zlen (somes v) <= n - 1).
    { destruct (Z.eq_dec n 0) as [->|]; [lia|]. clear IH Hin Hlen p Hp. assert (Hn1 : 0 <= n - 1) by lia. revert Hin' Hn1. generalize (n - 1) as m. clear.
      induction v as [|o v IH]; intros m Hin Hm; [unfold zlen; cbn; lia|]. rewrite somes_cons.
      assert (Hin' : forall q e, aget v q = Ok (Some e) -> q < m - 1).
      { intros q e Hq. pose proof (aget_ok_range _ _ _ Hq). specialize (Hin (q + 1) e). rewrite aget_cons in Hin.
        destruct (Z.eqb_spec (q + 1) 0); [lia|]. replace (q + 1 - 1) with q in Hin by lia. specialize (Hin Hq). lia. }
      destruct (Z.eq_dec m 0) as [->|].
      - destruct o as [e|]; [specialize (Hin 0 e eq_refl); lia|]. apply IH; [|lia].
        intros q e Hq. specialize (Hin' q e Hq). lia.
      - specialize (IH (m - 1) Hin' ltac:(lia)). destruct o; rewrite ?zlen_cons; lia. }
    rewrite somes_cons in Hlen. rewrite aget_cons. destruct (Z.eqb_spec p 0) as [->|].
    + destruct o as [e|]; [eauto|lia].
    + apply (IH (n - 1)); auto; try lia. destruct o; rewrite ?zlen_cons in Hlen; lia.
Qed.

Lemma overflow_lost (h : hmap K V) l k v : (forall x, hash x = 0) -> repr h l -> zlen l = 1023 -> lookup eqb k l = None ->
  exists h', insert hash eqb h k v = Ok (h', [], true) /\ size h' = 1024 /\ get hash eqb h' k = Ok None.
Proof.
  intros H0 Hr Hl Hk. destruct (grow_ok h l Hr ltac:(lia)) as (h1 & E1 & HT & Hroom).
  { intros nb (j & Hj & ->) Hnb. apply (spread_small l ltac:(lia) j Hj). lia. }
  unfold insert, insert_entry. rewrite E1. cbn [bind].
  pose proof HT as (HR & Hsz & Hld & Hdist & HP). set (b := bcount h1) in *.
  pose proof (RH_pos _ _ _ _ HR) as Hb. pose proof (rh_lt _ _ _ _ HR) as LT. pose proof (rh_lm _ _ _ _ HR) as LM.
  destruct (bucket_lookup_ok hash eqb KO b h1 k HR eq_refl) as (r & Hrr & Hrx & Hri & Hc).
  destruct (r_ref r) as [p|] eqn:Eref.
  { exfalso. destruct Hc as (_ & e & He & Hek). rewrite lookup_none in Hk. rewrite Hk in Hek; [discriminate|]. eapply In_view; eauto. }
  destruct Hc as (Hrd & Hidx & HD & _ & Hno).
  (* every occupied bucket p has distance p + 1 *)
  assert (HDp : forall p e, aget (view (metas h1) (table h1)) p = Ok (Some e) -> 0 <= p < 1023 /\ D (metas h1) p = p + 1).
  { intros p e Hp. pose proof (aget_ok_range _ _ _ Hp) as Hrg. rewrite (zlen_view _ _ (RH_len hash _ _ _ HR)), LT in Hrg.
    destruct (RH_view_get hash _ _ _ p HR ltac:(lia)) as (o & Ho & Hc). rewrite Hp in Ho. injection Ho as <-.
    destruct Hc as (Hn & _ & Hh & _). rewrite H0 in Hh. pose proof (rh_rng _ _ _ _ HR p ltac:(lia)).
    rewrite mod_id in Hh by lia. lia. }
  assert (Hfull : forall p, 0 <= p < 1023 -> exists e, aget (view (metas h1) (table h1)) p = Ok (Some e)).
  { apply somes_prefix; [|lia|rewrite (zlen_perm _ _ HP); lia]. intros p e Hp. apply HDp in Hp. lia. }
  rewrite H0 in Hidx. rewrite mod_id in Hidx by lia.
  assert (Hd : r_dist r = 1024).
  { destruct (Z.eq_dec (r_dist r) 1024) as [|N]; [assumption|exfalso].
    destruct (Hfull (r_idx r) ltac:(lia)) as [e He]. apply HDp in He. lia. }
  assert (Hi : r_idx r = 1023) by lia. clear HD.
  assert (HD0 : D (metas h1) 1023 = 0).
  { destruct (RH_view_get hash _ _ _ 1023 HR ltac:(lia)) as (o & Ho & Hc). destruct o as [e|]; [|exact Hc].
    apply HDp in Ho. lia. }
  unfold bucket_insert. rewrite Hrr. cbn [bind]. rewrite Eref, Hi, Hd.
  destruct (RH_meta hash _ _ _ 1023 HR ltac:(lia)) as (m & Hm & Hmd). rewrite Hm. cbn [bind].
  set (mn := mkmeta (Z.land (r_hashx r) hashmask) (Z.land 1024 distmask)).
  destruct (aset_some (metas h1) 1023 mn) as [ms Hms]; [lia|]. rewrite Hms. cbn [bind]. rewrite Hmd, HD0.
  destruct (aset_some (table h1) 1023 (Some (k, v))) as [T HTs]; [lia|].
  cbn [Z.eqb negb bind fst snd r_inserted]. unfold the_ref. cbn [r_ref bind]. unfold put_ref, wr. cbn [table metas size bcount].
  rewrite HTs. cbn [bind]. eexists. split; [reflexivity|]. cbn [size]. split; [lia|].
  (* the bucket still counts as empty *)
  assert (HDs : forall q, D ms q = D (metas h1) q).
  { intros q. rewrite (D_aset _ _ _ _ _ Hms). destruct (Z.eqb_spec q 1023) as [->|]; [now rewrite HD0|reflexivity]. }
  assert (HR2 : RH b ms T).
  { split.
    - apply (rh_pow2 _ _ _ _ HR).
    - now rewrite (aset_zlen _ _ _ _ HTs).
    - now rewrite (aset_zlen _ _ _ _ Hms).
    - rewrite HDs. apply (rh_mark _ _ _ _ HR).
    - intros q Hq. rewrite HDs. now apply (rh_rng _ _ _ _ HR).
    - intros q Hq Hnz. rewrite HDs in Hnz. rewrite (aget_aset _ _ _ _ q Hms), (aget_aset _ _ _ _ q HTs).
      destruct (Z.eqb_spec q 1023) as [->|]; [lia|]. now apply (rh_slot _ _ _ _ HR).
    - intros x. rewrite !HDs. apply (rh_chain _ _ _ _ HR). }
  assert (HV : view ms T = view (metas h1) (table h1)).
  { pose proof (view_aset _ _ _ _ _ _ _ (RH_len hash _ _ _ HR) Hms HTs) as HV.
    change (dist mn =? 0) with true in HV. cbv iota in HV. destruct (RH_view_get hash _ _ _ 1023 HR ltac:(lia)) as (o & Ho & Hc).
    destruct o as [e|]; [destruct Hc; lia|]. rewrite (aset_same _ _ _ Ho) in HV. now injection HV. }
  unfold get. cbn [size]. destruct (Z.eqb_spec (size h1 + 1) 0); [lia|].
  destruct (bucket_lookup_ok hash eqb KO b (mkhmap T ms (size h1 + 1) (bcount h1)) k HR2 eq_refl) as (r2 & Hr2 & _ & _ & Hc2).
  rewrite Hr2. cbn [bind]. cbn [metas table] in Hc2. rewrite HV in Hc2. destruct (r_ref r2) as [p|]; [|reflexivity].
  exfalso. destruct Hc2 as (_ & e & He & Hek). rewrite lookup_none in Hk. rewrite Hk in Hek; [discriminate|]. eapply In_view; eauto.
Qed.

(** ... after every history that leaves 1023 keys. *)
Lemma overflow_hist (ops : list (op K V)) k v : (forall x, hash x = 0) -> sizes_le eqb 1023 [] ops ->
  zlen (fst (map_run eqb [] ops)) = 1023 -> lookup eqb k (fst (map_run eqb [] ops)) = None ->
  exists h outs h', run hash eqb init ops = Ok (h, outs) /\ insert hash eqb h k v = Ok (h', [], true) /\
    size h' = 1024 /\ get hash eqb h' k = Ok None.
Proof.
  intros H0 HS Hl Hk. destruct (run_ok ops init [] init_repr (small_legal ops [] HS)) as (h & outs & E & Hr & _).
  destruct (overflow_lost h _ k v H0 Hr Hl Hk) as (h' & E2 & A & B). exists h, outs, h'. auto.
Qed.

End Hmap3.

(** Integer keys 0 .. n-1 under the identity hash are spread out, however many they are. *)
Lemma NoDup_Z_bound (l : list Z) n : 0 <= n -> NoDup l -> (forall x, In x l -> 0 <= x < n) -> zlen l <= n.
Proof.
  intros Hn Hd Hr. assert (H : (length l <= length (map Z.of_nat (seq 0 (Z.to_nat n))))%nat).
  { apply NoDup_incl_length; [exact Hd|]. intros x Hx. specialize (Hr x Hx). apply in_map_iff. exists (Z.to_nat x).
    split; [lia|]. apply in_seq. lia. }
  rewrite map_length, seq_length in H. unfold zlen. lia.
Qed.
Lemma spread_identity {V} (v : V) n : spread (fun k : Z => k) (map (fun i => (Z.of_nat i, v)) (seq 0 n)).
Proof.
  intros j Hj Hl start w Hw. unfold zlen in Hl at 1. rewrite map_length, seq_length in Hl.
  set (b := 2 ^ j) in *. assert (Hb : 0 < b) by (apply Z.pow_pos_nonneg; lia).
  set (f := fun e : Z * V => (fst e - start) mod b).
  unfold zlen. rewrite <- (map_length f). apply (NoDup_Z_bound _ w); [lia| |].
  - apply NoDup_map_in.
    + intros x y Hx Hy Hf. apply filter_In in Hx as [Hx _], Hy as [Hy _].
      apply in_map_iff in Hx as (a & <- & Ha), Hy as (c & <- & Hc). apply in_seq in Ha, Hc.
      unfold f in Hf. cbn [fst] in Hf. apply mod_inj in Hf; [|lia|lia]. f_equal. lia.
    + apply NoDup_filter. apply NoDup_map_in; [|apply seq_NoDup]. intros x y _ _ E. injection E. lia.
  - intros x Hx. apply in_map_iff in Hx as (e & <- & He). apply filter_In in He as [_ He]. unfold in_window in He.
    apply Z.ltb_lt in He. unfold f. pose proof (mod_rng b Hb (fst e - start)). lia.
Qed.

Lemma eq_ignores_values :
  exists h1 o1 h2 o2, run (fun k => k) Z.eqb init [Insert 1 10] = Ok (h1, o1) /\
    run (fun k => k) Z.eqb init [Insert 1 20] = Ok (h2, o2) /\
    eq (fun k => k) Z.eqb h1 h2 = Ok true /\
    get (fun k => k) Z.eqb h1 1 <> get (fun k => k) Z.eqb h2 1.
Proof.
  let r1 := eval vm_compute in (run (fun k => k) Z.eqb init [Insert 1 10]) in
  let r2 := eval vm_compute in (run (fun k => k) Z.eqb init [Insert 1 20]) in
  match r1 with Ok (?a, ?b) => match r2 with Ok (?c, ?d) => exists a, b, c, d end end.
  split; [vm_compute; reflexivity|]. split; [vm_compute; reflexivity|]. split; [vm_compute; reflexivity|].
  vm_compute. discriminate.
Qed.
