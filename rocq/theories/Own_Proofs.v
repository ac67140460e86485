(** The container functions of Own_Model.v on one container: contents, framing, destroyed elements. *)
From Verif Require Import Base Slots Own_Model Own_Spec.

Section Proofs.
Context {A : Type}.
Notation elem := (@elem A).
Notation heap := (@heap A).
Notation world := (@world A).
Variable place : nat -> heap -> Z -> Z.
Variable stay : nat -> heap -> Z -> Z -> bool.
Variable keyclone : A -> A.
Hypothesis place_free : forall t h n, look h (place t h n) = None.
Hypothesis place_ok : forall t h n, 0 < n -> place t h n <> 0.

(** The heap *)
Lemma find_del (h : heap) p q : find (del h p) q = if q =? p then None else find h q.
Proof.
  induction h as [|[a b] t IH]; cbn; [destruct (q =? p); reflexivity|].
  unfold del in *. destruct (Z.eqb_spec a p); cbn.
  - rewrite IH. destruct (Z.eqb_spec q p), (Z.eqb_spec a q); congruence.
  - rewrite IH. destruct (Z.eqb_spec q p), (Z.eqb_spec a q); congruence.
Qed.
Lemma look_del (h : heap) p q : look (del h p) q = if q =? p then None else look h q.
Proof. unfold look. rewrite find_del. destruct (q =? 0), (q =? p); reflexivity. Qed.
Lemma look_put (h : heap) p b q : p <> 0 -> look (put h p b) q = if q =? p then Some b else look h q.
Proof.
  intros Hp. unfold look, put. cbn [find]. rewrite find_del.
  destruct (Z.eqb_spec q 0), (Z.eqb_spec q p), (Z.eqb_spec p q); congruence.
Qed.
Lemma look_nz (h : heap) p b : look h p = Some b -> p <> 0.
Proof. unfold look. destruct (Z.eqb_spec p 0); congruence. Qed.
Lemma look_0 (h : heap) : look h 0 = None.
Proof. reflexivity. Qed.

(** Going from [h] to [h'] only the block at [d] is touched, freed or replaced by the one at [d']. *)
Definition moves (h h' : heap) (d d' : Z) : Prop :=
  (forall p, p <> d -> p <> d' -> look h' p = look h p) /\
  (d' = d \/ look h d' = None) /\
  (d <> d' -> look h' d = None).
Lemma moves_refl h d : moves h h d d.
Proof. split; [reflexivity|]. split; [now left|]. congruence. Qed.
Lemma moves_put h d b : d <> 0 -> moves h (put h d b) d d.
Proof.
  intros Hd. split; [|split; [now left|congruence]]. intros p H _. rewrite look_put by exact Hd.
  destruct (Z.eqb_spec p d); congruence.
Qed.
Lemma moves_trans h h1 h2 d d1 d2 : moves h h1 d d1 -> moves h1 h2 d1 d2 -> moves h h2 d d2.
Proof.
  intros (F & N & G) (F' & N' & G'). split; [|split].
  - intros p H H2. destruct (Z.eq_dec p d1) as [->|H1].
    + destruct N as [->|N]; [congruence|]. rewrite (G' H2). congruence.
    + rewrite F', F; auto.
  - destruct N' as [->|N']; [exact N|]. destruct (Z.eq_dec d2 d); [now left|].
    destruct (Z.eq_dec d2 d1) as [->|H1]; [exact N|]. right. rewrite <- F; auto.
  - intros H. destruct (Z.eq_dec d d1) as [->|H1]; [exact (G' H)|]. rewrite F'; auto.
Qed.
(** a block elsewhere is not touched *)
Lemma moves_look h h' d d' p b : moves h h' d d' -> p <> d -> look h p = Some b -> look h' p = Some b.
Proof.
  intros (F & N & _) Hp E. rewrite F; [exact E|exact Hp|]. intros ->. destruct N as [->|N]; congruence.
Qed.
Lemma moves_stores h h' d d' c l : moves h h' d d' -> data c <> d \/ data c = 0 -> stores h c l -> stores h' c l.
Proof.
  intros M Hd (Hs & [(H0 & Hc & Hl)|(b & E & Hb & Hh)]); split; try exact Hs; [now left|].
  right. exists b. repeat split; try assumption. eapply moves_look; eauto.
  destruct Hd as [|Hd]; [assumption|]. rewrite Hd in E. discriminate.
Qed.

Lemma stores_zero h : stores h zero (@nil elem).
Proof. split; [reflexivity|left; repeat split; reflexivity]. Qed.
Lemma stores_size h c (l : list elem) : stores h c l -> size c = zlen l /\ 0 <= zlen l <= cap c.
Proof.
  intros (Hs & [(_ & Hc & ->)|(b & _ & Hb & Hh)]); (split; [exact Hs|]).
  - rewrite Hc. cbn. lia.
  - pose proof (holds_zlen _ _ Hh). pose proof (zlen_nonneg l). lia.
Qed.
Lemma stores_block h c (l : list elem) : stores h c l -> data c <> 0 ->
  exists b, look h (data c) = Some b /\ zlen b = cap c /\ holds b l.
Proof. intros (_ & [(H0 & _)|H]) Hd; [congruence|exact H]. Qed.

(** a container without slots has no block *)
Definition solid (c : cont) : Prop := cap c = 0 -> data c = 0.

(** reserve *)
Lemma malloc_ok (w : world) n : 0 <= n -> exists w' a, malloc place w n = (w', a) /\ moves (hp w) (hp w') 0 a /\
  made w' = made w /\ gone w' = gone w /\ (0 < n -> a <> 0) /\ (a <> 0 -> exists b, look (hp w') a = Some b /\ zlen b = n).
Proof.
  intros Hn. unfold malloc. pose proof (place_free (tick w) (hp w) n) as Fr. pose proof (place_ok (tick w) (hp w) n) as Ok_.
  set (a := place _ _ _) in *. clearbody a. destruct (Z.eqb_spec a 0) as [->|Ha].
  - eexists _, _. split; [reflexivity|]. cbn. split; [apply (moves_refl (hp w) 0)|]. repeat split; try congruence; auto.
  - eexists _, _. split; [reflexivity|]. cbn [ticked hp made gone]. repeat split; auto.
    + intros p _ Hp. rewrite look_put by exact Ha. destruct (Z.eqb_spec p a); congruence.
    + intros _. eexists. split; [rewrite look_put by exact Ha; rewrite Z.eqb_refl; reflexivity|]. apply zlen_repeat. exact Hn.
Qed.

Lemma reserve_ok (w : world) c l n : stores (hp w) c l -> 0 <= n ->
  exists w' c', reserve place stay w c n = Ok (w', c', negb (data c' =? 0)) /\ stores (hp w') c' l /\
    moves (hp w) (hp w') (data c) (data c') /\ made w' = made w /\ gone w' = gone w /\ n <= cap c' /\ (0 < n -> data c' <> 0) /\ (solid c -> solid c').
Proof.
  intros S Hn. destruct (stores_size _ _ _ S) as [Hs Hl]. unfold reserve.
  destruct ((cap c <? n) || (negb (n =? 0) && (n =? size c))) eqn:C.
  2:{ apply orb_false_iff in C. destruct C as [C1 C2]. exists w, c. split; [reflexivity|]. split; [exact S|]. split; [apply moves_refl|].
      repeat split; try lia; try tauto. intros Hp H0. destruct S as (_ & [(_ & Hc & _)|(b & E & _)]); [lia|]. rewrite H0 in E. discriminate. }
  assert (Hp : 0 < n /\ zlen l <= n). { apply orb_true_iff in C. rewrite andb_true_iff, negb_true_iff in C. lia. } clear C. destruct Hp as [Hp Hln].
  unfold realloc. destruct (Z.eqb_spec (data c) 0) as [H0|H0].
  - destruct (malloc_ok w n Hn) as (w' & a & -> & M & Em & Eg & Ha & Hb). specialize (Ha Hp). destruct (Hb Ha) as (b & E & Zb).
    cbn [bind]. rewrite (proj2 (Z.eqb_neq _ _) Ha). exists w', (mkc a (size c) n). cbn [data size cap].
    rewrite (proj2 (Z.eqb_neq _ _) Ha). split; [reflexivity|]. rewrite H0.
    split; [|split; [exact M|repeat split; auto; try lia; intros _ H; cbn in H; lia]]. split; [exact Hs|].
    right. exists b. cbn. repeat split; auto. assert (l = []) as ->; [|apply holds_nil].
    destruct S as (_ & [(_ & _ & ->)|(b' & E' & _)]); [reflexivity|]. rewrite H0 in E'. discriminate.
  - destruct (stores_block _ _ _ S H0) as (b & E & Zb & Hb). unfold block. rewrite E. cbn [bind]. rewrite Zb, Z.eqb_refl. cbn [negb].
    assert (Zr : zlen (Slots.realloc b n) = n) by now apply zlen_realloc.
    assert (Hr : holds (Slots.realloc b n) l) by now apply holds_realloc.
    destruct (stay _ _ _ _).
    + cbn [bind]. rewrite (proj2 (Z.eqb_neq _ _) H0). eexists _, (mkc (data c) (size c) n). cbn [data size cap ticked hp made gone].
      rewrite (proj2 (Z.eqb_neq _ _) H0). split; [reflexivity|]. split; [|split; [now apply moves_put|repeat split; auto; try lia; intros _ H; cbn in H; lia]].
      split; [exact Hs|]. right. eexists. cbn [data cap hp ticked]. rewrite look_put by exact H0. rewrite Z.eqb_refl. repeat split; auto.
    + rewrite (proj2 (Z.eqb_neq n 0)) by lia.
      pose proof (place_free (tick w) (hp w) n) as Fr. pose proof (place_ok (tick w) (hp w) n Hp) as Ha. set (a := place _ _ _) in *. clearbody a.
      rewrite (proj2 (Z.eqb_neq _ _) Ha). cbn [bind]. rewrite (proj2 (Z.eqb_neq _ _) Ha). eexists _, (mkc a (size c) n). cbn [data size cap ticked hp made gone]. rewrite (proj2 (Z.eqb_neq _ _) Ha).
      split; [reflexivity|]. split; [|split; [|repeat split; auto; try lia; intros _ H; cbn in H; lia]].
      * split; [exact Hs|]. right. eexists. cbn [data cap hp ticked]. rewrite look_put by exact Ha. rewrite Z.eqb_refl. repeat split; auto.
      * cbn [hp ticked data]. assert (a <> data c) by congruence. split; [|split].
        -- intros p H1 H2. rewrite look_put, look_del by exact Ha. destruct (Z.eqb_spec p a), (Z.eqb_spec p (data c)); congruence.
        -- now right.
        -- intros _. rewrite look_put, look_del by exact Ha. destruct (Z.eqb_spec (data c) a), (Z.eqb_spec (data c) (data c)); congruence.
Qed.

(** one store behind the live elements *)
Lemma store_end (w : world) p b l x : look (hp w) p = Some b -> holds b l -> zlen l < zlen b ->
  exists w', store w p (zlen l) x = Ok w' /\ (exists b', look (hp w') p = Some b' /\ zlen b' = zlen b /\ holds b' (l ++ [x])) /\
    moves (hp w) (hp w') p p /\ made w' = made w /\ gone w' = gone w.
Proof.
  intros E Hh Hl. pose proof (look_nz _ _ _ E) as Hp. destruct (holds_wr_end b l x Hh Hl) as (b' & Ew & Hh' & Zb').
  unfold store, block. rewrite E. cbn [bind]. rewrite Ew. cbn [bind]. eexists. split; [reflexivity|]. cbn [with_heap hp made gone].
  split; [|split; [now apply moves_put|auto]]. exists b'. rewrite look_put by exact Hp. rewrite Z.eqb_refl. auto.
Qed.

(** push *)
Lemma push_ok k (w : world) c l x : stores (hp w) c l ->
  exists w' c', push place stay k w c x = Ok (w', c', true) /\ stores (hp w') c' (l ++ [x]) /\
    moves (hp w) (hp w') (data c) (data c') /\ made w' = made w /\ gone w' = gone w /\ solid c'.
Proof.
  intros S. destruct (stores_size _ _ _ S) as [Hs Hl].
  assert (R : exists w1 c1, (if size c =? cap c then reserve place stay w c (grown k (size c)) else Ok (w, c, true)) = Ok (w1, c1, true) /\
    stores (hp w1) c1 l /\ moves (hp w) (hp w1) (data c) (data c1) /\ made w1 = made w /\ gone w1 = gone w /\ zlen l < cap c1 /\ data c1 <> 0).
  { destruct (Z.eqb_spec (size c) (cap c)).
    - assert (Hg : zlen l < grown k (size c)). { rewrite Hs. unfold grown. destruct k; [lia|]. pose proof (Z.div_le_lower_bound (zlen l * 3) 2 (zlen l)). lia. }
      destruct (reserve_ok w c l (grown k (size c)) S ltac:(lia)) as (w1 & c1 & -> & S1 & M & Em & Eg & Hc & Hd & _).
      specialize (Hd ltac:(lia)). rewrite (proj2 (Z.eqb_neq _ _) Hd). exists w1, c1. repeat split; auto; try apply S1; try apply M; lia.
    - exists w, c. repeat split; auto; try apply S; try (apply moves_refl); try lia.
      intros H0. destruct S as (_ & [(_ & Hc & ->)|(b & E & _)]); [cbn in *; lia|]. rewrite H0 in E. discriminate. }
  destruct R as (w1 & c1 & E & S1 & M & Em & Eg & Hc & Hd). unfold push. rewrite E. cbn [bind negb].
  destruct (stores_block _ _ _ S1 Hd) as (b & Eb & Zb & Hb). destruct (stores_size _ _ _ S1) as [Hs1 _]. rewrite Hs1.
  destruct (store_end w1 (data c1) b l x Eb Hb ltac:(lia)) as (w2 & -> & (b' & Eb' & Zb' & Hb') & M' & Em' & Eg'). cbn [bind].
  eexists _, _. split; [reflexivity|]. cbn [data]. split; [|split; [eapply moves_trans; eauto|split; [congruence|split; [congruence|intros H; cbn in H; lia]]]].
  split; [cbn; rewrite zlen_app; reflexivity|]. right. exists b'. cbn. repeat split; auto; congruence.
Qed.

Lemma put_n_ok k xs : forall (w : world) c l, stores (hp w) c l ->
  exists w' c', put_n place stay k w c xs = Ok (w', c') /\ stores (hp w') c' (l ++ fresh (made w) xs) /\
    moves (hp w) (hp w') (data c) (data c') /\ made w' = made w + zlen xs /\ gone w' = gone w /\ (solid c -> solid c').
Proof.
  induction xs as [|x t IH]; intros w c l S; cbn [put_n fresh].
  - exists w, c. rewrite app_nil_r. split; [reflexivity|]. split; [exact S|]. split; [apply moves_refl|]. cbn. split; [lia|split; [reflexivity|auto]].
  - unfold create. destruct (push_ok k (mkw (hp w) (tick w) (made w + 1) (gone w)) c l (Some (made w), x) S) as (w1 & c1 & -> & S1 & M & Em & Eg & Q).
    cbn [bind]. destruct (IH w1 c1 _ S1) as (w2 & c2 & -> & S2 & M2 & Em2 & Eg2 & Q2). cbn [made gone hp] in *.
    exists w2, c2. split; [reflexivity|]. rewrite <- app_assoc in S2. rewrite Em in S2. split; [exact S2|].
    split; [eapply moves_trans; eauto|]. rewrite zlen_cons. split; [lia|split; [congruence|auto]].
Qed.

(** destroying elements *)
Lemma destroy_eq (w : world) x : destroy w x = mkw (hp w) (tick w) (made w) (gone w ++ ids [x]).
Proof. unfold destroy, ids. cbn. destruct (fst x); cbn; [reflexivity|]. rewrite app_nil_r. destruct w; reflexivity. Qed.
Lemma ids_app (a b : list elem) : ids (a ++ b) = ids a ++ ids b.
Proof. apply flat_map_app. Qed.
Lemma ids_cons x (l : list elem) : ids (x :: l) = ids [x] ++ ids l.
Proof. exact (ids_app [x] l). Qed.

Lemma load_ok (w : world) p b l i x : look (hp w) p = Some b -> holds b l -> aget l i = Ok x -> load w p i = Ok x.
Proof.
  intros E Hh Ex. unfold load, block. rewrite E. cbn [bind]. pose proof (aget_ok_range _ _ _ Ex). rewrite (holds_rd b l i Hh) by lia. exact Ex.
Qed.

Lemma drop_up_ok n : forall (w : world) p b l from, look (hp w) p = Some b -> holds b l -> 0 <= from -> from + Z.of_nat n <= zlen l ->
  drop_up w p from n = Ok (mkw (hp w) (tick w) (made w) (gone w ++ ids (firstn n (skipn (Z.to_nat from) l)))).
Proof.
  induction n as [|n IH]; intros w p b l from E Hh H0 H1; cbn [drop_up].
  - cbn. rewrite app_nil_r. destruct w; reflexivity.
  - destruct (aget_some l from ltac:(lia)) as [x Ex]. rewrite (load_ok _ _ _ _ _ _ E Hh Ex). cbn [bind].
    rewrite destroy_eq. rewrite (IH (mkw (hp w) (tick w) (made w) (gone w ++ ids [x])) p b l (from + 1) E Hh ltac:(lia) ltac:(lia)). cbn [hp tick made gone]. f_equal. f_equal.
    rewrite <- app_assoc, <- ids_app. f_equal. f_equal.
    apply aget_nth in Ex. destruct Ex as [_ Ex]. apply nth_error_split in Ex. destruct Ex as (l1 & l2 & -> & El).
    replace (Z.to_nat (from + 1)) with (length l1 + 1)%nat by lia. rewrite <- El.
    rewrite !skipn_app. rewrite (skipn_all2 l1 (n := length l1)), (skipn_all2 l1 (n := (length l1 + 1)%nat)), Nat.sub_diag by lia. replace (length l1 + 1 - length l1)%nat with 1%nat by lia. reflexivity.
Qed.

Lemma drop_down_ok n : forall (w : world) p b l, look (hp w) p = Some b -> holds b l -> length l = n ->
  drop_down w p n = Ok (mkw (hp w) (tick w) (made w) (gone w ++ ids (rev l))).
Proof.
  induction n as [|n IH]; intros w p b l E Hh Hl; cbn [drop_down].
  - destruct l; [|discriminate]. cbn. rewrite app_nil_r. destruct w; reflexivity.
  - destruct (exists_last (l := l)) as (l' & x & ->). { intros ->. discriminate. }
    rewrite app_length in Hl. cbn in Hl.
    assert (Ex : aget (l' ++ [x]) (Z.of_nat n) = Ok x). { rewrite aget_app2 by (unfold zlen; lia). unfold zlen. replace (Z.of_nat n - Z.of_nat (length l')) with 0 by lia. reflexivity. }
    rewrite (load_ok _ _ _ _ _ _ E Hh Ex). cbn [bind]. rewrite destroy_eq.
    rewrite (IH (mkw (hp w) (tick w) (made w) (gone w ++ ids [x])) p b l' E (holds_app _ _ _ Hh) ltac:(lia)). cbn [hp tick made gone]. f_equal. f_equal.
    rewrite rev_app_distr. cbn [rev app]. rewrite (ids_cons x (rev l')), app_assoc. reflexivity.
Qed.

Lemma clear_ok (w : world) c l : stores (hp w) c l ->
  exists c', clear w c = Ok (mkw (hp w) (tick w) (made w) (gone w ++ ids (rev l)), c') /\ stores (hp w) c' [] /\ data c' = data c /\ cap c' = cap c.
Proof.
  intros S. destruct (stores_size _ _ _ S) as [Hs Hl]. unfold clear. destruct (Z.eqb_spec (size c) 0).
  - assert (l = []) as -> by (destruct l; [reflexivity|rewrite zlen_cons in *; pose proof (zlen_nonneg l); lia]).
    exists c. cbn. rewrite app_nil_r. destruct w. auto.
  - assert (Hd : data c <> 0). { intros H0. destruct S as (_ & [(_ & _ & ->)|(b & E & _)]); [cbn in *; lia|]. rewrite H0 in E. discriminate. }
    destruct (stores_block _ _ _ S Hd) as (b & E & Zb & Hb).
    rewrite (drop_down_ok _ w (data c) b l E Hb) by (rewrite zlen_length; now rewrite Hs). cbn [bind].
    eexists. split; [reflexivity|]. split; [|split; reflexivity]. split; [reflexivity|]. right. exists b. cbn. repeat split; auto. apply holds_nil.
Qed.

Lemma drop_ok k (w : world) c l : stores (hp w) c l -> (k = KVec -> solid c) ->
  exists w', drop k w c = Ok w' /\ moves (hp w) (hp w') (data c) 0 /\ made w' = made w /\ gone w' = gone w ++ ids (rev l).
Proof.
  intros S Q.
  assert (G : exists w', (let* r := clear w c in let '(w1, c1) := r in free w1 (data c1) (cap c1)) = Ok w' /\
    moves (hp w) (hp w') (data c) 0 /\ made w' = made w /\ gone w' = gone w ++ ids (rev l)).
  { destruct (clear_ok w c l S) as (c' & -> & S' & Hd & Hc). cbn [bind]. unfold free. rewrite Hd, Hc.
    destruct (Z.eqb_spec (data c) 0) as [H0|H0].
    - eexists. split; [reflexivity|]. rewrite H0. split; [apply (moves_refl (hp w) 0)|auto].
    - destruct (stores_block _ _ _ S H0) as (b & E & Zb & Hb). unfold block. cbn [hp]. rewrite E. cbn [bind].
      rewrite Zb, Z.eqb_refl. cbn [negb]. eexists. split; [reflexivity|]. cbn [with_heap hp made gone]. split; [|auto].
      split; [|split].
      + intros p H1 H2. rewrite look_del. destruct (Z.eqb_spec p (data c)); congruence.
      + now right.
      + intros _. rewrite look_del, Z.eqb_refl. reflexivity. }
  destruct k; cbn [drop]; [|exact G]. destruct (Z.eqb_spec (cap c) 0); [|exact G].
  assert (H0 := Q eq_refl e). destruct (stores_size _ _ _ S) as [_ Hl]. exists w. split; [reflexivity|]. rewrite H0. split; [apply moves_refl|].
  assert (l = []) as -> by (destruct l; [reflexivity|rewrite zlen_cons in Hl; pose proof (zlen_nonneg l); lia]).
  cbn. now rewrite app_nil_r.
Qed.

(** pop and pull *)
Lemma last_of_app l' (y : elem) : last_of (l' ++ [y]) = Some (l', y).
Proof. unfold last_of. rewrite rev_app_distr. cbn. now rewrite rev_involutive. Qed.
Lemma back_ok (w : world) c l' y : stores (hp w) c (l' ++ [y]) ->
  size c <> 0 /\ load w (data c) (size c - 1) = Ok y /\ stores (hp w) (mkc (data c) (size c - 1) (cap c)) l'.
Proof.
  intros S. destruct (stores_size _ _ _ S) as [Hs Hl]. rewrite zlen_app in Hs. pose proof (zlen_nonneg l').
  assert (Hd : data c <> 0). { intros H0. destruct S as (_ & [(_ & _ & E)|(b & E & _)]); [destruct l'; discriminate|]. rewrite H0 in E. discriminate. }
  destruct (stores_block _ _ _ S Hd) as (b & E & Zb & Hb). rewrite Hs. change (zlen [y]) with 1. split; [lia|].
  replace (zlen l' + 1 - 1) with (zlen l') by lia. split.
  - eapply load_ok; eauto. rewrite aget_app2 by lia. rewrite Z.sub_diag. reflexivity.
  - split; [reflexivity|]. right. exists b. cbn. repeat split; auto. eapply holds_app; eauto.
Qed.

(** filling *)
Lemma repeat_snoc {X} (x : X) n : repeat x n ++ [x] = x :: repeat x n.
Proof. induction n as [|n IH]; cbn; [reflexivity|]. now rewrite IH. Qed.
Lemma fill_ok n : forall (w : world) p b l x, look (hp w) p = Some b -> holds b l -> zlen l + Z.of_nat n <= zlen b ->
  exists w', fill w p (zlen l) x n = Ok w' /\ (exists b', look (hp w') p = Some b' /\ zlen b' = zlen b /\ holds b' (l ++ repeat x n)) /\
    moves (hp w) (hp w') p p /\ made w' = made w /\ gone w' = gone w.
Proof.
  induction n as [|n IH]; intros w p b l x E Hh Hl; cbn [fill repeat].
  - exists w. split; [reflexivity|]. split; [exists b; rewrite app_nil_r; auto|]. split; [apply moves_refl|auto].
  - destruct (store_end w p b l x E Hh ltac:(lia)) as (w1 & -> & (b1 & E1 & Z1 & H1) & M1 & Em & Eg). cbn [bind].
    destruct (IH w1 p b1 _ x E1 H1) as (w2 & E2 & (b2 & ? & ? & H2) & M2 & Em2 & Eg2); [rewrite zlen_app; change (zlen [x]) with 1; lia|].
    rewrite zlen_app in E2. change (zlen [x]) with 1 in E2. exists w2. split; [exact E2|]. rewrite <- app_assoc in H2.
    split; [exists b2; repeat split; auto; congruence|]. split; [eapply moves_trans; eauto|split; congruence].
Qed.
(** downwards: the slots from [n] on are filled *)
Lemma fill_down_ok n : forall (w : world) p b m x, look (hp w) p = Some b -> (exists r, b = r ++ repeat (Some x) m /\ length r = n) ->
  exists w', fill_down w p x n = Ok w' /\ look (hp w') p = Some (repeat (Some x) (n + m)) /\
    moves (hp w) (hp w') p p /\ made w' = made w /\ gone w' = gone w.
Proof.
  induction n as [|n IH]; intros w p b m x E (r & -> & Hr); cbn [fill_down].
  - destruct r; [|discriminate]. exists w. split; [reflexivity|]. split; [exact E|]. split; [apply moves_refl|auto].
  - destruct (exists_last (l := r)) as (r' & y & ->). { intros ->. discriminate. }
    rewrite app_length in Hr. cbn in Hr. assert (n = length r') as -> by lia. pose proof (look_nz _ _ _ E) as Hp.
    unfold store, block. rewrite E. cbn [bind]. unfold wr. rewrite <- app_assoc. cbn [app].
    rewrite aset_ok by (rewrite zlen_app, zlen_cons; unfold zlen; lia). cbn [bind]. rewrite Nat2Z.id, upd_app_cons.
    destruct (IH (with_heap w (put (hp w) p (r' ++ Some x :: repeat (Some x) m))) p (r' ++ Some x :: repeat (Some x) m) (S m) x) as (w' & E' & L & M & Em & Eg).
    { cbn [with_heap hp]. rewrite look_put by exact Hp. rewrite Z.eqb_refl. reflexivity. }
    { exists r'. split; reflexivity. }
    cbn [with_heap hp made gone] in *. exists w'. split; [exact E'|]. replace (S (length r') + m)%nat with (length r' + S m)%nat by lia. split; [exact L|].
    split; [eapply moves_trans; [apply moves_put; exact Hp|exact M]|auto].
Qed.

(** resize *)
Lemma resize_ok (w : world) c l n x : stores (hp w) c l -> 0 <= n ->
  exists w' c' ok, resize place stay w c n (None, x) = Ok (w', c', ok) /\
    stores (hp w') c' (firstn (Z.to_nat n) l ++ repeat (None, x) (Z.to_nat (n - zlen l))) /\
    moves (hp w) (hp w') (data c) (data c') /\ made w' = made w /\ gone w' = gone w ++ ids (skipn (Z.to_nat n) l) /\ (solid c -> solid c').
Proof.
  intros S Hn. destruct (reserve_ok w c l n S Hn) as (w1 & c1 & E & S1 & M & Em & Eg & Hc & Hd & Q). unfold resize. rewrite E. cbn [bind].
  destruct (stores_size _ _ _ S1) as [Hs1 Hl1]. destruct (Z.eqb_spec (data c1) 0) as [H0|H0]; cbn [negb].
  - assert (n = 0) as -> by lia. assert (l = []) as ->.
    { destruct S1 as (_ & [(_ & _ & ->)|(b & E' & _)]); [reflexivity|]. rewrite H0 in E'. discriminate. }
    exists w1, c1, false. cbn. rewrite app_nil_r. repeat split; auto; try apply S1; apply M.
  - destruct (stores_block _ _ _ S1 H0) as (b & Eb & Zb & Hb). rewrite Hs1.
    assert (ED : drop_up w1 (data c1) n (Z.to_nat (zlen l - n)) = Ok (mkw (hp w1) (tick w1) (made w1) (gone w1 ++ ids (skipn (Z.to_nat n) l)))).
    { destruct (Z.leb_spec n (zlen l)).
      - rewrite (drop_up_ok (Z.to_nat (zlen l - n)) w1 (data c1) b l n Eb Hb Hn ltac:(lia)). rewrite (firstn_all2 (n := Z.to_nat (zlen l - n))); [reflexivity|].
        rewrite skipn_length. unfold zlen in *. lia.
      - replace (Z.to_nat (zlen l - n)) with 0%nat by lia. cbn [drop_up]. rewrite skipn_all2 by (unfold zlen in *; lia). cbn. rewrite app_nil_r. destruct w1; reflexivity. }
    rewrite ED. cbn [bind]. clear ED.
    destruct (Z.leb_spec n (zlen l)).
    + replace (Z.to_nat (n - zlen l)) with 0%nat by lia. cbn [fill bind repeat]. rewrite app_nil_r.
      eexists _, _, _. split; [reflexivity|]. cbn [hp made gone data]. split; [split|split; [exact M|repeat split; auto; congruence]].
      * cbn [size]. rewrite zlen_firstn by lia. lia.
      * right. exists b. cbn. repeat split; auto. now apply holds_firstn.
    + rewrite (firstn_all2 (n := Z.to_nat n)) by (unfold zlen in *; lia).
      destruct (fill_ok (Z.to_nat (n - zlen l)) (mkw (hp w1) (tick w1) (made w1) (gone w1 ++ ids (skipn (Z.to_nat n) l))) (data c1) b l (None, x) Eb Hb ltac:(lia))
        as (w2 & -> & (b2 & E2 & Z2 & H2) & M2 & Em2 & Eg2). cbn [bind].
      eexists _, _, _. split; [reflexivity|]. cbn [hp made gone data] in *. split; [|split; [eapply moves_trans; eauto|repeat split; congruence || (intros Q0; specialize (Q Q0); exact Q)]].
      split; [cbn; rewrite zlen_app, zlen_repeat by lia; lia|]. right. exists b2. cbn. repeat split; auto; congruence.
Qed.

(** cloning *)
Lemma clone_elem_ok (w : world) x : exists t', clone_elem keyclone w x = (mkw (hp w) t' (made w + zlen (ids [x])) (gone w), hd x (copies keyclone (made w) [x])) /\ t' = tick w.
Proof.
  exists (tick w). split; [|reflexivity]. destruct x as [[id|] x]; unfold clone_elem, create; cbn; [reflexivity|]. rewrite Z.add_0_r. destruct w; reflexivity.
Qed.
Lemma copies_cons m x l : copies keyclone m (x :: l) = hd x (copies keyclone m [x]) :: copies keyclone (m + zlen (ids [x])) l.
Proof. destruct x as [[id|] x]; cbn; [reflexivity|]. now rewrite Z.add_0_r. Qed.
Lemma zlen_copies l : forall m, zlen (copies keyclone m l) = zlen l.
Proof. induction l as [|[[id|] x] t IH]; intros m; cbn [copies]; [reflexivity| |]; rewrite !zlen_cons, IH; reflexivity. Qed.

Lemma clone_loop_ok ls : forall (w : world) src bs pre dst bd ld i, src <> dst ->
  look (hp w) src = Some bs -> holds bs (pre ++ ls) -> i = zlen pre ->
  look (hp w) dst = Some bd -> holds bd ld -> zlen ld + zlen ls <= zlen bd ->
  exists w', clone_loop keyclone w src i dst (zlen ld) (length ls) = Ok w' /\
    (exists b', look (hp w') dst = Some b' /\ zlen b' = zlen bd /\ holds b' (ld ++ copies keyclone (made w) ls)) /\
    moves (hp w) (hp w') dst dst /\ made w' = made w + zlen (ids ls) /\ gone w' = gone w.
Proof.
  induction ls as [|x t IH]; intros w src bs pre dst bd ld i Hne Es Hs Hi Ed Hd Hl; cbn [clone_loop length].
  - exists w. split; [reflexivity|]. cbn [copies]. rewrite app_nil_r. split; [exists bd; auto|]. split; [apply moves_refl|]. cbn. split; [lia|reflexivity].
  - rewrite zlen_cons in Hl. pose proof (zlen_nonneg t).
    rewrite (load_ok w src bs (pre ++ x :: t) i x Es Hs) by (rewrite aget_app2 by lia; replace (i - zlen pre) with 0 by lia; reflexivity).
    cbn [bind]. destruct (clone_elem_ok w x) as (t' & -> & ->). set (y := hd x _). cbv beta zeta iota.
    destruct (store_end (mkw (hp w) (tick w) (made w + zlen (ids [x])) (gone w)) dst bd ld y Ed Hd ltac:(lia)) as (w1 & -> & (b1 & E1 & Z1 & H1) & M1 & Em1 & Eg1).
    cbn [hp made gone] in *. cbn [bind].
    destruct (IH w1 src bs (pre ++ [x]) dst b1 (ld ++ [y]) (i + 1)) as (w2 & E2 & (b2 & L2 & Z2 & H2) & M2 & Em2 & Eg2); auto.
    { eapply moves_look; eauto. }
    { rewrite <- app_assoc. exact Hs. }
    { rewrite zlen_app. subst i. reflexivity. }
    { rewrite zlen_app. change (zlen [y]) with 1. lia. }
    rewrite zlen_app in E2. change (zlen [y]) with 1 in E2. rewrite E2. exists w2. split; [reflexivity|].
    rewrite copies_cons. rewrite <- app_assoc in H2. rewrite Em1 in H2.
    split; [exists b2; repeat split; auto; congruence|]. split; [eapply moves_trans; eauto|]. rewrite (ids_cons x), zlen_app. split; [lia|congruence].
Qed.

Lemma amove_0 {X} (b : list X) n : 0 <= n <= zlen b -> amove b 0 n 0 = Ok b.
Proof.
  intros H. destruct (amove_some b 0 n 0) as [b' E]; try lia. rewrite E. f_equal.
  apply amove_inv in E as (_ & _ & _ & _ & _ & Hz & Hg). apply aget_ext; [lia|]. intros i Hi. rewrite Hg.
  destruct (Z.leb_spec n i); cbn; [|reflexivity]. destruct (Z.ltb_spec i (n + 0)); [lia|reflexivity].
Qed.
End Proofs.
