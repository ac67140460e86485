(** Copying, cloning, erasing and the constructors. *)
From Verif Require Import Base Slots Own_Model Own_Spec Own_Proofs.

Section Proofs.
Context {A : Type}.
Notation elem := (@elem A).
Notation heap := (@heap A).
Notation world := (@world A).
Variable place : nat -> heap -> Z -> Z.
Variable stay : nat -> heap -> Z -> Z -> bool.
Variable keyclone : A -> A.
Hypothesis place_free : forall t h n, look h (place t h n) = None.
Hypothesis place_ok : forall t h n, 0 < n -> place t h n <> 0.

Lemma stores_nonempty h c (l : list elem) : stores h c l -> l <> [] -> data c <> 0.
Proof. intros (_ & [(_ & _ & E)|(b & E & _)]) Hl H0; [congruence|]. rewrite H0 in E. discriminate. Qed.

(** the loop, for any source container elsewhere *)
Lemma clone_from (w : world) o lo dst bd : stores (hp w) o lo -> data o <> dst ->
  look (hp w) dst = Some bd -> zlen lo <= zlen bd ->
  exists w', clone_loop keyclone w (data o) 0 dst 0 (Z.to_nat (size o)) = Ok w' /\
    (exists b', look (hp w') dst = Some b' /\ zlen b' = zlen bd /\ holds b' (copies keyclone (made w) lo)) /\
    moves (hp w) (hp w') dst dst /\ made w' = made w + zlen (ids lo) /\ gone w' = gone w.
Proof.
  intros S Hne Ed Hl. destruct (stores_size _ _ _ S) as [Hs _]. rewrite Hs, <- zlen_length. destruct lo as [|x t].
  - cbn [length clone_loop]. exists w. split; [reflexivity|]. split; [exists bd; repeat split; auto; apply holds_nil|]. split; [apply moves_refl|].
    cbn. split; [lia|reflexivity].
  - assert (Hd : data o <> 0) by (eapply stores_nonempty; [exact S|discriminate]).
    destruct (stores_block _ _ _ S Hd) as (bs & Es & _ & Hh).
    exact (clone_loop_ok keyclone (x :: t) w (data o) bs [] dst bd [] 0 Hne Es Hh eq_refl Ed (holds_nil _) Hl).
Qed.

Lemma copy_n_ok (w : world) c o lo : stores (hp w) c (@nil elem) -> stores (hp w) o lo -> data o <> data c \/ data o = 0 ->
  exists w' c', copy_n place stay keyclone w c 0 (data o) (size o) = Ok (w', c') /\ stores (hp w') c' (copies keyclone (made w) lo) /\
    moves (hp w) (hp w') (data c) (data c') /\ made w' = made w + zlen (ids lo) /\ gone w' = gone w /\ (solid c -> solid c').
Proof.
  intros S So Hne. destruct (stores_size _ _ _ S) as [Hs Hc0]. change (zlen []) with 0 in *. destruct (stores_size _ _ _ So) as [Hso Hlo].
  set (n := size o) in *.
  assert (R : exists w1 c1, (if cap c <=? size c + n then reserve place stay w c (size c * 3 / 2 + n) else Ok (w, c, true)) = Ok (w1, c1, negb (data c1 =? 0)) /\
    stores (hp w1) c1 (@nil elem) /\ moves (hp w) (hp w1) (data c) (data c1) /\ made w1 = made w /\ gone w1 = gone w /\ n <= cap c1 /\
    (0 < n -> data c1 <> 0) /\ (solid c -> solid c1)).
  { rewrite Hs. change (0 * 3 / 2 + n) with n. destruct (Z.leb_spec (cap c) (0 + n)).
    - destruct (reserve_ok place stay place_free place_ok w c [] n S ltac:(lia)) as (w1 & c1 & H1). exists w1, c1. exact H1.
    - exists w, c. assert (Hd : data c <> 0). { intros H0. destruct S as (_ & [(_ & Hc & _)|(b & E & _)]); [lia|]. rewrite H0 in E. discriminate. }
      rewrite (proj2 (Z.eqb_neq _ _) Hd). split; [reflexivity|]. split; [exact S|]. split; [apply moves_refl|]. repeat split; auto; lia. }
  destruct R as (w1 & c1 & E & S1 & M & Em & Eg & Hc & Hd & Q). unfold copy_n, insert_uninit. rewrite E. cbn [bind].
  destruct (stores_size _ _ _ S1) as [Hs1 _]. change (zlen []) with 0 in Hs1.
  destruct (Z.eqb_spec (data c1) 0) as [H0|H0]; cbn [negb bind].
  - assert (lo = []) as ->. { destruct lo as [|x t]; [reflexivity|]. rewrite zlen_cons in *. pose proof (zlen_nonneg t). lia. }
    exists w1, c1. split; [reflexivity|]. split; [exact S1|]. split; [exact M|]. cbn. repeat split; auto; lia.
  - destruct (stores_block _ _ _ S1 H0) as (b & Eb & Zb & _). unfold block. rewrite Eb. cbn [bind]. rewrite Hs1, Z.add_0_l, Z.sub_0_r.
    rewrite amove_0 by lia. cbn [bind data].
    set (w1' := with_heap w1 (put (hp w1) (data c1) b)).
    assert (M1 : moves (hp w1) (hp w1') (data c1) (data c1)) by now apply moves_put.
    assert (Eb' : look (hp w1') (data c1) = Some b) by (cbn [w1' with_heap hp]; rewrite look_put by exact H0; now rewrite Z.eqb_refl).
    assert (Mo : moves (hp w) (hp w1') (data c) (data c1)) by (eapply moves_trans; eauto).
    assert (So' : stores (hp w1') o lo) by (eapply moves_stores; eauto).
    assert (Hne' : data o <> data c1).
    { destruct Hne as [Hne|Hne]; [|congruence]. intros Heq. destruct M as (_ & [N|N] & _); [congruence|].
      destruct So as (_ & [(O & _)|(b0 & E0 & _)]); [congruence|]. rewrite Heq in E0. congruence. }
    destruct (clone_from w1' o lo (data c1) b So' Hne' Eb' ltac:(lia)) as (w2 & E2 & (b2 & L2 & Z2 & H2) & M2 & Em2 & Eg2).
    fold n in E2. rewrite E2. cbn [bind]. cbn [w1' with_heap made gone] in Em2, Eg2, H2.
    eexists _, _. split; [reflexivity|]. cbn [data]. split; [|split; [eapply moves_trans; eauto|]].
    + split; [cbn [size]; rewrite zlen_copies; lia|]. right. exists b2. cbn [data cap]. rewrite <- Em. repeat split; auto; lia.
    + repeat split; try congruence. intros H. specialize (Q H). exact Q.
Qed.

Lemma clone_ok k (w : world) o lo : stores (hp w) o lo ->
  exists w' c', clone place stay keyclone k w o = Ok (w', c') /\ stores (hp w') c' (copies keyclone (made w) lo) /\
    moves (hp w) (hp w') 0 (data c') /\ made w' = made w + zlen (ids lo) /\ gone w' = gone w /\ (k = KVec -> solid c').
Proof.
  intros S. destruct k; cbn [clone].
  - destruct (copy_n_ok w zero o lo (stores_zero _) S) as (w' & c' & E & S' & M & Em & Eg & Q).
    { destruct (Z.eq_dec (data o) 0); auto. }
    exists w', c'. repeat split; auto; try apply S'; try apply M. intros _. apply Q. intros _. reflexivity.
  - destruct (stores_size _ _ _ S) as [Hs Hl]. destruct (malloc_ok place place_free place_ok w (size o) ltac:(lia)) as (w1 & p & -> & M & Em & Eg & Hp & Hb).
    destruct (Z.eqb_spec p 0) as [H0|H0].
    + assert (lo = []) as ->. { destruct lo as [|x t]; [reflexivity|]. rewrite zlen_cons in *. pose proof (zlen_nonneg t). exfalso. apply Hp; lia. }
      subst p. eexists _, _. split; [reflexivity|]. cbn [data]. split; [split; [cbn [size]; exact Hs|left; auto]|]. split; [exact M|].
      cbn. repeat split; auto; try lia; try discriminate.
    + destruct (Hb H0) as (b & Eb & Zb).
      assert (Hne : data o <> p). { intros <-. destruct M as (_ & [N|N] & _); [congruence|]. destruct S as (_ & [(O & _)|(b0 & E0 & _)]); congruence. }
      assert (S1 : stores (hp w1) o lo). { eapply moves_stores; [exact M| |exact S]. destruct (Z.eq_dec (data o) 0); auto. }
      destruct (clone_from w1 o lo p b S1 Hne Eb ltac:(lia)) as (w2 & -> & (b2 & L2 & Z2 & H2) & M2 & Em2 & Eg2). cbn [bind].
      eexists _, _. split; [reflexivity|]. cbn [data]. split; [|split; [eapply moves_trans; eauto|]].
      * split; [cbn [size]; rewrite zlen_copies; lia|]. right. exists b2. cbn [data cap]. rewrite <- Em. repeat split; auto; lia.
      * repeat split; try congruence; try discriminate.
Qed.

Lemma copy_ok k (w : world) c l o lo : stores (hp w) c l -> stores (hp w) o lo -> data o <> data c \/ data o = 0 -> (k = KVec -> solid c) ->
  exists w' c', copy place stay keyclone k w c o = Ok (w', c') /\ stores (hp w') c' (copies keyclone (made w) lo) /\
    moves (hp w) (hp w') (data c) (data c') /\ made w' = made w + zlen (ids lo) /\ gone w' = gone w ++ ids (rev l) /\ (k = KVec -> solid c').
Proof.
  intros S So Hne Q. unfold copy. destruct (Z.eqb_spec (data c) (data o)) as [Heq|Hd].
  - assert (O : data o = 0) by (destruct Hne; congruence).
    assert (l = []) as ->. { destruct S as (_ & [(_ & _ & ->)|(b & E & _)]); [reflexivity|]. rewrite Heq, O in E. discriminate. }
    assert (lo = []) as ->. { destruct So as (_ & [(_ & _ & ->)|(b & E & _)]); [reflexivity|]. rewrite O in E. discriminate. }
    exists w, c. split; [reflexivity|]. split; [exact S|]. split; [apply moves_refl|]. cbn. rewrite app_nil_r. repeat split; auto; lia.
  - destruct k.
    + destruct (clear_ok w c l S) as (c1 & -> & S1 & D1 & C1). cbn [bind].
      destruct (copy_n_ok (mkw (hp w) (tick w) (made w) (gone w ++ ids (rev l))) c1 o lo S1 So) as (w' & c' & -> & S' & M & Em & Eg & Q').
      { rewrite D1. exact Hne. }
      cbn [hp made gone] in *. rewrite D1 in M. exists w', c'. repeat split; auto; try apply S'; try apply M.
      intros _. apply Q'. intros H. rewrite D1. apply Q; [reflexivity|]. rewrite <- C1. exact H.
    + destruct (drop_ok KStack w c l S Q) as (w1 & -> & M1 & Em1 & Eg1). cbn [bind].
      assert (So1 : stores (hp w1) o lo) by (eapply moves_stores; eauto).
      destruct (clone_ok KStack w1 o lo So1) as (w' & c' & -> & S' & M & Em & Eg & Q').
      exists w', c'. rewrite Em1 in *. split; [reflexivity|]. split; [exact S'|]. split; [eapply moves_trans; eauto|]. repeat split; congruence.
Qed.

(** erasing *)
Lemma erase_n_ok (w : world) c l idx n : stores (hp w) c l -> 0 <= idx -> 0 <= n -> idx + n <= zlen l ->
  exists w' c', erase_n w c idx n = Ok (w', c') /\
    stores (hp w') c' (firstn (Z.to_nat idx) l ++ skipn (Z.to_nat (idx + n)) l) /\
    moves (hp w) (hp w') (data c) (data c') /\ made w' = made w /\ gone w' = gone w ++ ids (firstn (Z.to_nat n) (skipn (Z.to_nat idx) l)) /\
    data c' = data c /\ cap c' = cap c.
Proof.
  intros S Hi Hn Hl. destruct (stores_size _ _ _ S) as [Hs Hc]. unfold erase_n. rewrite Hs.
  destruct (Z.ltb_spec (zlen l) (idx + n)); [lia|].
  assert (ED : drop_up w (data c) idx (Z.to_nat n) = Ok (mkw (hp w) (tick w) (made w) (gone w ++ ids (firstn (Z.to_nat n) (skipn (Z.to_nat idx) l))))).
  { destruct (Z.eq_dec n 0) as [->|]; [cbn; rewrite app_nil_r; destruct w; reflexivity|].
    assert (Hd : data c <> 0). { eapply stores_nonempty; [exact S|]. intros ->. cbn in *. lia. }
    destruct (stores_block _ _ _ S Hd) as (b & E & Zb & Hb). exact (drop_up_ok (Z.to_nat n) w (data c) b l idx E Hb Hi ltac:(lia)). }
  rewrite ED. cbn [bind]. clear ED. destruct (Z.eqb_spec (zlen l - idx - n) 0).
  - eexists _, _. split; [reflexivity|]. cbn [hp made gone data cap]. rewrite (skipn_all2 (n := Z.to_nat (idx + n))) by (unfold zlen in *; lia). rewrite app_nil_r.
    split; [|split; [apply moves_refl|repeat split; reflexivity]]. split; [cbn [size]; rewrite zlen_firstn by lia; lia|].
    destruct S as (_ & [(H0 & Hc0 & ->)|(b & E & Zb & Hb)]).
    + left. cbn. rewrite firstn_nil. auto.
    + right. exists b. cbn. repeat split; auto. now apply holds_firstn.
  - assert (Hd : data c <> 0). { eapply stores_nonempty; [exact S|]. intros ->. cbn in *. lia. }
    destruct (stores_block _ _ _ S Hd) as (b & E & Zb & Hb). unfold block. cbn [hp]. rewrite E. cbn [bind].
    destruct (amove_some b (idx + n) idx (zlen l - idx - n)) as [b' Eb]; try lia. rewrite Eb. cbn [bind].
    eexists _, _. split; [reflexivity|]. cbn [with_heap hp made gone data cap]. split; [|split; [now apply moves_put|repeat split; reflexivity]].
    apply amove_inv in Eb as (_ & _ & _ & _ & _ & Hz & Hg).
    split; [cbn [size]; rewrite zlen_app, zlen_firstn, zlen_skipn by lia; lia|]. right. exists b'. cbn [data cap]. rewrite look_put by exact Hd. rewrite Z.eqb_refl.
    split; [reflexivity|]. split; [congruence|]. apply holds_of; [rewrite zlen_app, zlen_firstn, zlen_skipn by lia; lia|].
    intros j x Ej. pose proof (aget_ok_range _ _ _ Ej) as Hj. rewrite zlen_app, zlen_firstn, zlen_skipn in Hj by lia.
    rewrite aget_app in Ej by lia. rewrite zlen_firstn in Ej by lia. rewrite Hg.
    destruct (Z.leb_spec idx j); cbn [andb].
    + destruct (Z.ltb_spec j (Z.min idx (zlen l))); [lia|]. destruct (Z.ltb_spec j (idx + (zlen l - idx - n))); [|lia].
      rewrite aget_skipn in Ej by lia. replace (idx + n + (j - Z.min idx (zlen l))) with (j - idx + (idx + n)) in Ej by lia.
      eapply holds_aget; eauto.
    + destruct (Z.ltb_spec j (Z.min idx (zlen l))); [|lia]. rewrite aget_firstn in Ej by lia. eapply holds_aget; eauto.
Qed.

(** constructors *)
Lemma with_capacity_ok k (w : world) n : 0 <= n ->
  exists w' c', with_capacity place stay k w n = Ok (w', c') /\ stores (hp w') c' (@nil elem) /\
    moves (hp w) (hp w') 0 (data c') /\ made w' = made w /\ gone w' = gone w /\ (k = KVec -> solid c').
Proof.
  intros Hn. destruct k; cbn [with_capacity].
  - destruct (reserve_ok place stay place_free place_ok w zero [] n (stores_zero _) Hn) as (w' & c' & -> & S & M & Em & Eg & _ & _ & Q). cbn [bind].
    exists w', c'. repeat split; auto; try apply S; try apply M. intros _. apply Q. intros _. reflexivity.
  - destruct (malloc_ok place place_free place_ok w n Hn) as (w1 & p & -> & M & Em & Eg & Hp & Hb).
    eexists _, _. split; [reflexivity|]. cbn [data]. split; [|split; [exact M|repeat split; auto; try discriminate]].
    split; [reflexivity|]. cbn [data cap]. destruct (Z.eq_dec p 0) as [->|H0].
    + left. repeat split. destruct (Z.eq_dec n 0); [assumption|]. exfalso. apply Hp; lia.
    + right. destruct (Hb H0) as (b & Eb & Zb). exists b. repeat split; auto. apply holds_nil.
Qed.

Lemma with_size_ok k (w : world) n x : 0 <= n ->
  exists w' c', with_size place stay k w n (None, x) = Ok (w', c') /\ stores (hp w') c' (repeat (None, x) (Z.to_nat n)) /\
    moves (hp w) (hp w') 0 (data c') /\ made w' = made w /\ gone w' = gone w /\ (k = KVec -> solid c').
Proof.
  intros Hn. destruct k; cbn [with_size].
  - destruct (resize_ok place stay place_free place_ok w zero [] n x (stores_zero _) Hn) as (w' & c' & ok & -> & S & M & Em & Eg & Q). cbn [bind].
    rewrite firstn_nil, skipn_nil in *. cbn in S, Eg. rewrite app_nil_r in Eg. replace (n - 0) with n in S by lia.
    exists w', c'. repeat split; auto; try apply S; try apply M. intros _. apply Q. intros _. reflexivity.
  - destruct (malloc_ok place place_free place_ok w n Hn) as (w1 & p & -> & M & Em & Eg & Hp & Hb).
    destruct (Z.eq_dec p 0) as [->|H0].
    + assert (n = 0) as ->. { destruct (Z.eq_dec n 0); [assumption|]. exfalso. apply Hp; lia. }
      cbn [Z.to_nat fill_down bind]. eexists _, _. split; [reflexivity|]. cbn [data repeat]. split; [split; [reflexivity|left; auto]|].
      split; [exact M|repeat split; auto; try discriminate].
    + destruct (Hb H0) as (b & Eb & Zb).
      destruct (fill_down_ok (Z.to_nat n) w1 p b 0 (None, x) Eb) as (w2 & -> & L & M2 & Em2 & Eg2).
      { exists b. cbn. rewrite app_nil_r. split; [reflexivity|]. rewrite zlen_length. now rewrite Zb. }
      cbn [bind]. eexists _, _. split; [reflexivity|]. cbn [data]. rewrite Nat.add_0_r in L.
      split; [|split; [eapply moves_trans; eauto|repeat split; try congruence; try discriminate]].
      split; [cbn [size]; now rewrite zlen_repeat|]. right. eexists. cbn [data cap]. split; [exact L|]. split; [now rewrite zlen_repeat|].
      exists []. rewrite app_nil_r. generalize (Z.to_nat n) as m. induction m as [|m IH]; [reflexivity|]. cbn. now rewrite IH.
Qed.
End Proofs.
