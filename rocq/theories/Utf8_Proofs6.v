From Verif Require Import Base Utf8_Tab Utf8_Model Utf8_Spec Utf8_Proofs Utf8_Proofs2 Utf8_Proofs3 Utf8_Proofs4 Utf8_Proofs5.

(** ** utf8_icompare on views, when case folding keeps the number of bytes *)
Definition keeps (cs : list Z) : Prop := Forall (fun c => zlen (enc (casefold c)) = zlen (enc c)) cs.
Lemma zlen_enc_all_pos c cs : scalar c -> 0 < zlen (enc_all (c :: cs)).
Proof. intros H. rewrite enc_all_cons, zlen_app. pose proof (enc_zlen c H). pose proof (zlen_nonneg (enc_all cs)). lia. Qed.
Lemma icompare_loop_view schar m1 p1 n1 m2 p2 n2 : 0 <= n1 < 2 ^ 31 -> 0 <= n2 < 2 ^ 31 -> forall fuel cs1 cs2 cp1 cp2 j,
  holds_at m1 (p1 + j) (enc_all cs1) -> holds_at m2 (p2 + j) (enc_all cs2) -> n1 = j + zlen (enc_all cs1) -> n2 = j + zlen (enc_all cs2) ->
  Forall scalar cs1 -> Forall scalar cs2 -> Forall (fun c => c <> 0) cs2 -> keeps cs1 -> keeps cs2 -> (length cs1 < fuel)%nat ->
  exists r, icompare_loop fuel schar m1 p1 n1 m2 p2 n2 (0, cp1) (0, cp2) j j = Ok r /\ (r ?= 0) = lex (map casefold cs1) (map casefold cs2).
Proof.
  intros HN1 HN2. induction fuel as [|fuel IH]; intros cs1 cs2 cp1 cp2 j A1 A2 E1 E2 S1 S2 Z2 K1 K2 Hf; [lia|]. cbn [icompare_loop].
  assert (TI : to_int (n1 - n2) = n1 - n2) by (unfold to_int; rewrite Z.mod_small; lia).
  destruct cs1 as [|c1 cs1].
  - change (zlen (enc_all [])) with 0 in E1. destruct (Z.ltb_spec j n1); [lia|]. cbn [andb]. rewrite TI. eexists. split; [reflexivity|]. cbn [map lex].
    destruct cs2 as [|c2 cs2]; cbn [map].
    + change (zlen (enc_all [])) with 0 in E2. destruct (Z.compare_spec (n1 - n2) 0); lia || reflexivity.
    + inversion S2 as [|? ? Sc S2']; subst. pose proof (zlen_enc_all_pos c2 cs2 Sc). destruct (Z.compare_spec (j + 0 - (j + zlen (enc_all (c2 :: cs2)))) 0); lia || reflexivity.
  - inversion S1 as [|? ? Sc1 S1']; subst. pose proof (zlen_enc_all_pos c1 cs1 Sc1). destruct cs2 as [|c2 cs2].
    + change (zlen (enc_all [])) with 0 in *. rewrite Z.add_0_r in *. rewrite Z.ltb_irrefl, andb_false_r. rewrite TI. eexists. split; [reflexivity|]. cbn [map lex].
      destruct (Z.compare_spec (j + zlen (enc_all (c1 :: cs1)) - j) 0); lia || reflexivity.
    + inversion S2 as [|? ? Sc2 S2']; inversion Z2 as [|? ? Nz Z2']; inversion K1 as [|? ? Kc1 K1']; inversion K2 as [|? ? Kc2 K2']; subst.
      pose proof (zlen_enc_all_pos c2 cs2 Sc2). set (n1 := j + zlen (enc_all (c1 :: cs1))) in *. set (n2 := j + zlen (enc_all (c2 :: cs2))) in *.
      destruct (Z.ltb_spec j n1); [|lia]. destruct (Z.ltb_spec j n2); [|lia]. cbn [andb].
      rewrite enc_all_cons in A1, A2. destruct (enc_split c2 Sc2 Nz) as (b & r & Eb & _ & Hb & _).
      assert (HbA : aget m2 (p2 + j) = Ok b) by (rewrite Eb in A2; cbn [app] in A2; now rewrite (at_head _ _ _ _ A2)).
      rewrite HbA. cbn [bind]. destruct (Z.eqb_spec b 0); [contradiction|].
      replace (p1 + n1) with (p1 + j + zlen (enc c1 ++ enc_all cs1)) by (subst n1; rewrite enc_all_cons; lia).
      replace (p2 + n2) with (p2 + j + zlen (enc c2 ++ enc_all cs2)) by (subst n2; rewrite enc_all_cons; lia).
      rewrite dcp_enc by (auto using wf_bytes). cbn [bind fst snd]. rewrite dcp_enc by (auto using wf_bytes). cbn [bind fst snd].
      destruct (Z.eqb_spec (casefold c1 - casefold c2) 0) as [E|E]; cbn [negb map lex].
      * assert (EL : zlen (enc c2) = zlen (enc c1)) by (rewrite <- Kc1, <- Kc2; do 2 f_equal; lia). rewrite EL.
        replace (casefold c1) with (casefold c2) by lia. rewrite Z.compare_refl. apply at_app in A1 as [_ A1], A2 as [_ A2]. rewrite EL in A2.
        cbn [length] in Hf. apply IH; auto; try lia; [now rewrite Z.add_assoc|now rewrite Z.add_assoc| |]; subst n1 n2; rewrite enc_all_cons, zlen_app; lia.
      * eexists. split; [reflexivity|]. rewrite cmp_sub. destruct (Z.compare_spec (casefold c1) (casefold c2)); auto. lia.
Qed.
Lemma icompare_view schar m1 p1 cs1 m2 p2 cs2 : holds_at m1 p1 (enc_all cs1) -> holds_at m2 p2 (enc_all cs2) ->
  zlen (enc_all cs1) < 2 ^ 31 -> zlen (enc_all cs2) < 2 ^ 31 -> Forall scalar cs1 -> Forall scalar cs2 -> ~ In 0 cs2 -> keeps cs1 -> keeps cs2 ->
  exists r, icompare schar m1 p1 (zlen (enc_all cs1)) m2 p2 (zlen (enc_all cs2)) = Ok r /\ (r ?= 0) = lex (map casefold cs1) (map casefold cs2).
Proof.
  intros A1 A2 N1 N2 S1 S2 Z2 K1 K2. unfold icompare. pose proof (zlen_nonneg (enc_all cs1)). pose proof (zlen_nonneg (enc_all cs2)).
  apply icompare_loop_view; auto; try lia; rewrite ?Z.add_0_r; auto.
  - rewrite Forall_forall. intros x Hx ->. contradiction.
  - apply fuel_len in A1. assert (length cs1 <= length (enc_all cs1))%nat; [|lia]. clear - S1. induction S1 as [|c cs Hc _ IH]; [cbn; lia|].
    rewrite enc_all_cons, app_length. pose proof (enc_zlen c Hc) as L. unfold zlen in L. cbn [length]. lia.
Qed.
Lemma keeps_ascii cs : Forall (fun c => 0 <= c < 128) cs -> keeps cs.
Proof.
  intros H. unfold keeps. eapply Forall_impl; [|exact H]. intros c Hc. cbv beta in Hc. destruct (ascii_lower c Hc) as (E1 & E2 & _). rewrite E2, E1, !enc_len_ok.
  unfold enc_len. destruct (Z.leb_spec 65 c), (Z.leb_spec c 90); cbn [andb]; cases.
Qed.
(** lex is antisymmetric and Eq only on equal lists *)
Lemma lex_sym a : forall b, lex b a = CompOpp (lex a b).
Proof.
  induction a as [|x a IH]; intros [|y b]; cbn; auto. rewrite (Z.compare_antisym x y). destruct (x ?= y); cbn; auto.
Qed.
Lemma lex_eq a : forall b, lex a b = Eq <-> a = b.
Proof.
  induction a as [|x a IH]; intros [|y b]; cbn; split; try discriminate; auto.
  - destruct (Z.compare_spec x y); try discriminate. intros H'. apply IH in H'. congruence.
  - intros E. injection E as -> ->. rewrite Z.compare_refl. now apply IH.
Qed.
