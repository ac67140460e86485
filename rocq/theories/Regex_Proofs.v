(** Reading the text: positions of code points, the rune at a position, the start search. *)
From Verif Require Import Base Utf8_Tab Utf8_Model Utf8_Spec Utf8_Proofs Utf8_Proofs2 Utf8_Proofs3 Utf8_Proofs4 Utf8_Proofs5 Utf8_Proofs6 Regex_Model Regex_Spec.

Lemma cp_offset_nth cs k c : nth_error cs k = Some c -> cp_offset cs (S k) = cp_offset cs k + zlen (enc c).
Proof.
  unfold cp_offset. revert k. induction cs as [|d cs IH]; intros [|k] H; cbn [nth_error] in H; try discriminate.
  - injection H as ->. cbn [firstn]. rewrite enc_all_cons, zlen_app. change (enc_all []) with (@nil Z). rewrite zlen_nil. lia.
  - cbn [firstn] in *. rewrite !enc_all_cons, !zlen_app. specialize (IH k H). cbn [firstn] in IH. lia.
Qed.
Lemma cp_offset_0 cs : cp_offset cs 0 = 0. Proof. reflexivity. Qed.
Lemma cp_offset_lt cs i j : Forall scalar cs -> (i < j <= length cs)%nat -> cp_offset cs i < cp_offset cs j.
Proof.
  intros Hs. induction j as [|j IH]; intros H; [lia|]. pose proof (cp_offset_mono cs j Hs ltac:(lia)).
  destruct (Nat.eq_dec i j) as [->|]; [lia|]. specialize (IH ltac:(lia)). lia.
Qed.
Lemma at_nth_cp m s cs k c l : holds_at m s (enc_all cs ++ l) -> nth_error cs k = Some c ->
  exists l', holds_at m (s + cp_offset cs k) (enc c ++ l').
Proof.
  intros HA Hc. apply nth_error_split in Hc as (l1 & l2 & -> & <-). rewrite enc_all_app, enc_all_cons, <- !app_assoc in HA.
  apply at_app in HA as [_ HA]. exists (enc_all l2 ++ l). unfold cp_offset. rewrite firstn_app, firstn_all, Nat.sub_diag. cbn [firstn]. now rewrite app_nil_r.
Qed.

(** decode_codepoint without an end. *)
Lemma dcp_noend m start : forall fuel l st cp s n c k, n = s - start -> 0 <= s -> In st states -> Forall is_byte l -> holds_at m s l ->
  dl st cp n l = (true, c, k) -> (length l <= fuel)%nat -> dcp_loop fuel m (st, cp) start s (-1) = Ok ((0, c), k).
Proof.
  induction fuel as [|fuel IH]; intros l st cp s n c k Hn H0 Hs HB HA E Hf; (destruct l as [|b l]; [cbn in E; try discriminate E|]); cbn [length] in Hf; try lia.
  inversion HB as [|? ? Hb HB']; subst. cbn [dcp_loop dl] in *. rewrite (at_head _ _ _ _ HA). cbn [bind]. rewrite decode_eq by auto. cbn [bind fst].
  destruct (Z.eqb_spec (nx st b) 0) as [E0|E0].
  - rewrite E0. injection E as <- <-. do 2 f_equal. lia.
  - destruct (Z.eqb_spec (nx st b) 12) as [E1|E1]; [discriminate E|]. pose proof (nx_state st b Hs) as Hs'. cbn [negb andb] in *.
    destruct (Z.eqb_spec (s + 1) (-1)); [lia|]. cbn [negb]. destruct l as [|b1 l]; [discriminate E|].
    apply at_tail in HA. refine (IH (b1 :: l) _ _ (s + 1) (s - start + 1) c k _ _ _ _ HA E _); auto; lia.
Qed.
Lemma rune_at_enc m s c l : scalar c -> holds_at m s (enc c ++ l) -> rune_at m s = Ok (c, zlen (enc c)).
Proof.
  intros Hc HA. unfold rune_at.
  assert (D : exists b r, enc c = b :: r) by (pose proof (enc_zlen c Hc) as L; destruct (enc c) as [|b r]; [cbn in L; lia|eauto]).
  destruct D as (b & r & E). pose proof HA as HA'. rewrite E in HA'. cbn [app] in HA'. rewrite (at_head _ _ _ _ HA'). cbn [bind].
  destruct (Z.ltb_spec b 128) as [Hb|Hb].
  - assert (c < 128) as Hlt. { revert E. unfold enc, scalar in *. cases; intros E; apply (f_equal (hd 0)) in E; cbn [hd] in E; try lia; Z.to_euclidean_division_equations; lia. }
    unfold enc in *. destruct (Z.ltb_spec c 128); [|lia]. injection E as -> <-. reflexivity.
  - apply at_app in HA as [HA _]. pose proof (dl_enc c 0 [] Hc) as D. rewrite app_nil_r in D. unfold decode_codepoint.
    pose proof (at_len _ _ _ HA) as HL. erewrite (dcp_noend m s _ (enc c) 0 0 s 0); eauto; try lia.
    + reflexivity.
    + left; reflexivity.
    + now apply enc_bytes.
    + apply fuel_len in HA. lia.
Qed.

Lemma enc_ge128 c b : scalar c -> 128 <= c -> In b (enc c) -> 128 <= b.
Proof.
  intros Hc Hn. pose proof (enc_bytes c Hc) as HB. unfold enc. destruct (Z.ltb_spec c 128); [lia|]. unfold scalar in Hc.
  destruct (Z.ltb_spec c 2048); [|destruct (Z.ltb_spec c 65536)]; cbn [In]; intros HI;
    repeat (destruct HI as [<-|HI]); try contradiction; Z.to_euclidean_division_equations; lia.
Qed.

(** ** strchr over well-formed text *)
Lemma strchr_skip m (f : Z -> Z) c l : forall pre s k, holds_at m s (pre ++ l) -> (forall b, In b pre -> f b <> c /\ b <> 0) ->
  strchr (length pre + k) f m s c = strchr k f m (s + zlen pre) c.
Proof.
  induction pre as [|b pre IH]; intros s k HA H; [rewrite zlen_nil, Z.add_0_r; reflexivity|].
  cbn [app] in HA. cbn [length Nat.add strchr]. rewrite (at_head _ _ _ _ HA). cbn [bind]. destruct (H b (or_introl eq_refl)) as [H1 H2].
  apply Z.eqb_neq in H1, H2. rewrite H1, H2. rewrite IH; [rewrite zlen_cons; f_equal; lia|now apply at_tail in HA|intros; apply H; now right].
Qed.
Lemma strchr_ok m c : 0 <= c < 128 -> forall cs s fuel, Forall scalar cs -> Forall (fun x => x <> 0) cs -> holds_at m s (enc_all cs ++ [0]) ->
  (length (enc_all cs) < fuel)%nat ->
  (exists k, strchr fuel (fun b => b) m s c = Ok (Some (s + cp_offset cs k)) /\ (k <= length cs)%nat /\ nth k cs 0 = c /\ (forall i, (i < k)%nat -> nth i cs 0 <> c)) \/
  (strchr fuel (fun b => b) m s c = Ok None /\ c <> 0 /\ ~ In c cs).
Proof.
  intros Hc. induction cs as [|x cs IH]; intros s fuel Hs Hz HA Hf.
  - cbn [enc_all flat_map app length] in *. destruct fuel as [|fuel]; [lia|]. cbn [strchr]. rewrite (at_head _ _ _ _ HA). cbn [bind].
    destruct (Z.eqb_spec 0 c) as [<-|Hn].
    + left. exists 0%nat. rewrite cp_offset_0, Z.add_0_r. repeat split; auto; lia.
    + right. repeat split; auto.
  - inversion Hs as [|? ? Hx Hs']; inversion Hz as [|? ? Hxz Hz']; subst. rewrite enc_all_cons in *. rewrite <- app_assoc in HA. rewrite app_length in Hf.
    destruct (Z.eq_dec x c) as [->|Hn].
    + left. exists 0%nat. rewrite cp_offset_0, Z.add_0_r. split; [|split; [cbn; lia|split; [reflexivity|lia]]].
      unfold enc in HA. destruct (Z.ltb_spec c 128); [|lia]. cbn [app] in HA. destruct fuel as [|fuel]; [lia|]. cbn [strchr]. rewrite (at_head _ _ _ _ HA). cbn [bind]. now rewrite Z.eqb_refl.
    + assert (B : forall b, In b (enc x) -> b <> c /\ b <> 0).
      { intros b Hb. destruct (Z.ltb_spec x 128).
        - unfold enc in Hb. destruct (Z.ltb_spec x 128); [|lia]. destruct Hb as [<-|[]]. auto.
        - apply enc_ge128 in Hb; auto. lia. }
      replace fuel with (length (enc x) + (fuel - length (enc x)))%nat by lia. rewrite (strchr_skip m _ c _ _ _ _ HA B).
      apply at_app in HA as [_ HA]. destruct (IH (s + zlen (enc x)) (fuel - length (enc x))%nat Hs' Hz' HA ltac:(lia)) as [(k & E & Hk & Hk1 & Hk2)|(E & H1 & H2)].
      * left. exists (S k). split; [|split; [cbn; lia|split; [exact Hk1|intros [|i] Hi; cbn; [exact Hn|apply Hk2; lia]]]].
        rewrite E. unfold cp_offset. cbn [firstn]. rewrite enc_all_cons, zlen_app. do 2 f_equal. lia.
      * right. split; [exact E|]. split; [exact H1|]. intros [|]; auto.
Qed.
Lemma lower_fold x : 0 <= x < 128 -> lower x = casefold x.
Proof. intros H. destruct (ascii_lower x H) as (E1 & E2 & _). rewrite E2, E1. reflexivity. Qed.
Lemma lower_other b : 128 <= b -> lower b = b.
Proof. unfold lower. intros. destruct (Z.leb_spec 65 b); destruct (Z.leb_spec b 90); cbn; lia. Qed.
Lemma icase_skip m c l : forall pre s k, holds_at m s (pre ++ l) -> (forall b, In b pre -> lower b <> c /\ b <> 0) ->
  icase_loop (length pre + k) m s c = icase_loop k m (s + zlen pre) c.
Proof.
  induction pre as [|b pre IH]; intros s k HA H; [rewrite zlen_nil, Z.add_0_r; reflexivity|].
  cbn [app] in HA. cbn [length Nat.add icase_loop]. rewrite (at_head _ _ _ _ HA). cbn [bind]. destruct (H b (or_introl eq_refl)) as [H1 H2].
  apply Z.eqb_neq in H1, H2. rewrite H1, H2. rewrite IH; [rewrite zlen_cons; f_equal; lia|now apply at_tail in HA|intros; apply H; now right].
Qed.
Lemma icase_ok m c : 0 <= c < 128 -> forall cs s fuel, Forall scalar cs -> Forall (fun x => x <> 0) cs -> holds_at m s (enc_all cs ++ [0]) ->
  (length (enc_all cs) < fuel)%nat ->
  (exists k x, icase_loop fuel m s c = Ok (Some (s + cp_offset cs k)) /\ nth_error cs k = Some x /\ (forall i y, (i < k)%nat -> nth_error cs i = Some y -> y < 128 -> casefold y <> c)) \/
  (icase_loop fuel m s c = Ok None /\ forall y, In y cs -> y < 128 -> casefold y <> c).
Proof.
  intros Hc. induction cs as [|x cs IH]; intros s fuel Hs Hz HA Hf.
  - cbn [enc_all flat_map app length] in *. destruct fuel as [|fuel]; [lia|]. cbn [icase_loop]. rewrite (at_head _ _ _ _ HA). cbn [bind].
    right. split; [reflexivity|intros y Hy; destruct Hy].
  - inversion Hs as [|? ? Hx Hs']; inversion Hz as [|? ? Hxz Hz']; subst. rewrite enc_all_cons in *. rewrite <- app_assoc in HA. rewrite app_length in Hf.
    destruct (Z_lt_dec x 128) as [Hlt|Hge]; [destruct (Z.eq_dec (casefold x) c) as [Ex|Hn]|].
    + left. exists 0%nat, x. rewrite cp_offset_0, Z.add_0_r. split; [|split; [reflexivity|lia]].
      unfold enc in HA, Hf. destruct (Z.ltb_spec x 128); [|lia]. cbn [app length] in HA, Hf. destruct fuel as [|fuel]; [lia|]. cbn [icase_loop]. rewrite (at_head _ _ _ _ HA). cbn [bind].
      apply Z.eqb_neq in Hxz. rewrite Hxz, lower_fold, Ex by (unfold scalar in Hx; lia). now rewrite Z.eqb_refl.
    + assert (Hn' : x < 128 -> casefold x <> c) by auto. clear Hn. rename Hn' into Hn. revert Hn. clear Hlt. intros Hn.
      assert (B : forall b, In b (enc x) -> lower b <> c /\ b <> 0).
      { intros b Hb. destruct (Z.ltb_spec x 128).
        - unfold enc in Hb. destruct (Z.ltb_spec x 128); [|lia]. destruct Hb as [<-|Hb]; [|destruct Hb]. split; auto. rewrite lower_fold by (unfold scalar in Hx; lia). auto.
        - apply enc_ge128 in Hb; auto. rewrite lower_other by lia. lia. }
      replace fuel with (length (enc x) + (fuel - length (enc x)))%nat by lia. rewrite (icase_skip m c _ _ _ _ HA B).
      apply at_app in HA as [_ HA]. destruct (IH (s + zlen (enc x)) (fuel - length (enc x))%nat Hs' Hz' HA ltac:(lia)) as [(k & y & E & Hk & Hk2)|(E & H1)].
      * left. exists (S k), y. split; [|split; [exact Hk|intros [|i] z Hi; cbn [nth_error]; intros Hz1; [injection Hz1 as <-; exact Hn|apply (Hk2 i); auto; lia]]].
        rewrite E. unfold cp_offset. cbn [firstn]. rewrite enc_all_cons, zlen_app. do 2 f_equal. lia.
      * right. split; [exact E|]. intros y [<-|]; auto.
    + assert (B : forall b, In b (enc x) -> lower b <> c /\ b <> 0).
      { intros b Hb. apply enc_ge128 in Hb; auto; [|lia]. rewrite lower_other by lia. lia. }
      replace fuel with (length (enc x) + (fuel - length (enc x)))%nat by lia. rewrite (icase_skip m c _ _ _ _ HA B).
      apply at_app in HA as [_ HA]. destruct (IH (s + zlen (enc x)) (fuel - length (enc x))%nat Hs' Hz' HA ltac:(lia)) as [(k & y & E & Hk & Hk2)|(E & H1)].
      * left. exists (S k), y. split; [|split; [exact Hk|intros [|i] z Hi; cbn [nth_error]; intros Hz1; [injection Hz1 as <-; lia|apply (Hk2 i); auto; lia]]].
        rewrite E. unfold cp_offset. cbn [firstn]. rewrite enc_all_cons, zlen_app. do 2 f_equal. lia.
      * right. split; [exact E|]. intros y [<-|]; auto; lia.
Qed.
