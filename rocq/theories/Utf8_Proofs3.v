From Verif Require Import Base Utf8_Tab Utf8_Model Utf8_Spec Utf8_Proofs Utf8_Proofs2.

(** ** Positions *)
Lemma at_head m s b r : holds_at m s (b :: r) -> aget m s = Ok b.
Proof. intros (pre & post & -> & ->). cbn [app]. rewrite aget_app2 by lia. rewrite Z.sub_diag. reflexivity. Qed.
Lemma at_tail m s b r : holds_at m s (b :: r) -> holds_at m (s + 1) r.
Proof. intros (pre & post & -> & ->). exists (pre ++ [b]), post. split; [now rewrite <- app_assoc|]. rewrite zlen_app. reflexivity. Qed.
Lemma at_app m s l r : holds_at m s (l ++ r) -> holds_at m s l /\ holds_at m (s + zlen l) r.
Proof.
  intros (pre & post & -> & ->). split; [exists pre, (r ++ post); split; [now rewrite <- app_assoc|reflexivity]|].
  exists (pre ++ l), post. split; [now rewrite <- !app_assoc|now rewrite zlen_app].
Qed.
Lemma at_join m s l r : holds_at m s l -> holds_at m (s + zlen l) r -> holds_at m s (l ++ r).
Proof.
  intros (pre & post & -> & ->) (pre2 & post2 & E & L). assert (pre2 = pre ++ l) as ->.
  { rewrite app_assoc in E. rewrite <- (zlen_app pre l) in L. unfold zlen in L. assert (length (pre ++ l) = length pre2) as HL by lia.
    revert E HL. generalize (pre ++ l) as a. clear. intros a. revert pre2. induction a as [|x a IH]; intros [|y p2] E HL; cbn in *; try lia; auto.
    injection E as -> E. f_equal. apply IH; auto. }
  exists pre, post2. split; [|reflexivity]. rewrite E, <- !app_assoc. reflexivity.
Qed.
Lemma at_len m s l : holds_at m s l -> 0 <= s /\ s + zlen l <= zlen m.
Proof. intros (pre & post & -> & ->). rewrite !zlen_app. pose proof (zlen_nonneg pre). pose proof (zlen_nonneg post). lia. Qed.
Lemma at_nth m s l i b : holds_at m s l -> aget l i = Ok b -> aget m (s + i) = Ok b.
Proof.
  intros (pre & post & -> & ->) H. pose proof (aget_ok_range _ _ _ H). rewrite aget_app2 by lia. rewrite aget_app1 by lia. rewrite <- H. f_equal. lia.
Qed.
Lemma fuel_len m s l : holds_at m s l -> (length l <= length m)%nat.
Proof. intros H. apply at_len in H. unfold zlen in H. lia. Qed.

(** ** decode_codepoint *)
Lemma dcp_loop_ok m start end_ : forall fuel l st cp s, holds_at m s l -> l <> [] -> (length l <= fuel)%nat -> end_ = s + zlen l -> Forall is_byte l -> In st states ->
  dcp_loop fuel m (st, cp) start s end_ = (let '(_, c, k) := dl st cp (s - start) l in Ok ((0, c), k)).
Proof.
  induction fuel as [|fuel IH]; intros l st cp s HA Hn Hf He HB Hs; (destruct l as [|b r]; [contradiction|]); cbn [length] in Hf; [lia|].
  inversion HB as [|? ? Hb HB']; subst. cbn [dcp_loop dl]. rewrite (at_head _ _ _ _ HA). cbn [bind].
  rewrite decode_eq by auto. cbn [bind fst snd]. destruct (Z.eqb_spec (nx st b) 0) as [E0|E0]; [rewrite E0; do 2 f_equal; lia|].
  rewrite zlen_cons. pose proof (zlen_nonneg r). destruct (Z.eqb_spec (nx st b) 12) as [E1|E1]; cbn [negb andb].
  { unfold skip. replace (s + 1 - start) with (s - start + 1) by lia. reflexivity. }
  destruct r as [|b1 r]; [unfold zlen; cbn [length]; destruct (Z.eqb_spec (s + 1) (s + (1 + Z.of_nat 0))); [|lia]; unfold skip; replace (s + 1 - start) with (s - start + 1) by lia; reflexivity|].
  assert (0 < zlen (b1 :: r)) by (rewrite zlen_cons; pose proof (zlen_nonneg r); lia). destruct (Z.eqb_spec (s + 1) (s + (1 + zlen (b1 :: r)))); [lia|]. cbn [negb].
  rewrite zlen_cons in IH.
  rewrite (IH (b1 :: r)).
  - replace (s + 1 - start) with (s - start + 1) by lia. reflexivity.
  - now apply at_tail in HA.
  - discriminate.
  - lia.
  - lia.
  - auto.
  - now apply nx_state.
Qed.
Lemma dcp_ok m s l cp : holds_at m s l -> l <> [] -> Forall is_byte l ->
  decode_codepoint m (0, cp) s (s + zlen l) = (let '(_, c, k) := dl 0 cp 0 l in Ok ((0, c), k)).
Proof.
  intros HA Hn HB. unfold decode_codepoint. rewrite (dcp_loop_ok m s (s + zlen l) _ l) by (auto; try (apply fuel_len in HA; lia); left; reflexivity).
  now rewrite Z.sub_diag.
Qed.
Lemma dcp_enc m s c l cp : holds_at m s (enc c ++ l) -> scalar c -> Forall is_byte l ->
  decode_codepoint m (0, cp) s (s + zlen (enc c ++ l)) = Ok ((0, c), zlen (enc c)).
Proof.
  intros HA Hc HB. rewrite dcp_ok; auto.
  - now rewrite dl_enc.
  - intros E. apply (f_equal zlen) in E. rewrite zlen_app in E. pose proof (enc_zlen c Hc). pose proof (zlen_nonneg l). change (zlen []) with 0 in E. lia.
  - apply Forall_app. split; auto. now apply enc_bytes.
Qed.
Lemma skip_range j : 1 <= j -> 1 <= skip j <= j /\ (1 < skip j -> skip j = j - 1).
Proof. unfold skip. intros. destruct (Z.ltb_spec 2 j); lia. Qed.
(** What one call does on any bytes. *)
Lemma dcp_any m s l cp : holds_at m s l -> l <> [] -> Forall is_byte l ->
  exists c k, decode_codepoint m (0, cp) s (s + zlen l) = Ok ((0, c), k) /\ 1 <= k <= zlen l /\
    (scalar c /\ (exists r, l = enc c ++ r) /\ k = zlen (enc c) \/
     c = 0xFFFD /\ (forall c' r, scalar c' -> l <> enc c' ++ r) /\
     forall i b, 0 < i < k -> aget l i = Ok b -> 0x80 <= b < 0xC0).
Proof.
  intros HA Hn HB. rewrite dcp_ok by auto. destruct (dl 0 cp 0 l) as [[ok c] k] eqn:E. exists c, k. split; [reflexivity|]. destruct ok.
  - destruct (dl_inv _ _ _ _ HB E) as (Hs & [r Hr] & Hk). split; [|left; eauto].
    subst l. rewrite zlen_app. pose proof (enc_zlen c Hs). pose proof (zlen_nonneg r). lia.
  - pose proof E as E'. apply dl_fail in E as (Hc & j & Hj & Hk & Hi); auto. rewrite Z.add_0_l in Hk. pose proof (skip_range j ltac:(lia)) as [K1 K2].
    split; [lia|]. right. split; [auto|]. split.
    + intros c' r Hs ->. rewrite dl_enc in E' by auto. discriminate E'.
    + intros i b Hr G. assert (C : is_cont b = true) by (apply (Hi i b); auto; lia).
      rewrite cont_range in C by (apply aget_In in G; rewrite Forall_forall in HB; auto). lia.
Qed.
Lemma list_split_at {A} (l : list A) k : 0 <= k <= zlen l -> exists x r, l = x ++ r /\ zlen x = k.
Proof.
  intros H. exists (firstn (Z.to_nat k) l), (skipn (Z.to_nat k) l). split; [now rewrite firstn_skipn|]. rewrite zlen_firstn by lia. lia.
Qed.
Lemma decode_all_ok m end_ : forall fuel l cp s, holds_at m s l -> (length l < fuel)%nat -> end_ = s + zlen l -> Forall is_byte l ->
  exists cs, decode_all fuel m (0, cp) s end_ = Ok cs /\ decodes l cs.
Proof.
  induction fuel as [|fuel IH]; intros l cp s HA Hf He HB; [lia|]. cbn [decode_all]. pose proof (zlen_nonneg l).
  destruct l as [|b l]; [change (zlen []) with 0 in He; destruct (Z.ltb_spec s end_); [lia|]; exists []; split; [reflexivity|constructor]|].
  rewrite zlen_cons in *. pose proof (zlen_nonneg l). destruct (Z.ltb_spec s end_); [|lia]. subst end_.
  destruct (dcp_any m s (b :: l) cp HA ltac:(discriminate) HB) as (c & k & E & Hk & D). rewrite zlen_cons in E. rewrite E. cbn [bind fst snd].
  rewrite zlen_cons in Hk. destruct (list_split_at (b :: l) k) as (x & r & Ex & Lx); [rewrite zlen_cons; lia|].
  assert (Lr : (length r < fuel)%nat) by (apply (f_equal (@length Z)) in Ex; rewrite app_length in Ex; unfold zlen in Lx; cbn [length] in *; lia).
  assert (Er : s + (1 + zlen l) = s + k + zlen r) by (apply (f_equal zlen) in Ex; rewrite zlen_cons, zlen_app in Ex; lia).
  destruct (IH r c (s + k)) as (cs & E2 & D2); auto.
  { rewrite Ex in HA. apply at_app in HA as [_ HA]. now rewrite Lx in HA. }
  { rewrite Ex in HB. now apply Forall_app in HB. }
  rewrite E2. cbn [bind]. exists (c :: cs). split; [reflexivity|]. destruct D as [(Hs & [r' Er'] & Ek)|(-> & Hno & Hi)].
  - assert (x = enc c /\ r = r') as [-> ->].
    { rewrite Ex in Er'. assert (HL : length x = length (enc c)) by (unfold zlen in *; lia). revert Er' HL. generalize (enc c) as y. clear. revert r'.
      induction x as [|a x IH]; intros r' [|a' y] E HL; cbn in *; try lia; auto. injection E as -> E. destruct (IH r' y E) as [-> ->]; [lia|auto]. }
    rewrite Ex. now apply dec_ok.
  - destruct x as [|a x]; [change (zlen []) with 0 in Lx; lia|]. cbn [app] in Ex. injection Ex as <- ->. apply dec_bad; auto.
    apply Forall_forall. intros y Hy. apply In_aget in Hy as (i & Ri & G). rewrite zlen_cons in Lx. apply (Hi (i + 1) y); [lia|].
    rewrite aget_cons. destruct (Z.eqb_spec (i + 1) 0); [lia|]. rewrite aget_app1 by lia. rewrite <- G. f_equal. lia.
Qed.
Lemma enc_prefix_eq c c' r r' : scalar c -> scalar c' -> enc c ++ r = enc c' ++ r' -> c = c' /\ r = r'.
Proof.
  intros H H' E. pose proof (dl_enc c 0 r H) as D. rewrite E, dl_enc in D by auto. injection D as -> _. split; [reflexivity|]. now apply app_inv_head in E.
Qed.
(** On well-formed input the decoded list is the encoded one. *)
Lemma decodes_wf cs : Forall scalar cs -> forall ds, decodes (enc_all cs) ds -> ds = cs.
Proof.
  induction 1 as [|c cs Hc Hcs IH]; intros ds D.
  - inversion D; subst; auto. apply (f_equal zlen) in H. rewrite zlen_app in H. pose proof (enc_zlen c H0). pose proof (zlen_nonneg l). change (zlen (@nil Z)) with 0 in H. lia.
  - unfold enc_all in D. cbn [flat_map] in D. fold (enc_all cs) in D. inversion D as [E|c' l cs' Hs D' E|b x l cs' Hno Hx D' E]; subst.
    + exfalso. apply (f_equal zlen) in E. rewrite zlen_app in E. pose proof (enc_zlen c Hc). pose proof (zlen_nonneg (enc_all cs)). change (zlen (@nil Z)) with 0 in E. lia.
    + apply enc_prefix_eq in E as [-> ->]; auto. f_equal. now apply IH.
    + exfalso. eapply Hno; eauto.
Qed.

(** ** Validation *)
Lemma valid_loop_ok m : forall fuel l st cp s, (length l < fuel)%nat -> zstring m s l -> Forall is_byte l -> In st states -> st <> 12 ->
  exists d, valid_loop fuel m s (st, cp) = Ok d /\ (fst d =? 0) = (run st l =? 0).
Proof.
  induction fuel as [|fuel IH]; intros l st cp s Hf [Hz HA] HB Hs Hn; [lia|]. cbn [valid_loop]. destruct l as [|b l].
  - cbn [app] in HA. rewrite (at_head _ _ _ _ HA). cbn [bind]. rewrite decode_eq by (auto; split; lia). cbn [bind fst Z.eqb negb]. rewrite andb_false_r.
    eexists. split; [reflexivity|]. cbn [fst]. unfold run. cbn [fold_left].
    cbn [states In] in Hs. destruct Hs as [<-|[<-|[<-|[<-|[<-|[<-|[<-|[<-|[<-|[]]]]]]]]]]; reflexivity.
  - cbn [app] in HA. rewrite (at_head _ _ _ _ HA). cbn [bind]. inversion HB as [|? ? Hb HB']; subst. rewrite decode_eq by auto. cbn [bind fst].
    destruct (Z.eqb_spec b 0) as [->|Nb]; [exfalso; apply Hz; now left|]. cbn [negb]. rewrite andb_true_r, run_cons.
    destruct (Z.eqb_spec (nx st b) 12) as [E|E]; cbn [negb].
    + eexists. split; [reflexivity|]. cbn [fst]. rewrite E, run_12. reflexivity.
    + cbn [length] in Hf. apply IH; auto; [lia| |now apply nx_state]. split; [|now apply at_tail in HA]. intros H. apply Hz. now right.
Qed.
Lemma valid_ok m s l : zstring m s l -> Forall is_byte l -> exists v, valid m s = Ok v /\ (v = true <-> well_formed l).
Proof.
  intros HZ HB. unfold valid. assert (HF : (length l < S (length m))%nat) by (destruct HZ as [_ HA]; apply fuel_len in HA; rewrite app_length in HA; lia).
  destruct (valid_loop_ok m _ l 0 0 s HF HZ HB ltac:(left; reflexivity) ltac:(lia)) as (d & -> & E).
  cbn [bind]. eexists. split; [reflexivity|]. rewrite E, (wf_iff l HB). apply Z.eqb_eq.
Qed.
Lemma valid_n_loop_ok m : forall fuel l st cp s, (length l < fuel)%nat -> holds_at m s l -> ~ In 0 l -> Forall is_byte l -> In st states -> st <> 12 ->
  exists d, valid_n_loop fuel m s (zlen l) (st, cp) = Ok d /\ (fst d =? 0) = (run st l =? 0).
Proof.
  induction fuel as [|fuel IH]; intros l st cp s Hf HA Hz HB Hs Hn; [lia|]. cbn [valid_n_loop]. destruct l as [|b l].
  - cbn. eexists. split; [reflexivity|reflexivity].
  - rewrite zlen_cons. pose proof (zlen_nonneg l). destruct (Z.eqb_spec (1 + zlen l) 0); [lia|]. rewrite (at_head _ _ _ _ HA). cbn [bind]. inversion HB as [|? ? Hb HB']; subst. rewrite decode_eq by auto. cbn [bind fst].
    destruct (Z.eqb_spec b 0) as [->|Nb]; [exfalso; apply Hz; now left|]. rewrite orb_false_r, run_cons.
    destruct (Z.eqb_spec (nx st b) 12) as [E|E].
    + eexists. split; [reflexivity|]. cbn [fst]. rewrite E, run_12. reflexivity.
    + cbn [length] in Hf. replace (1 + zlen l - 1) with (zlen l) by lia. apply IH; auto; [lia|now apply at_tail in HA| |now apply nx_state]. intros H'. apply Hz. now right.
Qed.
(** with a zero byte: only the bytes before it are looked at *)
Lemma valid_n_loop_zero m : forall fuel l st cp s n, (length l < fuel)%nat -> zstring m s l -> zlen l < n -> Forall is_byte l -> In st states -> st <> 12 ->
  exists d, valid_n_loop fuel m s n (st, cp) = Ok d /\ (fst d =? 0) = (run st l =? 0).
Proof.
  induction fuel as [|fuel IH]; intros l st cp s n Hf [Hz HA] Hl HB Hs Hn; [lia|]. cbn [valid_n_loop]. pose proof (zlen_nonneg l). destruct (Z.eqb_spec n 0); [lia|]. destruct l as [|b l].
  - cbn [app] in HA. rewrite (at_head _ _ _ _ HA). cbn [bind]. rewrite decode_eq by (auto; split; lia). cbn [bind fst Z.eqb]. rewrite orb_true_r.
    eexists. split; [reflexivity|]. cbn [fst]. unfold run. cbn [fold_left].
    cbn [states In] in Hs. destruct Hs as [<-|[<-|[<-|[<-|[<-|[<-|[<-|[<-|[<-|[]]]]]]]]]]; reflexivity.
  - cbn [app] in HA. rewrite (at_head _ _ _ _ HA). cbn [bind]. inversion HB as [|? ? Hb HB']; subst. rewrite decode_eq by auto. cbn [bind fst].
    destruct (Z.eqb_spec b 0) as [->|Nb]; [exfalso; apply Hz; now left|]. rewrite orb_false_r, run_cons. rewrite zlen_cons in *.
    destruct (Z.eqb_spec (nx st b) 12) as [E|E].
    + eexists. split; [reflexivity|]. cbn [fst]. rewrite E, run_12. reflexivity.
    + cbn [length] in Hf. apply IH; auto; [lia| |lia|now apply nx_state]. split; [|now apply at_tail in HA]. intros H'. apply Hz. now right.
Qed.
Lemma valid_n_ok m s l : holds_at m s l -> ~ In 0 l -> Forall is_byte l -> exists v, valid_n m s (zlen l) = Ok v /\ (v = true <-> well_formed l).
Proof.
  intros HA HZ HB. unfold valid_n. assert (HF : (length l < S (length m))%nat) by (apply fuel_len in HA; lia).
  destruct (valid_n_loop_ok m _ l 0 0 s HF HA HZ HB ltac:(left; reflexivity) ltac:(lia)) as (d & -> & E).
  cbn [bind]. eexists. split; [reflexivity|]. rewrite E, (wf_iff l HB). apply Z.eqb_eq.
Qed.
Lemma valid_n_zero m s l n : zstring m s l -> zlen l < n -> Forall is_byte l -> exists v, valid_n m s n = Ok v /\ (v = true <-> well_formed l).
Proof.
  intros HZ Hn HB. unfold valid_n. assert (HF : (length l < S (length m))%nat) by (destruct HZ as [_ HA]; apply fuel_len in HA; rewrite app_length in HA; lia).
  destruct (valid_n_loop_zero m _ l 0 0 s n HF HZ Hn HB ltac:(left; reflexivity) ltac:(lia)) as (d & -> & E).
  cbn [bind]. eexists. split; [reflexivity|]. rewrite E, (wf_iff l HB). apply Z.eqb_eq.
Qed.
