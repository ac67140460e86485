(** cregex_match_sv on a view that ends where the text ends, and the loop of cregex_replace. *)
From Verif Require Import Base Slots Utf8_Tab Utf8_Model Utf8_Spec Utf8_Proofs Utf8_Proofs3 Utf8_Proofs4 View_Model View_Proofs Cstr_Model Cstr_Spec Cstr_Proofs Cstr_Proofs3
  Regex_Model Regex_Spec Regex_Proofs Regex_Proofs2 Regex_Proofs3 Resub_Model Resub_Spec Resub_Proofs.

(** ** The end of the view is the end of the text *)
Lemma start_eol up pr m bol cs styp (comp : Prop) : text m bol cs -> first_ok pr -> start_of pr = Ok styp -> (comp -> start_ok pr cs) ->
  good_start (rune_match up) pr m bol None cs styp comp -> good_start (rune_match up) pr m bol (Some (posn bol cs (length cs))) cs styp comp.
Proof.
  intros (HA & Hs & Hz) HF HS HC G i q Hi. specialize (G i). destruct (Nat.eq_dec i (length cs)) as [->|Hn].
  2:{ assert (E : at_eol (Some (posn bol cs (length cs))) (posn bol cs i) = false).
      { cbn. apply Z.eqb_neq. intros E. apply (pinj bol cs _ _ Hs) in E; lia. }
      intros H. apply G; auto. revert H. unfold start_check. rewrite E. exact (fun H => H). }
  intros H. destruct styp as [|c|c|].
  - apply G; auto.
  - cbn [start_check] in H. unfold at_eol in H. rewrite Z.eqb_refl in H. destruct (utfrune m _ c); [|discriminate H]. injection H as <-. intros HCo k' Hk'.
    unfold start_of in HS. destruct (nth_error (code pr) (startpc pr)) as [[o n]|] eqn:En; [|discriminate HS]. cbn [iop] in HS.
    destruct o as [c0|c0| | | | | | | | |sp|sp| | | | |k|k|r|]; try discriminate HS; try (destruct (negb (picase pr) && (c0 <? 128)) eqn:Eb; [|discriminate HS]); try (destruct (picase pr && (c0 <? 128)); discriminate HS).
    apply (dead_rune up pr cs c0 n); auto; [lia|]. replace k' with (length cs) by lia. rewrite (proj2 (nth_error_None cs _)) by lia. discriminate.
  - cbn [start_check] in H. unfold at_eol in H. rewrite Z.eqb_refl in H. destruct (utfruneicase m _ c); [|discriminate H]. injection H as <-. intros HCo k' Hk'.
    unfold start_of in HS. destruct (nth_error (code pr) (startpc pr)) as [[o n]|] eqn:En; [|discriminate HS]. cbn [iop] in HS.
    destruct o as [c0|c0| | | | | | | | |sp|sp| | | | |k|k|r|]; try discriminate HS; try (destruct (negb (picase pr) && (c0 <? 128)); discriminate HS); try (destruct (picase pr && (c0 <? 128)) eqn:Eb; [|discriminate HS]).
    apply (dead_irune up pr cs c0 n); auto; [lia|]. replace k' with (length cs) by lia. rewrite (proj2 (nth_error_None cs _)) by lia. discriminate.
  - assert (N : comp -> False).
    { intros HCo. unfold start_of in HS. destruct (nth_error (code pr) (startpc pr)) as [[o n]|] eqn:En; [|discriminate HS]. pose proof (HC HCo o n En) as B. cbn [iop] in HS.
      destruct o; try discriminate HS; try exact B; [destruct (negb (picase pr) && (c <? 128)); discriminate HS|destruct (picase pr && (c <? 128)); discriminate HS]. }
    cbn [start_check] in H. destruct (posn bol cs (length cs) =? bol).
    + injection H as <-. exists (length cs). split; [lia|]. split; [reflexivity|]. tauto.
    + unfold at_eol in H. rewrite Z.eqb_refl in H. destruct (utfrune m _ 10); [|discriminate H]. injection H as <-. tauto.
Qed.
Lemma regexec_end up isword pr m bol cs e x : text m bol cs -> core pr -> first_ok pr -> (S (nsub pr) <= length e)%nat -> m0 e = (Some bol, cp_offset cs (length cs)) ->
  regexec (rune_match up) isword pr m bol (S (nsub pr)) (Some e) FStartEnd = Ok x ->
  fst x = -1 \/ outcome up pr bol cs 0 (start_ok pr cs) x.
Proof.
  intros HT Hcore HF Hl He H. unfold regexec in H. rewrite He in H. cbn [fst snd] in H. cbv zeta iota in H. destruct (start_of pr) as [styp|] eqn:E; [|discriminate H]. cbn [bind] in H.
  assert (HP : posn bol cs 0 = bol) by (unfold posn; rewrite cp_offset_0; lia).
  pose proof (two_pass up isword pr m bol (Some (bol + cp_offset cs (length cs))) cs 0 styp (start_ok pr cs)) as G. rewrite HP in G.
  eapply G; [..|exact H]; try apply HT; auto; try discriminate.
  - eapply HA'. apply HT.
  - intros ? [= <-]. reflexivity.
  - intros _. eapply end_zero; eauto.
  - apply start_eol; auto. now apply start_good.
  - lia.
  - intros ? [= <-]. exact Hl.
Qed.
Lemma match_end up isword pr m bol cs (mt : se) x : text m bol cs -> core pr -> first_ok pr -> (S (nsub pr) <= length mt)%nat ->
  match_sv (rune_match up) isword pr m bol (cp_offset cs (length cs)) mt = Ok x ->
  fst x = -2 \/
  (fst x = 0 /\ exists e, snd x = Some e /\ found (rune_match up) pr bol cs 0 (start_ok pr cs) e) \/
  (fst x = -1 /\ (start_ok pr cs -> forall i j, ~ accepts (rune_match up) pr cs i j)).
Proof.
  intros HT HC HF Hl H. unfold match_sv in H. destruct (aset mt 0 (Some bol, cp_offset cs (length cs))) as [mt'|] eqn:E0; [|discriminate H]. cbn [bind] in H.
  apply aset_upd in E0. subst mt'. unfold match_pro in H. destruct mt as [|e0 mt]; [cbn in Hl; lia|]. cbn [upd Z.to_nat] in H.
  match type of H with context [regexec ?a ?b ?c ?d ?e ?f ?g ?h] => destruct (regexec a b c d e f g h) as [y|] eqn:E end; [|discriminate H].
  injection H as <-. cbn [fst snd]. pose proof (regexec_some _ _ _ _ _ _ _ _ _ E) as HSS. cbn [isS] in HSS. apply (regexec_end up isword pr m bol cs) in E; auto.
  destruct E as [->|[[-> E]|(-> & _ & E)]]; [now left| |].
  - right; right. split; [reflexivity|]. intros Hst i j. apply E; auto. lia.
  - right; left. split; [reflexivity|]. destruct (snd y) as [e|]; [|discriminate HSS]. exists e. auto.
Qed.

(** ** The rest of a text *)
Lemma text_skip m bol cs j : text m bol cs -> (j <= length cs)%nat -> text m (posn bol cs j) (skipn j cs).
Proof.
  intros (HA & Hs & Hz) Hj. split; [now apply at_skip|]. split; now apply Fskip.
Qed.
Lemma start_skip pr cs j : start_ok pr cs -> start_ok pr (skipn j cs).
Proof.
  intros H o n E. specialize (H o n E). destruct o; auto. intros Hc x Hx. apply H; auto. rewrite <- (firstn_skipn j cs). apply in_or_app. now right.
Qed.
Lemma accepts_end rm pr cs i j : accepts rm pr cs i j -> (i <= j <= length cs)%nat.
Proof.
  intros [Hi (pc & H & _)]. split; [apply steps_up in H; exact H|]. remember (startpc pr, i) as u eqn:Eu. remember (pc, j) as v eqn:Ev. revert pc j Ev.
  induction H as [u|u y z H IH Hst]; intros pc j Ev.
  - rewrite Eu in Ev. injection Ev as _ <-. exact Hi.
  - destruct Hst as [pc' i' o n c Ep Ec _|pc' i' o n Ep _|pc' i' q n Ep]; injection Ev as <- <-; try (eapply (IH Eu); reflexivity). assert (i' < length cs)%nat; [|lia]. apply nth_error_Some. congruence.
Qed.
Lemma append_inv s l b s' : repr s l -> append_n s (Ext b) = Ok s' -> repr s' (l ++ b).
Proof.
  intros R H. pose proof R as (W & C & E & L). pose proof (zlen_nonneg l). pose proof (zlen_nonneg b). unfold append_n in H. rewrite E in H. cbn [bind slen] in H.
  assert (HG : forall r, (if scap s <? zlen l + zlen b then let* c := grow (zlen l) (zlen b) in reserve s c else Ok (s, false)) = Ok r -> repr (fst r) l /\ zlen l + zlen b <= scap (fst r)).
  { intros r. destruct (Z.ltb_spec (scap s) (zlen l + zlen b)) as [Hlt|Hge]; [|intros [= <-]; auto]. unfold grow. destruct ((zlen l * 3 <=? imax) && (zlen l * 3 / 2 + zlen b <=? imax)); [|discriminate]. cbn [bind]. intros Hr.
    assert (zlen l <= zlen l * 3 / 2) by (apply Z.div_le_lower_bound; lia). set (c := zlen l * 3 / 2 + zlen b) in *. destruct (Z_lt_dec c (2 ^ 63 - 1)) as [Hc|Hc].
    - destruct (reserve_ok s l c R Hc) as (s1 & mv & E1 & R1 & L1 & _). rewrite E1 in Hr. injection Hr as <-. cbn [fst]. split; [exact R1|]. unfold c in *. lia.
    - exfalso. pose proof (wf_cap s W). unfold reserve in Hr. assert (EC : cap_ok c = Err Overflow) by (unfold cap_ok; destruct (Z.leb_spec 0 c); destruct (Z.ltb_spec c (2 ^ 63 - 1)); cbn [andb]; auto; lia).
      destruct s as [d|d n0 c0]; cbn [scap] in *.
      + rewrite E in Hr. cbn [bind] in Hr. destruct (Z.ltb_spec s_cap c); [|lia]. rewrite EC in Hr. discriminate Hr.
      + destruct (Z.ltb_spec c0 c); [|lia]. rewrite EC in Hr. discriminate Hr. }
  match type of H with bind ?u _ = _ => destruct u as [r|] eqn:Er; [|discriminate H] end. cbn [bind] in H. destruct (HG r eq_refl) as [R1 L1]. cbn [copy_in fetch bind] in H.
  pose proof R1 as (W1 & C1 & E1 & _). destruct (write_ok (fst r) (zlen l) b W1) as (d & Ed & W2 & S2 & F2 & C2); [lia|lia|]. unfold copy_in in H. cbn [fetch bind] in H. rewrite Ed in H. cbn [bind] in H.
  destruct (set_size_ok (wdata (fst r) d) (l ++ b) (zlen l + zlen b) W2) as (s2 & E2 & R2 & _).
  - rewrite sdata_wdata. apply cells_app. split; [|exact C2]. eapply frame_cells; [exact F2|now apply repr_data|]. lia.
  - now rewrite zlen_app.
  - rewrite scap_wdata, zlen_app. lia.
  - congruence.
Qed.
Lemma at_slice m p l : holds_at m p l -> aslice m p (zlen l) = Ok l.
Proof.
  intros (pre & post & -> & ->). pose proof (zlen_nonneg pre). pose proof (zlen_nonneg l). rewrite aslice_ok; [|lia|lia|rewrite !zlen_app; pose proof (zlen_nonneg post); lia]. f_equal.
  unfold zlen. rewrite !Nat2Z.id. rewrite skipn_app, skipn_all, Nat.sub_diag. cbn [skipn app]. rewrite firstn_app, firstn_all, Nat.sub_diag. cbn [firstn]. now rewrite app_nil_r.
Qed.

Section Loop.
Variable tr : Z -> list Z -> option (list Z).
Variable m : list Z.
Variable rep : list Z.
Variable up : Z -> Z -> bool.
Variable isword : Z -> bool.
Variable pr : prog.
Variable q : Z.
Variable copy : bool.
Variable tmpl : list Z.
Notation ms := (S (nsub pr)).
Notation rm := (rune_match up).
Hypothesis Hcore : core pr.
Hypothesis HF : first_ok pr.
Hypothesis HQ : zstring rep q tmpl.
Notation acc := (accepts rm pr).
Notation caps := (fun bol cs i j e => captured rm pr cs (posn bol cs) ms i j e).
Notation sub := (fun e => expand (group tr m ms e) tmpl).
(** cregex_match_sv reports CREG_MATCHERROR for what is left from [b] on. *)
Definition gave_up (b0 n0 b : Z) : Prop := exists mt x, (ms <= length mt)%nat /\ match_sv rm isword pr m b (b0 + n0 - b) mt = Ok x /\ fst x = -2.

Lemma cap_len e i j cs bol : captured rm pr cs (posn bol cs) ms i j e -> length e = ms /\ nth 0 e (None, 0) = (Some (posn bol cs i), posn bol cs j - posn bol cs i).
Proof.
  intros (pc & e' & HS & _ & ->). assert (length e' = ms) as Hl.
  { remember (startpc pr, i, empty_se ms (posn bol cs i)) as u eqn:Eu. remember (pc, j, e') as v eqn:Ev. revert pc j e' Ev. induction HS as [u|u y z H IH Hst]; intros pc' j' e' Ev.
    - rewrite Eu in Ev. injection Ev as _ _ <-. unfold empty_se. cbn [length]. rewrite repeat_length. lia.
    - destruct Hst as [p i' e o n c Ep Ec _|p i' e o n Ep _|p i' e q' n Ep]; injection Ev as <- <- <-; try (eapply (IH Eu); reflexivity). destruct o; cbn [set_caps]; rewrite ?length_upd; eapply (IH Eu); reflexivity. }
  rewrite length_upd. split; [exact Hl|]. destruct e'; [discriminate Hl|]. reflexivity.
Qed.
Lemma group_firstn e e' k : firstn ms e = firstn ms e' -> 0 <= k -> group tr m ms e k = group tr m ms e' k.
Proof.
  intros E Hk. unfold group. destruct (Z.ltb_spec k (Z.of_nat ms)); [|reflexivity]. replace (nth (Z.to_nat k) e (None, 0)) with (nth (Z.to_nat k) e' (None, 0)); [reflexivity|].
  assert (NF : forall (l : se) n q, (q < n)%nat -> nth q (firstn n l) (None, 0) = nth q l (None, 0)).
  { intros l n. revert l. induction n as [|n IH]; intros [|y l] [|p] Hp; cbn; auto; try lia. apply IH. lia. }
  rewrite <- (NF e' ms), <- (NF e ms) by lia. now rewrite E.
Qed.
Lemma expand_ext g g' : (forall k, 0 <= k -> g k = g' k) -> forall n t, (length t < n)%nat -> expand g t = expand g' t.
Proof.
  intros HG. induction n as [|n IH]; intros t Hn; [lia|]. destruct t as [|c t]; [reflexivity|]. cbn [length] in Hn. cbn [expand]. destruct (negb (c =? 36)); [f_equal; apply IH; lia|].
  destruct t as [|a t]; [reflexivity|]. cbn [length] in Hn. destruct (digit a) eqn:Da; [|destruct (a =? 36); f_equal; apply IH; cbn [length]; lia]. assert (48 <= a) by (unfold digit in Da; lia).
  destruct t as [|b t]; [rewrite HG by lia; reflexivity|]. destruct t as [|x t]; [rewrite HG by lia; f_equal; apply IH; lia|]. cbn [length] in Hn. destruct (digit b) eqn:Db; cbn [andb].
  - assert (48 <= b) by (unfold digit in Db; lia). destruct (x =? 59); rewrite HG by lia; f_equal; apply IH; cbn [length]; lia.
  - rewrite HG by lia; f_equal; apply IH; cbn [length]; lia.
Qed.

Lemma loop_replaced b0 n0 : forall fuel out subst mt bol cs n r lo ls, text m bol cs -> start_ok pr cs -> (ms <= length mt)%nat -> b0 + n0 = posn bol cs (length cs) ->
  repr out lo -> repr subst ls ->
  replace_loop tr m rep rm isword pr q copy fuel out subst mt bol (cp_offset cs (length cs)) n = Ok r ->
  exists l cs' bol', repr (fst r) (lo ++ l) /\ text m bol' cs' /\ snd r = (bol', cp_offset cs' (length cs')) /\
    replaced acc caps (gave_up b0 n0) sub copy bol cs n (l ++ keep copy (enc_all cs')).
Proof.
  induction fuel as [|fuel IH]; intros out subst mt bol cs n r lo ls HT HS Hl HB Ro Rs H; [discriminate H|]. cbn [replace_loop] in H.
  assert (STOP : forall P : Prop, (P -> n = 0 \/ (forall i j, ~ acc cs i j) \/ gave_up b0 n0 bol) -> P -> Ok (out, (bol, cp_offset cs (length cs))) = Ok r -> exists l cs' bol', repr (fst r) (lo ++ l) /\ text m bol' cs' /\ snd r = (bol', cp_offset cs' (length cs')) /\
    replaced acc caps (gave_up b0 n0) sub copy bol cs n (l ++ keep copy (enc_all cs'))).
  { intros P HP p [= <-]. exists [], cs, bol. cbn [fst snd app]. rewrite app_nil_r. split; [exact Ro|]. split; [exact HT|]. split; [reflexivity|]. apply rep_stop. auto. }
  destruct (Z.eqb_spec n 0) as [Hn|Hn]; [apply (STOP (n = 0)); auto|]. destruct (n <=? - 2 ^ 31); [discriminate H|].
  destruct (match_sv rm isword pr m bol (cp_offset cs (length cs)) mt) as [x|] eqn:EM; [|discriminate H]. cbn [bind] in H. pose proof EM as EM0.
  apply (match_end up isword pr m bol cs mt x HT Hcore HF Hl) in EM. destruct EM as [EM|[(EM & e & Ee & Hfo)|(EM & HN)]]; rewrite EM in H; cbn [Z.eqb negb] in H.
  { apply (STOP (fst x = -2)); auto. intros _. right; right. exists mt, x. split; [exact Hl|]. split; [|exact EM]. replace (b0 + n0 - bol) with (cp_offset cs (length cs)) by (rewrite HB; unfold posn; lia). exact EM0. }
  2:{ apply (STOP (fst x = -1)); auto. }
  rewrite Ee in H. destruct Hfo as (i & j & e' & _ & Hacc & Hbest & Hcap & Hfe & Hm0). specialize (Hbest HS). pose proof (accepts_end _ _ _ _ _ Hacc) as [Hij Hj].
  destruct (cap_len _ _ _ _ _ Hcap) as [He' Hn0]. assert (Hle : (ms <= length e)%nat).
  { assert (length (firstn ms e) = ms) as G by (rewrite Hfe, firstn_length; lia). rewrite firstn_length in G. lia. }
  match type of H with bind ?u _ = _ => destruct u as [subst'|] eqn:EB; [|discriminate H] end. cbn [bind] in H.
  destruct (build_sub tr m rep ms e Hle tmpl q subst ls HQ Rs) as [(s1 & E1 & R1)|(er & E1 & _)]; rewrite EB in E1; [|discriminate E1]. injection E1 as ->.
  assert (E0 : aget e 0 = Ok (Some (posn bol cs i), posn bol cs j - posn bol cs i)). { unfold m0 in Hm0. destruct e as [|e0 e1]; [cbn in Hle; lia|]. cbn in Hm0. subst e0. reflexivity. }
  rewrite E0 in H. cbn [bind fst snd] in H. pose proof R1 as (_ & _ & Sz & _). 
  assert (HAi : holds_at m bol (enc_all (firstn i cs))). { destruct HT as (HA & _). rewrite <- (firstn_skipn i cs), enc_all_app, <- app_assoc in HA. now apply at_app in HA. }
  assert (Hmp : posn bol cs i - bol = zlen (enc_all (firstn i cs))) by (unfold posn, cp_offset; lia).
  assert (exists out1, (if copy && (0 <? posn bol cs i - bol) then let* b := aslice m bol (posn bol cs i - bol) in append_n out (Ext b) else Ok out) = Ok out1 /\ repr out1 (lo ++ keep copy (enc_all (firstn i cs)))) as (out1 & Eo1 & Ro1).
  { match type of H with bind ?u _ = _ => destruct u as [out1|] eqn:E2; [|discriminate H] end. exists out1. split; [reflexivity|]. unfold keep. destruct copy; cbn [andb] in E2; [|injection E2 as <-; now rewrite app_nil_r].
    rewrite Hmp in E2. destruct (Z.ltb_spec 0 (zlen (enc_all (firstn i cs)))) as [Hp|Hp].
    - rewrite (at_slice _ _ _ HAi) in E2. cbn [bind] in E2. eapply append_inv; eauto.
    - injection E2 as <-. destruct (enc_all (firstn i cs)); [now rewrite app_nil_r|]. rewrite zlen_cons in Hp. pose proof (zlen_nonneg l). lia. }
  rewrite Eo1 in H. cbn [bind] in H. rewrite Sz in H. cbn [bind] in H. rewrite (proj1 (repr_read _ _ R1)) in H. cbn [bind] in H.
  match type of H with bind ?u _ = _ => destruct u as [out2|] eqn:E2; [|discriminate H] end. cbn [bind] in H. pose proof (append_inv _ _ _ _ Ro1 E2) as Ro2.
  replace (posn bol cs i + (posn bol cs j - posn bol cs i)) with (posn bol cs j) in H by lia.
  replace (cp_offset cs (length cs) - (posn bol cs i - bol + (posn bol cs j - posn bol cs i))) with (cp_offset (skipn j cs) (length (skipn j cs))) in H by (rewrite skip_off, skipn_length; replace (j + (length cs - j))%nat with (length cs) by lia; unfold posn; lia).
  eapply IH in H; [|now apply text_skip|now apply start_skip|exact Hle| |exact Ro2|exact R1].
  2:{ unfold posn. rewrite skip_off, skipn_length. replace (j + (length cs - j))%nat with (length cs) by lia. unfold posn in HB. lia. }
  destruct H as (l & cs' & bol' & Rr & HT' & Es & HR). exists (keep copy (enc_all (firstn i cs)) ++ expand (group tr m ms e) tmpl ++ l), cs', bol'.
  split; [rewrite !app_assoc in *; exact Rr|]. split; [exact HT'|]. split; [exact Es|]. rewrite <- !app_assoc.
  rewrite (expand_ext (group tr m ms e) (group tr m ms e') ltac:(intros; now apply group_firstn) (S (length tmpl)) tmpl ltac:(lia)).
  apply (rep_step acc caps (gave_up b0 n0) sub copy bol cs n i j e'); auto. split; [exact Hacc|]. intros i' j' Ha. apply Hbest; [lia|exact Ha].
Qed.
Lemma replace_ok fuel buf cs n s : text m buf cs -> start_ok pr cs -> (nsub pr <= 31)%nat ->
  replace_pro tr m rep rm isword pr q copy fuel buf (cp_offset cs (length cs)) n = Ok s ->
  exists l, repr s l /\ replaced acc caps (gave_up buf (cp_offset cs (length cs))) sub copy buf cs n l.
Proof.
  intros HT HS Hn H. unfold replace_pro in H. destruct (replace_loop tr m rep rm isword pr q copy fuel init init (repeat (None, 0) 32) buf (cp_offset cs (length cs)) n) as [r|] eqn:E; [|discriminate H]. cbn [bind] in H.
  eapply (loop_replaced buf (cp_offset cs (length cs))) in E; [|exact HT|exact HS|rewrite repeat_length; lia|reflexivity|apply init_ok|apply init_ok]. destruct E as (l & cs' & bol' & R & HT' & Es & HR). cbn [app] in R.
  exists (l ++ keep copy (enc_all cs')). split; [|exact HR]. unfold keep. destruct copy; [|injection H as <-; now rewrite app_nil_r].
  rewrite Es in H. cbn [fst snd] in H. unfold cp_offset in H. rewrite firstn_all in H. rewrite (at_slice m bol' (enc_all cs')) in H by (eapply HA'; apply HT'). cbn [bind] in H. eapply append_inv; eauto.
Qed.
(** If no match is empty the loop ends after at most as many rounds as there are characters. *)
Lemma loop_fuel : forall f1 f2 out subst mt bol cs n, text m bol cs -> (ms <= length mt)%nat -> (forall k i, (k <= length cs)%nat -> ~ acc (skipn k cs) i i) -> (length cs < f1)%nat -> (length cs < f2)%nat ->
  replace_loop tr m rep rm isword pr q copy f1 out subst mt bol (cp_offset cs (length cs)) n = replace_loop tr m rep rm isword pr q copy f2 out subst mt bol (cp_offset cs (length cs)) n.
Proof.
  induction f1 as [|f1 IH]; intros f2 out subst mt bol cs n HT Hl HE H1 H2; [lia|]. destruct f2 as [|f2]; [lia|]. cbn [replace_loop].
  destruct (n =? 0); [reflexivity|]. destruct (n <=? - 2 ^ 31); [reflexivity|]. destruct (match_sv rm isword pr m bol (cp_offset cs (length cs)) mt) as [x|] eqn:EM; [|reflexivity]. cbn [bind].
  apply (match_end up isword pr m bol cs mt x HT Hcore HF Hl) in EM. destruct EM as [EM|[(EM & e & Ee & Hfo)|(EM & HN)]]; rewrite EM; [reflexivity| |reflexivity]. cbn [Z.eqb negb]. rewrite Ee.
  destruct Hfo as (i & j & e' & _ & Hacc & _ & Hcap & Hfe & Hm0). pose proof (accepts_end _ _ _ _ _ Hacc) as [Hij Hj].
  destruct (cap_len _ _ _ _ _ Hcap) as [He' Hn0]. assert (Hle : (ms <= length e)%nat).
  { assert (length (firstn ms e) = ms) as G by (rewrite Hfe, firstn_length; lia). rewrite firstn_length in G. lia. }
  assert (i <> j) by (intros <-; apply (HE 0%nat i ltac:(lia)); exact Hacc).
  destruct (build tr m rep q (Z.of_nat ms) e subst) as [s1|]; [|reflexivity]. cbn [bind].
  assert (E0 : aget e 0 = Ok (Some (posn bol cs i), posn bol cs j - posn bol cs i)). { unfold m0 in Hm0. destruct e as [|e0 e1]; [cbn in Hle; lia|]. cbn in Hm0. subst e0. reflexivity. }
  rewrite E0. cbn [bind fst snd]. match goal with |- bind ?u _ = _ => destruct u as [out1|]; [|reflexivity] end. cbn [bind].
  destruct (ssize s1) as [z|]; [|reflexivity]. cbn [bind]. destruct (rds (sdata s1) 0 z) as [l|]; [|reflexivity]. cbn [bind]. destruct (append_n out1 (Ext l)) as [out2|]; [|reflexivity]. cbn [bind].
  replace (posn bol cs i + (posn bol cs j - posn bol cs i)) with (posn bol cs j) by lia.
  replace (cp_offset cs (length cs) - (posn bol cs i - bol + (posn bol cs j - posn bol cs i))) with (cp_offset (skipn j cs) (length (skipn j cs))) by (rewrite skip_off, skipn_length; replace (j + (length cs - j))%nat with (length cs) by lia; unfold posn; lia).
  apply IH; auto; [now apply text_skip| |rewrite skipn_length; lia|rewrite skipn_length; lia].
  intros k i' Hk. rewrite skipn_length in Hk. rewrite skipn_skipn. apply HE. lia.
Qed.
End Loop.
