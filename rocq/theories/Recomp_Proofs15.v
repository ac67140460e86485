(** Patterns lex to the tokens they are written for. *)
From Verif Require Import Base Utf8_Tab Utf8_Model Utf8_Spec Utf8_Proofs Utf8_Proofs2 Utf8_Proofs3 Regex_Model Regex_Spec Regex_Proofs Recomp_Model Recomp_Spec Recomp_Syntax Recomp_Proofs14.

Lemma chr_enc m s c l : scalar c -> holds_at m s (enc c ++ l) -> chr m s = Ok (c, zlen (enc c)).
Proof.
  intros Hc HA. apply at_app in HA as [HA _]. pose proof (dl_enc c 0 [] Hc) as D. rewrite app_nil_r in D. unfold chr, decode_codepoint.
  pose proof (at_len _ _ _ HA) as HL. erewrite (dcp_noend m s _ (enc c) 0 0 s 0); eauto; try lia; [reflexivity|left; reflexivity|now apply enc_bytes|apply fuel_len in HA; lia].
Qed.
Lemma chr_ascii m s c l : 0 <= c < 128 -> holds_at m s (c :: l) -> chr m s = Ok (c, 1).
Proof. intros Hc HA. assert (E : enc c = [c]) by (unfold enc; destruct (Z.ltb_spec c 128); [reflexivity|lia]). rewrite (chr_enc m s c l); [now rewrite E|unfold scalar; lia|now rewrite E]. Qed.
Lemma nextc_lit m l c r : lit l = false -> scalar c -> c <> 92 -> holds_at m (ep l) (enc c ++ r) -> nextc_ m l = ret (false, c, set_ep l (ep l + zlen (enc c))).
Proof. intros HL Hc Hn HA. unfold nextc_. cbn [nextc]. rewrite (chr_enc _ _ _ _ Hc HA). cbn [lift cbind ret]. rewrite HL. destruct (Z.eqb_spec c 92); [contradiction|reflexivity]. Qed.
Lemma nextc_ascii m l c r : lit l = false -> 0 <= c < 128 -> c <> 92 -> holds_at m (ep l) (c :: r) -> nextc_ m l = ret (false, c, set_ep l (ep l + 1)).
Proof. intros HL Hc Hn HA. unfold nextc_. cbn [nextc]. rewrite (chr_ascii _ _ _ _ Hc HA). cbn [lift cbind ret]. rewrite HL. destruct (Z.eqb_spec c 92); [contradiction|reflexivity]. Qed.
Lemma nextc_esc m l c r : lit l = false -> scalar c -> c <> 81 -> c <> 120 -> holds_at m (ep l) (92 :: enc c ++ r) -> nextc_ m l = ret (true, c, set_ep l (ep l + (1 + zlen (enc c)))).
Proof.
  intros HL Hc H1 H2 HA. unfold nextc_. cbn [nextc]. rewrite (chr_ascii _ _ 92 _ ltac:(lia) HA). cbn [lift cbind ret]. rewrite HL. change (92 =? 92) with true. cbn [negb]. apply at_tail in HA. cbn [set_ep ep]. rewrite (chr_enc _ _ _ _ Hc HA). cbn [lift cbind ret].
  destruct (Z.eqb_spec c 81); [contradiction|]. destruct (Z.eqb_spec c 120); [contradiction|]. do 2 f_equal. unfold set_ep. cbn [ep ric dnl lit ncls]. f_equal. lia.
Qed.
(** ** \x{..} *)
Lemma hexdig_range d v : hexdig d = Some v -> 0 <= v < 16 /\ (48 <= d <= 57 \/ 65 <= d <= 70 \/ 97 <= d <= 102).
Proof. unfold hexdig, c_digit, between. intros H. repeat match type of H with (if ?b then _ else _) = _ => destruct b eqn:? end; try discriminate H; injection H as <-; lia. Qed.
Lemma digits_at m r : forall ds fuel s acc v, holds_at m s (ds ++ 125 :: r) -> (length ds < fuel)%nat -> hex_value acc ds = Some v -> hex_digits m fuel s acc = Ok (v, s + zlen ds).
Proof.
  induction ds as [|d ds IH]; intros fuel s acc v HA Hf HV; (destruct fuel as [|fuel]; [cbn in Hf; lia|]); cbn [hex_digits app length hex_value] in *.
  - rewrite (at_head _ _ _ _ HA). cbn [bind]. change (hexdig 125) with (@None Z). injection HV as <-. rewrite zlen_nil. do 2 f_equal. lia.
  - rewrite (at_head _ _ _ _ HA). cbn [bind]. destruct (hexdig d) as [x|]; [|discriminate HV]. rewrite (IH fuel (s + 1) _ v); [rewrite zlen_cons; do 2 f_equal; lia|now apply at_tail in HA|lia|exact HV].
Qed.
Lemma hex_nonneg : forall ds acc v, 0 <= acc -> hex_value acc ds = Some v -> 0 <= v.
Proof. induction ds as [|d ds IH]; intros acc v Ha H; cbn [hex_value] in H; [now injection H as <-|]. destruct (hexdig d) as [x|] eqn:E; [|discriminate H]. apply hexdig_range in E. apply IH in H; lia. Qed.
Lemma strtol_at m s ds v r : holds_at m s (ds ++ 125 :: r) -> ds <> [] -> hex_value 0 ds = Some v -> v < 2 ^ 32 -> strtol16 m s = Ok (v, s + zlen ds).
Proof.
  intros HA Hn HV Hv. pose proof (fuel_len _ _ _ HA) as HF. rewrite app_length in HF. cbn [length] in HF. destruct ds as [|d ds]; [congruence|]. pose proof HV as HV0. cbn [hex_value] in HV. destruct (hexdig d) as [x|] eqn:E; [|discriminate HV]. apply hexdig_range in E as [Hx Hd].
  unfold strtol16. cbn [skip_spaces]. pose proof HA as HA'. cbn [app] in HA'. rewrite (at_head _ _ _ _ HA'). cbn [bind]. assert (NS : between 9 13 d || (d =? 32) = false) by (unfold between; lia). rewrite NS. cbn [bind]. rewrite (at_head _ _ _ _ HA'). cbn [bind].
  destruct (Z.eqb_spec d 45); [lia|]. destruct (Z.eqb_spec d 43); [lia|]. cbn [orb]. rewrite (at_head _ _ _ _ HA'). cbn [bind].
  assert (NX : (if d =? 48 then let* x := aget m (s + 1) in if (x =? 120) || (x =? 88) then let* d := aget m (s + 2) in Ok (match hexdig d with Some _ => s + 2 | None => s end) else Ok s else Ok s) = Ok s).
  { destruct (d =? 48); [|reflexivity]. apply at_tail in HA'. assert (exists y t, ds ++ 125 :: r = y :: t /\ y <> 120 /\ y <> 88) as (y & t & Ey & Y1 & Y2).
    { destruct ds as [|y ds]; [exists 125, r; split; [reflexivity|lia]|]. exists y, (ds ++ 125 :: r). split; [reflexivity|]. cbn [hex_value] in HV. destruct (hexdig y) eqn:E; [|discriminate HV]. apply hexdig_range in E. lia. }
    rewrite Ey in HA'. rewrite (at_head _ _ _ _ HA'). cbn [bind]. destruct (Z.eqb_spec y 120); [contradiction|]. destruct (Z.eqb_spec y 88); [contradiction|]. reflexivity. }
  rewrite NX. cbn [bind]. rewrite (digits_at m r (d :: ds) _ s 0 v HA); [|lia|exact HV0]. cbn [bind]. pose proof (hex_nonneg _ _ _ (Z.le_refl 0) HV0) as Hv0.
  rewrite zlen_cons. pose proof (zlen_nonneg ds). destruct (Z.eqb_spec (s + (1 + zlen ds)) s); [lia|]. do 2 f_equal. rewrite Z.min_l by lia. apply Z.mod_small. lia.
Qed.
Lemma nextc_hex m l ds v r : lit l = false -> ds <> [] -> hex_value 0 ds = Some v -> v < 2 ^ 32 -> holds_at m (ep l) ([92; 120; 123] ++ ds ++ 125 :: r) ->
  nextc_ m l = ret (true, v, set_ep l (ep l + (4 + zlen ds))).
Proof.
  intros HL Hn HV Hv HA. unfold nextc_. cbn [nextc]. cbn [app] in HA. rewrite (chr_ascii _ _ 92 _ ltac:(lia) HA). cbn [lift cbind ret]. rewrite HL. change (92 =? 92) with true. cbn [negb]. apply at_tail in HA. cbn [set_ep ep].
  rewrite (chr_ascii _ _ 120 _ ltac:(lia) HA). cbn [lift cbind ret set_ep ep]. change (120 =? 81) with false. change (120 =? 120) with true. cbv iota. apply at_tail in HA. rewrite (at_head _ _ _ _ HA). cbn [lift cbind ret]. change (123 =? 123) with true. cbv iota. apply at_tail in HA.
  rewrite (strtol_at _ _ _ _ _ HA Hn HV Hv). cbn [lift cbind ret]. apply at_app in HA as [_ HA]. rewrite (at_head _ _ _ _ HA). cbn [lift cbind ret]. change (125 =? 125) with true. cbv iota. do 2 f_equal. unfold set_ep. cbn [ep ric dnl lit ncls]. f_equal. lia.
Qed.
(** ** Escapes *)
Lemma esc_map c : rune_mapping c = match find (fun e => fst e =? c) esc_values with Some e => Some (snd e) | None => None end.
Proof.
  unfold rune_mapping, esc_values. cbn [find fst]. rewrite !(Z.eqb_sym _ c).
  repeat match goal with |- context [c =? ?k] => destruct (Z.eqb_spec c k); [subst c; reflexivity|] end. reflexivity.
Qed.
Lemma esc_none c : ~ In c (map fst esc_values) -> rune_mapping c = None.
Proof. intros H. rewrite esc_map. destruct (find _ esc_values) as [e|] eqn:E; [|reflexivity]. apply find_some in E as [E1 E2]. apply Z.eqb_eq in E2. exfalso. apply H. rewrite <- E2. now apply in_map. Qed.
(** ** Names *)
(** Whether [e] stands at the start of [w]; None if [w] ends before that is known. *)
Fixpoint pfx (e w : list Z) : option bool :=
  match e, w with
  | [], _ => Some true
  | _, [] => None
  | a :: e, b :: w => if b =? a then pfx e w else Some false
  end.
Fixpoint look (tab : list (list Z * Z)) (w : list Z) : option (list Z * Z) :=
  match tab with
  | [] => None
  | e :: tab => match pfx (fst e) w with Some true => Some e | Some false => look tab w | None => None end
  end.
Lemma pfx_at m p : forall e w s b, pfx e w = Some b -> holds_at m s (w ++ p) -> prefix_at m e s = Ok b.
Proof.
  induction e as [|a e IH]; intros w s b H HA; cbn [pfx prefix_at] in *; [now injection H as <-|]. destruct w as [|x w]; [discriminate H|]. cbn [app] in HA. rewrite (at_head _ _ _ _ HA). cbn [bind].
  destruct (x =? a); [|now injection H as <-]. apply (IH w); [exact H|now apply at_tail in HA].
Qed.
Lemma look_at m p : forall tab w s e, look tab w = Some e -> holds_at m s (w ++ p) -> lookup m tab s = Ok (Some e).
Proof.
  induction tab as [|e0 tab IH]; intros w s e H HA; cbn [look lookup] in *; [discriminate H|]. destruct (pfx (fst e0) w) as [b|] eqn:E; [|discriminate H]. rewrite (pfx_at m p _ _ _ _ E HA). cbn [bind].
  destruct b; [now injection H as <-|]. now apply (IH w).
Qed.
Lemma set_found w : In w (map fst set_names) -> look utf_names (123 :: w ++ [125]) = Some (123 :: w ++ [125], value_in set_names w).
Proof.
  intros H. assert (X : Forall (fun w => look utf_names (123 :: w ++ [125]) = Some (123 :: w ++ [125], value_in set_names w)) (map fst set_names)) by (vm_compute; repeat constructor).
  rewrite Forall_forall in X. now apply X.
Qed.
Lemma posix_found w : In w (map fst posix_names) -> look asc_names (w ++ [58; 93]) = Some (w ++ [58; 93], value_in posix_names w).
Proof.
  intros H. assert (X : Forall (fun w => look asc_names (w ++ [58; 93]) = Some (w ++ [58; 93], value_in posix_names w)) (map fst posix_names)) by (vm_compute; repeat constructor).
  rewrite Forall_forall in X. now apply X.
Qed.
Lemma lexutf_at m l (inv : bool) w p : In w (map fst set_names) -> holds_at m (ep l) ((123 :: w ++ [125]) ++ p) ->
  lexutfclass m l (if inv then 80 else 112) = Ok (set_value (ric l) inv w, set_ep l (ep l + zlen (123 :: w ++ [125]))).
Proof.
  intros Hw HA. unfold lexutfclass. rewrite (look_at m p _ _ _ _ (set_found w Hw) HA). cbn [bind]. unfold set_value. destruct inv; reflexivity.
Qed.
Lemma posix_letters w : In w (map fst posix_names) -> exists c w', w = c :: w' /\ c <> 94.
Proof.
  intros H. assert (X : Forall (fun w => exists c w', w = c :: w' /\ c <> 94) (map fst posix_names)).
  { vm_compute. repeat constructor; eexists _, _; (split; [reflexivity|discriminate]). }
  rewrite Forall_forall in X. now apply X.
Qed.
Lemma posix_value_ok : Forall (fun w => ASC_an <= value_in posix_names w) (map fst posix_names).
Proof. vm_compute. repeat constructor; discriminate. Qed.
Lemma lexasc_at m l (inv : bool) w p : In w (map fst posix_names) -> holds_at m (ep l) ((58 :: (if inv then [94] else []) ++ w ++ [58; 93]) ++ p) ->
  lexasciiclass m l 91 = Ok (posix_value (ric l) inv w, set_ep l (ep l + zlen (58 :: (if inv then [94] else []) ++ w ++ [58; 93]))).
Proof.
  intros Hw HA. unfold lexasciiclass. destruct (posix_letters w Hw) as (c & w' & Ew & Hc). pose proof posix_value_ok as V. rewrite Forall_forall in V. specialize (V w Hw). cbn [app] in HA. apply at_tail in HA.
  assert (NB : forall x, ASC_an <= x -> (x =? 91) = false) by (intros x Hx; unfold ASC_an in Hx; lia).
  destruct inv; cbn [app] in HA |- *.
  - rewrite (at_head _ _ _ _ HA). cbn [bind]. change (94 =? 94) with true. cbv iota zeta. apply at_tail in HA. replace (ep l + 1 + 1) with (ep l + 2) in HA by lia. rewrite (look_at m p _ _ _ _ (posix_found w Hw) HA). cbn [bind]. unfold posix_value. cbv zeta. cbn [andb].
    rewrite !zlen_cons. rewrite (NB (if ric l && ((value_in posix_names w =? ASC_an + 22) || (value_in posix_names w =? ASC_an + 24)) then ASC_an + 2 else value_in posix_names w)) by (destruct (_ && _); [unfold ASC_an; lia|exact V]). cbn [negb Z.b2z]. do 3 f_equal. lia.
  - pose proof HA as HA2. rewrite Ew in HA2. cbn [app] in HA2. rewrite (at_head _ _ _ _ HA2). cbn [bind]. destruct (Z.eqb_spec c 94); [contradiction|]. cbv iota zeta. rewrite (look_at m p _ _ _ _ (posix_found w Hw) HA). cbn [bind]. unfold posix_value. cbv zeta. cbn [andb]. rewrite zlen_cons. rewrite Z.add_0_r. do 3 f_equal. lia.
Qed.
(** ** Classes *)
Lemma enc1 c : scalar c -> 0 < zlen (enc c).
Proof. intros H. pose proof (enc_zlen c H). lia. Qed.
Lemma fold_ep l p c : fold_if (set_ep l p) c = fold_ic (ric l) c. Proof. reflexivity. Qed.
Lemma items_at m r : forall its fuel acc l, Forall item_ok its -> lit l = false -> holds_at m (ep l) (flat_map spell_item its ++ 93 :: r) ->
  zlen acc + zlen its <= 31 -> (length (flat_map spell_item its) < fuel)%nat ->
  (let! (q, c, l1) := nextc_ m l in class_items m fuel acc q c l1) = ret (acc ++ map (span_of (ric l)) its, set_ep l (ep l + zlen (flat_map spell_item its) + 1)).
Proof.
  induction its as [|i its IH]; intros fuel acc l HO HL HA HN Hf; cbn [flat_map] in *.
  - cbn [app] in HA. rewrite (nextc_ascii m l 93 r HL ltac:(lia) ltac:(lia) HA). cbn [cbind ret]. destruct fuel as [|fuel]; [cbn in Hf; lia|]. cbn [class_items]. rewrite zlen_nil in *. rewrite (proj2 (Z.ltb_lt (zlen acc) NSPAN)) by (unfold NSPAN; lia). cbn [negb andb]. change (93 =? 0) with false. change (93 =? 93) with true. cbv iota. cbn [map]. rewrite app_nil_r. unfold ret. do 4 f_equal. rewrite ?zlen_nil. lia.
  - inversion HO as [|? ? Hi HO']; subst. rewrite <- app_assoc in HA. rewrite app_length in Hf. rewrite zlen_cons in HN. pose proof (zlen_nonneg its). pose proof (zlen_nonneg acc).
    assert (REST : forall acc' fuel', zlen acc' = zlen acc + 1 -> (length (flat_map spell_item its) < fuel')%nat ->
      (let! (q, c, l1) := nextc_ m (set_ep l (ep l + zlen (spell_item i))) in class_items m fuel' acc' q c l1) = ret (acc' ++ map (span_of (ric l)) its, set_ep l (ep l + zlen (spell_item i ++ flat_map spell_item its) + 1))).
    { intros acc' fuel' E1 E2. rewrite (IH fuel' acc' (set_ep l (ep l + zlen (spell_item i))) HO' HL); [|apply at_app in HA; tauto|lia|exact E2]. cbn [ep ric set_ep]. rewrite zlen_app. unfold ret. do 3 f_equal. unfold set_ep. cbn [ep ric dnl lit ncls]. f_equal. lia. }
    destruct fuel as [|fuel]; [lia|]. destruct i as [c|c|a b|inv w|inv w]; cbn [spell_item item_ok span_of map] in *.
    + destruct Hi as [[Hc Hz] Hn]. rewrite (nextc_lit m l c _ HL Hc ltac:(intros ->; apply Hn; cbn; auto) HA). cbn [cbind ret]. cbn [class_items]. rewrite (proj2 (Z.ltb_lt (zlen acc) NSPAN)) by (unfold NSPAN; lia). cbn [negb].
      destruct (Z.eqb_spec c 0); [contradiction|]. destruct (Z.eqb_spec c 93) as [->|_]; [exfalso; apply Hn; cbn; auto|]. destruct (Z.eqb_spec c 45) as [->|_]; [exfalso; apply Hn; cbn; auto|]. destruct (Z.eqb_spec c 91) as [->|_]; [exfalso; apply Hn; cbn; auto|]. cbn [andb cbind ret lift].
      rewrite fold_ep. rewrite REST; [now rewrite <- app_assoc|rewrite zlen_app; reflexivity|]. pose proof (enc1 c Hc). unfold zlen in *. lia.
    + destruct Hi as [[Hc Hz] Hn]. cbn [app] in HA. rewrite (nextc_esc m l c _ HL Hc ltac:(intros ->; apply Hn; cbn; auto) ltac:(intros ->; apply Hn; cbn; auto) HA). cbn [cbind ret]. cbn [class_items]. rewrite (proj2 (Z.ltb_lt (zlen acc) NSPAN)) by (unfold NSPAN; lia). cbn [negb andb].
      destruct (Z.eqb_spec c 0); [contradiction|]. cbn [cbind ret].
      assert (EV : match rune_mapping c with Some v => Ok (v, set_ep l (ep l + (1 + zlen (enc c)))) | None => if (c =? 112) || (c =? 80) then lexutfclass m (set_ep l (ep l + (1 + zlen (enc c)))) c else Ok (c, set_ep l (ep l + (1 + zlen (enc c)))) end = Ok (esc_value c, set_ep l (ep l + (1 + zlen (enc c))))).
      { rewrite esc_map. unfold esc_value. destruct (find _ esc_values); [reflexivity|]. destruct (Z.eqb_spec c 112) as [->|_]; [exfalso; apply Hn; cbn; auto|]. destruct (Z.eqb_spec c 80) as [->|_]; [exfalso; apply Hn; cbn; auto|]. reflexivity. }
      rewrite EV. cbn [lift cbind ret]. rewrite fold_ep. rewrite zlen_cons in REST. rewrite REST; [now rewrite <- app_assoc|rewrite zlen_app; reflexivity|]. cbn [length] in Hf. lia.
    + destruct Hi as ([Hc Hz] & Hn & [Hd Hz2] & Hn2). rewrite <- app_assoc in HA. rewrite app_length in Hf. cbn [length] in Hf.
      rewrite (nextc_lit m l a _ HL Hc ltac:(intros ->; apply Hn; cbn; auto) HA). cbn [cbind ret]. cbn [class_items]. rewrite (proj2 (Z.ltb_lt (zlen acc) NSPAN)) by (unfold NSPAN; lia). cbn [negb].
      destruct (Z.eqb_spec a 0); [contradiction|]. destruct (Z.eqb_spec a 93) as [->|_]; [exfalso; apply Hn; cbn; auto|]. destruct (Z.eqb_spec a 45) as [->|_]; [exfalso; apply Hn; cbn; auto|]. destruct (Z.eqb_spec a 91) as [->|_]; [exfalso; apply Hn; cbn; auto|]. cbn [andb cbind ret lift].
      rewrite fold_ep. apply at_app in HA as [_ HA]. cbn [app] in HA. set (l1 := set_ep l (ep l + zlen (enc a))). assert (HL1 : lit l1 = false) by exact HL. rewrite (nextc_ascii m l1 45 _ HL1 ltac:(lia) ltac:(lia) HA). cbn [cbind ret].
      destruct fuel as [|fuel]; [pose proof (enc1 a Hc); unfold zlen in *; lia|]. cbn [class_items]. rewrite zlen_app. change (zlen [(fold_ic (ric l) a, fold_ic (ric l) a)]) with 1. rewrite (proj2 (Z.ltb_lt (zlen acc + 1) NSPAN)) by (unfold NSPAN; lia). cbn [negb andb]. change (45 =? 0) with false. change (45 =? 93) with false. change (45 =? 45) with true. cbv iota. rewrite rev_app_distr. cbn [rev app].
      apply at_tail in HA. cbn [set_ep ep] in HA |- *. assert (exists y t, enc b ++ flat_map spell_item its ++ 93 :: r = y :: t /\ y <> 93) as (y & t & Ey & Y1).
      { destruct (Z_lt_ge_dec b 128) as [L|G].
        - exists b, (flat_map spell_item its ++ 93 :: r). unfold enc. destruct (Z.ltb_spec b 128); [|lia]. split; [reflexivity|]. intros ->. apply Hn2. cbn. auto.
        - pose proof (enc1 b Hd) as Le. destruct (enc b) as [|y t] eqn:Ee; [exfalso; unfold zlen in Le; cbn in Le; lia|]. exists y, (t ++ flat_map spell_item its ++ 93 :: r). split; [reflexivity|]. assert (128 <= y) by (apply (enc_ge128 b y Hd); [lia|rewrite Ee; now left]). lia. }
      pose proof HA as HA2. rewrite Ey in HA2. unfold l1 at 1. cbn [set_ep ep]. rewrite (at_head _ _ _ _ HA2). cbn [lift cbind ret]. destruct (Z.eqb_spec y 93); [contradiction|].
      set (l2 := set_ep l1 (ep l1 + 1)). assert (HL2 : lit l2 = false) by exact HL. rewrite (nextc_lit m l2 b _ HL2 Hd ltac:(intros ->; apply Hn2; cbn; auto) HA). cbn [cbind ret]. destruct (Z.eqb_spec b 0); [contradiction|]. cbv zeta. rewrite removelast_last. cbn [fst]. rewrite fold_ep. change (ric l2) with (ric l).
      replace (set_ep l2 (ep l2 + zlen (enc b))) with (set_ep l (ep l + zlen (enc a ++ 45 :: enc b))) by (unfold l2, l1, set_ep; cbn [ep ric dnl lit ncls]; f_equal; rewrite zlen_app, zlen_cons; lia).
      rewrite REST; [now rewrite <- app_assoc|rewrite zlen_app; reflexivity|]. pose proof (enc1 a Hc). unfold zlen in *. lia.
    + unfold spell_set in *. set (c := if inv then 80 else 112) in *. assert (Ec : enc c = [c]) by (unfold c; destruct inv; reflexivity). assert (Hc : scalar c /\ c <> 81 /\ c <> 120 /\ c <> 0 /\ rune_mapping c = None /\ (c =? 112) || (c =? 80) = true) by (unfold c; destruct inv; unfold scalar; repeat split; lia). destruct Hc as (Hc & H81 & H120 & Hz0 & HM & HP).
      cbn [app] in HA. rewrite (nextc_esc m l c ((123 :: w ++ [125]) ++ flat_map spell_item its ++ 93 :: r) HL Hc H81 H120) by (rewrite Ec; exact HA). cbn [cbind ret]. rewrite Ec. change (1 + zlen [c]) with 2. cbn [class_items]. rewrite (proj2 (Z.ltb_lt (zlen acc) NSPAN)) by (unfold NSPAN; lia). cbn [negb andb].
      destruct (Z.eqb_spec c 0); [contradiction|]. cbn [cbind ret]. rewrite HM, HP. apply at_tail in HA. apply at_tail in HA. replace (ep l + 1 + 1) with (ep l + 2) in HA by lia.
      rewrite (lexutf_at m (set_ep l (ep l + 2)) inv w _ Hi HA : lexutfclass m (set_ep l (ep l + 2)) c = _). cbn [lift cbind ret]. cbn [set_ep ep ric]. rewrite fold_ep.
      replace (set_ep (set_ep l (ep l + 2)) (ep l + 2 + zlen (123 :: w ++ [125]))) with (set_ep l (ep l + zlen (92 :: c :: 123 :: w ++ [125]))) by (unfold set_ep; cbn [ep ric dnl lit ncls]; f_equal; rewrite !zlen_cons; lia).
      rewrite REST; [now rewrite <- app_assoc|rewrite zlen_app; reflexivity|]. cbn [length] in Hf. lia.
    + cbn [app] in HA. rewrite (nextc_ascii m l 91 _ HL ltac:(lia) ltac:(lia) HA). cbn [cbind ret]. cbn [class_items]. rewrite (proj2 (Z.ltb_lt (zlen acc) NSPAN)) by (unfold NSPAN; lia). cbn [negb andb]. change (91 =? 0) with false. change (91 =? 93) with false. change (91 =? 45) with false. change (91 =? 91) with true. cbv iota. cbn [cbind ret].
      apply at_tail in HA. change (ep (set_ep l (ep l + 1))) with (ep l + 1). rewrite (at_head _ _ _ _ HA). cbn [bind]. change (58 =? 58) with true. cbv iota.
      rewrite (lexasc_at m (set_ep l (ep l + 1)) inv w (flat_map spell_item its ++ 93 :: r) Hi HA). cbn [lift cbind ret]. cbn [set_ep ep ric]. rewrite fold_ep.
      replace (set_ep (set_ep l (ep l + 1)) (ep l + 1 + zlen (58 :: (if inv then [94] else []) ++ w ++ [58; 93]))) with (set_ep l (ep l + zlen (91 :: 58 :: (if inv then [94] else []) ++ w ++ [58; 93]))) by (unfold set_ep; cbn [ep ric dnl lit ncls]; f_equal; rewrite !zlen_cons; lia).
      rewrite REST; [now rewrite <- app_assoc|rewrite zlen_app; reflexivity|]. cbn [length] in Hf. lia.
Qed.
(** ** Elements *)
Lemma esc_fold_small ic c : 0 <= c < ASC_an -> fold_ic ic c < ASC_an.
Proof.
  intros Hc. unfold fold_ic. destruct ic; [|lia]. destruct (Z.eq_dec (casefold c) c) as [E|E]; [lia|].
  pose proof (Utf8_Proofs5.fold_with_dom _ _ E) as HI. assert (X : forallb (fun c => casefold c <? ASC_an) (Utf8_Proofs5.fold_dom fold_entries) = true) by (vm_compute; reflexivity).
  rewrite forallb_forall in X. specialize (X c HI). lia.
Qed.
Lemma same_make sp : same_spans (make_spans sp) sp.
Proof.
  intros HR rm r HO. apply make_spans_same. intros a Ha.
  destruct (Z_lt_ge_dec a ASC_an) as [L|G]; [left; intros x; apply HO; unfold set_tok; lia|]. right. intros x y HI Hr. destruct (Z_lt_ge_dec x y) as [L|G2]; [specialize (HR x y HI L); lia|lia].
Qed.
Definition st_ok (m : list Z) (l : lx) (p : list Z) : Prop := lit l = false /\ holds_at m (ep l) p.
Lemma st_skip m l p x n : st_ok m l (x ++ p) -> n = ep l + zlen x -> st_ok m (set_ep l n) p.
Proof. intros [H1 H2] ->. split; [exact H1|]. apply at_app in H2. tauto. Qed.
Definition next_ok (m : list Z) (l l' : lx) (e : elem) (p : list Z) : Prop :=
  st_ok m l' p /\ ric l' = ric l /\ dnl l' = dnl l /\ ncls l' = ncls l + (if is_class e then 1 else 0).
Lemma elem_lex m l e p : elem_ok e -> st_ok m l (spell e ++ p) -> p <> [] -> (e = SOpen -> hd 0 p <> 63) -> (is_class e = true -> ncls l < 16) ->
  exists t l', lex m l = ret (t, l') /\ t <> KEnd /\ elem_tok (ric l) (dnl l) e t /\ next_ok m l l' e p.
Proof.
  intros HO HS Hp HF HC. pose proof HS as [HL HA].
  assert (NX : forall n, is_class e = false -> n = ep l + zlen (spell e) -> next_ok m l (set_ep l n) e p).
  { intros n Hc Hn. split; [eapply st_skip; eassumption|]. rewrite Hc. cbn. repeat split; lia. }
  assert (RT : forall n c, rune_tok (set_ep l n) c = rune (ric l) c) by reflexivity.
  assert (RE : forall c, rune (ric l) c <> KEnd) by (intros c; unfold rune; discriminate).
  destruct e; cbn [spell is_class elem_ok elem_tok] in *; unfold lex.
  - destruct HO as [[Hc Hz] Hn]. rewrite (nextc_lit m l c p HL Hc ltac:(intros ->; apply Hn; cbn; auto) HA). cbn [cbind ret].
    repeat match goal with |- context [c =? ?k] => destruct (Z.eqb_spec c k) as [->|_]; [exfalso; first [now apply Hz|apply Hn; cbn; tauto]|] end.
    eexists _, _. split; [reflexivity|]. rewrite RT. split; [apply RE|]. split; [reflexivity|]. now apply NX.
  - destruct HO as [[Hc Hz] Hn]. cbn [app] in HA. rewrite (nextc_esc m l c p HL Hc ltac:(intros ->; apply Hn; cbn; auto) ltac:(intros ->; apply Hn; cbn; auto) HA). cbn [cbind ret set_ep lit]. rewrite HL. rewrite esc_map. unfold esc_value. rewrite zlen_cons in NX.
    destruct (find _ esc_values) as [[c' v]|].
    + eexists _, _. split; [reflexivity|]. rewrite RT. split; [apply RE|]. split; [reflexivity|]. now apply NX.
    + repeat match goal with |- context [c =? ?k] => destruct (Z.eqb_spec c k) as [->|_]; [exfalso; apply Hn; cbn; tauto|] end. cbn [orb].
      eexists _, _. split; [reflexivity|]. rewrite RT. split; [apply RE|]. split; [reflexivity|]. now apply NX.
  - destruct HO as (Hn & v & HV & Hv & HI). rewrite <- !app_assoc in HA. rewrite (nextc_hex m l ds v p HL Hn HV Hv HA). cbn [cbind ret set_ep lit]. rewrite HL.
    rewrite esc_none by (intros X; apply HI; unfold esc_letters; apply in_or_app; now left).
    repeat match goal with |- context [v =? ?k] => destruct (Z.eqb_spec v k) as [->|_]; [exfalso; apply HI; unfold esc_letters; apply in_or_app; right; cbn; tauto|] end. cbn [orb].
    eexists _, _. split; [reflexivity|]. rewrite RT. split; [apply RE|]. split; [exists v; auto|]. apply NX; [reflexivity|]. rewrite !zlen_app. change (zlen [92; 120; 123]) with 3. change (zlen [125]) with 1. lia.
  - cbn [app] in HA. rewrite (nextc_esc m l 65 p HL ltac:(unfold scalar; lia) ltac:(lia) ltac:(lia) HA). cbn [cbind ret set_ep lit]. rewrite HL. eexists _, _. split; [reflexivity|]. split; [discriminate|]. split; [reflexivity|]. now apply NX.
  - cbn [app] in HA. rewrite (nextc_esc m l 122 p HL ltac:(unfold scalar; lia) ltac:(lia) ltac:(lia) HA). cbn [cbind ret set_ep lit]. rewrite HL. eexists _, _. split; [reflexivity|]. split; [discriminate|]. split; [reflexivity|]. now apply NX.
  - cbn [app] in HA. rewrite (nextc_esc m l 90 p HL ltac:(unfold scalar; lia) ltac:(lia) ltac:(lia) HA). cbn [cbind ret set_ep lit]. rewrite HL. eexists _, _. split; [reflexivity|]. split; [discriminate|]. split; [reflexivity|]. now apply NX.
  - cbn [app] in HA. rewrite (nextc_esc m l 98 p HL ltac:(unfold scalar; lia) ltac:(lia) ltac:(lia) HA). cbn [cbind ret set_ep lit]. rewrite HL. eexists _, _. split; [reflexivity|]. split; [discriminate|]. split; [reflexivity|]. now apply NX.
  - cbn [app] in HA. rewrite (nextc_esc m l 66 p HL ltac:(unfold scalar; lia) ltac:(lia) ltac:(lia) HA). cbn [cbind ret set_ep lit]. rewrite HL. eexists _, _. split; [reflexivity|]. split; [discriminate|]. split; [reflexivity|]. now apply NX.
  - rewrite (nextc_ascii m l 94 p HL ltac:(lia) ltac:(lia) HA). cbn [cbind ret]. eexists _, _. split; [reflexivity|]. split; [discriminate|]. split; [reflexivity|]. now apply NX.
  - rewrite (nextc_ascii m l 36 p HL ltac:(lia) ltac:(lia) HA). cbn [cbind ret]. eexists _, _. split; [reflexivity|]. split; [discriminate|]. split; [reflexivity|]. now apply NX.
  - rewrite (nextc_ascii m l 46 p HL ltac:(lia) ltac:(lia) HA). cbn [cbind ret]. eexists _, _. split; [reflexivity|]. split; [discriminate|]. split; [reflexivity|]. now apply NX.
  - rewrite (nextc_ascii m l 42 p HL ltac:(lia) ltac:(lia) HA). cbn [cbind ret]. eexists _, _. split; [reflexivity|]. split; [discriminate|]. split; [reflexivity|]. now apply NX.
  - rewrite (nextc_ascii m l 43 p HL ltac:(lia) ltac:(lia) HA). cbn [cbind ret]. eexists _, _. split; [reflexivity|]. split; [discriminate|]. split; [reflexivity|]. now apply NX.
  - rewrite (nextc_ascii m l 63 p HL ltac:(lia) ltac:(lia) HA). cbn [cbind ret]. eexists _, _. split; [reflexivity|]. split; [discriminate|]. split; [reflexivity|]. now apply NX.
  - rewrite (nextc_ascii m l 124 p HL ltac:(lia) ltac:(lia) HA). cbn [cbind ret]. eexists _, _. split; [reflexivity|]. split; [discriminate|]. split; [reflexivity|]. now apply NX.
  - rewrite (nextc_ascii m l 40 p HL ltac:(lia) ltac:(lia) HA). cbn [cbind ret]. apply at_tail in HA. destruct p as [|b p]; [congruence|]. change (ep (set_ep l (ep l + 1))) with (ep l + 1). rewrite (at_head _ _ _ _ HA). cbn [lift cbind ret]. cbn [hd] in HF.
    destruct (Z.eqb_spec b 63) as [->|_]; [exfalso; now apply HF|]. change (40 =? 0) with false. cbv iota beta. eexists _, _. split; [reflexivity|]. split; [discriminate|]. split; [reflexivity|]. now apply NX.
  - rewrite (nextc_ascii m l 41 p HL ltac:(lia) ltac:(lia) HA). cbn [cbind ret]. eexists _, _. split; [reflexivity|]. split; [discriminate|]. split; [reflexivity|]. now apply NX.
  - destruct HO as (HI & HN & HH). specialize (HC eq_refl). cbn [app] in HA. rewrite (nextc_ascii m l 91 _ HL ltac:(lia) ltac:(lia) HA). cbn [cbind ret]. change (91 =? 0) with false. change (91 =? 42) with false. change (91 =? 63) with false. change (91 =? 43) with false. change (91 =? 124) with false. change (91 =? 94) with false. change (91 =? 36) with false. change (91 =? 46) with false. change (91 =? 91) with true. cbv iota.
    unfold bldcclass. cbn [set_ep ncls ep ric dnl lit]. destruct (Z.leb_spec 16 (ncls l)); [lia|]. apply at_tail in HA. set (l0 := Lx (ep l + 1) (ric l) (dnl l) (lit l) (ncls l + 1)). assert (HL0 : lit l0 = false) by exact HL.
    assert (FL : (length (flat_map spell_item its) < length m)%nat). { pose proof (fuel_len _ _ _ HA) as X. rewrite !app_length in X. cbn [length] in X. lia. }
    destruct neg.
    + cbn [app] in HA. rewrite (nextc_ascii m l0 94 _ HL0 ltac:(lia) ltac:(lia) HA). cbn [cbind ret negb andb]. change (94 =? 94) with true. cbv iota. apply at_tail in HA. rewrite <- app_assoc in HA. set (l1 := set_ep l0 (ep l0 + 1)). 
      pose proof (items_at m p its (S (length m)) [(10, 10)] l1 HI HL0 HA) as X. change (zlen [(10, 10)]) with 1 in X. specialize (X ltac:(lia) ltac:(lia)).
      destruct (nextc_ m l1) as [[[[q c] l2]|]|]; cbn [cbind ret] in X |- *; try discriminate X. rewrite X. cbn [cbind ret]. eexists _, _. split; [reflexivity|]. split; [discriminate|]. split; [eexists; split; [reflexivity|apply same_make]|].
      split; [|cbn; auto]. split; [exact HL|]. cbn [set_ep ep l1 l0]. apply at_app in HA as [_ HA]. apply at_tail in HA. exact HA.
    + cbn [app] in HA. rewrite <- app_assoc in HA. pose proof (items_at m p its (S (length m)) [] l0 HI HL0 HA) as X. rewrite zlen_nil in X. specialize (X ltac:(lia) ltac:(lia)).
      destruct (nextc_ m l0) as [[[[q c] l2]|]|] eqn:EN; cbn [cbind ret] in X |- *; try discriminate X.
      assert (NN : negb q && (c =? 94) = false).
      { destruct its as [|i its].
        - cbn [flat_map app] in HA. rewrite (nextc_ascii m l0 93 _ HL0 ltac:(lia) ltac:(lia) HA) in EN. injection EN as <- <- _. reflexivity.
        - inversion HI as [|? ? Hi _]; subst. cbn [flat_map] in HA. rewrite <- app_assoc in HA. specialize (HH eq_refl). destruct i as [c0|c0|c0 b0|inv w|inv w]; cbn [spell_item item_ok] in *.
          + destruct Hi as [[Hc Hz] Hn]. rewrite (nextc_lit m l0 c0 _ HL0 Hc ltac:(intros ->; apply Hn; cbn; auto) HA) in EN. injection EN as <- <- _. cbn [negb andb]. destruct (Z.eqb_spec c0 94) as [->|_]; [destruct HH|reflexivity].
          + destruct Hi as [[Hc Hz] Hn]. cbn [app] in HA. rewrite (nextc_esc m l0 c0 _ HL0 Hc ltac:(intros ->; apply Hn; cbn; auto) ltac:(intros ->; apply Hn; cbn; auto) HA) in EN. injection EN as <- <- _. reflexivity.
          + destruct Hi as ([Hc Hz] & Hn & _ & _). rewrite <- app_assoc in HA. rewrite (nextc_lit m l0 c0 _ HL0 Hc ltac:(intros ->; apply Hn; cbn; auto) HA) in EN. injection EN as <- <- _. cbn [negb andb]. destruct (Z.eqb_spec c0 94) as [->|_]; [destruct HH|reflexivity].
          + unfold spell_set in HA. cbn [app] in HA. set (cc := if inv then 80 else 112) in *. assert (Ec : enc cc = [cc]) by (unfold cc; destruct inv; reflexivity).
            rewrite (nextc_esc m l0 cc ((123 :: w ++ [125]) ++ flat_map spell_item its ++ 93 :: p)) in EN; [injection EN as <- <- _; reflexivity|exact HL0|unfold cc; destruct inv; unfold scalar; lia|unfold cc; destruct inv; lia|unfold cc; destruct inv; lia|rewrite Ec; exact HA].
          + cbn [app] in HA. rewrite (nextc_ascii m l0 91 _ HL0 ltac:(lia) ltac:(lia) HA) in EN. injection EN as <- <- _. reflexivity. }
      rewrite NN. cbn [cbind ret]. rewrite X. cbn [cbind ret]. eexists _, _. split; [reflexivity|]. split; [discriminate|]. split; [eexists; split; [reflexivity|apply same_make]|].
      split; [|cbn; auto]. split; [exact HL|]. cbn [set_ep ep l0]. apply at_app in HA as [_ HA]. apply at_tail in HA. exact HA.
  - unfold spell_set in *. set (c := if inv then 80 else 112) in *. assert (Ec : enc c = [c]) by (unfold c; destruct inv; reflexivity). assert (Hc : scalar c /\ c <> 81 /\ c <> 120 /\ rune_mapping c = None /\ (c =? 112) || (c =? 80) = true /\ (c =? 98) = false /\ (c =? 66) = false /\ (c =? 65) = false /\ (c =? 122) = false /\ (c =? 90) = false) by (unfold c; destruct inv; unfold scalar; repeat split; lia).
    destruct Hc as (Hc & H81 & H120 & HM & HPP & E1 & E2 & E3 & E4 & E5). cbn [app] in HA. rewrite (nextc_esc m l c ((123 :: w ++ [125]) ++ p) HL Hc H81 H120) by (rewrite Ec; exact HA). cbn [cbind ret set_ep lit]. rewrite HL, HM, HPP, E1, E2, E3, E4, E5. rewrite Ec. change (1 + zlen [c]) with 2.
    apply at_tail in HA. apply at_tail in HA. replace (ep l + 1 + 1) with (ep l + 2) in HA by lia. rewrite (lexutf_at m (set_ep l (ep l + 2)) inv w _ HO HA : lexutfclass m (set_ep l (ep l + 2)) c = _). cbn [lift cbind ret].
    eexists _, _. split; [reflexivity|]. split; [discriminate|]. split; [reflexivity|]. cbn [set_ep ep ric dnl lit ncls]. specialize (NX (ep l + 2 + zlen (123 :: w ++ [125])) eq_refl). apply NX. rewrite !zlen_cons. lia.
Qed.
Lemma spell_nonempty e : elem_ok e -> spell e <> [].
Proof. destruct e; cbn [spell elem_ok]; try discriminate. intros [[Hc _] _]. pose proof (enc1 c Hc) as L. destruct (enc c); [unfold zlen in L; cbn in L; lia|discriminate]. Qed.
Lemma spell_first e : elem_ok e -> e <> SQuest -> hd 0 (spell e) <> 63.
Proof.
  destruct e; cbn [spell spell_set elem_ok hd app]; try congruence; try lia. intros [[Hc _] Hn] _. destruct (Z_lt_ge_dec c 128) as [L|G].
  - unfold enc. destruct (Z.ltb_spec c 128); [|lia]. cbn. intros ->. apply Hn. cbn. tauto.
  - pose proof (enc1 c Hc) as Le. destruct (enc c) as [|y t] eqn:Ee; [unfold zlen in Le; cbn in Le; lia|]. cbn. assert (128 <= y) by (apply (enc_ge128 c y Hc); [lia|rewrite Ee; now left]). lia.
Qed.
Lemma pattern_lex m : forall es l, Forall elem_ok es -> no_flags es -> st_ok m l (flat_map spell es ++ [0]) -> ncls l + zlen (filter is_class es) <= 16 ->
  exists toks, lexes m l toks /\ Forall2 (elem_tok (ric l) (dnl l)) es toks.
Proof.
  induction es as [|e es IH]; intros l HO HF HS HN; cbn [flat_map] in *.
  - destruct HS as [HL HA]. cbn [app] in HA. exists []. split; [|constructor]. eapply lx_end. unfold lex. rewrite (nextc_ascii m l 0 _ HL ltac:(lia) ltac:(lia) HA). cbn [cbind ret]. reflexivity.
  - inversion HO as [|? ? He HO']; subst. rewrite <- app_assoc in HS. assert (HF' : no_flags es) by (destruct e; cbn in HF; try exact HF; destruct es as [|[]]; cbn in *; tauto).
    destruct (elem_lex m l e _ He HS) as (t & l' & E & Hn & HT & (HS' & R1 & R2 & R3)).
    + destruct (flat_map spell es); discriminate.
    + intros ->. destruct es as [|e2 es]; [cbn; lia|]. inversion HO' as [|? ? He2 _]; subst. cbn [flat_map]. pose proof (spell_nonempty _ He2). pose proof (spell_first _ He2 ltac:(intros ->; exact HF)). destruct (spell e2); [congruence|]. cbn in *. assumption.
    + intros Hc. cbn [filter] in HN. rewrite Hc in HN. rewrite zlen_cons in HN. pose proof (zlen_nonneg (filter is_class es)). lia.
    + destruct (IH l' HO' HF' HS') as (toks & L & F). { cbn [filter] in HN. rewrite R3. destruct (is_class e); [rewrite zlen_cons in HN|]; lia. }
      rewrite R1, R2 in F. exists (t :: toks). split; [eapply lx_tok; eassumption|constructor; assumption].
Qed.
