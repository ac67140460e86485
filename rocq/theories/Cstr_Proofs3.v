From Verif Require Import Base Slots Utf8_Model Utf8_Spec Utf8_Proofs Utf8_Proofs2 Utf8_Proofs3 Utf8_Proofs4 Utf8_Proofs5 View_Model View_Spec View_Proofs View_Proofs2 Cstr_Model Cstr_Spec Cstr_Proofs Cstr_Proofs2.
Ltac Zify.zify_post_hook ::= Z.to_euclidean_division_equations.

(** ** Reading lines *)
Lemma getdelim_ok s l delim io : repr s l -> zlen io < 2 ^ 60 ->
  (io = [] /\ getdelim s delim io = Ok (s, [], false)) \/
  exists s', (exists line rest, io = line ++ delim :: rest /\ ~ In delim line /\ getdelim s delim io = Ok (s', rest, true) /\ repr s' line) \/
             (io <> [] /\ ~ In delim io /\ getdelim s delim io = Ok (s', [], true) /\ repr s' io).
Proof.
  intros (W & C & E & L) Hl. destruct io as [|c io]; [left; auto|]. right. unfold getdelim. rewrite E. cbn [bind]. rewrite zlen_cons in Hl. pose proof (wf_cap s W).
  destruct (getdelim_loop_ok delim io (S (length (c :: io))) s (scap s) c [] W (cells_nil _ _)) as (s' & [(line & rest & E1 & E2 & E3 & E4)|(E1 & E2 & E3)]); try (change (zlen (@nil Z)) with 0; lia); [cbn [length]; lia| |]; change (zlen (@nil Z)) with 0 in *.
  - exists s'. left. exists line, rest. rewrite E3. cbn [bind fst snd]. auto.
  - exists s'. right. rewrite E2. cbn [bind fst snd]. split; [discriminate|]. auto.
Qed.
Lemma read_lines_ok delim : forall fuel s l io, repr s l -> zlen io < 2 ^ 60 -> (length io < fuel)%nat -> exists ls, read_lines fuel s delim io = Ok ls /\ lines delim io ls.
Proof.
  induction fuel as [|fuel IH]; intros s l io R Hl Hf; [lia|]. cbn [read_lines]. destruct (getdelim_ok s l delim io R Hl) as [[-> ->]|(s' & [(line & rest & E1 & E2 & E3 & E4)|(E0 & E1 & E2 & E3)])].
  - cbn [bind]. exists []. split; [reflexivity|constructor].
  - rewrite E3. cbn [bind]. pose proof E4 as (_ & _ & Es & _). rewrite Es. cbn [bind]. rewrite (proj1 (repr_read _ _ E4)). cbn [bind]. subst io. rewrite zlen_app, zlen_cons in Hl. rewrite app_length in Hf. cbn [length] in Hf. pose proof (zlen_nonneg line).
    destruct (IH s' line rest E4) as (ls & -> & HL); [lia|lia|]. cbn [bind]. exists (line :: ls). split; [reflexivity|]. now constructor.
  - rewrite E2. cbn [bind]. pose proof E3 as (_ & _ & Es & _). rewrite Es. cbn [bind]. rewrite (proj1 (repr_read _ _ E3)). cbn [bind].
    destruct (IH s' io [] E3) as (ls & -> & HL); [change (zlen (@nil Z)) with 0; lia|destruct io; [contradiction|cbn [length] in *; lia]|]. cbn [bind]. assert (ls = []) as -> by (inversion HL as [|? Hq|ln ? ? ? ? Hq]; auto; [contradiction|destruct ln; discriminate]). exists [io]. split; [reflexivity|]. now constructor.
Qed.
Lemma lines_bytes delim io ls : lines delim io ls -> io = concat (map (fun l => l ++ [delim]) ls) \/ io ++ [delim] = concat (map (fun l => l ++ [delim]) ls).
Proof.
  induction 1 as [|l Hn Hi|line rest ls Hi H [IH|IH]]; [left; reflexivity|right; cbn; now rewrite app_nil_r| |]; cbn [map concat]; rewrite <- IH, <- !app_assoc; auto.
Qed.

(** ** Code point positions *)
Lemma cp_firstn cs k : firstn (Z.to_nat (cp_offset cs k)) (enc_all cs) = enc_all (firstn k cs) /\ skipn (Z.to_nat (cp_offset cs k)) (enc_all cs) = enc_all (skipn k cs).
Proof.
  assert (E : enc_all cs = enc_all (firstn k cs) ++ enc_all (skipn k cs)) by (rewrite <- enc_all_app; now rewrite firstn_skipn). unfold cp_offset. rewrite E. unfold zlen. rewrite Nat2Z.id. split.
  - rewrite firstn_app, firstn_all, Nat.sub_diag. cbn [firstn]. now rewrite app_nil_r.
  - now rewrite skipn_app, skipn_all, Nat.sub_diag.
Qed.
Lemma cp_offset_le cs k : 0 <= cp_offset cs k <= zlen (enc_all cs).
Proof. unfold cp_offset. rewrite <- (firstn_skipn k cs) at 3. rewrite enc_all_app, zlen_app. pose proof (zlen_nonneg (enc_all (firstn k cs))). pose proof (zlen_nonneg (enc_all (skipn k cs))). lia. Qed.
Lemma cp_offset_add cs k n : cp_offset cs (k + n) = cp_offset cs k + cp_offset (skipn k cs) n.
Proof.
  unfold cp_offset. rewrite <- zlen_app, <- enc_all_app. f_equal. f_equal. revert cs. induction k as [|k IH]; intros cs; [reflexivity|]. destruct cs as [|c cs]; cbn [Nat.add firstn skipn app]; [destruct n; reflexivity|]. now rewrite IH.
Qed.
Lemma u8_sub_ok s cs k n : Forall scalar cs -> repr s (enc_all cs) -> ~ In 0 (enc_all cs) -> u8subview (bytes_of (sdata s)) 0 (Z.of_nat k) (Z.of_nat n) = Ok (cp_offset cs k, cp_offset (skipn k cs) n).
Proof.
  intros Hs R Hz. pose proof (zview_ok s _ R Hz) as ZV. unfold u8subview, to_index. rewrite (proj1 (u8at_ok _ _ _ k Hs ZV)). cbn [bind Z.add].
  assert (Hs2 : Forall scalar (skipn k cs)) by (rewrite <- (firstn_skipn k cs) in Hs; now apply Forall_app in Hs). pose proof (at_sub _ _ _ k ZV) as ZV2. cbn [Z.add] in ZV2. rewrite (proj1 (u8at_ok _ _ _ n Hs2 ZV2)). cbn [bind]. f_equal. f_equal. lia.
Qed.
Lemma u8_erase_ok s cs k n : Forall scalar cs -> repr s (enc_all cs) -> ~ In 0 (enc_all cs) -> exists s', u8_erase s (Z.of_nat k) (Z.of_nat n) = Ok s' /\ repr s' (enc_all (firstn k cs ++ skipn (k + n) cs)).
Proof.
  intros Hs R Hz. unfold u8_erase. rewrite (u8_sub_ok s cs k n) by auto. pose proof R as (W & C & E & L). rewrite E. cbn [bind fst snd]. pose proof (cp_offset_le cs k) as H1. pose proof (cp_offset_le (skipn k cs) n) as H2. pose proof (cp_offset_le cs (k + n)) as H3. rewrite cp_offset_add in H3.
  destruct (erase_ok s (enc_all cs) (cp_offset cs k) (cp_offset (skipn k cs) n) R) as (s' & E' & R'); [lia|lia|]. exists s'. rewrite <- cp_offset_add in R'. rewrite (proj1 (cp_firstn cs k)), (proj2 (cp_firstn cs (k + n))), <- enc_all_app in R'. split; [|exact R'].
  rewrite <- E'. unfold erase. rewrite E. cbn [bind]. destruct (Z.ltb_spec (zlen (enc_all cs) - cp_offset cs k) (cp_offset (skipn k cs) n)); [lia|].
  replace (zlen (enc_all cs) - (cp_offset cs k + cp_offset (skipn k cs) n)) with (zlen (enc_all cs) - cp_offset (skipn k cs) n - cp_offset cs k) by lia. reflexivity.
Qed.
Lemma u8_replace_ok s cs k n b : Forall scalar cs -> repr s (enc_all cs) -> ~ In 0 (enc_all cs) -> zlen (enc_all cs) + zlen b <= 2 ^ 61 ->
  exists s', u8_replace s (Z.of_nat k) (Z.of_nat n) b = Ok s' /\ repr s' (enc_all (firstn k cs) ++ b ++ enc_all (skipn (k + n) cs)).
Proof.
  intros Hs R Hz Hl. unfold u8_replace. rewrite (u8_sub_ok s cs k n) by auto. cbn [bind fst snd]. pose proof (cp_offset_le cs k) as H1. pose proof (cp_offset_le (skipn k cs) n) as H2. pose proof (cp_offset_le cs (k + n)) as H3. rewrite cp_offset_add in H3.
  destruct (replace_at_ok s (enc_all cs) (cp_offset cs k) (cp_offset (skipn k cs) n) b R) as (s' & E' & R'); try lia. exists s'. split; [exact E'|]. rewrite <- cp_offset_add in R'. now rewrite (proj1 (cp_firstn cs k)), (proj2 (cp_firstn cs (k + n))) in R'.
Qed.
Lemma u8_insert_ok s cs k b : Forall scalar cs -> repr s (enc_all cs) -> ~ In 0 (enc_all cs) -> zlen (enc_all cs) + zlen b <= 2 ^ 61 ->
  exists s', u8_insert s (Z.of_nat k) b = Ok s' /\ repr s' (enc_all (firstn k cs) ++ b ++ enc_all (skipn k cs)).
Proof.
  intros Hs R Hz Hl. pose proof (zview_ok s _ R Hz) as ZV. unfold u8_insert, to_index. rewrite (proj1 (u8at_ok _ _ _ k Hs ZV)). cbn [bind]. rewrite Z.sub_0_r. cbn [Z.add]. pose proof (cp_offset_le cs k) as H1.
  destruct (insert_ok s (enc_all cs) (cp_offset cs k) b R) as (s' & E' & R'); try lia. exists s'. split; [exact E'|]. now rewrite (proj1 (cp_firstn cs k)), (proj2 (cp_firstn cs k)) in R'.
Qed.
Lemma push_ok s l m p c r : repr s l -> scalar c -> holds_at m p (enc c ++ r) -> zlen l <= 2 ^ 60 -> exists s', push s m p = Ok s' /\ repr s' (l ++ enc c).
Proof.
  intros R Hc HA Hl. unfold push. rewrite (chr_size_ok m c r p Hc HA). cbn [bind]. rewrite (at_slice _ _ _ (enc c) r HA eq_refl). cbn [bind]. pose proof (enc_zlen c Hc). apply append_ok; [exact R|reflexivity|lia].
Qed.
Lemma pop_char s l c : repr s (l ++ enc c) -> Forall is_byte l -> scalar c -> exists s', pop s = Ok s' /\ repr s' l.
Proof.
  intros R HB Hc. destruct (enc_inj_head c Hc) as (b & r & E & Hr & Hb & Hi). assert (HBe : Forall is_byte (enc c)) by now apply enc_bytes.
  assert (HD : drop_char (rev (l ++ enc c)) = Some (rev l)).
  { rewrite rev_app_distr, E. cbn [rev]. rewrite E in HBe. inversion HBe as [|? ? _ HBr]; subst. rewrite <- app_assoc. clear R E HBe. induction r as [|x r IH] using rev_ind.
    - cbn [rev app drop_char]. rewrite cont_range in Hb by auto. unfold cont_byte. now rewrite Hb.
    - rewrite rev_app_distr. cbn [rev app drop_char]. apply Forall_app in Hr as [Hr Hx], HBr as [HBr HBx]. inversion Hx as [|? ? Hx' _]; inversion HBx as [|? ? HBx' _]; subst. rewrite cont_range in Hx' by auto. unfold cont_byte at 1. rewrite Hx'. now apply IH. }
  destruct (pop_ok s _ _ R ltac:(apply Forall_app; auto) HD) as (s' & E' & R'). rewrite rev_involutive in R'. eauto.
Qed.

(** ** Case conversion *)
Lemma conv_case k c : 0 <= k < 3 -> 0 <= c -> conv k c = case_of k c.
Proof.
  intros Hk Hc. unfold conv, case_of. destruct (Z.ltb_spec c 128); [|reflexivity]. destruct (ascii_lower c ltac:(lia)) as (E1 & E2 & E3). rewrite E3, E2, E1. unfold to_lower, to_upper. destruct (Z.eqb_spec k 0), (Z.eqb_spec k 1), (Z.eqb_spec k 2); try lia; reflexivity.
Qed.
Lemma case_good k c : scalar c -> scalar (case_of k c) /\ 2 * zlen (enc (case_of k c)) <= 3 * zlen (enc c) /\ case_of k (case_of k c) = case_of k c.
Proof.
  intros Hc. unfold case_of. destruct (casefold_good c Hc) as (A1 & A2 & A3 & _), (tolower_good c Hc) as (B1 & B2 & B3 & _), (toupper_good c Hc) as (C1 & C2 & C3 & _). destruct (k =? 0); [auto|]. destruct (k =? 1); auto.
Qed.
Lemma put_ok d sz k c : 0 <= k < 3 -> scalar c -> 0 <= sz -> sz + zlen (enc (case_of k c)) <= zlen d ->
  exists d', put d sz k c = Ok (d', sz + zlen (enc (case_of k c))) /\ frame d d' sz (zlen (enc (case_of k c))) /\ cells d' sz (enc (case_of k c)).
Proof.
  intros Hk Hc Hs Hl. unfold put. assert (Hp : 0 <= c) by (unfold scalar in Hc; lia). rewrite conv_case by auto. destruct (case_good k c Hc) as (S1 & _). destruct (Z.ltb_spec c 128).
  - assert (E : enc (case_of k c) = [case_of k c]).
    { rewrite <- conv_case by auto. unfold enc. assert (conv k c < 128). { unfold conv. destruct (Z.ltb_spec c 128); [|lia]. unfold to_upper, to_lower. destruct (k =? 2); destruct (_ && _) eqn:EE; lia. } destruct (Z.ltb_spec (conv k c) 128); [reflexivity|lia]. }
    rewrite E in *. change (zlen [case_of k c]) with 1 in *. destruct (wr_ok d sz (case_of k c)) as (d' & -> & F & C); [lia|]. cbn [bind]. eauto.
  - rewrite encode_ok by auto. destruct (wrs_ok d sz (enc (case_of k c)) Hs Hl) as (d' & -> & F & C). cbn [bind]. eauto.
Qed.
Lemma frame_trans d d1 d2 i n j m : frame d d1 i n -> frame d1 d2 j m -> j = i + n -> 0 <= n -> 0 <= m -> frame d d2 i (n + m).
Proof. intros [Z1 F1] [Z2 F2] -> Hn Hm. split; [lia|]. intros k Hk. rewrite F2 by lia. apply F1. lia. Qed.
Lemma tocase_S f d sz k m st p end_ : tocase_loop (S f) d sz k m st p end_ =
  (if p <? end_ then
      let* r := decode_codepoint m st p end_ in
      let* o := put d sz k (snd (fst r)) in
      tocase_loop f (fst o) (snd o) k m (fst r) (p + snd r) end_
    else Ok (d, sz)).
Proof. reflexivity. Qed.
Lemma replacement : scalar 0xFFFD. Proof. right. lia. Qed.
(** One step of decoding. *)
Lemma dcp_step m s l cp : holds_at m s l -> l <> [] -> Forall is_byte l ->
  exists c x r, decode_codepoint m (0, cp) s (s + zlen l) = Ok ((0, c), zlen x) /\ l = x ++ r /\ 0 < zlen x /\ scalar c /\ (forall cs, decodes r cs -> decodes l (c :: cs)).
Proof.
  intros HA Hn HB. destruct (dcp_any m s l cp HA Hn HB) as (c & k & E & Hk & [(Hc & (r & Er) & ->)|(-> & Hno & Hx)]).
  - exists c, (enc c), r. rewrite E. split; [reflexivity|]. split; [exact Er|]. split; [lia|]. split; [exact Hc|]. intros cs D. rewrite Er. now constructor.
  - destruct (list_split_at l k ltac:(lia)) as (x & r & Er & Lx). exists 0xFFFD, x, r. rewrite E, Lx. split; [reflexivity|]. split; [exact Er|]. split; [lia|]. split; [exact replacement|]. intros cs D. destruct x as [|b x]; [change (zlen (@nil Z)) with 0 in Lx; lia|].
    rewrite Er. cbn [app]. constructor; auto; [rewrite Er in Hno; exact Hno|]. apply Forall_forall. intros y Hy. destruct (In_aget x y Hy) as (i & _ & Ei). pose proof (aget_ok_range _ _ _ Ei). apply (Hx (i + 1) y).
    + rewrite zlen_cons in Lx. lia.
    + rewrite Er. cbn [app]. rewrite aget_cons. destruct (Z.eqb_spec (i + 1) 0); [lia|]. replace (i + 1 - 1) with i by lia. rewrite aget_app1 by lia. exact Ei.
Qed.
Lemma tocase_loop_ok m k end_ : 0 <= k < 3 -> forall f l d sz cp p, holds_at m p l -> (length l < f)%nat -> end_ = p + zlen l -> Forall is_byte l -> 0 <= sz ->
  exists ds, decodes l ds /\ Forall scalar ds /\ (sz + zlen (enc_all (map (case_of k) ds)) <= zlen d ->
    exists d', tocase_loop f d sz k m (0, cp) p end_ = Ok (d', sz + zlen (enc_all (map (case_of k) ds))) /\ frame d d' sz (zlen (enc_all (map (case_of k) ds))) /\ cells d' sz (enc_all (map (case_of k) ds))).
Proof.
  intros Hk. induction f as [|f IH]; intros l d sz cp p HA Hf He HB Hs; [lia|]. destruct l as [|b l].
  - exists []. split; [constructor|]. split; [constructor|]. cbn [map enc_all flat_map]. change (zlen (@nil Z)) with 0. rewrite Z.add_0_r. intros _. rewrite tocase_S. change (zlen (@nil Z)) with 0 in He. destruct (Z.ltb_spec p end_); [lia|]. exists d. split; [reflexivity|]. split; [split; auto|apply cells_nil].
  - destruct (dcp_step m p (b :: l) cp HA ltac:(discriminate) HB) as (c & x & r & E & Er & Hx & Hc & HD). rewrite Er in HA. apply at_app in HA as [_ HA]. assert (HBr : Forall is_byte r) by (rewrite Er in HB; now apply Forall_app in HB).
    assert (Hfr : (length r < f)%nat) by (apply (f_equal (@length Z)) in Er; rewrite app_length in Er; unfold zlen in Hx; cbn [length] in *; lia).
    assert (He2 : end_ = p + zlen x + zlen r) by (rewrite He, Er, zlen_app; lia).
    destruct (case_good k c Hc) as (Sc & _). pose proof (enc_zlen _ Sc) as Lc.
    destruct (Z.le_gt_cases (sz + zlen (enc (case_of k c))) (zlen d)) as [Fit|NoFit].
    + destruct (put_ok d sz k c Hk Hc Hs Fit) as (d1 & Ep & F1 & C1). destruct (IH r d1 (sz + zlen (enc (case_of k c))) c (p + zlen x) HA Hfr He2 HBr ltac:(lia)) as (ds & D & SD & G). exists (c :: ds). split; [now apply HD|]. split; [now constructor|]. cbn [map]. rewrite enc_all_cons, zlen_app. intros HL.
      destruct G as (d2 & E2 & F2 & C2); [destruct F1; lia|]. exists d2. rewrite tocase_S. destruct (Z.ltb_spec p end_); [|rewrite zlen_cons in He; pose proof (zlen_nonneg l); lia]. rewrite He, E. cbn [bind fst snd]. rewrite Ep. cbn [bind fst snd]. rewrite <- He, E2. split; [f_equal; f_equal; lia|]. pose proof (zlen_nonneg (enc_all (map (case_of k) ds))). split.
      * eapply frame_trans; [exact F1|exact F2|reflexivity|lia|lia].
      * apply cells_app. split; [eapply frame_cells; [exact F2|exact C1|lia]|exact C2].
    + destruct (IH r d sz c (p + zlen x) HA Hfr He2 HBr Hs) as (ds & D & SD & _). exists (c :: ds). split; [now apply HD|]. split; [now constructor|]. cbn [map]. rewrite enc_all_cons, zlen_app. pose proof (zlen_nonneg (enc_all (map (case_of k) ds))). lia.
Qed.
Lemma tocase_ok v l k : 0 <= k < 3 -> shows v l -> Forall is_byte l -> zlen l <= 2 ^ 60 ->
  exists ds, decodes l ds /\ Forall scalar ds /\ (zlen (enc_all (map (case_of k) ds)) <= Z.max 22 (zlen l * 3 / 2) -> exists s, tocase_sv v k = Ok s /\ repr s (enc_all (map (case_of k) ds))).
Proof.
  intros Hk [HA ES] HB Hl. pose proof (zlen_nonneg l). unfold tocase_sv. rewrite ES. destruct (reserve_ok init [] (zlen l * 3 / 2) init_ok) as (s1 & mv & -> & R1 & L1 & L0 & _); [lia|]. cbn [bind fst]. pose proof R1 as (W1 & C1 & E1 & _). pose proof (wf_cap s1 W1).
  destruct (tocase_loop_ok (mem v) k (buf v + zlen l) Hk (S (Z.to_nat (zlen l))) l (sdata s1) 0 0 (buf v) HA) as (ds & D & SD & G); auto; [unfold zlen; lia|lia|]. exists ds. split; [exact D|]. split; [exact SD|]. intros HL. change (scap init) with 22 in L0. cbn [Z.add] in G.
  destruct G as (d & -> & F & Cd); [lia|]. cbn [bind fst snd]. destruct (wdata_ok s1 d _ _ W1 F) as [W2 _]; [lia|lia|]. destruct (set_size_ok (wdata s1 d) (enc_all (map (case_of k) ds)) (zlen (enc_all (map (case_of k) ds))) W2) as (s2 & -> & R2 & _); [now rewrite sdata_wdata|reflexivity|rewrite scap_wdata; lia|]. cbn [bind].
  destruct (shrink_ok s2 _ R2) as (s3 & E3 & R3 & _). eauto.
Qed.
Lemma case_len k cs : Forall scalar cs -> 2 * zlen (enc_all (map (case_of k) cs)) <= 3 * zlen (enc_all cs).
Proof. induction 1 as [|c cs Hc _ IH]; [reflexivity|]. cbn [map]. rewrite !enc_all_cons, !zlen_app. destruct (case_good k c Hc) as (_ & H & _). lia. Qed.
Lemma tocase_wf v cs k : 0 <= k < 3 -> Forall scalar cs -> shows v (enc_all cs) -> zlen (enc_all cs) <= 2 ^ 60 -> exists s, tocase_sv v k = Ok s /\ repr s (enc_all (map (case_of k) cs)).
Proof.
  intros Hk Hs HV Hl. destruct (tocase_ok v _ k Hk HV (wf_bytes _ Hs) Hl) as (ds & D & _ & G). rewrite (decodes_wf _ Hs _ D) in G. apply G. pose proof (case_len k cs Hs). lia.
Qed.

(** ** Searching *)
Lemma find_at_ok s l pos sm q pat : repr s l -> ~ In 0 l -> 0 <= pos <= zlen l -> zstring sm q pat -> exists r, find_at s pos sm q = Ok r /\ first_at (skipn (Z.to_nat pos) l) pat (match r with Some i => Some (i - pos) | None => None end).
Proof.
  intros R Hz Hp HS. unfold find_at. destruct (view_ok s l R) as (m & -> & _ & HA & _). cbn [bind size mem]. destruct (Z.ltb_spec (zlen l) pos); [lia|].
  assert (HZ : zstring m pos (skipn (Z.to_nat pos) l)).
  { split; [intros Hi; apply Hz; rewrite <- (firstn_skipn (Z.to_nat pos) l); apply in_or_app; now right|]. rewrite <- (firstn_skipn (Z.to_nat pos) l) in HA. rewrite <- app_assoc in HA. apply at_app in HA as [_ HA]. rewrite zlen_firstn in HA by lia. replace (0 + Z.min pos (zlen l)) with pos in HA by lia. exact HA. }
  destruct (strstr_ok m pos _ sm q pat HZ HS) as (r & E & F). unfold z_find in E. destruct (strstr m pos sm q) as [r'|e]; [|discriminate]. cbn [bind] in E. injection E as <-. exists r'. split; auto.
Qed.
Lemma starts_S k m p sm q : starts_loop (S k) m p sm q = (let* b := aget sm q in if b =? 0 then Ok true else let* a := aget m p in if a =? b then starts_loop k m (p + 1) sm (q + 1) else Ok false).
Proof. reflexivity. Qed.
Lemma starts_loop_ok m sm : forall pat l p q fuel, zstring sm q pat -> holds_at m p (l ++ [0]) -> (length pat < fuel)%nat -> exists r, starts_loop fuel m p sm q = Ok r /\ (r = true <-> exists t, l = pat ++ t).
Proof.
  induction pat as [|b pat IH]; intros l p q fuel [Hz HS] HA Hf; (destruct fuel as [|fuel]; [lia|]); rewrite starts_S; cbn [app] in HS; rewrite (at_head _ _ _ _ HS); cbn [bind].
  - exists true. split; [reflexivity|]. split; auto. intros _. exists l. reflexivity.
  - destruct (Z.eqb_spec b 0); [exfalso; apply Hz; now left|]. destruct l as [|a l]; cbn [app] in HA; rewrite (at_head _ _ _ _ HA); cbn [bind].
    + destruct (Z.eqb_spec 0 b); [lia|]. exists false. split; [reflexivity|]. split; [discriminate|]. intros (t & E). discriminate.
    + destruct (Z.eqb_spec a b) as [->|Hne].
      * destruct (IH l (p + 1) (q + 1) fuel) as (r & -> & G); [split; [intros Hi; apply Hz; now right|now apply at_tail in HS]|now apply at_tail in HA|cbn [length] in Hf; lia|]. exists r. split; [reflexivity|]. rewrite G. split; intros (t & E); exists t; [now rewrite E|now injection E].
      * exists false. split; [reflexivity|]. split; [discriminate|]. intros (t & E). injection E. congruence.
Qed.
Lemma starts_with_ok s l sm q pat : repr s l -> zstring sm q pat -> exists r, starts_with s sm q = Ok r /\ (r = true <-> exists t, l = pat ++ t).
Proof.
  intros R HS. unfold starts_with. destruct (view_ok s l R) as (m & _ & _ & HA & ->). apply (starts_loop_ok _ _ pat l); auto. destruct HS as [_ HS]. apply fuel_len in HS. rewrite app_length in HS. cbn in HS. lia.
Qed.
(** ** More occurrences than the count that stands for all *)
Lemma splits_run a : forall n, splits [a] (repeat a n) (repeat [] (S n)).
Proof.
  induction n as [|n IH]; cbn [repeat].
  - apply sp_last. intros j H. apply occurs_range in H. change (zlen [a]) with 1 in H. change (zlen (@nil Z)) with 0 in H. lia.
  - change (a :: repeat a n) with ([] ++ [a] ++ repeat a n). apply sp_next; [|exact IH]. split; [exists [], (repeat a n); split; reflexivity|]. intros j H. apply occurs_range in H. change (zlen (@nil Z)) with 0. lia.
Qed.
Lemma join_run b n : join [b] (repeat [] (S n)) = repeat b n.
Proof. induction n as [|n IH]; [reflexivity|]. cbn [repeat] in *. change (join [b] ([] :: [] :: repeat [] n)) with (b :: join [b] ([] :: repeat [] n)). now rewrite IH. Qed.
Lemma replace_all_refuted : ~ (forall i search repl text sep rep ts, shows i text -> shows search sep -> shows repl rep -> sep <> [] ->
  splits sep text ts -> zlen (join rep ts) <= 2 ^ 60 -> exists s, from_replace i search repl 0 = Ok s /\ repr s (join rep ts)).
Proof.
  intros H. remember (Z.to_nat (2 ^ 31 - 1)) as N eqn:EN. assert (HN : Z.of_nat N = 2 ^ 31 - 1) by lia.
  assert (SA : forall l : list Z, shows (V l 0 (zlen l)) l) by (intros l; split; [exists [], []; split; [now rewrite app_nil_r|reflexivity]|reflexivity]).
  destruct (H (V (repeat 97 (S N)) 0 (zlen (repeat 97 (S N)))) (V [97] 0 1) (V [98] 0 1) (repeat 97 (S N)) [97] [98] (repeat [] (S (S N)))) as (s & E & R); auto; try apply (SA [97]); try apply (SA [98]); [discriminate|apply splits_run|rewrite join_run; unfold zlen; rewrite repeat_length; lia|].
  rewrite join_run in R. destruct (from_replace_ok (V (repeat 97 (S N)) 0 (zlen (repeat 97 (S N)))) (V [97] 0 1) (V [98] 0 1) (repeat 97 (S N)) [97] [98] 0 (repeat 98 N ++ repeat 97 1)) as (s' & E' & R'); auto; try apply (SA [97]); try apply (SA [98]); [discriminate|lia| |unfold zlen; rewrite app_length, !repeat_length; lia|].
  - change (0 =? 0) with true. cbv iota. rewrite <- EN. replace (S N) with (N + 1)%nat by lia. apply replaced_run. lia.
  - rewrite E in E'. injection E' as <-. destruct (repr_read _ _ R) as [G _]. destruct (repr_read _ _ R') as [G' _]. assert (ZZ : zlen (repeat 98 (S N)) = zlen (repeat 98 N ++ repeat 97 1)) by (unfold zlen; rewrite app_length, !repeat_length; lia).
    rewrite ZZ, G' in G. injection G as G. change (98 :: repeat 98 N) with (repeat 98 (S N)) in G. replace (S N) with (N + 1)%nat in G by lia. rewrite repeat_app in G. apply app_inv_head in G. cbn [repeat] in G. apply (f_equal (hd 0)) in G. cbn [hd] in G. lia.
Qed.
