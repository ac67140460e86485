From Verif Require Import Base Slots Utf8_Model Utf8_Spec Utf8_Proofs Utf8_Proofs2 Utf8_Proofs3 Utf8_Proofs4 Utf8_Proofs5 View_Model View_Spec View_Proofs View_Proofs2 Cstr_Model Cstr_Spec Cstr_Proofs.
Ltac Zify.zify_post_hook ::= Z.to_euclidean_division_equations.

(** ** The flag of the two layouts *)
Lemma lflag_high x : 0 <= x < 256 -> lflag x = (128 <=? x).
Proof.
  intros H. unfold lflag. assert (F : forallb (fun x => Bool.eqb (negb (Z.land x 128 =? 0)) (128 <=? x)) (map Z.of_nat (seq 0 256)) = true) by (vm_compute; reflexivity).
  pose proof (proj1 (forallb_forall _ _) F x) as G. cbv beta in G. apply Bool.eqb_prop. apply G. apply in_map_iff. exists (Z.to_nat x). split; [lia|]. apply in_seq. lia.
Qed.
Lemma le_layout cap : 0 <= cap < 2 ^ 63 -> 0 <= ncap_le cap < 2 ^ 64 /\ lflag (ncap_le cap / 2 ^ 56) = true /\ cap_le (ncap_le cap) = cap.
Proof.
  intros H. unfold ncap_le, cap_le. split; [lia|]. split; [|lia]. rewrite lflag_high by lia. apply Z.leb_le. lia.
Qed.
Lemma be_layout cap : 0 <= cap < 2 ^ 63 -> 0 <= ncap_be cap < 2 ^ 64 /\ lflag (ncap_be cap mod 256) = true /\ cap_be (ncap_be cap) = cap.
Proof.
  intros H. set (hi := cap / 2 ^ 56). set (lo := cap mod 2 ^ 56). assert (Hc : cap = hi * 2 ^ 56 + lo) by (unfold hi, lo; lia). assert (Hh : 0 <= hi < 128) by (unfold hi; lia). assert (Hl : 0 <= lo < 2 ^ 56) by (unfold lo; lia).
  assert (E1 : ncap_be cap = (2 ^ 56 - 1 - lo) * 256 + (255 - hi)).
  { unfold ncap_be. fold hi. replace (cap * 256 mod 2 ^ 64) with (lo * 256); [lia|]. clearbody hi lo. subst cap. apply Z.mod_unique with hi; lia. }
  clearbody hi lo. rewrite E1. split; [lia|]. split.
  - replace (((2 ^ 56 - 1 - lo) * 256 + (255 - hi)) mod 256) with (255 - hi) by (apply Z.mod_unique with (2 ^ 56 - 1 - lo); lia). rewrite lflag_high by lia. apply Z.leb_le. lia.
  - unfold cap_be. replace (((2 ^ 56 - 1 - lo) * 256 + (255 - hi)) * 2 ^ 56 mod 2 ^ 64) with ((255 - hi) * 2 ^ 56) by (apply Z.mod_unique with (2 ^ 56 - 1 - lo); lia).
    replace (((2 ^ 56 - 1 - lo) * 256 + (255 - hi)) / 256) with (2 ^ 56 - 1 - lo) by (apply Z.div_unique with (255 - hi); lia). lia.
Qed.

Lemma cells_rdn d i l n : cells d i l -> zlen l = n -> 0 <= i -> i + n <= zlen d -> rds d i n = Ok l.
Proof. intros C <-. now apply cells_rds. Qed.

(** ** Views of a string *)
Lemma view_ok s l : repr s l -> exists m, view_of s = Ok (V m 0 (zlen l)) /\ shows (V m 0 (zlen l)) l /\ holds_at m 0 (l ++ [0]) /\ m = bytes_of (sdata s).
Proof.
  intros (W & C & E & L). unfold view_of. rewrite E. cbn [bind]. destruct (cells_bytes _ _ C) as [t Et]. exists (bytes_of (sdata s)). split; [reflexivity|].
  assert (HA : holds_at (bytes_of (sdata s)) 0 (l ++ [0])) by (exists [], t; rewrite Et; split; reflexivity). split; [|auto]. split; [|reflexivity]. now apply at_app in HA.
Qed.
Lemma zview_ok s l : repr s l -> ~ In 0 l -> zstring (bytes_of (sdata s)) 0 l.
Proof. intros R H. destruct (view_ok s l R) as (m & _ & _ & HA & ->). split; auto. Qed.

(** ** Assignment of a part *)
Lemma assign_self s l off n : repr s l -> 0 <= off -> 0 <= n -> off + n <= zlen l -> off = 0 \/ n < off -> exists s', assign_n s (Self off n) = Ok s' /\ repr s' (sub l off n).
Proof.
  intros R H1 H2 H3 HD. pose proof R as (W & C & E & L). unfold assign_n. cbn [slen fetch]. destruct (reserve_ok s l n R) as (s1 & mv & -> & R1 & L1 & _ & M1 & M2); [pose proof (wf_cap s W); lia|]. cbn [bind fst snd]. rewrite (M2 ltac:(lia)) in *. rewrite (M1 eq_refl) in *.
  destruct (set_size_gen s n W ltac:(lia)) as (s2 & -> & W2 & S2 & P2 & C2 & K2). cbn [bind]. pose proof (wf_cap s2 W2). pose proof (sub_len l off n H1 H2 H3) as Zs.
  assert (CS : cells (sdata s2) off (sub l off n)). { apply K2; [rewrite Zs; lia|rewrite Zs; lia|]. apply (cells_sub _ 0 l off n); auto. now apply repr_data. }
  rewrite (cells_rdn _ _ _ n CS) by lia. cbn [bind]. destruct (filled s2 (sub l off n) W2) as (d & -> & R'); rewrite ?Zs; auto; [lia|]. cbn [bind]. eauto.
Qed.
(** Insertion of a part that lies before the position, without reallocation. *)
Lemma insert_self s l pos off n : repr s l -> 0 <= off -> 0 <= n -> off + n <= pos -> pos <= zlen l -> zlen l + n <= scap s -> zlen l + n <= 2 ^ 61 ->
  exists s', insert s pos (Self off n) = Ok s' /\ repr s' (firstn (Z.to_nat pos) l ++ sub l off n ++ skipn (Z.to_nat pos) l).
Proof.
  intros R H1 H2 H3 H4 H5 H6. assert (Zs : zlen (sub l off n) = n) by (apply sub_len; lia).
  destruct (insert_ok s l pos (sub l off n) R) as (s' & E & R'); [lia|lia|]. exists s'. split; [|exact R']. rewrite <- E. unfold insert, replace_at. cbn [slen]. rewrite Zs. rewrite !Z.add_0_r.
  destruct (internal_move s pos (pos + n)) as [[s2 mv]|e] eqn:EM; [|reflexivity]. cbn [bind fst snd].
  assert (HH : mv = false /\ 22 <= scap s2 /\ scap s2 + 1 <= zlen (sdata s2) /\ scap s <= scap s2 /\ cells (sdata s2) 0 (firstn (Z.to_nat pos) l)).
  { pose proof R as (W & C & Es & L). unfold internal_move in EM. rewrite Es in EM. cbn [bind] in EM. pose proof (wf_cap s W) as K. destruct (Z.eqb_spec pos (pos + n)).
    - injection EM as <- <-. split; auto. split; [lia|]. split; [lia|]. split; [lia|]. apply (cells_split _ 0 l pos); [lia|now apply repr_data].
    - destruct (Z.ltb_spec (scap s) (zlen l + (pos + n) - pos)); [lia|]. cbn [bind fst snd] in EM.
      destruct (amove_ok (sdata s) pos (pos + n) (zlen l - pos)) as (d & Em & F & CM); try lia. rewrite Em in EM. cbn [bind] in EM. destruct (wdata_ok s d _ _ W F) as [W2 S2]; [lia|lia|].
      destruct (set_size_gen (wdata s d) (zlen l + (pos + n) - pos) W2) as (s3 & E3 & W3 & S3 & P3 & C3 & K3); [rewrite scap_wdata; lia|]. rewrite E3 in EM. cbn [bind] in EM. injection EM as <- <-. rewrite scap_wdata in *. rewrite sdata_wdata in *.
      pose proof (wf_cap s3 W3). split; [auto|]. split; [lia|]. split; [lia|]. split; [lia|]. assert (Zf : zlen (firstn (Z.to_nat pos) l) = pos) by (rewrite zlen_firstn by lia; lia). apply K3; [rewrite Zf; lia|rewrite Zf; lia|]. eapply frame_cells; [exact F|apply (cells_split _ 0 l pos); [lia|now apply repr_data]|]. rewrite Zf. lia. }
  destruct HH as (-> & K1 & K2 & K3 & CP). unfold copy_in. cbn [fetch].
  assert (ES : sub l off n = sub (firstn (Z.to_nat pos) l) off n). { unfold sub. rewrite <- (firstn_skipn (Z.to_nat pos) l) at 1. rewrite skipn_app, firstn_app.
    replace (Z.to_nat n - length (skipn (Z.to_nat off) (firstn (Z.to_nat pos) l)))%nat with O by (rewrite skipn_length, firstn_length; unfold zlen in *; lia). cbn [firstn]. now rewrite app_nil_r. }
  assert (Zf : zlen (firstn (Z.to_nat pos) l) = pos) by (rewrite zlen_firstn by lia; lia).
  pose proof (cells_sub (sdata s2) 0 (firstn (Z.to_nat pos) l) off n H1 H2 ltac:(lia) CP) as CS. rewrite <- ES in CS. cbn [Z.add] in CS. rewrite (cells_rdn _ _ _ n CS) by lia. cbn [bind].
  destruct (Z.ltb_spec pos (off + n)); [lia|]. rewrite andb_false_r. reflexivity.
Qed.

(** ** Appending room and filling it *)
Lemma append_uninit_ok s l n : repr s l -> 0 <= n -> zlen l + n <= 2 ^ 61 ->
  exists s', append_uninit s n = Ok s' /\ ssize s' = Ok (zlen l + n) /\ cells (sdata s') 0 l /\
    forall b, zlen b = n -> exists d, wrs (sdata s') (zlen l) b = Ok d /\ repr (wdata s' d) (l ++ b).
Proof.
  intros R Hn Hb. pose proof R as (W & C & E & L). pose proof (zlen_nonneg l). unfold append_uninit. rewrite E. cbn [bind].
  assert (exists s1 mv, (if scap s <? zlen l + n then let* c := grow (zlen l) n in reserve s c else Ok (s, false)) = Ok (s1, mv) /\ repr s1 l /\ zlen l + n <= scap s1) as (s1 & mv & -> & R1 & L1).
  { destruct (Z.ltb_spec (scap s) (zlen l + n)); [|exists s, false; auto]. destruct (grow_ok (zlen l) n) as (c & -> & G); try lia. cbn [bind]. destruct (reserve_ok s l c R) as (s1 & mv & E1 & R1 & L2 & _); [lia|]. exists s1, mv. split; [exact E1|]. split; [exact R1|]. lia. }
  cbn [bind fst]. pose proof R1 as (W1 & C1 & E1 & _). destruct (set_size_gen s1 (zlen l + n) W1 ltac:(lia)) as (s2 & -> & W2 & S2 & P2 & C2 & K2). exists s2. split; [reflexivity|]. split; [exact S2|].
  assert (CL : cells (sdata s2) 0 l) by (apply K2; [lia|lia|now apply repr_data]). split; [exact CL|]. intros b Zb. destruct (write_ok s2 (zlen l) b W2) as (d & Ed & W3 & S3 & F3 & C3); [lia|lia|]. exists d. split; [exact Ed|].
  split; [exact W3|]. rewrite sdata_wdata, scap_wdata. split; [|split; [rewrite S3, S2, zlen_app; f_equal; lia|rewrite zlen_app; lia]]. rewrite <- app_assoc. apply cells_app. split; [eapply frame_cells; [exact F3|exact CL|lia]|]. apply cells_app. split; [exact C3|].
  eapply frame_cells; [exact F3| |right; cbn [Z.add]; lia]. cbn [Z.add]. now rewrite Zb.
Qed.

(** ** Replacing *)
Lemma replaced_total sep rep n : sep <> [] -> forall text, exists out, replaced sep rep n text out.
Proof.
  intros Hs. induction n as [|n IH]; intros text; [exists text; constructor|]. destruct (strnstrn_ok text 0 text sep 0 sep) as (r & _ & F); [exists [], []; rewrite app_nil_r; split; reflexivity|exists [], []; rewrite app_nil_r; split; reflexivity|].
  destruct r as [i|]; [|exists text; now constructor]. pose proof F as [(x & y & -> & L) _]. destruct (IH y) as [out H]. exists (x ++ rep ++ out). constructor; auto. now rewrite L.
Qed.
Lemma replaced_fun sep rep n text out1 : replaced sep rep n text out1 -> forall out2, replaced sep rep n text out2 -> out1 = out2.
Proof.
  induction 1 as [text|n text F|n t r out F H IH]; intros out2 H2.
  - inversion H2; subst; auto.
  - inversion H2 as [|? ? F2|? t2 r2 o2 F2 H3]; subst; auto. pose proof (first_unique _ _ _ _ F F2) as E. discriminate E.
  - inversion H2 as [?|? ? F2|? t2 r2 o2 F2 H3 E1 E2]; subst.
    + pose proof (first_unique _ _ _ _ F F2) as E. discriminate E.
    + rewrite E2 in F2. pose proof (first_unique _ _ _ _ F F2) as E. injection E as E. symmetry in E2. apply app_same_len in E2 as [<- E2]; auto. apply app_inv_head in E2 as <-. now rewrite (IH _ H3).
Qed.
Lemma replace_loop_S k out i search repl from count : replace_loop (S k) out i search repl from count =
  (if count =? 0 then Ok (out, from) else
    let* r := strnstrn (mem i) (buf i + from) (size i - from) (mem search) (buf search) (size search) in
    match r with
    | None => Ok (out, from)
    | Some q =>
      let* b := aslice (mem i) (buf i + from) (q - buf i - from) in
      let* out := append_n out (Ext b) in
      let* out := append_n out (Ext repl) in
      replace_loop k out i search repl (q - buf i + size search) (count - 1)
    end).
Proof. reflexivity. Qed.
Lemma replace_loop_ok i search text sep repl : shows i text -> shows search sep -> sep <> [] -> forall n rest out, replaced sep repl n rest out -> forall fuel s acc pre,
  text = pre ++ rest -> repr s acc -> (length rest < fuel)%nat -> zlen acc + zlen out <= 2 ^ 61 ->
  exists s' o pre' rest', replace_loop fuel s i search repl (zlen pre) (Z.of_nat n) = Ok (s', zlen pre') /\ text = pre' ++ rest' /\ repr s' (acc ++ o) /\ out = o ++ rest'.
Proof.
  intros [HI EI] [HS ES] Hne. induction 1 as [rest|n rest F|n t r out F H IH]; intros fuel s acc pre Ht R Hf Hl; (destruct fuel as [|fuel]; [lia|]); rewrite replace_loop_S.
  - cbn [Z.of_nat Z.eqb]. exists s, [], pre, rest. rewrite app_nil_r. auto.
  - destruct (Z.eqb_spec (Z.of_nat n) 0); [exists s, [], pre, rest; rewrite app_nil_r; auto|]. rewrite ES, EI. pose proof HI as HI'. rewrite Ht in HI'. apply at_app in HI' as [_ HI'].
    replace (zlen text - zlen pre) with (zlen rest) by (rewrite Ht, zlen_app; lia). destruct (strnstrn_ok _ _ _ _ _ _ HI' HS) as (q & -> & F'). cbn [bind]. pose proof (first_unique _ _ _ _ F F') as E. destruct q; [discriminate|]. exists s, [], pre, rest. rewrite app_nil_r. auto.
  - destruct (Z.eqb_spec (Z.of_nat (S n)) 0); [lia|]. rewrite ES, EI. pose proof HI as HI'. rewrite Ht in HI'. apply at_app in HI' as [_ HI'].
    replace (zlen text - zlen pre) with (zlen (t ++ sep ++ r)) by (rewrite Ht, (zlen_app pre); lia). destruct (strnstrn_ok _ _ _ _ _ _ HI' HS) as (q & -> & F'). cbn [bind]. pose proof (first_unique _ _ _ _ F F') as E. destruct q as [q|]; [|discriminate]. injection E as E.
    replace (q - buf i - zlen pre) with (zlen t) by lia. rewrite (at_slice _ _ _ t (sep ++ r) HI' eq_refl). cbn [bind]. rewrite !zlen_app in Hl. pose proof (zlen_nonneg out). pose proof (zlen_nonneg repl). pose proof (zlen_nonneg t).
    destruct (append_ok s acc (Ext t) t R eq_refl) as (s1 & -> & R1); [lia|]. cbn [bind]. destruct (append_ok s1 _ (Ext repl) repl R1 eq_refl) as (s2 & -> & R2); [rewrite zlen_app; lia|]. cbn [bind].
    destruct (IH fuel s2 ((acc ++ t) ++ repl) (pre ++ t ++ sep)) as (s' & o & pre' & rest' & E1 & E2 & E3 & E4).
    + rewrite Ht, <- !app_assoc. reflexivity.
    + exact R2.
    + rewrite !app_length in Hf. destruct sep; [contradiction|]. cbn [length] in Hf. lia.
    + rewrite !zlen_app. lia.
    + exists s', (t ++ repl ++ o), pre', rest'. split; [|split; [exact E2|split; [now rewrite <- !app_assoc in E3|rewrite E4; now rewrite <- !app_assoc]]].
      rewrite <- E1. f_equal; [rewrite !zlen_app; lia|lia].
Qed.
Lemma slice_self v l : shows v l -> aslice (mem v) (buf v) (size v) = Ok l.
Proof. intros [H ->]. apply (at_slice _ _ l l []); [exact H|now rewrite app_nil_r]. Qed.
Lemma from_replace_ok i search repl text sep rep count out : shows i text -> shows search sep -> shows repl rep -> sep <> [] -> 0 <= count ->
  replaced sep rep (Z.to_nat (if count =? 0 then 2 ^ 31 - 1 else count)) text out -> zlen out <= 2 ^ 60 -> exists s, from_replace i search repl count = Ok s /\ repr s out.
Proof.
  intros HI HS HR Hne Hc H Hl. unfold from_replace. rewrite (slice_self _ _ HR). cbn [bind]. pose proof HS as [_ ES]. rewrite ES. destruct (Z.eqb_spec (zlen sep) 0) as [E0|E0]; [destruct sep; [contradiction|]; rewrite zlen_cons in E0; pose proof (zlen_nonneg sep); lia|].
  set (cn := if count =? 0 then 2 ^ 31 - 1 else count) in *. assert (Hcn : Z.of_nat (Z.to_nat cn) = cn) by (unfold cn; destruct (count =? 0); lia).
  pose proof HI as [HIm EI]. destruct (replace_loop_ok i search text sep rep HI HS Hne _ _ _ H (S (Z.to_nat (size i))) init [] []) as (s' & o & pre & rest & E1 & E2 & E3 & E4); auto; [apply init_ok|rewrite EI; unfold zlen; lia|change (zlen (@nil Z)) with 0; lia|].
  rewrite Hcn in E1. change (zlen (@nil Z)) with 0 in E1. rewrite E1. cbn [bind fst snd]. rewrite E2 in HIm. pose proof HIm as HIm2. apply at_app in HIm2 as [_ HIm2]. rewrite EI. replace (zlen text - zlen pre) with (zlen rest) by (rewrite E2, zlen_app; lia).
  rewrite (at_slice _ _ rest rest [] HIm2) by (now rewrite app_nil_r). cbn [bind]. cbn [app] in E3. destruct (append_ok s' o (Ext rest) rest E3 eq_refl) as (s2 & -> & R2); [rewrite E4, zlen_app in Hl; lia|]. exists s2. split; [reflexivity|]. now rewrite E4.
Qed.
Lemma from_replace_empty i search repl text rep count : shows i text -> shows search [] -> shows repl rep -> zlen text <= 2 ^ 60 -> exists s, from_replace i search repl count = Ok s /\ repr s text.
Proof.
  intros HI [_ ES] HR Hl. unfold from_replace. rewrite (slice_self _ _ HR). cbn [bind]. rewrite ES. change (zlen (@nil Z) =? 0) with true. cbn [bind fst snd]. rewrite Z.add_0_r, Z.sub_0_r, (slice_self _ _ HI). cbn [bind]. apply (append_ok init [] (Ext text) text); [apply init_ok|reflexivity|change (zlen (@nil Z)) with 0; lia].
Qed.
Lemma replaced_splits sep rep text ts : splits sep text ts -> forall n, (length ts <= S n)%nat -> replaced sep rep n text (join rep ts).
Proof.
  induction 1 as [t F|t r ts F SP IH]; intros n Hn; [now constructor|]. destruct ts as [|t2 ts]; [inversion SP|]. destruct n as [|n]; [cbn [length] in Hn; lia|]. cbn [join]. constructor; auto. apply IH. cbn [length] in Hn |- *. lia.
Qed.
Lemma splits_count sep text ts : sep <> [] -> splits sep text ts -> (length ts <= S (length text))%nat.
Proof. intros Hn. induction 1 as [t F|t r ts F SP IH]; cbn [length]; [lia|]. rewrite !app_length. destruct sep; [contradiction|]. cbn [length]. lia. Qed.
Lemma replaced_run a b : a <> b -> forall n m, replaced [a] [b] n (repeat a (n + m)) (repeat b n ++ repeat a m).
Proof.
  intros Hab. induction n as [|n IH]; intros m; cbn [Nat.add repeat app]; [constructor|]. change (a :: repeat a (n + m)) with ([] ++ [a] ++ repeat a (n + m)). change (b :: repeat b n ++ repeat a m) with ([] ++ [b] ++ (repeat b n ++ repeat a m)).
  constructor; [|apply IH]. split; [exists [], (repeat a (n + m)); split; reflexivity|]. intros j H. apply occurs_range in H. change (zlen (@nil Z)) with 0. lia.
Qed.

(** ** Joining *)
Lemma join_cons sep t ts : join sep (t :: ts) = t ++ concat (map (app sep) ts).
Proof. revert t. induction ts as [|u ts IH]; intros t; [cbn; now rewrite app_nil_r|]. change (join sep (t :: u :: ts)) with (t ++ sep ++ join sep (u :: ts)). rewrite IH. cbn [map concat]. now rewrite <- app_assoc. Qed.
Lemma join_loop_ok sep : forall arr s l cur, repr s l -> zlen l + zlen (match arr with [] => [] | b :: r => cur ++ b ++ concat (map (app sep) r) end) <= 2 ^ 61 ->
  exists s', join_loop s cur sep arr = Ok s' /\ repr s' (l ++ match arr with [] => [] | b :: r => cur ++ b ++ concat (map (app sep) r) end).
Proof.
  induction arr as [|b arr IH]; intros s l cur R Hl; cbn [join_loop]; [exists s; rewrite app_nil_r; auto|]. rewrite !zlen_app in Hl. pose proof (zlen_nonneg cur). pose proof (zlen_nonneg b). pose proof (zlen_nonneg (concat (map (app sep) arr))).
  destruct (append_ok s l (Ext cur) cur R eq_refl) as (s1 & -> & R1); [lia|]. cbn [bind]. destruct (append_ok s1 _ (Ext b) b R1 eq_refl) as (s2 & -> & R2); [rewrite zlen_app; lia|]. cbn [bind].
  destruct (IH s2 ((l ++ cur) ++ b) sep R2) as (s' & -> & R').
  - rewrite !zlen_app. destruct arr as [|b2 arr]; cbn [map concat] in *; [change (zlen (@nil Z)) with 0 in *; lia|]. rewrite <- app_assoc in *. lia.
  - exists s'. split; [reflexivity|]. rewrite <- !app_assoc in R'. destruct arr as [|b2 arr]; cbn [map concat]; [exact R'|]. now rewrite <- !app_assoc.
Qed.
Lemma join_n_ok s l sep arr : repr s l -> zlen l + zlen sep + zlen (join sep arr) <= 2 ^ 61 -> exists s', join_n s sep arr = Ok s' /\
  repr s' (match l, arr with _, [] => l | [], _ => join sep arr | _, _ => l ++ sep ++ join sep arr end).
Proof.
  intros R Hl. pose proof R as (_ & _ & E & _). unfold join_n. rewrite E. cbn [bind]. pose proof (zlen_nonneg l). pose proof (zlen_nonneg sep). destruct arr as [|b arr].
  - destruct (join_loop_ok sep [] s l (if zlen l =? 0 then [] else sep) R) as (s' & -> & R'); [change (zlen (@nil Z)) with 0; pose proof (zlen_nonneg (join sep [])); lia|]. rewrite app_nil_r in R'. exists s'. split; auto. now destruct l.
  - rewrite join_cons in *. destruct (join_loop_ok sep (b :: arr) s l (if zlen l =? 0 then [] else sep) R) as (s' & -> & R').
    + rewrite !zlen_app in *. destruct (zlen l =? 0); [change (zlen (@nil Z)) with 0|]; lia.
    + exists s'. split; [reflexivity|]. destruct l as [|x l]; [exact R'|]. destruct (Z.eqb_spec (zlen (x :: l)) 0) as [Z0|Z0]; [rewrite zlen_cons in Z0; pose proof (zlen_nonneg l); lia|exact R'].
Qed.

(** ** Reading from a stream *)
Lemma getdelim_S k s cap pos delim c io : getdelim_loop (S k) s cap pos delim c io =
  (if c =? delim then let* s := set_size s pos in Ok (s, io)
    else
      let* r := if pos =? cap then
                  let* s := set_size s pos in
                  let* c2 := grow cap 16 in
                  let* r := reserve s c2 in Ok (fst r, c2)
                else Ok (s, cap) in
      let* d := wr (sdata (fst r)) pos c in
      let s := wdata (fst r) d in
      match io with
      | [] => let* s := set_size s (pos + 1) in Ok (s, [])
      | c' :: io' => getdelim_loop k s (snd r) (pos + 1) delim c' io'
      end).
Proof. reflexivity. Qed.
Lemma getdelim_loop_ok delim : forall io fuel s cap c acc, wf s -> cells (sdata s) 0 acc -> zlen acc <= cap -> cap <= scap s -> zlen acc + zlen io < 2 ^ 60 -> (length io < fuel)%nat ->
  exists s', (exists line rest, c :: io = line ++ delim :: rest /\ ~ In delim line /\ getdelim_loop fuel s cap (zlen acc) delim c io = Ok (s', rest) /\ repr s' (acc ++ line)) \/
             (~ In delim (c :: io) /\ getdelim_loop fuel s cap (zlen acc) delim c io = Ok (s', []) /\ repr s' (acc ++ c :: io)).
Proof.
  induction io as [|c' io IH]; intros fuel s cap c acc W C H1 H2 H4 Hf; (destruct fuel as [|fuel]; [cbn [length] in Hf; lia|]); rewrite getdelim_S; pose proof (zlen_nonneg acc).
  - destruct (Z.eqb_spec c delim) as [->|Hc].
    + destruct (set_size_ok s acc (zlen acc) W C eq_refl) as (s' & -> & R' & _); [lia|]. cbn [bind]. exists s'. left. exists [], []. rewrite app_nil_r. split; [reflexivity|]. split; [intros []|]. auto.
    + change (zlen (@nil Z)) with 0 in H4. assert (exists s1 c1, (if zlen acc =? cap then let* s := set_size s (zlen acc) in let* c2 := grow cap 16 in let* r := reserve s c2 in Ok (fst r, c2) else Ok (s, cap)) = Ok (s1, c1) /\ wf s1 /\ cells (sdata s1) 0 acc /\ zlen acc < c1 <= scap s1) as (s1 & c1 & -> & W1 & C1 & K1).
      { destruct (Z.eqb_spec (zlen acc) cap) as [E|E]; [|exists s, cap; repeat split; auto; lia]. destruct (set_size_ok s acc (zlen acc) W C eq_refl) as (s0 & -> & R0 & _); [lia|]. cbn [bind]. destruct (grow_ok cap 16) as (c2 & -> & G); try lia. cbn [bind].
        destruct (reserve_ok s0 acc c2 R0) as (s1 & mv & -> & R1 & L1 & _); [lia|]. cbn [bind fst]. exists s1, c2. split; [reflexivity|]. split; [apply R1|]. split; [now apply repr_data|]. lia. }
      cbn [bind fst snd]. pose proof (wf_cap s1 W1). destruct (wr_ok (sdata s1) (zlen acc) c ltac:(lia)) as (d & -> & F & Cd). cbn [bind]. destruct (wdata_ok s1 d _ _ W1 F) as [W2 S2]; [lia|lia|]. cbv zeta.
      destruct (set_size_ok (wdata s1 d) (acc ++ [c]) (zlen acc + 1) W2) as (s' & -> & R' & _).
      * rewrite sdata_wdata. apply cells_app. split; [eapply frame_cells; [exact F|exact C1|lia]|exact Cd].
      * now rewrite zlen_app.
      * rewrite scap_wdata, zlen_app. change (zlen [c]) with 1. lia.
      * cbn [bind]. exists s'. right. split; [intros [E|[]]; congruence|]. auto.
  - destruct (Z.eqb_spec c delim) as [->|Hc].
    + destruct (set_size_ok s acc (zlen acc) W C eq_refl) as (s' & -> & R' & _); [lia|]. cbn [bind]. exists s'. left. exists [], (c' :: io). rewrite app_nil_r. split; [reflexivity|]. split; [intros []|]. auto.
    + rewrite zlen_cons in H4. pose proof (zlen_nonneg io). assert (exists s1 c1, (if zlen acc =? cap then let* s := set_size s (zlen acc) in let* c2 := grow cap 16 in let* r := reserve s c2 in Ok (fst r, c2) else Ok (s, cap)) = Ok (s1, c1) /\ wf s1 /\ cells (sdata s1) 0 acc /\ zlen acc < c1 <= scap s1) as (s1 & c1 & -> & W1 & C1 & K1).
      { destruct (Z.eqb_spec (zlen acc) cap) as [E|E]; [|exists s, cap; repeat split; auto; lia]. destruct (set_size_ok s acc (zlen acc) W C eq_refl) as (s0 & -> & R0 & _); [lia|]. cbn [bind]. destruct (grow_ok cap 16) as (c2 & EG & G); try lia. rewrite EG. cbn [bind].
        destruct (reserve_ok s0 acc c2 R0) as (s1 & mv & -> & R1 & L1 & _); [lia|]. cbn [bind fst]. exists s1, c2. split; [reflexivity|]. split; [apply R1|]. split; [now apply repr_data|]. lia. }
      cbn [bind fst snd]. pose proof (wf_cap s1 W1). destruct (wr_ok (sdata s1) (zlen acc) c ltac:(lia)) as (d & -> & F & Cd). cbn [bind]. destruct (wdata_ok s1 d _ _ W1 F) as [W2 S2]; [lia|lia|]. cbv zeta.
      assert (CA : cells (sdata (wdata s1 d)) 0 (acc ++ [c])). { rewrite sdata_wdata. apply cells_app. split; [eapply frame_cells; [exact F|exact C1|lia]|exact Cd]. }
      assert (Za : zlen (acc ++ [c]) = zlen acc + 1) by now rewrite zlen_app.
      destruct (IH fuel (wdata s1 d) c1 c' (acc ++ [c]) W2 CA) as (s' & [(line & rest & E1 & E2 & E3 & E4)|(E1 & E2 & E3)]); try (rewrite ?Za, ?scap_wdata; lia); try (cbn [length] in Hf; lia); auto.
      * exists s'. left. exists (c :: line), rest. split; [cbn [app]; now rewrite E1|]. split; [intros [E|E]; [congruence|contradiction]|]. rewrite Za in E3. split; [exact E3|]. now rewrite <- app_assoc in E4.
      * exists s'. right. split; [intros [E|E]; [congruence|contradiction]|]. rewrite Za in E2. split; [exact E2|]. now rewrite <- app_assoc in E3.
Qed.
