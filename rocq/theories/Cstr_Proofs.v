From Verif Require Import Base Slots Utf8_Model Utf8_Spec Utf8_Proofs View_Model View_Spec Cstr_Model Cstr_Spec.

(** ** Slots *)
Definition frame (d d' : slots Z) (i n : Z) : Prop := zlen d' = zlen d /\ forall k, ~ (i <= k < i + n) -> aget d' k = aget d k.
Lemma cells_nil d i : cells d i [].
Proof. intros k x H. apply aget_ok_range in H. change (zlen (@nil Z)) with 0 in H. lia. Qed.
Lemma cells_app d i a b : cells d i (a ++ b) <-> cells d i a /\ cells d (i + zlen a) b.
Proof.
  split.
  - intros H. split; intros k x E; pose proof (aget_ok_range _ _ _ E).
    + apply H. rewrite aget_app1; auto. lia.
    + rewrite <- Z.add_assoc. apply H. rewrite aget_app2 by lia. rewrite <- E. f_equal. lia.
  - intros [H1 H2] k x E. pose proof (aget_ok_range _ _ _ E). rewrite aget_app in E by lia. destruct (Z.ltb_spec k (zlen a)); [now apply H1|].
    apply H2 in E. rewrite <- E. f_equal. lia.
Qed.
Lemma cells_one d i x : cells d i [x] <-> aget d i = Ok (Some x).
Proof.
  split.
  - intros H. specialize (H 0 x eq_refl). now rewrite Z.add_0_r in H.
  - intros H k y E. pose proof (aget_ok_range _ _ _ E) as R. change (zlen [x]) with 1 in R. assert (k = 0) as -> by lia. injection E as <-. now rewrite Z.add_0_r.
Qed.
Lemma cells_len d i l : cells d i l -> l <> [] -> 0 <= i /\ i + zlen l <= zlen d.
Proof.
  intros H Hn. pose proof (zlen_nonneg l). assert (0 < zlen l) by (destruct l; [contradiction|]; rewrite zlen_cons; pose proof (zlen_nonneg l); lia).
  destruct (aget_some l 0 ltac:(lia)) as [x Ex]. destruct (aget_some l (zlen l - 1) ltac:(lia)) as [y Ey]. apply H in Ex, Ey. apply aget_ok_range in Ex, Ey. lia.
Qed.
Lemma frame_cells d d' i n j l : frame d d' i n -> cells d j l -> (j + zlen l <= i \/ i + n <= j) -> cells d' j l.
Proof. intros [_ F] H D k x E. pose proof (aget_ok_range _ _ _ E). rewrite F by lia. now apply H. Qed.
Lemma wr_ok (d : slots Z) i x : 0 <= i < zlen d -> exists d', wr d i x = Ok d' /\ frame d d' i 1 /\ cells d' i [x].
Proof.
  intros H. unfold wr. destruct (aset_some d i (Some x) H) as [d' E]. exists d'. split; [exact E|]. split.
  - split; [eapply aset_zlen; eauto|]. intros k Hk. eapply aget_aset_other; eauto. lia.
  - apply cells_one. eapply aget_aset_same; eauto.
Qed.
Lemma wrs_ok (d : slots Z) i xs : 0 <= i -> i + zlen xs <= zlen d -> exists d', wrs d i xs = Ok d' /\ frame d d' i (zlen xs) /\ cells d' i xs.
Proof.
  intros Hi H. unfold wrs. destruct (ablit_some d i (map Some xs) Hi) as [d' E]; [rewrite zlen_map; lia|]. exists d'. split; [exact E|]. apply ablit_inv in E as (_ & _ & Z1 & G). rewrite zlen_map in G. split.
  - split; [exact Z1|]. intros k Hk. rewrite G. destruct (Z.leb_spec i k), (Z.ltb_spec k (i + zlen xs)); cbn [andb]; auto. lia.
  - intros k x Ek. pose proof (aget_ok_range _ _ _ Ek). rewrite G. destruct (Z.leb_spec i (i + k)), (Z.ltb_spec (i + k) (i + zlen xs)); cbn [andb]; try lia.
    rewrite aget_map. replace (i + k - i) with k by lia. now rewrite Ek.
Qed.
Lemma amove_ok (d : slots Z) src dst n : 0 <= src -> 0 <= dst -> 0 <= n -> src + n <= zlen d -> dst + n <= zlen d ->
  exists d', amove d src dst n = Ok d' /\ frame d d' dst n /\ forall l, zlen l = n -> cells d src l -> cells d' dst l.
Proof.
  intros H1 H2 H3 H4 H5. destruct (amove_some d src dst n) as [d' E]; auto. exists d'. split; [exact E|]. apply amove_inv in E as (_ & _ & _ & _ & _ & Z1 & G). split.
  - split; [exact Z1|]. intros k Hk. rewrite G. destruct (Z.leb_spec dst k), (Z.ltb_spec k (dst + n)); cbn [andb]; auto. lia.
  - intros l Hl Hc k x Ek. pose proof (aget_ok_range _ _ _ Ek). rewrite G. destruct (Z.leb_spec dst (dst + k)), (Z.ltb_spec (dst + k) (dst + n)); cbn [andb]; try lia.
    replace (dst + k - dst + src) with (src + k) by lia. now apply Hc.
Qed.
Lemma cells_rd d i x : cells d i [x] -> rd d i = Ok x.
Proof. intros H. apply cells_one in H. unfold rd. now rewrite H. Qed.
Lemma cells_slice d i l : cells d i l -> 0 <= i -> i + zlen l <= zlen d -> aslice d i (zlen l) = Ok (map Some l).
Proof.
  intros H Hi Hl. pose proof (zlen_nonneg l). rewrite aslice_ok by lia. f_equal. apply aget_ext.
  - rewrite zlen_firstn, zlen_skipn, zlen_map by lia. lia.
  - intros k Hk. rewrite zlen_firstn, zlen_skipn in Hk by lia. rewrite aget_firstn, aget_skipn, aget_map by lia. destruct (aget_some l k ltac:(lia)) as [x E]. rewrite E. now apply H.
Qed.
Lemma cells_rds d i l : cells d i l -> 0 <= i -> i + zlen l <= zlen d -> rds d i (zlen l) = Ok l.
Proof. intros H H1 H2. unfold rds. rewrite (cells_slice d i l) by auto. cbn [bind]. apply all_some_map. Qed.
Lemma cells_realloc d i l n : cells d i l -> 0 <= i -> i + zlen l <= n -> cells (realloc d n) i l.
Proof.
  intros H Hi Hl k x E. pose proof (aget_ok_range _ _ _ E). pose proof (H _ _ E) as G. pose proof (aget_ok_range _ _ _ G). unfold realloc. rewrite aget_app1 by (rewrite zlen_firstn by lia; lia). rewrite aget_firstn by lia. exact G.
Qed.
Lemma cells_bytes d l : cells d 0 l -> exists t, bytes_of d = l ++ t.
Proof.
  revert d. induction l as [|x l IH]; intros d H; [eexists; reflexivity|]. pose proof (H 0 x eq_refl) as H0. destruct d as [|[y|] d]; try discriminate H0. injection H0 as ->. cbn [bytes_of].
  destruct (IH d) as [t ->].
  - intros k z E. pose proof (aget_ok_range _ _ _ E). specialize (H (k + 1) z). rewrite aget_cons in H. destruct (Z.eqb_spec (k + 1) 0); [lia|]. replace (k + 1 - 1) with k in H by lia. specialize (H E).
    rewrite aget_cons in H. destruct (Z.eqb_spec (0 + (k + 1)) 0); [lia|]. rewrite <- H. f_equal. lia.
  - exists t. reflexivity.
Qed.
Lemma zlen_malloc n : 0 <= n -> zlen (malloc n) = n.
Proof. intros H. unfold malloc. now apply zlen_repeat. Qed.

(** ** The layout *)
Lemma sdata_wdata s d : sdata (wdata s d) = d. Proof. now destruct s. Qed.
Lemma scap_wdata s d : scap (wdata s d) = scap s. Proof. now destruct s. Qed.
Lemma wf_cap s : wf s -> 22 <= scap s < 2 ^ 63 - 1 /\ scap s + 1 <= zlen (sdata s).
Proof. destruct s as [d|d n c]; cbn [wf scap sdata]; unfold s_cap; lia. Qed.
Lemma wdata_ok s d' i n : wf s -> frame (sdata s) d' i n -> 0 <= i -> i + n <= scap s + 1 -> wf (wdata s d') /\ ssize (wdata s d') = ssize s.
Proof.
  intros W F Hi Hn. destruct s as [d|d m c]; cbn [wf wdata sdata ssize scap] in *; unfold s_cap in *.
  - destruct W as [Z1 (v & V & R)]. assert (V' : cells d' 23 [v]) by (eapply frame_cells; [exact F|exact V|right; lia]). pose proof (proj1 F). split; [split; [lia|eauto]|].
    unfold s_last. now rewrite (cells_rd _ _ _ V), (cells_rd _ _ _ V').
  - destruct F as [F _]. split; [lia|reflexivity].
Qed.
Lemma ssize_wf s : wf s -> exists v, ssize s = Ok v.
Proof.
  destruct s as [d|d n c]; cbn [wf ssize]; [|eauto]. intros [_ (v & V & R)]. unfold s_last. rewrite (cells_rd _ _ _ V). cbn [bind]. destruct (Z.leb_spec 128 v); [lia|]. eauto.
Qed.
Lemma set_size_gen s n : wf s -> 0 <= n <= scap s ->
  exists s', set_size s n = Ok s' /\ wf s' /\ ssize s' = Ok n /\ scap s' = scap s /\ cells (sdata s') n [0] /\
    (forall j l, (j + zlen l <= n \/ n < j) -> j + zlen l <= scap s + 1 -> cells (sdata s) j l -> cells (sdata s') j l).
Proof.
  intros W Hn. destruct (ssize_wf s W) as [v0 E0]. unfold set_size. rewrite E0. cbn [bind]. destruct s as [d|d m c]; cbn [wf scap sdata] in *; unfold s_cap, s_last in *.
  - destruct W as [Z1 (v & V & R)]. destruct (wr_ok d n 0 ltac:(lia)) as (d1 & -> & F1 & C1). cbn [bind]. destruct (wr_ok d1 23 n) as (d2 & -> & F2 & C2); [destruct F1; lia|]. cbn [bind].
    exists (Short d2). cbn [wf ssize scap sdata]. split; [reflexivity|]. split; [split; [destruct F1, F2; lia|exists n; split; [exact C2|lia]]|].
    unfold s_last. rewrite (cells_rd _ _ _ C2). cbn [bind]. destruct (Z.leb_spec 128 n); [lia|]. split; [reflexivity|]. split; [reflexivity|]. split.
    + eapply frame_cells; [exact F2|exact C1|]. change (zlen [0]) with 1. lia.
    + intros j l D Hj C. eapply frame_cells; [exact F2| |left; lia]. eapply frame_cells; [exact F1|exact C|lia].
  - destruct (wr_ok d n 0 ltac:(lia)) as (d1 & -> & F1 & C1). cbn [bind]. exists (Long d1 n c). cbn [wf ssize scap sdata]. split; [reflexivity|]. split; [destruct F1; lia|]. split; [reflexivity|]. split; [reflexivity|]. split; [exact C1|].
    intros j l D Hj C. eapply frame_cells; [exact F1|exact C|lia].
Qed.
Lemma set_size_ok s l n : wf s -> cells (sdata s) 0 l -> n = zlen l -> zlen l <= scap s -> exists s', set_size s n = Ok s' /\ repr s' l /\ scap s' = scap s.
Proof.
  intros W C -> Hl. pose proof (zlen_nonneg l). destruct (set_size_gen s (zlen l) W ltac:(lia)) as (s' & E & W' & S' & P' & C' & K). exists s'. split; [exact E|]. split; [|exact P'].
  split; [exact W'|]. split; [|split; [exact S'|lia]]. apply cells_app. split; [apply K; auto; lia|]. exact C'.
Qed.
Lemma write_ok s i xs : wf s -> 0 <= i -> i + zlen xs <= scap s + 1 ->
  exists d', wrs (sdata s) i xs = Ok d' /\ wf (wdata s d') /\ ssize (wdata s d') = ssize s /\ frame (sdata s) d' i (zlen xs) /\ cells d' i xs.
Proof.
  intros W Hi Hn. pose proof (wf_cap s W). destruct (wrs_ok (sdata s) i xs Hi ltac:(lia)) as (d' & E & F & C). exists d'. split; [exact E|].
  destruct (wdata_ok s d' i (zlen xs) W F Hi Hn) as [W' S']. auto.
Qed.
Lemma repr_data s l : repr s l -> cells (sdata s) 0 l.
Proof. intros (_ & C & _). now apply cells_app in C. Qed.
Lemma cap_ok_ok c : 0 <= c < 2 ^ 63 - 1 -> cap_ok c = Ok c.
Proof. intros H. unfold cap_ok. destruct (Z.leb_spec 0 c), (Z.ltb_spec c (2 ^ 63 - 1)); try lia; reflexivity. Qed.
Lemma ablit_malloc n d l : 0 <= n -> zlen d <= n -> cells d 0 l -> exists d', ablit (malloc n) 0 d = Ok d' /\ zlen d' = n /\ cells d' 0 l.
Proof.
  intros Hn Hd C. destruct (ablit_some (malloc n) 0 d) as [d' E]; [lia|rewrite zlen_malloc; lia|]. exists d'. split; [exact E|]. apply ablit_inv in E as (_ & _ & Z1 & G). rewrite zlen_malloc in Z1 by lia. split; [exact Z1|].
  intros k x Ek. pose proof (C _ _ Ek) as R. pose proof (aget_ok_range _ _ _ R). rewrite G. destruct (Z.leb_spec 0 (0 + k)), (Z.ltb_spec (0 + k) (0 + zlen d)); cbn [andb]; try lia. rewrite <- R. f_equal. lia.
Qed.
Lemma reserve_ok s l n : repr s l -> n < 2 ^ 63 - 1 -> exists s' mv, reserve s n = Ok (s', mv) /\ repr s' l /\ n <= scap s' /\ scap s <= scap s' /\ (mv = false -> s' = s) /\ (n <= scap s -> mv = false).
Proof.
  intros (W & C & E & L) Hn. pose proof (zlen_nonneg l). unfold reserve. destruct s as [d|d m c]; cbn [wf sdata scap] in *.
  - rewrite E. cbn [bind]. destruct (Z.ltb_spec s_cap n).
    + unfold s_cap in *. rewrite cap_ok_ok by lia. cbn [bind]. destruct W as [Z1 W]. rewrite aslice_ok by lia. cbn [bind]. cbn [Z.to_nat skipn]. rewrite firstn_all2 by (unfold zlen in Z1; lia).
      destruct (ablit_malloc (n + 1) d (l ++ [0])) as (d' & -> & Z2 & C2); auto; try lia. cbn [bind]. exists (Long d' (zlen l) n), true. split; [reflexivity|]. cbn [scap]. split; [|repeat split; try lia; discriminate].
      split; [cbn; lia|]. split; [exact C2|]. split; [reflexivity|]. cbn [scap]. lia.
    + exists (Short d), false. split; [reflexivity|]. unfold s_cap in *. cbn [scap]. unfold s_cap. split; [split; auto|]. repeat split; lia.
  - destruct (Z.ltb_spec c n).
    + rewrite cap_ok_ok by lia. cbn [bind]. exists (Long (realloc d (n + 1)) m n), true. cbn [scap]. split; [reflexivity|]. split; [|repeat split; try lia; discriminate].
      split; [cbn [wf]; rewrite zlen_realloc by lia; lia|]. split; [|split; [exact E|cbn; lia]]. cbn [sdata]. apply cells_realloc; auto; [lia|]. rewrite zlen_app. change (zlen [0]) with 1. lia.
    + exists (Long d m c), false. cbn [scap]. split; [reflexivity|]. split; [split; auto|]. repeat split; lia.
Qed.
Lemma grow_ok n e : 0 <= n -> 0 <= e -> n + e <= 2 ^ 61 -> exists c, grow n e = Ok c /\ n + e <= c < 2 ^ 63 - 1.
Proof.
  intros H1 H2 H3. unfold grow, imax. destruct (Z.leb_spec (n * 3) (2 ^ 63 - 1)); [|lia]. assert (n <= n * 3 / 2 <= n * 2) by (split; [apply Z.div_le_lower_bound; lia|apply Z.div_le_upper_bound; lia]).
  destruct (Z.leb_spec (n * 3 / 2 + e) (2 ^ 63 - 1)); [|lia]. cbn [andb]. eexists. split; [reflexivity|]. lia.
Qed.

(** ** Constructors *)
Lemma init_ok : repr init [].
Proof.
  split; [cbn [wf init]; split; [reflexivity|]; exists 0; split; [now apply cells_one|lia]|]. split; [now apply cells_one|]. split; [reflexivity|]. cbn. unfold s_cap. lia.
Qed.
Lemma cstr_init_ok n cap : 0 <= n <= cap -> cap < 2 ^ 63 - 1 -> exists s, cstr_init n cap = Ok s /\ wf s /\ ssize s = Ok n /\ cap <= scap s /\ cells (sdata s) n [0].
Proof.
  intros Hn Hc. unfold cstr_init, s_cap. destruct (Z.ltb_spec 22 cap).
  - rewrite cap_ok_ok by lia. cbn [bind]. destruct (wr_ok (malloc (cap + 1)) n 0) as (d & -> & F & C); [rewrite zlen_malloc; lia|]. cbn [bind]. exists (Long d n cap). split; [reflexivity|]. destruct F as [F _]. rewrite zlen_malloc in F by lia.
    cbn [wf ssize scap sdata]. split; [lia|]. split; [reflexivity|]. split; [lia|exact C].
  - destruct (wr_ok (malloc 24) n 0) as (d & -> & F & C); [rewrite zlen_malloc; lia|]. cbn [bind]. pose proof (proj1 F) as F1. rewrite zlen_malloc in F1 by lia. unfold s_last. destruct (wr_ok d 23 n) as (d2 & -> & F2 & C2); [lia|]. cbn [bind].
    exists (Short d2). split; [reflexivity|]. cbn [wf ssize scap sdata]. split; [split; [destruct F2; lia|exists n; split; [exact C2|lia]]|]. unfold s_last. rewrite (cells_rd _ _ _ C2). cbn [bind]. destruct (Z.leb_spec 128 n); [lia|]. split; [reflexivity|]. split; [unfold s_cap; lia|].
    eapply frame_cells; [exact F2|exact C|]. change (zlen [0]) with 1. lia.
Qed.
Lemma filled s b : wf s -> ssize s = Ok (zlen b) -> zlen b <= scap s -> cells (sdata s) (zlen b) [0] -> exists d, wrs (sdata s) 0 b = Ok d /\ repr (wdata s d) b.
Proof.
  intros W E L C. destruct (write_ok s 0 b W) as (d & -> & W' & S' & F & C'); [lia|lia|]. exists d. split; [reflexivity|]. split; [exact W'|]. rewrite sdata_wdata, scap_wdata. split; [|split; [now rewrite S'|lia]].
  apply cells_app. split; [exact C'|]. eapply frame_cells; [exact F|exact C|]. lia.
Qed.
Lemma from_n_ok b : zlen b < 2 ^ 63 - 1 -> exists s, from_n b = Ok s /\ repr s b.
Proof.
  intros H. unfold from_n. pose proof (zlen_nonneg b). destruct (cstr_init_ok (zlen b) (zlen b) ltac:(lia) H) as (s & -> & W & E & L & C). cbn [bind]. destruct (filled s b W E L C) as (d & -> & R). cbn [bind]. eauto.
Qed.
Lemma with_size_ok n v : 0 <= n < 2 ^ 63 - 1 -> exists s, with_size n v = Ok s /\ repr s (repeat v (Z.to_nat n)).
Proof.
  intros H. unfold with_size. destruct (cstr_init_ok n n ltac:(lia) ltac:(lia)) as (s & -> & W & E & L & C). cbn [bind]. assert (Z1 : zlen (repeat v (Z.to_nat n)) = n) by now apply zlen_repeat.
  destruct (filled s (repeat v (Z.to_nat n)) W) as (d & -> & R); [now rewrite Z1|now rewrite Z1|now rewrite Z1|]. cbn [bind]. eauto.
Qed.
Lemma with_capacity_ok cap : 0 <= cap < 2 ^ 63 - 1 -> exists s, with_capacity cap = Ok s /\ repr s [] /\ cap <= scap s.
Proof.
  intros H. unfold with_capacity. destruct (cstr_init_ok 0 cap ltac:(lia) ltac:(lia)) as (s & -> & W & E & L & C). exists s. split; [reflexivity|]. split; [|exact L]. split; [exact W|]. split; [exact C|]. split; [exact E|]. change (zlen (@nil Z)) with 0. lia.
Qed.
Lemma repr_read s l : repr s l -> rds (sdata s) 0 (zlen l) = Ok l /\ rd (sdata s) (zlen l) = Ok 0.
Proof.
  intros (W & C & E & L). pose proof (wf_cap s W). apply cells_app in C as [C1 C2]. split; [apply cells_rds; auto; lia|]. now apply cells_rd.
Qed.
Lemma clone_ok s l : repr s l -> exists s', clone s = Ok s' /\ repr s' l.
Proof.
  intros R. pose proof (repr_read s l R) as [E1 _]. pose proof R as (W & _ & E & L). pose proof (wf_cap s W). unfold clone. rewrite E. cbn [bind]. rewrite E1. cbn [bind]. apply from_n_ok. lia.
Qed.
Lemma clear_ok s l : repr s l -> exists s', clear s = Ok s' /\ repr s' [].
Proof. intros (W & _). unfold clear. pose proof (wf_cap s W). destruct (set_size_ok s [] 0 W (cells_nil _ _) eq_refl) as (s' & E & R & _); [change (zlen (@nil Z)) with 0; lia|]. eauto. Qed.

(** ** Edits *)
Lemma cells_split d i l k : 0 <= k <= zlen l -> cells d i l -> cells d i (firstn (Z.to_nat k) l) /\ cells d (i + k) (skipn (Z.to_nat k) l).
Proof.
  intros Hk C. rewrite <- (firstn_skipn (Z.to_nat k) l) in C. apply cells_app in C. rewrite zlen_firstn in C by lia. now rewrite Z.min_l in C by lia.
Qed.
Lemma resize_ok s l n v : repr s l -> 0 <= n < 2 ^ 63 - 1 -> exists s', resize s n v = Ok s' /\ repr s' (firstn (Z.to_nat n) l ++ repeat v (Z.to_nat (n - zlen l))).
Proof.
  intros R Hn. pose proof R as (W & C & E & L). pose proof (zlen_nonneg l). unfold resize. rewrite E. cbn [bind]. destruct (Z.ltb_spec (zlen l) n) as [G|G].
  - assert (exists s1 mv, (if scap s <? n then reserve s n else Ok (s, false)) = Ok (s1, mv) /\ repr s1 l /\ n <= scap s1) as (s1 & mv & -> & R1 & L1).
    { destruct (Z.ltb_spec (scap s) n); [|exists s, false; auto]. destruct (reserve_ok s l n R) as (s1 & mv & E1 & R1 & L1 & _); [lia|]. exists s1, mv. auto. }
    cbn [bind fst]. set (xs := repeat v (Z.to_nat (n - zlen l))). assert (Zx : zlen xs = n - zlen l) by (apply zlen_repeat; lia). pose proof R1 as (W1 & C1 & E1 & _).
    destruct (write_ok s1 (zlen l) xs W1) as (d & -> & W2 & S2 & F2 & C2); [lia|lia|]. cbn [bind]. rewrite firstn_all2 by (unfold zlen in *; lia).
    destruct (set_size_ok (wdata s1 d) (l ++ xs) n W2) as (s' & -> & R' & _).
    + rewrite sdata_wdata. apply cells_app. split; [|exact C2]. eapply frame_cells; [exact F2|now apply repr_data|]. lia.
    + rewrite zlen_app. lia.
    + rewrite scap_wdata, zlen_app. lia.
    + eauto.
  - cbn [bind]. replace (Z.to_nat (n - zlen l)) with O by lia. cbn [repeat]. rewrite app_nil_r. destruct (set_size_ok s (firstn (Z.to_nat n) l) n W) as (s' & -> & R' & _).
    + apply (cells_split _ 0 l n); [lia|now apply repr_data].
    + rewrite zlen_firstn by lia. lia.
    + rewrite zlen_firstn by lia. lia.
    + eauto.
Qed.
Lemma assign_ok s l b : repr s l -> zlen b < 2 ^ 63 - 1 -> exists s', assign_n s (Ext b) = Ok s' /\ repr s' b.
Proof.
  intros R Hb. unfold assign_n. cbn [slen fetch]. destruct (reserve_ok s l (zlen b) R Hb) as (s1 & mv & -> & (W1 & _) & L1 & _). cbn [bind fst snd]. pose proof (zlen_nonneg b).
  destruct (set_size_gen s1 (zlen b) W1 ltac:(lia)) as (s2 & -> & W2 & S2 & P2 & C2 & _). cbn [bind]. destruct (filled s2 b W2 S2 ltac:(lia) C2) as (d & -> & R'). cbn [bind]. eauto.
Qed.
Definition arg_ok (l : list Z) (a : src) (b : list Z) : Prop :=
  match a with Ext x => b = x | Self off n => 0 <= off /\ 0 <= n /\ off + n <= zlen l /\ b = sub l off n end.
Lemma sub_len l off n : 0 <= off -> 0 <= n -> off + n <= zlen l -> zlen (sub l off n) = n.
Proof. intros. unfold sub. rewrite zlen_firstn, zlen_skipn by lia. lia. Qed.
Lemma cells_sub d i l off n : 0 <= off -> 0 <= n -> off + n <= zlen l -> cells d i l -> cells d (i + off) (sub l off n).
Proof.
  intros H1 H2 H3 C. destruct (cells_split d i l off ltac:(lia) C) as [_ C2]. unfold sub. apply (cells_split d (i + off) (skipn (Z.to_nat off) l) n); [rewrite zlen_skipn by lia; lia|exact C2].
Qed.
Lemma append_ok s l a b : repr s l -> arg_ok l a b -> zlen l + zlen b <= 2 ^ 61 -> exists s', append_n s a = Ok s' /\ repr s' (l ++ b).
Proof.
  intros R A Hb. pose proof R as (W & C & E & L). pose proof (zlen_nonneg l). pose proof (zlen_nonneg b). unfold append_n. rewrite E. cbn [bind].
  assert (Hs : slen a = zlen b). { destruct a as [x|off n]; cbn in A |- *; [now subst|]. destruct A as (? & ? & ? & ->). now rewrite sub_len by lia. } rewrite Hs.
  assert (exists s1 mv, (if scap s <? zlen l + zlen b then let* c := grow (zlen l) (zlen b) in reserve s c else Ok (s, false)) = Ok (s1, mv) /\ repr s1 l /\ zlen l + zlen b <= scap s1 /\ (scap s <? zlen l + zlen b = false -> mv = false)) as (s1 & mv & -> & R1 & L1 & M1).
  { destruct (Z.ltb_spec (scap s) (zlen l + zlen b)); [|exists s, false; auto]. destruct (grow_ok (zlen l) (zlen b)) as (c & -> & G); try lia. cbn [bind]. destruct (reserve_ok s l c R) as (s1 & mv & E1 & R1 & L2 & _); [lia|]. exists s1, mv. split; [exact E1|]. split; [exact R1|]. split; [lia|discriminate]. }
  cbn [bind fst snd]. pose proof R1 as (W1 & C1 & E1 & _). pose proof (wf_cap s1 W1) as K1.
  destruct (write_ok s1 (zlen l) b W1) as (d & Ed & W2 & S2 & F2 & C2); [lia|lia|].
  assert (Hc : copy_in (sdata s1) (zlen l) (mv && negb (match a with Self off _ => (0 <=? off) && (off <=? zlen l) | Ext _ => false end)) a = Ok d).
  { unfold copy_in. destruct a as [x|off n]; cbn [fetch arg_ok slen] in *.
    - cbn [bind]. now subst.
    - destruct A as (A1 & A2 & A3 & ->). destruct (Z.leb_spec 0 off); [|lia]. destruct (Z.leb_spec off (zlen l)); [|lia]. cbn [andb negb]. rewrite andb_false_r.
      pose proof (cells_sub (sdata s1) 0 l off n A1 A2 A3 (repr_data _ _ R1)) as CS. cbn [Z.add] in CS. rewrite <- (sub_len l off n) at 1 by lia. rewrite (cells_rds _ _ _ CS) by (rewrite ?sub_len by lia; lia). cbn [bind].
      destruct (Z.ltb_spec (zlen l) (off + n)); [lia|]. rewrite andb_false_r. exact Ed. }
  rewrite Hc. cbn [bind]. destruct (set_size_ok (wdata s1 d) (l ++ b) (zlen l + zlen b) W2) as (s' & -> & R' & _).
  - rewrite sdata_wdata. apply cells_app. split; [|exact C2]. eapply frame_cells; [exact F2|now apply repr_data|]. lia.
  - now rewrite zlen_app.
  - rewrite scap_wdata, zlen_app. lia.
  - eauto.
Qed.
Lemma erase_ok s l pos len : repr s l -> 0 <= pos <= zlen l -> 0 <= len -> exists s', erase s pos len = Ok s' /\ repr s' (firstn (Z.to_nat pos) l ++ skipn (Z.to_nat (pos + len)) l).
Proof.
  intros R Hp Hl. pose proof R as (W & C & E & L). pose proof (wf_cap s W) as K. unfold erase. rewrite E. cbn [bind]. set (k := if zlen l - pos <? len then zlen l - pos else len).
  assert (Hk : 0 <= k /\ pos + k <= zlen l /\ skipn (Z.to_nat (pos + len)) l = skipn (Z.to_nat (pos + k)) l).
  { unfold k. destruct (Z.ltb_spec (zlen l - pos) len); [|repeat split; lia]. split; [lia|]. split; [lia|]. rewrite !skipn_all2; auto; unfold zlen in *; lia. }
  destruct Hk as (Hk1 & Hk2 & ->). clearbody k. destruct (amove_ok (sdata s) (pos + k) pos (zlen l - (pos + k))) as (d & -> & F & CM); try lia. cbn [bind].
  pose proof (repr_data _ _ R) as C0. destruct (wdata_ok s d pos (zlen l - (pos + k)) W F) as [W' S']; [lia|lia|].
  destruct (set_size_ok (wdata s d) (firstn (Z.to_nat pos) l ++ skipn (Z.to_nat (pos + k)) l) (zlen l - k) W') as (s' & -> & R' & _).
  - rewrite sdata_wdata. apply cells_app. rewrite zlen_firstn by lia. rewrite Z.min_l by lia. split.
    + eapply frame_cells; [exact F|apply (cells_split _ 0 l pos); [lia|exact C0]|]. rewrite zlen_firstn by lia. lia.
    + cbn [Z.add]. apply CM; [rewrite zlen_skipn by lia; lia|]. apply (cells_split _ 0 l (pos + k)); [lia|exact C0].
  - rewrite zlen_app, zlen_firstn, zlen_skipn by lia. lia.
  - rewrite scap_wdata, zlen_app, zlen_firstn, zlen_skipn by lia. lia.
  - eauto.
Qed.
Lemma replace_at_ok s l pos len b : repr s l -> 0 <= pos -> 0 <= len -> pos + len <= zlen l -> zlen l + zlen b <= 2 ^ 61 ->
  exists s', replace_at s pos len (Ext b) = Ok s' /\ repr s' (firstn (Z.to_nat pos) l ++ b ++ skipn (Z.to_nat (pos + len)) l).
Proof.
  intros R Hp Hl Hpl Hb. pose proof R as (W & C & E & L). pose proof (zlen_nonneg b). unfold replace_at. cbn [slen].
  set (l' := firstn (Z.to_nat pos) l ++ b ++ skipn (Z.to_nat (pos + len)) l).
  assert (Zl : zlen l' = zlen l - len + zlen b) by (unfold l'; rewrite !zlen_app, zlen_firstn, zlen_skipn by lia; lia).
  assert (HM : exists s2 mv, internal_move s (pos + len) (pos + zlen b) = Ok (s2, mv) /\
     wf s2 /\ ssize s2 = Ok (zlen l') /\ zlen l' <= scap s2 /\ cells (sdata s2) 0 (firstn (Z.to_nat pos) l) /\ cells (sdata s2) (pos + zlen b) (skipn (Z.to_nat (pos + len)) l ++ [0])).
  { unfold internal_move. rewrite E. cbn [bind]. destruct (Z.eqb_spec (pos + len) (pos + zlen b)) as [Eq|Ne].
    - exists s, false. split; [reflexivity|]. split; [exact W|]. split; [rewrite E; f_equal; lia|]. split; [lia|]. split; [apply (cells_split _ 0 l pos); [lia|now apply repr_data]|].
      rewrite <- Eq. apply cells_app in C as [C1 C2]. apply cells_app. split; [apply (cells_split _ 0 l (pos + len)); [lia|exact C1]|]. rewrite zlen_skipn by lia. replace (pos + len + Z.max 0 (zlen l - (pos + len))) with (0 + zlen l) by lia. exact C2.
    - cbv zeta. set (newlen := zlen l + (pos + zlen b) - (pos + len)).
      assert (exists s1 mv, (if scap s <? newlen then let* c := grow (zlen l) (pos + zlen b - (pos + len)) in reserve s c else Ok (s, false)) = Ok (s1, mv) /\ repr s1 l /\ newlen <= scap s1) as (s1 & mv & -> & R1 & L1).
      { destruct (Z.ltb_spec (scap s) newlen); [|exists s, false; auto]. destruct (grow_ok (zlen l) (pos + zlen b - (pos + len))) as (c & -> & G); try (unfold newlen in *; lia). cbn [bind]. destruct (reserve_ok s l c R) as (s1 & mv & E1 & R1 & L2 & _); [lia|]. exists s1, mv. split; [exact E1|]. split; [exact R1|]. unfold newlen. lia. }
      cbn [bind fst snd]. pose proof R1 as (W1 & C1 & E1 & L1'). pose proof (wf_cap s1 W1) as K1. assert (Hnl : newlen = zlen l') by (unfold newlen; lia).
      destruct (amove_ok (sdata s1) (pos + len) (pos + zlen b) (zlen l - (pos + len))) as (d & -> & F & CM); try (unfold newlen in *; lia). cbn [bind].
      destruct (wdata_ok s1 d _ _ W1 F) as [W2 S2]; [lia|unfold newlen in *; lia|].
      destruct (set_size_gen (wdata s1 d) newlen W2) as (s2 & -> & W3 & S3 & P3 & C3 & K3); [rewrite scap_wdata; lia|]. cbn [bind]. rewrite scap_wdata in P3, K3. rewrite sdata_wdata in K3. exists s2, mv. split; [reflexivity|]. split; [exact W3|]. split; [now rewrite S3, Hnl|]. split; [lia|]. split.
      + apply K3; [left; rewrite zlen_firstn by lia; unfold newlen; lia|rewrite zlen_firstn by lia; lia|]. eapply frame_cells; [exact F|apply (cells_split _ 0 l pos); [lia|now apply repr_data]|]. rewrite zlen_firstn by lia. lia.
      + apply cells_app. assert (Zk : zlen (skipn (Z.to_nat (pos + len)) l) = zlen l - (pos + len)) by (rewrite zlen_skipn by lia; lia). rewrite Zk. split.
        * apply K3; [left; rewrite Zk; unfold newlen; lia|rewrite Zk; unfold newlen in *; lia|]. apply CM; [exact Zk|]. apply (cells_split _ 0 l (pos + len)); [lia|now apply repr_data].
        * replace (pos + zlen b + (zlen l - (pos + len))) with newlen by (unfold newlen; lia). exact C3. }
  destruct HM as (s2 & mv & -> & W2 & S2 & L2 & CA & CB). cbn [bind fst snd]. unfold copy_in. cbn [fetch bind].
  destruct (write_ok s2 pos b W2) as (d & -> & W3 & S3 & F3 & C3); [lia|lia|]. cbn [bind]. eexists. split; [reflexivity|]. split; [exact W3|]. rewrite sdata_wdata, scap_wdata. split; [|split; [now rewrite S3|exact L2]].
  unfold l'. rewrite <- !app_assoc. apply cells_app. rewrite zlen_firstn by lia. rewrite Z.min_l by lia. split; [eapply frame_cells; [exact F3|exact CA|rewrite zlen_firstn by lia; lia]|]. cbn [Z.add]. apply cells_app. split; [exact C3|].
  eapply frame_cells; [exact F3|exact CB|]. lia.
Qed.
Lemma insert_ok s l pos b : repr s l -> 0 <= pos <= zlen l -> zlen l + zlen b <= 2 ^ 61 -> exists s', insert s pos (Ext b) = Ok s' /\ repr s' (firstn (Z.to_nat pos) l ++ b ++ skipn (Z.to_nat pos) l).
Proof.
  intros R Hp Hb. unfold insert. destruct (replace_at_ok s l pos 0 b R) as (s' & E & R'); try lia. rewrite Z.add_0_r in R'. eauto.
Qed.
Lemma shrink_ok s l : repr s l -> exists s', shrink_to_fit s = Ok s' /\ repr s' l /\ scap s' = Z.max 22 (zlen l).
Proof.
  intros R. pose proof R as (W & C & E & L). pose proof (wf_cap s W) as K. pose proof (zlen_nonneg l). unfold shrink_to_fit. rewrite E. cbn [bind]. unfold s_cap. destruct (Z.eqb_spec (zlen l) (scap s)); [exists s; split; auto; split; auto; lia|].
  destruct (Z.ltb_spec 22 (zlen l)).
  - destruct s as [d|d m c]; cbn [scap wf sdata] in *; [unfold s_cap in *; lia|]. rewrite cap_ok_ok by lia. cbn [bind]. eexists. split; [reflexivity|]. cbn [scap]. split; [|lia]. split; [cbn [wf]; rewrite zlen_realloc by lia; lia|]. cbn [sdata scap ssize].
    split; [|split; [reflexivity|lia]]. apply cells_realloc; auto; [lia|]. rewrite zlen_app. change (zlen [0]) with 1. lia.
  - destruct (Z.ltb_spec 22 (scap s)).
    + assert (Z1 : zlen (l ++ [0]) = zlen l + 1) by (now rewrite zlen_app). rewrite <- Z1. rewrite (cells_slice _ 0 (l ++ [0])) by (auto; lia). cbn [bind].
      destruct (ablit_malloc 24 (map Some (l ++ [0])) (l ++ [0])) as (d1 & -> & Z2 & C2); [lia|rewrite zlen_map; lia|intros k x Ek; cbn [Z.add]; rewrite aget_map, Ek; reflexivity|]. cbn [bind].
      destruct (wr_ok d1 (zlen l) 0) as (d2 & -> & F2 & C3); [lia|]. cbn [bind]. unfold s_last. destruct (wr_ok d2 23 (zlen l)) as (d3 & -> & F3 & C4); [destruct F2; lia|]. cbn [bind]. eexists. split; [reflexivity|]. cbn [scap]. unfold s_cap. split; [|lia].
      split; [cbn [wf]; split; [destruct F2, F3; lia|exists (zlen l); split; [exact C4|lia]]|]. cbn [sdata ssize scap]. unfold s_last, s_cap. rewrite (cells_rd _ _ _ C4). cbn [bind]. destruct (Z.leb_spec 128 (zlen l)); [lia|]. split; [|split; [reflexivity|lia]].
      eapply frame_cells; [exact F3| |left; lia]. apply cells_app in C2 as [C2 _]. apply cells_app. split; [eapply frame_cells; [exact F2|exact C2|lia]|exact C3].
    + exists s. split; auto. split; auto. lia.
Qed.
Lemma pop_loop_ok d : forall r f p x, Forall is_byte (rev r) -> cells d 0 (rev r) -> p = zlen r -> (length r < f)%nat -> drop_char r = Some x -> pop_loop f d p = Ok (zlen x).
Proof.
  induction r as [|b r IH]; intros f p x HB C Hp Hf Hd; [discriminate|]. destruct f as [|f]; [lia|]. cbn [pop_loop]. cbn [rev] in C, HB. apply cells_app in C as [C1 C2]. apply Forall_app in HB as [HB1 HB2]. inversion HB2 as [|? ? Hb _]; subst. rewrite zlen_cons.
  assert (Zr : zlen (rev r) = zlen r) by (unfold zlen; now rewrite rev_length). rewrite Zr in C2. replace (1 + zlen r - 1) with (0 + zlen r) by lia. rewrite (cells_rd _ _ _ C2). cbn [bind]. cbn [drop_char] in Hd. rewrite cont_range by exact Hb. unfold cont_byte in Hd.
  destruct ((128 <=? b) && (b <? 192)); [apply IH; auto; cbn [length] in Hf; lia|]. injection Hd as <-. f_equal.
Qed.
Lemma drop_char_suffix r x : drop_char r = Some x -> exists y, r = y ++ x /\ y <> [].
Proof.
  revert x. induction r as [|b r IH]; intros x H; [discriminate|]. cbn [drop_char] in H. destruct (cont_byte b).
  - destruct (IH x H) as (y & -> & _). exists (b :: y). split; [reflexivity|discriminate].
  - injection H as <-. exists [b]. split; [reflexivity|discriminate].
Qed.
Lemma pop_ok s l x : repr s l -> Forall is_byte l -> drop_char (rev l) = Some x -> exists s', pop s = Ok s' /\ repr s' (rev x).
Proof.
  intros R HB Hd. pose proof R as (W & C & E & L). unfold pop. rewrite E. cbn [bind]. assert (Zr : zlen (rev l) = zlen l) by (unfold zlen; now rewrite rev_length).
  rewrite (pop_loop_ok (sdata s) (rev l) _ (zlen l) x); auto; [|rewrite rev_involutive; auto|rewrite rev_involutive; now apply repr_data|rewrite rev_length; unfold zlen; lia]. cbn [bind].
  destruct (drop_char_suffix _ _ Hd) as (y & Ey & _). assert (El : l = rev x ++ rev y) by (rewrite <- rev_app_distr, <- Ey; now rewrite rev_involutive). assert (Zx : zlen (rev x) = zlen x) by (unfold zlen; now rewrite rev_length).
  pose proof (repr_data _ _ R) as C0. rewrite El in C0. apply cells_app in C0 as [C0 _]. destruct (set_size_ok s (rev x) (zlen x) W C0) as (s' & -> & R' & _); [lia| |eauto]. rewrite El, zlen_app in L. pose proof (zlen_nonneg (rev y)). lia.
Qed.
Lemma vfmt_ok s l start b : repr s l -> 0 <= start <= zlen l -> start + zlen b < 2 ^ 63 - 1 -> exists s', vfmt s start b = Ok s' /\ repr s' (firstn (Z.to_nat start) l ++ b).
Proof.
  intros R Hs Hb. unfold vfmt. pose proof (zlen_nonneg b). destruct (reserve_ok s l (start + zlen b) R Hb) as (s1 & mv & -> & R1 & L1 & _). cbn [bind fst]. pose proof R1 as (W1 & C1 & E1 & _).
  assert (Zb : zlen (b ++ [0]) = zlen b + 1) by now rewrite zlen_app. destruct (write_ok s1 start (b ++ [0]) W1) as (d & -> & W2 & S2 & F2 & C2); [lia|lia|]. cbn [bind]. apply cells_app in C2 as [C2 _].
  destruct (set_size_ok (wdata s1 d) (firstn (Z.to_nat start) l ++ b) (start + zlen b) W2) as (s' & -> & R' & _).
  - rewrite sdata_wdata. apply cells_app. rewrite zlen_firstn by lia. rewrite Z.min_l by lia. split; [|exact C2]. eapply frame_cells; [exact F2|apply (cells_split _ 0 l start); [lia|now apply repr_data]|]. rewrite zlen_firstn by lia. lia.
  - rewrite zlen_app, zlen_firstn by lia. lia.
  - rewrite scap_wdata, zlen_app, zlen_firstn by lia. lia.
  - eauto.
Qed.

(** ** Histories *)
Lemma step_ok s l o l' : repr s l -> Forall is_byte l -> op_bytes o -> zlen l <= max_len -> edit l o = Some l' -> zlen l' <= max_len -> exists s', step s o = Ok s' /\ repr s' l' /\ Forall is_byte l'.
Proof.
  unfold max_len. intros R HB Ho Hl He Hl'.
  assert (FB : forall k, Forall is_byte (firstn k l)) by (intros k; rewrite <- (firstn_skipn k l) in HB; now apply Forall_app in HB).
  assert (SB : forall k, Forall is_byte (skipn k l)) by (intros k; rewrite <- (firstn_skipn k l) in HB; now apply Forall_app in HB).
  destruct o as [b|b|pos len|pos b|pos len b|pos len|n v|n| | | |b|b]; cbn [edit step op_bytes] in *.
  - injection He as <-. destruct (assign_ok s l b R) as (s' & -> & R'); [lia|eauto].
  - injection He as <-. rewrite zlen_app in Hl'. destruct (append_ok s l (Ext b) b R eq_refl) as (s' & -> & R'); [lia|]. exists s'. split; [reflexivity|]. split; [exact R'|]. now apply Forall_app.
  - destruct (Z.leb_spec 0 pos); [|discriminate]. destruct (Z.leb_spec 0 len); [|discriminate]. destruct (Z.leb_spec (pos + len) (zlen l)); [|discriminate]. injection He as <-. rewrite zlen_app in Hl'.
    destruct (append_ok s l (Self pos len) (sub l pos len) R) as (s' & -> & R'); [cbn; auto|lia|]. exists s'. split; [reflexivity|]. split; [exact R'|]. apply Forall_app. split; auto. unfold sub. specialize (SB (Z.to_nat pos)). rewrite <- (firstn_skipn (Z.to_nat len) (skipn (Z.to_nat pos) l)) in SB. now apply Forall_app in SB.
  - destruct (Z.leb_spec 0 pos); [|discriminate]. destruct (Z.leb_spec pos (zlen l)); [|discriminate]. injection He as <-. rewrite !zlen_app, zlen_firstn, zlen_skipn in Hl' by lia.
    destruct (insert_ok s l pos b R) as (s' & -> & R'); [lia|lia|]. exists s'. split; [reflexivity|]. split; [exact R'|]. apply Forall_app. split; auto. apply Forall_app. auto.
  - destruct (Z.leb_spec 0 pos); [|discriminate]. destruct (Z.leb_spec 0 len); [|discriminate]. destruct (Z.leb_spec (pos + len) (zlen l)); [|discriminate]. injection He as <-. rewrite !zlen_app, zlen_firstn, zlen_skipn in Hl' by lia.
    destruct (replace_at_ok s l pos len b R) as (s' & -> & R'); try lia. exists s'. split; [reflexivity|]. split; [exact R'|]. apply Forall_app. split; auto. apply Forall_app. auto.
  - destruct (Z.leb_spec 0 pos); [|discriminate]. destruct (Z.leb_spec 0 len); [|discriminate]. destruct (Z.leb_spec pos (zlen l)); [|discriminate]. injection He as <-.
    destruct (erase_ok s l pos len R) as (s' & -> & R'); try lia. exists s'. split; [reflexivity|]. split; [exact R'|]. apply Forall_app. auto.
  - destruct (Z.leb_spec 0 n); [|discriminate]. injection He as <-. assert (Hn : n <= 2 ^ 60).
    { rewrite zlen_app, zlen_firstn in Hl' by lia. destruct (Z.leb_spec n (zlen l)); [lia|]. rewrite zlen_repeat in Hl' by lia. lia. }
    destruct (resize_ok s l n v R) as (s' & -> & R'); [lia|]. exists s'. split; [reflexivity|]. split; [exact R'|]. apply Forall_app. split; auto. apply Forall_forall. intros x Hx. apply repeat_spec in Hx. now subst.
  - destruct (Z.leb_spec 0 n); [|discriminate]. unfold max_len in He. destruct (Z.leb_spec n (2 ^ 60)); [|discriminate]. injection He as <-. destruct (reserve_ok s l n R) as (s' & mv & -> & R' & _); [lia|]. cbn [bind fst]. eauto.
  - injection He as <-. destruct (shrink_ok s l R) as (s' & -> & R' & _). eauto.
  - destruct (drop_char (rev l)) as [x|] eqn:Ed; [|discriminate]. injection He as <-. destruct (pop_ok s l x R HB Ed) as (s' & -> & R'). exists s'. split; [reflexivity|]. split; [exact R'|].
    destruct (drop_char_suffix _ _ Ed) as (y & Ey & _). assert (El : l = rev x ++ rev y) by (rewrite <- rev_app_distr, <- Ey; now rewrite rev_involutive). rewrite El in HB. now apply Forall_app in HB.
  - injection He as <-. destruct (clear_ok s l R) as (s' & -> & R'). exists s'. auto.
  - injection He as <-. rewrite zlen_app in Hl'. pose proof R as (_ & _ & E & _). unfold append_fmt. rewrite E. cbn [bind]. destruct (vfmt_ok s l (zlen l) b R) as (s' & -> & R'); [pose proof (zlen_nonneg l); lia|lia|]. rewrite firstn_all2 in R' by (unfold zlen; lia). exists s'. split; [reflexivity|]. split; [exact R'|]. now apply Forall_app.
  - injection He as <-. destruct (vfmt_ok s l 0 b R) as (s' & -> & R'); [pose proof (zlen_nonneg l); lia|lia|]. cbn [Z.to_nat firstn app] in R'. exists s'. auto.
Qed.
Lemma run_ok : forall h s l l', repr s l -> Forall is_byte l -> Forall op_bytes h -> zlen l <= max_len -> edits l h = Some l' -> exists s', run s h = Ok s' /\ repr s' l' /\ Forall is_byte l' /\ zlen l' <= max_len.
Proof.
  induction h as [|o h IH]; intros s l l' R HB Ho Hl He; cbn [edits run] in *.
  - injection He as <-. eauto.
  - destruct (edit l o) as [l1|] eqn:E1; [|discriminate]. destruct (Z.leb_spec (zlen l1) max_len); [|discriminate]. inversion Ho; subst. destruct (step_ok s l o l1) as (s1 & -> & R1 & B1); auto. cbn [bind]. eapply IH; eauto.
Qed.
