(** Proofs about the hash map: the robin-hood invariant. *)
From Verif Require Import Base Slots Pow2 Float32 Hmap_Model Hmap_Spec.

(** * Periodic arithmetic *)
Section Periodic.
Variable b : Z.
Hypothesis Hb : 0 < b.

Lemma mod_rng x : 0 <= x mod b < b.
Proof. apply Z.mod_pos_bound; lia. Qed.
Lemma mod_id x : 0 <= x < b -> x mod b = x.
Proof. intros; apply Z.mod_small; lia. Qed.
Lemma mod_mod x : (x mod b) mod b = x mod b.
Proof. apply Z.mod_mod; lia. Qed.
Lemma mod_add_l x y : (x mod b + y) mod b = (x + y) mod b.
Proof. apply Zplus_mod_idemp_l. Qed.
Lemma mod_sub_l x y : (x mod b - y) mod b = (x - y) mod b.
Proof. apply Zminus_mod_idemp_l. Qed.
Lemma mod_inj x y : x mod b = y mod b -> Z.abs (x - y) < b -> x = y.
Proof.
  intros H Hd. pose proof (Z.div_mod x b ltac:(lia)). pose proof (Z.div_mod y b ltac:(lia)).
  rewrite H in *. assert (x - y = b * (x / b - y / b)) by lia.
  assert (x / b - y / b = 0) by nia. nia.
Qed.
Lemma mod_eq_shift x y z : x mod b = y mod b -> (x + z) mod b = (y + z) mod b.
Proof. intros H. rewrite <- (mod_add_l x), <- (mod_add_l y), H. reflexivity. Qed.
End Periodic.

(** * Occupied slots as a list of options *)
Definition somes {X} (l : list (option X)) : list X :=
  flat_map (fun o => match o with Some x => [x] | None => [] end) l.

Lemma somes_perm {X} (l1 l2 : list (option X)) : Permutation l1 l2 -> Permutation (somes l1) (somes l2).
Proof. intros H. unfold somes. now apply Permutation_flat_map. Qed.

Lemma somes_cons {X} (o : option X) l : somes (o :: l) = match o with Some x => x :: somes l | None => somes l end.
Proof. destruct o; reflexivity. Qed.

Lemma somes_len {X} (l : list (option X)) : zlen (somes l) <= zlen l.
Proof.
  induction l as [|o l IH]; [cbn; lia|]. rewrite somes_cons. destruct o; rewrite !zlen_cons; lia.
Qed.

Lemma somes_full {X} (l : list (option X)) : zlen (somes l) < zlen l -> exists p, aget l p = Ok None.
Proof.
  induction l as [|o l IH]; [cbn; lia|]. rewrite somes_cons. destruct o as [x|]; rewrite ?zlen_cons.
  - intros H. destruct IH as [p Hp]; [lia|]. exists (p + 1).
    rewrite aget_cons. pose proof (aget_ok_range _ _ _ Hp).
    destruct (Z.eqb_spec (p + 1) 0); [lia|]. rewrite <- Hp. f_equal. lia.
  - intros _. exists 0. reflexivity.
Qed.

Lemma somes_In {X} (l : list (option X)) x : In x (somes l) <-> exists p, aget l p = Ok (Some x).
Proof.
  unfold somes. rewrite in_flat_map. split.
  - intros ([y|] & Hy & Hx); cbn in Hx; [destruct Hx as [->|[]]|easy].
    apply In_aget in Hy as (p & _ & Hp). eauto.
  - intros (p & Hp). exists (Some x). split; [eapply aget_In; eauto|now left].
Qed.

(** Counting occupied positions with a property. *)
Lemma somes_count {X} (P : X -> bool) (l : list (option X)) :
  length (filter P (somes l)) =
  length (filter (fun p => match nth_error l p with Some (Some x) => P x | _ => false end) (seq 0 (length l))).
Proof.
  induction l as [|o l IH]; [reflexivity|]. cbn [length seq].
  unfold somes. cbn [flat_map]. fold (somes l). rewrite filter_app, app_length, IH.
  cbn [filter nth_error].
  rewrite <- seq_shift.
  assert (G : forall s, length (filter (fun p => match nth_error (o :: l) p with Some (Some x) => P x | _ => false end) (map S s))
      = length (filter (fun p => match nth_error l p with Some (Some x) => P x | _ => false end) s)).
  { induction s as [|a s IHs]; [reflexivity|]. cbn [map filter nth_error].
    destruct (nth_error l a) as [[x|]|]; [destruct (P x)|..]; cbn [length]; rewrite ?IHs; reflexivity. }
  destruct o as [x|]; cbn [filter].
  - destruct (P x); cbn [length]; rewrite G; lia.
  - cbn [length]. rewrite G. lia.
Qed.

Lemma somes_count_positions {X} (P : X -> bool) (l : list (option X)) (ps : list nat) :
  NoDup ps -> (forall p, In p ps -> exists x, nth_error l p = Some (Some x) /\ P x = true) ->
  (length ps <= length (filter P (somes l)))%nat.
Proof.
  intros Hn H. rewrite somes_count. apply NoDup_incl_length; [exact Hn|].
  intros p Hp. apply filter_In. destruct (H p Hp) as (x & Hx & HP). split.
  - apply in_seq. assert (p < length l)%nat by (apply nth_error_Some; congruence). lia.
  - now rewrite Hx.
Qed.

Section Hmap.
Context {K V : Type}.
Variable hash : K -> Z.
Variable eqb : K -> K -> bool.
Hypothesis KO : key_ok hash eqb.

Local Notation hx k := (Z.land (Z.shiftr (hash k) 24) hashmask).

Definition D (ms : list meta) (p : Z) : Z := match aget ms p with Ok m => dist m | Err _ => 0 end.

(** Slots seen through the metas. *)
Fixpoint view (ms : list meta) (t : slots (K * V)) : list (option (K * V)) :=
  match t, ms with
  | o :: t', m :: ms' => (if dist m =? 0 then None else o) :: view ms' t'
  | _, _ => []
  end.

Lemma zlen_view ms t : zlen t <= zlen ms -> zlen (view ms t) = zlen t.
Proof.
  revert ms; induction t as [|o t IH]; intros [|m ms]; cbn [view]; rewrite ?zlen_cons, ?zlen_nil; intros H.
  - reflexivity.
  - reflexivity.
  - pose proof (zlen_nonneg t). lia.
  - rewrite IH; lia.
Qed.

Lemma aget_view ms t p m o : aget ms p = Ok m -> aget t p = Ok o ->
  aget (view ms t) p = Ok (if dist m =? 0 then None else o).
Proof.
  revert ms p; induction t as [|o' t IH]; intros [|m' ms] p Hm Ht;
    try (apply aget_ok_range in Hm; cbn in Hm; lia); try (apply aget_ok_range in Ht; cbn in Ht; lia).
  cbn [view]. rewrite aget_cons in Hm. rewrite aget_cons in Ht. rewrite aget_cons. destruct (Z.eqb_spec p 0).
  - injection Hm as <-. injection Ht as <-. reflexivity.
  - apply IH; auto.
Qed.

Lemma view_aset ms t p m o ms' t' : zlen t <= zlen ms -> aset ms p m = Ok ms' -> aset t p o = Ok t' ->
  aset (view ms t) p (if dist m =? 0 then None else o) = Ok (view ms' t').
Proof.
  intros Hl Hm Ht. pose proof Hm as Hm'. pose proof Ht as Ht'.
  apply aset_inv in Hm' as [Rm ->]. apply aset_inv in Ht' as [Rt ->].
  rewrite aset_ok by (rewrite zlen_view; lia). f_equal.
  assert (Z.to_nat p < length t)%nat by (unfold zlen in Rt; lia).
  clear Hm Ht. generalize dependent (Z.to_nat p). clear - Hl.
  intros n Hn. revert ms n Hl Hn. induction t as [|o' t IH]; intros [|m' ms] n Hl Hn; cbn [length] in *; try lia.
  - rewrite zlen_cons, zlen_nil in Hl. pose proof (zlen_nonneg t). lia.
  - rewrite !zlen_cons in Hl. destruct n as [|n]; cbn [view upd]; [reflexivity|]. f_equal. apply IH; lia.
Qed.

Lemma upd_same {X} (l : list X) n x : nth_error l n = Some x -> upd l n x = l.
Proof. revert n; induction l as [|h l IH]; intros [|n] H; cbn in *; try congruence. now rewrite IH. Qed.

Lemma aset_same {X} (l : list X) p x : aget l p = Ok x -> aset l p x = Ok l.
Proof.
  intros H. pose proof (aget_ok_range _ _ _ H). rewrite aset_ok by lia. f_equal.
  apply upd_same. now apply aget_nth in H as [_ H].
Qed.

(** The invariant of a table of [b] buckets. *)
Record RH (b : Z) (ms : list meta) (t : slots (K * V)) : Prop := {
  rh_pow2 : is_pow2 b;
  rh_lt : zlen t = b;
  rh_lm : zlen ms = b + 1;
  rh_mark : D ms b = 1023;
  rh_rng : forall p, 0 <= p < b -> 0 <= D ms p <= 1023;
  rh_slot : forall p, 0 <= p < b -> D ms p <> 0 ->
    exists m e, aget ms p = Ok m /\ aget t p = Ok (Some e) /\ hashx m = hx (fst e) /\
      (hash (fst e) + dist m - 1) mod b = p;
  rh_chain : forall x, D ms ((x + 1) mod b) <= D ms (x mod b) + 1;
}.

Lemma RH_pos b ms t : RH b ms t -> 0 < b.
Proof. intros H. apply is_pow2_pos, (rh_pow2 _ _ _ H). Qed.

Lemma D_get ms p m : aget ms p = Ok m -> D ms p = dist m.
Proof. unfold D. now intros ->. Qed.

Lemma RH_meta b ms t p : RH b ms t -> 0 <= p <= b -> exists m, aget ms p = Ok m /\ dist m = D ms p.
Proof.
  intros H Hp. pose proof (rh_lm _ _ _ H). destruct (aget_some ms p) as [m Hm]; [lia|].
  exists m. split; [exact Hm|]. now rewrite (D_get _ _ _ Hm).
Qed.

(** Going back [n] buckets from one with distance d, the distance is at least d - n. *)
Lemma RH_back b ms t x n : RH b ms t -> 0 <= n -> D ms (x mod b) - n <= D ms ((x - n) mod b).
Proof.
  intros H. revert n. apply natlike_ind.
  - replace (x - 0) with x by lia. lia.
  - intros n Hn IH. pose proof (rh_chain _ _ _ H (x - Z.succ n)) as C.
    replace (x - Z.succ n + 1) with (x - n) in C by lia. lia.
Qed.

Lemma RH_view_get b ms t p : RH b ms t -> 0 <= p < b ->
  exists o, aget (view ms t) p = Ok o /\
  match o with
  | None => D ms p = 0
  | Some e => D ms p <> 0 /\ aget t p = Ok (Some e) /\ (hash (fst e) + D ms p - 1) mod b = p /\
      exists m, aget ms p = Ok m /\ hashx m = hx (fst e) /\ dist m = D ms p
  end.
Proof.
  intros H Hp. destruct (RH_meta _ _ _ p H) as (m & Hm & Hd); [lia|].
  destruct (aget_some t p) as [o Ho]; [rewrite (rh_lt _ _ _ H); lia|].
  pose proof (aget_view _ _ _ _ _ Hm Ho) as Hv.
  destruct (Z.eqb_spec (dist m) 0).
  - eexists. split; [exact Hv|]. cbn. lia.
  - destruct (rh_slot _ _ _ H p Hp) as (m' & e & Hm' & He & Hx & Hh); [lia|].
    assert (m' = m) by congruence. subst m'. assert (o = Some e) by congruence. subst o.
    exists (Some e). split; [exact Hv|]. cbn. split; [lia|]. split; [exact He|].
    split; [rewrite <- Hd; exact Hh|]. eauto.
Qed.

(** * Runs of occupied buckets, and the window argument *)
Lemma RH_run b ms t i q : RH b ms t -> 0 <= q < b -> D ms q = 0 -> D ms (i mod b) <> 0 ->
  exists n, 1 <= n < b /\ D ms ((i - n) mod b) = 0 /\ (forall j, 0 <= j < n -> D ms ((i - j) mod b) <> 0).
Proof.
  intros H Hq Hq0 Hi. pose proof (RH_pos _ _ _ H) as Hb.
  (* distance from q to i *)
  set (n0 := (i - q) mod b). pose proof (mod_rng b Hb (i - q)) as Hn0. fold n0 in Hn0.
  assert (E0 : (i - n0) mod b = q).
  { unfold n0. rewrite <- (mod_id b q Hq) at 2. rewrite Zminus_mod_idemp_r. f_equal. lia. }
  assert (G : forall n, 0 <= n -> (exists k, 0 <= k < n /\ D ms ((i - k) mod b) = 0 /\
                (forall j, 0 <= j < k -> D ms ((i - j) mod b) <> 0))
             \/ (forall j, 0 <= j < n -> D ms ((i - j) mod b) <> 0)).
  { apply natlike_ind; [right; lia|]. intros n Hn [(k & Hk & H1 & H2)|IH].
    - left. exists k. split; [lia|auto].
    - destruct (Z.eq_dec (D ms ((i - n) mod b)) 0) as [Hz|Hz].
      + left. exists n. split; [lia|auto].
      + right. intros j Hj. destruct (Z.eq_dec j n) as [->|]; [exact Hz|]. apply IH. lia. }
  destruct (G (n0 + 1)) as [(k & Hk & H1 & H2)|Hc]; [lia| |].
  - exists k. split; [|auto]. assert (k <> 0); [|lia]. intros ->. replace (i - 0) with i in H1 by lia. auto.
  - exfalso. apply (Hc n0); [lia|]. rewrite E0. exact Hq0.
Qed.

Lemma NoDup_map_in {X Y} (f : X -> Y) l :
  (forall x y, In x l -> In y l -> f x = f y -> x = y) -> NoDup l -> NoDup (map f l).
Proof.
  intros Hi Hn. induction Hn as [|x l Hx Hn IH]; cbn [map]; constructor.
  - intros H. apply in_map_iff in H as (y & E & Hy). apply Hi in E; [congruence|now right|now left].
  - apply IH. intros y z Hy Hz. apply Hi; now right.
Qed.

Lemma NoDup_positions b i n : 0 < b -> 0 <= n <= b ->
  NoDup (map (fun j => Z.to_nat ((i - Z.of_nat j) mod b)) (seq 0 (Z.to_nat n))).
Proof.
  intros Hb Hn. apply NoDup_map_in; [|apply seq_NoDup].
  intros x y Hx Hy Exy. apply in_seq in Hx, Hy.
  pose proof (mod_rng b Hb (i - Z.of_nat x)). pose proof (mod_rng b Hb (i - Z.of_nat y)).
  assert (E : (i - Z.of_nat x) mod b = (i - Z.of_nat y) mod b) by lia.
  apply mod_inj in E; lia.
Qed.

(** If an entry carried past bucket [i] has a distance not above that of bucket [i], then
    there is a window with as many keys as buckets, at least as long as its next distance. *)
Lemma window_bound b ms t i q (c : K * V) d l :
  RH b ms t -> 0 <= q < b -> D ms q = 0 ->
  1 <= d <= D ms (i mod b) -> (hash (fst c) + d - 1) mod b = i mod b ->
  Permutation (c :: somes (view ms t)) l -> spread_in hash b l -> d + 1 <= 1023.
Proof.
  intros H Hq Hq0 Hd Hh Hp Hs. pose proof (RH_pos _ _ _ H) as Hb.
  destruct (RH_run b ms t i q H Hq Hq0) as (n & Hn & Hz & Hnz); [lia|].
  destruct (Z.le_gt_cases (d + 1) 1023) as [|Hbig]; [assumption|exfalso].
  (* distances inside the run *)
  assert (Hrun : forall j, 0 <= j < n -> 1 <= D ms ((i - j) mod b) <= n - j).
  { intros j Hj. pose proof (RH_back b ms t (i - j) (n - j) H ltac:(lia)) as B.
    replace (i - j - (n - j)) with (i - n) in B by lia. rewrite Hz in B.
    specialize (Hnz j Hj). pose proof (rh_rng _ _ _ H ((i - j) mod b) (mod_rng b Hb _)). lia. }
  assert (Hdn : d <= n) by (specialize (Hrun 0 ltac:(lia)); replace (i - 0) with i in Hrun by lia; lia).
  set (s := i - n + 1).
  assert (Hw : forall k dd j, 0 <= j < n -> 1 <= dd <= n - j -> (hash k + dd - 1) mod b = (i - j) mod b ->
            in_window hash b s n k = true).
  { intros k dd j Hj Hdd Hk. unfold in_window. apply Z.ltb_lt.
    assert (E : (hash k - s) mod b = (n - j - dd) mod b).
    { replace (hash k - s) with ((hash k + dd - 1) + (1 - dd - s)) by lia.
      rewrite (mod_eq_shift b _ _ _ Hk). f_equal. unfold s. lia. }
    rewrite E, mod_id by lia. lia. }
  specialize (Hs s n ltac:(lia)).
  set (P := fun e : K * V => in_window hash b s n (fst e)) in *.
  assert (Hc : zlen (filter P l) = zlen (filter P (c :: somes (view ms t)))).
  { unfold zlen. f_equal. symmetry. apply Permutation_length. clear - Hp.
    induction Hp as [|x l1 l2 Hp IH|x y l0|l1 l2 l3 H1 IH1 H2 IH2]; cbn [filter].
    - constructor.
    - destruct (P x); [now constructor|assumption].
    - destruct (P x), (P y); try reflexivity. apply perm_swap.
    - etransitivity; eauto. }
  rewrite Hc in Hs. cbn [filter] in Hs.
  assert (Pc : P c = true). { unfold P. apply (Hw (fst c) d 0); try lia. rewrite Hh. f_equal. lia. }
  rewrite Pc, zlen_cons in Hs.
  assert (Hcount : (Z.to_nat n <= length (filter P (somes (view ms t))))%nat).
  { rewrite <- (seq_length (Z.to_nat n) 0) at 1.
    rewrite <- (map_length (fun j => Z.to_nat ((i - Z.of_nat j) mod b)) (seq 0 (Z.to_nat n))).
    apply somes_count_positions; [apply NoDup_positions; lia|].
    intros p Hpin. apply in_map_iff in Hpin as (j & <- & Hj). apply in_seq in Hj.
    pose proof (mod_rng b Hb (i - Z.of_nat j)) as Hrg.
    destruct (RH_view_get b ms t _ H Hrg) as (o & Ho & Hcase).
    pose proof (Hrun (Z.of_nat j) ltac:(lia)) as Hr.
    destruct o as [e|]; [|lia]. destruct Hcase as (_ & _ & Hh' & _).
    exists e. split; [now apply aget_nth in Ho as [_ Ho]|].
    unfold P. apply (Hw (fst e) (D ms ((i - Z.of_nat j) mod b)) (Z.of_nat j)); try lia. }
  unfold zlen in Hs. lia.
Qed.

(** * Lookup *)
Lemma lookup_loop_ok b (h : hmap K V) k fuel : forall d,
  RH b (metas h) (table h) -> bcount h = b -> 1 <= d <= 1024 -> 1026 - d <= Z.of_nat fuel ->
  (forall d', 1 <= d' < d -> d' <= D (metas h) ((hash k + d' - 1) mod b)) ->
  (forall d' e, 1 <= d' < d -> aget (view (metas h) (table h)) ((hash k + d' - 1) mod b) = Ok (Some e) ->
     eqb (fst e) k = false) ->
  exists r, lookup_loop eqb fuel h k ((hash k + d - 1) mod b) (hx k) d = Ok r /\
    r_hashx r = hx k /\ r_inserted r = false /\
    match r_ref r with
    | Some p => 0 <= p < b /\ exists e, aget (view (metas h) (table h)) p = Ok (Some e) /\ eqb (fst e) k = true
    | None => 1 <= r_dist r <= 1024 /\ r_idx r = (hash k + r_dist r - 1) mod b /\
        D (metas h) (r_idx r) < r_dist r /\
        (2 <= r_dist r -> r_dist r - 1 <= D (metas h) ((hash k + r_dist r - 2) mod b)) /\
        (forall e, In e (somes (view (metas h) (table h))) -> eqb (fst e) k = false)
    end.
Proof.
  induction fuel as [|fuel IH]; intros d HR Hbc Hd Hf Hch Hne; [lia|].
  pose proof (RH_pos _ _ _ HR) as Hb.
  set (idx := (hash k + d - 1) mod b). pose proof (mod_rng b Hb (hash k + d - 1)) as Hidx. fold idx in Hidx.
  cbn [lookup_loop].
  destruct (RH_view_get b _ _ idx HR Hidx) as (o & Ho & Hcase).
  destruct (RH_meta b _ _ idx HR ltac:(lia)) as (m & Hm & Hmd). rewrite Hm. cbn [bind].
  pose proof (rh_rng _ _ _ HR idx Hidx) as Hrng.
  destruct (Z.leb_spec d (dist m)) as [Hle|Hgt].
  - assert (Hidx1 : Z.land (idx + 1) (bcount h - 1) = (hash k + (d + 1) - 1) mod b).
    { rewrite Hbc, land_mask by apply (rh_pow2 _ _ _ HR). unfold idx. rewrite mod_add_l by lia. f_equal. lia. }
    rewrite Hidx1. rewrite (Z.mod_small (d + 1) 65536) by lia.
    destruct o as [e|]; [|lia]. destruct Hcase as (_ & He & Hh & (m' & Hm' & Hhx & _)).
    assert (m' = m) by congruence. subst m'.
    assert (Hrec : eqb (fst e) k = false -> exists r,
       lookup_loop eqb fuel h k ((hash k + (d + 1) - 1) mod b) (hx k) (d + 1) = Ok r /\
       r_hashx r = hx k /\ r_inserted r = false /\
       match r_ref r with
       | Some p => 0 <= p < b /\ exists e, aget (view (metas h) (table h)) p = Ok (Some e) /\ eqb (fst e) k = true
       | None => 1 <= r_dist r <= 1024 /\ r_idx r = (hash k + r_dist r - 1) mod b /\
        D (metas h) (r_idx r) < r_dist r /\
        (2 <= r_dist r -> r_dist r - 1 <= D (metas h) ((hash k + r_dist r - 2) mod b)) /\
        (forall e, In e (somes (view (metas h) (table h))) -> eqb (fst e) k = false)
       end).
    { intros Hneq. apply IH; auto; try lia.
      - intros d' Hd'. destruct (Z.eq_dec d' d) as [->|]; [fold idx; lia|]. apply Hch. lia.
      - intros d' e' Hd' He'. destruct (Z.eq_dec d' d) as [->|]; [|eapply (Hne d'); eauto; lia].
        fold idx in He'. congruence. }
    destruct (Z.eqb_spec (hashx m) (hx k)) as [Ehx|Nhx].
    + unfold rd. rewrite He. cbn [bind].
      destruct (eqb (fst e) k) eqn:Eq; [|now apply Hrec].
      eexists. split; [reflexivity|]. cbn. repeat (split; auto). exists e. auto.
    + apply Hrec. destruct (eqb (fst e) k) eqn:Eq; [|reflexivity].
      apply (ko_hash _ _ KO) in Eq. rewrite <- Eq, Hhx in Nhx. congruence.
  - eexists. split; [reflexivity|]. cbn. repeat (split; auto); try lia.
    + intros H2. replace (hash k + d - 2) with (hash k + (d - 1) - 1) by lia. apply Hch. lia.
    + intros e Hin. apply somes_In in Hin as (p & Hp).
      destruct (eqb (fst e) k) eqn:Eq; [|reflexivity]. exfalso.
      assert (Hpr : 0 <= p < b).
      { apply aget_ok_range in Hp. rewrite zlen_view in Hp; rewrite (rh_lt _ _ _ HR) in *; [lia|].
        rewrite (rh_lm _ _ _ HR). lia. }
      destruct (RH_view_get b _ _ p HR Hpr) as (o' & Ho' & Hc'). rewrite Hp in Ho'. injection Ho' as <-.
      destruct Hc' as (Hnz & _ & Hhe & _). rewrite (ko_hash _ _ KO _ _ Eq) in Hhe.
      set (dd := D (metas h) p) in *. pose proof (rh_rng _ _ _ HR p Hpr) as Hdd. fold dd in Hdd.
      destruct (Z.lt_ge_cases dd d) as [Hlt|Hge].
      * rewrite (Hne dd e) in Eq; [discriminate|lia|]. rewrite Hhe. exact Hp.
      * pose proof (RH_back b _ _ (hash k + dd - 1) (dd - d) HR ltac:(lia)) as B.
        rewrite Hhe in B. fold dd in B. replace (hash k + dd - 1 - (dd - d)) with (hash k + d - 1) in B by lia.
        fold idx in B. lia.
Qed.

Lemma bucket_lookup_ok b (h : hmap K V) k : RH b (metas h) (table h) -> bcount h = b ->
  exists r, bucket_lookup hash eqb h k = Ok r /\ r_hashx r = hx k /\ r_inserted r = false /\
    match r_ref r with
    | Some p => 0 <= p < b /\ exists e, aget (view (metas h) (table h)) p = Ok (Some e) /\ eqb (fst e) k = true
    | None => 1 <= r_dist r <= 1024 /\ r_idx r = (hash k + r_dist r - 1) mod b /\
        D (metas h) (r_idx r) < r_dist r /\
        (2 <= r_dist r -> r_dist r - 1 <= D (metas h) ((hash k + r_dist r - 2) mod b)) /\
        (forall e, In e (somes (view (metas h) (table h))) -> eqb (fst e) k = false)
    end.
Proof.
  intros HR Hbc. pose proof (RH_pos _ _ _ HR) as Hb. unfold bucket_lookup.
  destruct (Z.eqb_spec (bcount h) 0); [lia|].
  rewrite Hbc, land_mask by apply (rh_pow2 _ _ _ HR).
  replace (hash k mod b) with ((hash k + 1 - 1) mod b) by (f_equal; lia).
  apply lookup_loop_ok; auto; try lia. unfold probe_fuel. lia.
Qed.

(** * Updating one bucket *)
Lemma D_aset ms i m ms' j : aset ms i m = Ok ms' -> D ms' j = if j =? i then dist m else D ms j.
Proof.
  intros H. unfold D. rewrite (aget_aset _ _ _ _ j H). destruct (j =? i); reflexivity.
Qed.

Lemma RH_upd b ms t i m e ms' t' : RH b ms t -> 0 <= i < b ->
  aset ms i m = Ok ms' -> aset t i (Some e) = Ok t' ->
  1 <= dist m <= 1023 -> hashx m = hx (fst e) -> (hash (fst e) + dist m - 1) mod b = i ->
  D ms i <= dist m -> dist m <= D ms ((i - 1) mod b) + 1 -> RH b ms' t'.
Proof.
  intros H Hi Hms Ht Hd Hx Hh Hinc Hpre. pose proof (RH_pos _ _ _ H) as Hb.
  split.
  - apply (rh_pow2 _ _ _ H).
  - rewrite (aset_zlen _ _ _ _ Ht). apply (rh_lt _ _ _ H).
  - rewrite (aset_zlen _ _ _ _ Hms). apply (rh_lm _ _ _ H).
  - rewrite (D_aset _ _ _ _ _ Hms). destruct (Z.eqb_spec b i); [lia|]. apply (rh_mark _ _ _ H).
  - intros p Hp. rewrite (D_aset _ _ _ _ _ Hms). destruct (Z.eqb_spec p i); [lia|]. now apply (rh_rng _ _ _ H).
  - intros p Hp Hnz. rewrite (D_aset _ _ _ _ _ Hms) in Hnz.
    rewrite (aget_aset _ _ _ _ p Hms), (aget_aset _ _ _ _ p Ht).
    destruct (Z.eqb_spec p i) as [->|].
    + exists m, e. auto.
    + now apply (rh_slot _ _ _ H).
  - intros x. rewrite !(D_aset _ _ _ _ _ Hms). pose proof (rh_chain _ _ _ H x) as C.
    destruct (Z.eqb_spec ((x + 1) mod b) i) as [E1|N1]; destruct (Z.eqb_spec (x mod b) i) as [E2|N2]; try lia.
    + assert (E : x mod b = (i - 1) mod b).
      { rewrite <- E1. rewrite mod_sub_l by lia. f_equal. lia. }
      rewrite E. lia.
    + rewrite E2 in C. lia.
Qed.

Lemma aset_comm {X} (t t1 T : list X) i j x y : aset t j y = Ok T -> aset t i x = Ok t1 -> i <> j ->
  exists T1, aset T i x = Ok T1 /\ aset t1 j y = Ok T1.
Proof.
  intros H1 H2 Hne. pose proof (aset_inv _ _ _ _ H1) as [R1 _]. pose proof (aset_inv _ _ _ _ H2) as [R2 _].
  destruct (aset_some T i x) as [T1 HT1]; [rewrite (aset_zlen _ _ _ _ H1); lia|].
  destruct (aset_some t1 j y) as [T2 HT2]; [rewrite (aset_zlen _ _ _ _ H2); lia|].
  exists T1. split; [exact HT1|]. rewrite HT2. f_equal. apply aget_ext.
  - rewrite (aset_zlen _ _ _ _ HT1), (aset_zlen _ _ _ _ HT2), (aset_zlen _ _ _ _ H1), (aset_zlen _ _ _ _ H2). reflexivity.
  - intros p _. rewrite (aget_aset _ _ _ _ p HT1), (aget_aset _ _ _ _ p HT2), (aget_aset _ _ _ _ p H1), (aget_aset _ _ _ _ p H2).
    destruct (Z.eqb_spec p i), (Z.eqb_spec p j); auto; lia.
Qed.

Lemma RH_len b ms t : RH b ms t -> zlen t <= zlen ms.
Proof. intros H. rewrite (rh_lt _ _ _ H), (rh_lm _ _ _ H). lia. Qed.

(** Replacing the content of a bucket, seen through [somes]. *)
Lemma view_replace b ms t i m e ms' t' o :
  RH b ms t -> aset ms i m = Ok ms' -> aset t i (Some e) = Ok t' -> dist m <> 0 ->
  aget (view ms t) i = Ok o ->
  Permutation ((match o with Some e0 => [e0] | None => [] end) ++ somes (view ms' t')) (e :: somes (view ms t)).
Proof.
  intros H Hms Ht Hd Ho. pose proof (view_aset ms t i m (Some e) ms' t' (RH_len _ _ _ H) Hms Ht) as Hv.
  destruct (Z.eqb_spec (dist m) 0); [lia|].
  pose proof (aset_Permutation _ _ _ _ _ Ho Hv) as P. apply somes_perm in P.
  rewrite !somes_cons in P. destruct o; exact P.
Qed.

(** * Insertion: the displacement loop *)
Lemma shift_ok b new x0 fuel : forall ms t T i mcur dcur l k n,
  RH b ms T -> aset t x0 (Some new) = Ok T -> 0 <= x0 < b -> D ms x0 <> 0 ->
  0 <= i < b -> i = (x0 + k) mod b -> 0 <= k -> 0 <= n -> k + n < b -> D ms ((i + n) mod b) = 0 ->
  n <= Z.of_nat fuel ->
  1 <= dist mcur <= D ms i -> hashx mcur = hx (fst dcur) -> (hash (fst dcur) + dist mcur - 1) mod b = i ->
  Permutation (dcur :: somes (view ms T)) l -> spread_in hash b l ->
  exists ms' t' T', shift_loop fuel ms t (b - 1) i mcur dcur = Ok (ms', t') /\
    aset t' x0 (Some new) = Ok T' /\ RH b ms' T' /\ Permutation (somes (view ms' T')) l.
Proof.
  induction fuel as [|fuel IH]; intros ms t T i mcur dcur l k n HR HT Hx0 Hnz Hi Hik Hk Hn Hkn Hemp Hf Hd Hhx Hh HP HS.
  { replace n with 0 in Hemp by lia. rewrite Z.add_0_r, mod_id in Hemp by lia. lia. }
  pose proof (RH_pos _ _ _ HR) as Hb. cbn [shift_loop].
  rewrite land_mask by apply (rh_pow2 _ _ _ HR).
  set (idx := (i + 1) mod b). pose proof (mod_rng b Hb (i + 1)) as Hidx. fold idx in Hidx.
  assert (Hn1 : 1 <= n).
  { destruct (Z.eq_dec n 0) as [->|]; [|lia]. rewrite Z.add_0_r, mod_id in Hemp by lia. lia. }
  assert (Hidxk : idx = (x0 + (k + 1)) mod b).
  { unfold idx. rewrite Hik, mod_add_l by lia. f_equal. lia. }
  assert (Hne : idx <> x0).
  { intros E. rewrite Hidxk in E. rewrite <- (mod_id b x0 Hx0) in E at 2. apply mod_inj in E; lia. }
  assert (Hb1 : dist mcur + 1 <= 1023).
  { apply (window_bound b ms T i ((i + n) mod b) dcur (dist mcur) l); auto.
    - apply mod_rng; lia.
    - rewrite (mod_id b i) by lia. exact Hd.
    - rewrite Hh, mod_id by lia. reflexivity. }
  assert (Hmod : (dist mcur + 1) mod 1024 = dist mcur + 1) by (apply Z.mod_small; lia).
  unfold dist_inc. rewrite Hmod. cbn [dist hashx].
  set (mc := mkmeta (hashx mcur) (dist mcur + 1)).
  destruct (RH_view_get b ms T idx HR Hidx) as (o & Ho & Hcase).
  destruct (RH_meta b _ _ idx HR ltac:(lia)) as (m & Hm & Hmd). rewrite Hm. cbn [bind].
  assert (Hidxprev : (idx - 1) mod b = i).
  { unfold idx. rewrite mod_sub_l by lia. replace (i + 1 - 1) with i by lia. now apply mod_id. }
  assert (Hhc : (hash (fst dcur) + dist mc - 1) mod b = idx).
  { cbn [mc dist]. unfold idx. rewrite <- Hh, mod_add_l by lia. f_equal. lia. }
  pose proof (rh_lt _ _ _ HR) as LT. pose proof (rh_lm _ _ _ HR) as LM.
  assert (Lt : zlen t = b) by (rewrite <- LT; symmetry; eapply aset_zlen; eauto).
  destruct (aset_some ms idx mc) as [ms1 Hms1]; [lia|].
  destruct (aset_some t idx (Some dcur)) as [t1 Ht1]; [lia|].
  destruct (aset_comm _ _ _ _ _ _ _ HT Ht1 Hne) as (T1 & HT1 & HT1').
  assert (Hle : D ms idx < dist mc -> RH b ms1 T1).
  { intros Hlt. apply (RH_upd b ms T idx mc dcur); auto.
    - cbn [mc dist]. lia.
    - lia.
    - rewrite Hidxprev. cbn [mc dist]. lia. }
  destruct (Z.eqb_spec (dist m) 0) as [E0|N0].
  - unfold wr. rewrite Hms1, Ht1. cbn [bind].
    exists ms1, t1, T1. split; [reflexivity|]. split; [exact HT1'|].
    split; [apply Hle; cbn [mc dist]; lia|].
    destruct o as [e|]; [destruct Hcase; lia|].
    rewrite <- HP. apply (view_replace b ms T idx mc dcur ms1 T1 None); auto. cbn [mc dist]. lia.
  - destruct o as [e|]; [|lia]. destruct Hcase as (_ & He & Hhe & (m' & Hm' & Hhxe & Hde)).
    assert (m' = m) by congruence. subst m'.
    assert (Hstep : (idx + (n - 1)) mod b = (i + n) mod b).
    { unfold idx. rewrite mod_add_l by lia. f_equal. lia. }
    destruct (Z.ltb_spec (dist m) (dist mcur + 1)) as [Hlt|Hge].
    + unfold rd. rewrite <- (aget_aset_other _ _ _ _ idx HT Hne), He. cbn [bind].
      unfold wr. rewrite Hms1, Ht1. cbn [bind].
      apply (IH ms1 t1 T1 idx m e l (k + 1) (n - 1)); auto; try lia.
      * apply Hle. cbn [mc dist]. lia.
      * rewrite (D_aset _ _ _ _ _ Hms1). destruct (Z.eqb_spec x0 idx); [lia|]. exact Hnz.
      * rewrite Hstep. rewrite (D_aset _ _ _ _ _ Hms1). destruct (Z.eqb_spec ((i + n) mod b) idx) as [E|]; [|exact Hemp].
        rewrite <- E in Hmd. lia.
      * rewrite (D_aset _ _ _ _ _ Hms1), Z.eqb_refl. cbn [mc dist].
        pose proof (rh_rng _ _ _ HR idx Hidx). lia.
      * rewrite Hde. exact Hhe.
      * rewrite <- HP.
        apply (view_replace b ms T idx mc dcur ms1 T1 (Some e)); auto. cbn [mc dist]. lia.
    + apply (IH ms t T idx mc dcur l (k + 1) (n - 1)); auto; try lia.
      * rewrite Hstep. exact Hemp.
      * cbn [mc dist]. lia.
Qed.

Lemma RH_empty b ms t l : RH b ms t -> Permutation (somes (view ms t)) l -> zlen l < b ->
  exists q, 0 <= q < b /\ D ms q = 0.
Proof.
  intros H HP Hl. destruct (somes_full (view ms t)) as [p Hp].
  - rewrite zlen_view, (rh_lt _ _ _ H) by apply (RH_len _ _ _ H).
    unfold zlen in *. rewrite (Permutation_length HP). lia.
  - assert (0 <= p < b).
    { apply aget_ok_range in Hp. rewrite zlen_view in Hp by apply (RH_len _ _ _ H). rewrite (rh_lt _ _ _ H) in Hp. lia. }
    exists p. split; [assumption|]. destruct (RH_view_get b ms t p H) as (o & Ho & Hc); [assumption|].
    rewrite Hp in Ho. injection Ho as <-. exact Hc.
Qed.

Lemma land_hashmask x : Z.land (Z.land x hashmask) hashmask = Z.land x hashmask.
Proof. rewrite <- Z.land_assoc. reflexivity. Qed.

(** * Insertion of a key *)
Lemma bucket_insert_ok b (h : hmap K V) k v l : RH b (metas h) (table h) -> bcount h = b ->
  Permutation (somes (view (metas h) (table h))) l -> zlen l < b ->
  ((forall e, In e l -> eqb (fst e) k = false) -> spread_in hash b ((k, v) :: l)) ->
  exists h' r p, bucket_insert hash eqb h k = Ok (h', r) /\ r_ref r = Some p /\ 0 <= p < b /\
    ( (r_inserted r = false /\ h' = h /\
       exists e, aget (view (metas h) (table h)) p = Ok (Some e) /\ eqb (fst e) k = true)
    \/ (r_inserted r = true /\ (forall e, In e l -> eqb (fst e) k = false) /\
        size h' = size h /\ bcount h' = b /\
        exists T', aset (table h') p (Some (k, v)) = Ok T' /\ RH b (metas h') T' /\
          Permutation (somes (view (metas h') T')) ((k, v) :: l)) ).
Proof.
  intros HR Hbc HP Hl HS. pose proof (RH_pos _ _ _ HR) as Hb.
  unfold bucket_insert. destruct (bucket_lookup_ok b h k HR Hbc) as (r & Hr & Hrx & Hri & Hcase).
  rewrite Hr. cbn [bind]. destruct (r_ref r) as [p|] eqn:Eref.
  - destruct Hcase as (Hp & e & He & Heq). exists h, r, p. split; [reflexivity|]. split; [exact Eref|].
    split; [exact Hp|]. left. split; [exact Hri|]. split; [reflexivity|]. eauto.
  - destruct Hcase as (Hrd & Hidx & HD & Hprev & Hno).
    assert (Hno' : forall e, In e l -> eqb (fst e) k = false).
    { intros e He. apply Hno. eapply Permutation_in; [symmetry; exact HP|exact He]. }
    specialize (HS Hno').
    destruct (RH_empty b _ _ l HR HP Hl) as (q & Hq & Hq0).
    set (idx := r_idx r) in *. assert (Hir : 0 <= idx < b) by (rewrite Hidx; apply mod_rng; lia).
    assert (Hd1 : r_dist r <= 1023).
    { destruct (Z.eq_dec (r_dist r) 1); [lia|].
      replace (r_dist r) with ((r_dist r - 1) + 1) by lia.
      apply (window_bound b (metas h) (table h) (hash k + r_dist r - 2) q (k, v) (r_dist r - 1) ((k, v) :: l)); auto.
      - specialize (Hprev ltac:(lia)). lia.
      - cbn [fst]. f_equal. lia. }
    assert (Hland : Z.land (r_dist r) distmask = r_dist r).
    { change distmask with (Z.ones 10). rewrite Z.land_ones by lia. apply Z.mod_small. cbn. lia. }
    rewrite Hland, Hrx, land_hashmask.
    set (mnew := mkmeta (hx k) (r_dist r)).
    destruct (RH_meta b _ _ idx HR ltac:(lia)) as (mcur & Hm & Hmd). rewrite Hm. cbn [bind].
    pose proof (rh_lt _ _ _ HR) as LT. pose proof (rh_lm _ _ _ HR) as LM.
    destruct (aset_some (metas h) idx mnew) as [ms Hms]; [lia|]. rewrite Hms. cbn [bind].
    destruct (aset_some (table h) idx (Some (k, v))) as [T HT]; [lia|].
    assert (HR1 : RH b ms T).
    { apply (RH_upd b (metas h) (table h) idx mnew (k, v)); auto; cbn [mnew dist hashx fst]; auto; try lia.
      destruct (Z.eq_dec (r_dist r) 1) as [->|].
      - pose proof (rh_rng _ _ _ HR ((idx - 1) mod b) (mod_rng b Hb _)). lia.
      - replace ((idx - 1) mod b) with ((hash k + r_dist r - 2) mod b).
        + specialize (Hprev ltac:(lia)). lia.
        + rewrite Hidx, mod_sub_l by lia. f_equal. lia. }
    destruct (RH_view_get b _ _ idx HR Hir) as (o & Ho & Hcase).
    pose proof (view_replace b _ _ idx mnew (k, v) ms T o HR Hms HT ltac:(cbn [mnew dist]; lia) Ho) as HPr.
    destruct (Z.eqb_spec (dist mcur) 0) as [E0|N0]; cbn [negb].
    + do 3 eexists. split; [reflexivity|]. cbn [r_ref]. split; [reflexivity|]. split; [exact Hir|]. right.
      cbn [r_inserted size bcount table metas]. split; [reflexivity|]. split; [exact Hno'|].
      split; [reflexivity|]. split; [exact Hbc|]. exists T. split; [exact HT|]. split; [exact HR1|].
      destruct o as [e|]; [destruct Hcase; lia|]. cbn [app] in HPr. rewrite HPr. now constructor.
    + destruct o as [e|]; [|lia]. destruct Hcase as (_ & He & Hhe & (m' & Hm' & Hhxe & Hde)).
      assert (m' = mcur) by congruence. subst m'.
      unfold rd. rewrite He. cbn [bind].
      set (n := (q - idx) mod b). pose proof (mod_rng b Hb (q - idx)) as Hnr. fold n in Hnr.
      assert (Eq : (idx + n) mod b = q).
      { unfold n. rewrite Zplus_mod_idemp_r. replace (idx + (q - idx)) with q by lia. now apply mod_id. }
      assert (Hqi : q <> idx) by (intros ->; lia).
      destruct (shift_ok b (k, v) idx (S (Z.to_nat (bcount h))) ms (table h) T idx mcur e ((k, v) :: l) 0 n)
        as (ms' & t' & T' & Hsh & HT' & HR' & HP'); auto; try lia.
      * rewrite (D_aset _ _ _ _ _ Hms), Z.eqb_refl. cbn [mnew dist]. lia.
      * rewrite Z.add_0_r, mod_id; lia.
      * rewrite Eq, (D_aset _ _ _ _ _ Hms). destruct (Z.eqb_spec q idx); [lia|]. exact Hq0.
      * rewrite (D_aset _ _ _ _ _ Hms), Z.eqb_refl. cbn [mnew dist].
        pose proof (rh_rng _ _ _ HR idx Hir). lia.
      * rewrite Hde. exact Hhe.
      * cbn [app] in HPr. rewrite HPr. now constructor.
      * rewrite Hbc in Hsh |- *. rewrite Hsh. cbn [bind fst snd].
        do 3 eexists. split; [reflexivity|]. cbn [r_ref]. split; [reflexivity|]. split; [exact Hir|]. right.
        cbn [r_inserted size bcount table metas]. split; [reflexivity|]. split; [exact Hno'|].
        split; [reflexivity|]. split; [reflexivity|]. exists T'. auto.
Qed.
End Hmap.
