(** Slices, sub-spans, histories of views. *)
From Verif Require Import Base Cspan_Model Cspan_Spec Cspan_Proofs.

Lemma wrap32_small x : - 2147483648 <= x <= max32 -> wrap32 x = x.
Proof. unfold wrap32, max32. intros H. rewrite Z.mod_small by lia. lia. Qed.

Definition arg_ok (a : Z * Z * Z) : Prop :=
  let '(a0, a1, a2) := a in 0 <= a0 <= max32 /\ - 2 ^ 63 <= a1 <= max32 /\ a2 <= max32.

Lemma mul32_inv x y z : mul32 x y = Ok z -> z = x * y.
Proof. unfold mul32. destruct (_ && _); [|discriminate]. congruence. Qed.

Lemma step_count a b k j : a < b -> 0 < k -> 0 <= j -> j < Z.quot (b - a - 1) k + 1 <-> a + j * k < b.
Proof.
  intros H1 H2 H3. rewrite Z.quot_div_nonneg by lia.
  pose proof (Z.div_mod (b - a - 1) k ltac:(lia)). pose proof (Z.mod_pos_bound (b - a - 1) k ltac:(lia)).
  set (q := (b - a - 1) / k) in *. set (m := (b - a - 1) mod k) in *. split; intros; nia.
Qed.

Lemma slice_dim_inv n t a o r : 0 <= n <= max32 -> arg_ok a -> slice_dim n t a = Ok (o, r) ->
  fits (dim_of n a) n /\
  match dim_of n a, r with
  | Pick i, None => o = i * t
  | Rng x y k, Some (on, ot) => 0 < on <= max32 /\ o = x * t /\ ot = t * k /\ (forall j, 0 <= j -> j < on <-> x + j * k < y)
  | _, _ => False
  end.
Proof.
  destruct a as [[a0 a1] a2]. intros Hn (H0 & H1 & H2). unfold slice_dim, dim_of, c_END in *.
  destruct (Z.eqb_spec a1 0) as [->|Hne].
  - destruct (uless a0 n) eqn:E; [|discriminate]. intros [= <- <-]. cbn. split; [|reflexivity]. apply uless_true; unfold max32 in *; auto; lia.
  - set (e := if a1 =? 2147483647 then n else a1).
    assert (He : - 2 ^ 63 <= e <= max32) by (unfold e; destruct (_ =? _); unfold max32 in *; lia).
    destruct (Z.ltb_spec 0 (wrap32 (e - a0))) as [Hs|]; [|discriminate]. destruct (uless n e) eqn:Eu; [discriminate|]. cbn [andb negb].
    assert (Hen : 0 <= e <= n).
    { unfold max32 in *. unfold uless in Eu. apply Z.ltb_ge in Eu. rewrite (Z.mod_small n) in Eu by lia.
      destruct (Z.ltb_spec e 0); [|rewrite Z.mod_small in Eu by lia; lia].
      replace (e mod 18446744073709551616) with (e + 18446744073709551616) in Eu; [lia|]. apply Z.mod_unique_pos with (q := -1); lia. }
    rewrite (wrap32_small (e - a0)) in * by (unfold max32 in *; lia).
    destruct (Z.ltb_spec 0 a2) as [Hk|Hk].
    + rewrite wrap32_small by lia. destruct (mul32 t a2) as [ot|] eqn:Em; [|discriminate]. apply mul32_inv in Em. cbn [bind].
      destruct (Z.eqb_spec a2 0); [lia|]. intros [= <- <-]. split; [cbn; lia|]. repeat split; try lia; try (intros; apply step_count; lia).
      * clearbody e. pose proof (Z.quot_le_upper_bound (e - a0 - 1) a2 (e - a0 - 1) ltac:(lia) ltac:(nia)). lia.
    + intros [= <- <-]. split; [cbn; lia|]. repeat split; try lia.
Qed.

Lemma slice_dim_total n t a : 0 <= n <= max32 -> arg_ok a -> fits (dim_of n a) n ->
  (match dim_of n a with Rng _ _ k => - 2147483648 <= t * k <= max32 | _ => True end) ->
  exists q, slice_dim n t a = Ok q /\ (match dim_of n a with Rng _ _ _ => snd q <> None | _ => snd q = None end).
Proof.
  destruct a as [[a0 a1] a2]. intros Hn (H0 & H1 & H2). unfold slice_dim, dim_of, c_END in *.
  destruct (Z.eqb_spec a1 0) as [->|Hne]; cbn [fits].
  - intros HF _. rewrite uless_in by (unfold max32 in *; lia). eauto.
  - set (e := if a1 =? 2147483647 then n else a1) in *. intros HF HT. rewrite (wrap32_small (e - a0)) by (unfold max32 in *; lia).
    destruct (Z.ltb_spec 0 (e - a0)); [|lia].
    assert (uless n e = false) as ->. { unfold uless. rewrite !Z.mod_small by (unfold max32 in *; lia). apply Z.ltb_ge. lia. }
    cbn [andb negb]. destruct (Z.ltb_spec 0 a2).
    + rewrite wrap32_small by lia. unfold mul32. destruct (Z.leb_spec (-2147483648) (t * a2)); [|lia]. destruct (Z.leb_spec (t * a2) max32); [|lia]. cbn [andb bind].
      destruct (Z.eqb_spec a2 0); [lia|]. eexists. split; [reflexivity|]. cbn. discriminate.
    + eexists. split; [reflexivity|]. cbn. discriminate.
Qed.

Lemma kept_pick i ds sh : kept ds sh -> kept (Pick i :: ds) sh.
Proof. intros (sel & -> & H). eexists. split; [reflexivity|]. cbn [map concat app]. exact H. Qed.
Lemma kept_rng a b k ds n sh : kept ds sh -> 0 < n -> (forall j, 0 <= j -> j < n <-> a + j * k < b) -> kept (Rng a b k :: ds) (n :: sh).
Proof. intros (sel & -> & H) Hn Hj. eexists. split; [reflexivity|]. cbn [map concat app]. constructor; [split; auto|exact H]. Qed.

Lemma slice_loop_inv sh : forall room st args off osh ost, Forall (fun n => 0 <= n <= max32) sh -> Forall arg_ok args ->
  slice_loop room sh st args = Ok (off, (osh, ost)) ->
  length args = length sh /\ length st = length sh /\ length ost = length osh /\ (length osh <= room)%nat /\ Forall (fun n => 0 < n <= max32) osh /\
  Forall2 fits (dims_of sh args) sh /\ kept (dims_of sh args) osh /\
  (forall idx, in_range idx osh -> in_range (source (dims_of sh args) idx) sh /\ off + dot idx ost = dot (source (dims_of sh args) idx) st) /\
  (forall i j, in_range i osh -> in_range j osh -> source (dims_of sh args) i = source (dims_of sh args) j -> i = j).
Proof.
  induction sh as [|n sh IH]; intros room [|t st] [|a args] off osh ost HS HA H; cbn [slice_loop] in H; try discriminate.
  - injection H as <- <- <-. cbn [dims_of length]. do 4 (split; [lia|]). split; [constructor|]. split; [constructor|]. split; [exists []; split; [reflexivity|constructor]|].
    split; [intros idx Hi; inversion Hi; subst; split; [constructor|reflexivity]|].
    intros i j Hi Hj _. inversion Hi; subst. inversion Hj; subst. reflexivity.
  - inversion HS as [|? ? Hn HS']; subst. inversion HA as [|? ? Ha HA']; subst.
    apply bind_ok in H as ([o r] & Hd & H). cbn [fst snd] in H. apply slice_dim_inv in Hd as [HF HD]; auto.
    destruct r as [[on ot]|].
    + destruct room as [|room]; [discriminate|]. apply bind_ok in H as ([off' [osh' ost']] & Hl & H). injection H as <- <- <-.
      apply IH in Hl as (L1 & L2 & L3 & L4 & L5 & L6 & L7 & L8 & L9); auto. cbn [fst snd dims_of] in *.
      destruct (dim_of n a) as [i|x y k] eqn:Ed; [contradiction|]. destruct HD as (D1 & D2 & D3 & D4). cbn [fits] in HF.
      cbn [length]. do 4 (split; [lia|]). split; [constructor; auto|]. split; [constructor; auto|]. split; [apply kept_rng; auto; lia|]. split; [intros idx0 H; split|].
      * inversion H as [|j ? idx ? Hj Hi]; subst. destruct (L8 _ Hi) as [L8a L8b]. cbn [source]. constructor; [|exact L8a].
        destruct (D4 j ltac:(lia)) as [D5 _]. specialize (D5 ltac:(lia)). nia.
      * inversion H as [|j ? idx ? Hj Hi]; subst. destruct (L8 _ Hi) as [L8a L8b]. cbn [source dot]. rewrite <- L8b. lia.
      * intros i j Hi Hj E. inversion Hi as [|i0 ? i' ? Hi0 Hi']; subst. inversion Hj as [|j0 ? j' ? Hj0 Hj']; subst. cbn [source] in E. injection E as E1 E2.
        f_equal; [nia|]. apply L9; auto.
    + apply bind_ok in H as ([off' [osh' ost']] & Hl & H). cbn [fst snd] in H. injection H as <- <- <-.
      apply IH in Hl as (L1 & L2 & L3 & L4 & L5 & L6 & L7 & L8 & L9); auto. cbn [fst snd dims_of] in *.
      destruct (dim_of n a) as [i|x y k] eqn:Ed; [|contradiction]. cbn [fits] in HF.
      cbn [length]. do 4 (split; [lia|]). split; [auto|]. split; [constructor; auto|]. split; [apply kept_pick; auto|]. split; [intros idx H; split|].
      * destruct (L8 _ H) as [L8a L8b]. cbn [source]. constructor; auto.
      * destruct (L8 _ H) as [L8a L8b]. cbn [source dot]. rewrite <- L8b. lia.
      * intros i0 j Hi Hj E. cbn [source] in E. injection E as E. apply L9; auto.
Qed.

(** number of output dimensions *)
Fixpoint out_rank (ds : list dim) : nat := match ds with [] => O | Pick _ :: t => out_rank t | Rng _ _ _ :: t => S (out_rank t) end.
Fixpoint no_overflow (ds : list dim) (st : list Z) : Prop :=
  match ds, st with
  | Rng _ _ k :: ds', t :: st' => - 2147483648 <= t * k <= max32 /\ no_overflow ds' st'
  | Pick _ :: ds', _ :: st' => no_overflow ds' st'
  | _, _ => True
  end.
Lemma slice_loop_total sh : forall room st args, Forall (fun n => 0 <= n <= max32) sh -> Forall arg_ok args -> length st = length sh -> length args = length sh ->
  Forall2 fits (dims_of sh args) sh -> no_overflow (dims_of sh args) st -> (out_rank (dims_of sh args) <= room)%nat ->
  exists q, slice_loop room sh st args = Ok q /\ length (fst (snd q)) = out_rank (dims_of sh args).
Proof.
  induction sh as [|n sh IH]; intros room [|t st] [|a args] HS HA H1 H2 HF HO HR; cbn in H1, H2; try discriminate.
  - eexists. split; reflexivity.
  - inversion HS as [|? ? Hn HS']; subst. inversion HA as [|? ? Ha HA']; subst. cbn [dims_of] in *. inversion HF as [|? ? ? ? HF1 HF2]; subst.
    destruct (slice_dim_total n t a) as ([o r] & E & Er); auto.
    { destruct (dim_of n a); [exact I|]. cbn in HO. tauto. }
    cbn [slice_loop]. rewrite E. cbn [bind fst snd] in *. destruct (dim_of n a) as [i|x y k].
    + subst r. cbn [out_rank no_overflow] in *. destruct (IH room st args) as (q & Eq & Lq); auto. rewrite Eq. cbn [bind]. eexists. split; [reflexivity|]. exact Lq.
    + destruct r as [[on ot]|]; [|congruence]. cbn [out_rank no_overflow] in *. destruct room as [|room]; [lia|].
      destruct (IH room st args) as (q & Eq & Lq); auto; [tauto|lia|]. rewrite Eq. cbn [bind]. eexists. split; [reflexivity|]. cbn [fst snd length]. now rewrite Lq.
Qed.

(** A span all of whose elements are distinct elements lo .. hi-1 of the array. *)
Definition view (lo hi : Z) (s : span) : Prop :=
  length (stride s) = length (shape s) /\ shape s <> [] /\ Forall (fun n => 0 < n <= max32) (shape s) /\
  (forall idx, in_range idx (shape s) -> lo <= data s + dot idx (stride s) < hi) /\
  (forall i j, in_range i (shape s) -> in_range j (shape s) -> dot i (stride s) = dot j (stride s) -> i = j).

Lemma dims_lt sh : Forall (fun n => 0 < n <= max32) sh -> Forall (fun n => n < 2 ^ 63) sh.
Proof. apply Forall_impl. unfold max32. lia. Qed.
Lemma dims_le sh : Forall (fun n => 0 < n <= max32) sh -> Forall (fun n => 0 <= n <= max32) sh.
Proof. apply Forall_impl. unfold max32. lia. Qed.

Lemma view_at lo hi s idx : view lo hi s -> in_range idx (shape s) -> at_ s idx = Ok (data s + dot idx (stride s)).
Proof. intros (H1 & _ & H2 & _) HR. unfold at_. rewrite index_ok by (auto using dims_lt). reflexivity. Qed.

Lemma slice_ok s r args s' : Forall (fun n => 0 < n <= max32) (shape s) -> Forall arg_ok args -> slice s r args = Ok s' ->
  length (shape s') = r /\ length (stride s') = r /\ length args = length (shape s) /\ length (stride s) = length (shape s) /\ Forall (fun n => 0 < n <= max32) (shape s') /\
  Forall2 fits (dims_of (shape s) args) (shape s) /\ kept (dims_of (shape s) args) (shape s') /\
  (forall idx, in_range idx (shape s') -> in_range (source (dims_of (shape s) args) idx) (shape s) /\
     data s' + dot idx (stride s') = data s + dot (source (dims_of (shape s) args) idx) (stride s)) /\
  (forall i j, in_range i (shape s') -> in_range j (shape s') -> source (dims_of (shape s) args) i = source (dims_of (shape s) args) j -> i = j).
Proof.
  intros HS HA H. unfold slice in H. apply bind_ok in H as ([off [osh ost]] & Hl & H). cbn [fst snd] in H.
  destruct (Nat.eqb_spec (length osh) r) as [<-|]; [|discriminate]. injection H as <-. cbn [shape stride data].
  apply slice_loop_inv in Hl as (L1 & L2 & L3 & L4 & L5 & L6 & L7 & L8 & L9); auto using dims_le.
  do 4 (split; [auto|]). do 3 (split; [assumption|]). split; [|exact L9]. intros idx Hi. destruct (L8 _ Hi) as [L8a E]. split; [exact L8a|lia].
Qed.

Lemma slice_view lo hi s r args s' : (0 < r)%nat -> view lo hi s -> Forall arg_ok args -> slice s r args = Ok s' -> view lo hi s'.
Proof.
  intros Hr (V1 & V2 & V3 & V4 & V5) HA H. apply slice_ok in H as (L1 & L2 & L3 & L4 & L5 & L6 & L7 & L8 & L9); auto.
  split; [congruence|]. split; [intros E; rewrite E in L1; cbn in L1; lia|]. split; [exact L5|]. split.
  - intros idx Hi. destruct (L8 _ Hi) as [L8a ->]. apply V4. exact L8a.
  - intros i j Hi Hj E. apply L9; auto. destruct (L8 _ Hi) as [Ra Ea]. destruct (L8 _ Hj) as [Rb Eb]. apply V5; auto. lia.
Qed.

Lemma transpose_view lo hi s s' : view lo hi s -> transpose s = Ok s' -> view lo hi s'.
Proof.
  intros (V1 & V2 & V3 & V4 & V5) H. rewrite transpose_ok in H by exact V1. injection H as <-. unfold view. cbn [shape stride data].
  split; [now rewrite !rev_length|]. split; [intros E; apply V2; rewrite <- (rev_involutive (shape s)), E; reflexivity|].
  split; [now apply Forall_rev|].
  assert (HX : forall idx, in_range idx (rev (shape s)) -> in_range (rev idx) (shape s) /\ dot idx (rev (stride s)) = dot (rev idx) (stride s)).
  { intros idx Hi. split; [rewrite <- (rev_involutive (shape s)); now apply in_range_rev|].
    rewrite <- (rev_involutive idx) at 1. apply dot_rev. rewrite rev_length. apply in_range_length in Hi. rewrite rev_length in Hi. congruence. }
  split.
  - intros idx Hi. destruct (HX _ Hi) as [Hr ->]. auto.
  - intros i j Hi Hj E. destruct (HX _ Hi) as [Hri Ei]. destruct (HX _ Hj) as [Hrj Ej]. rewrite Ei, Ej in E. apply V5 in E; auto.
    rewrite <- (rev_involutive i), <- (rev_involutive j). now rewrite E.
Qed.

Lemma aswap_len {A} (l l' : list A) i j : aswap l i j = Ok l' -> zlen l' = zlen l.
Proof. intros H. apply aswap_inv in H as (x & y & _ & _ & H & _). exact H. Qed.
Lemma aswap_back {A} (l l' : list A) i j : aswap l i j = Ok l' -> aswap l' i j = Ok l.
Proof.
  intros H. apply aswap_inv in H as (x & y & Hx & Hy & Hl & Hk).
  pose proof (aget_ok_range _ _ _ Hx). pose proof (aget_ok_range _ _ _ Hy).
  destruct (aswap_some l' i j) as [l2 E]; [lia..|]. rewrite E. f_equal. apply aswap_inv in E as (x2 & y2 & Hx2 & Hy2 & Hl2 & Hk2).
  apply aget_ext; [lia|]. intros k _. rewrite Hk2, Hk. rewrite Hk in Hx2, Hy2.
  rewrite Z.eqb_refl in Hx2. rewrite Z.eqb_refl in Hy2.
  destruct (Z.eqb_spec k j) as [Ej|Ej]; [subst k; destruct (Z.eqb_spec i j); subst; congruence|].
  destruct (Z.eqb_spec k i) as [Ei|Ei]; [subst k; congruence|reflexivity].
Qed.
Lemma in_range_aswap a sh i j a' sh' : in_range a sh -> aswap a i j = Ok a' -> aswap sh i j = Ok sh' -> in_range a' sh'.
Proof.
  intros HR Ha Hs. pose proof (in_range_length _ _ HR) as HL.
  assert (HG : forall (u v : list Z), length u = length v -> (in_range u v <-> forall k x y, aget u k = Ok x -> aget v k = Ok y -> 0 <= x < y)).
  { clear. intros u. induction u as [|x u IH]; intros [|y v] H; cbn in H; try discriminate.
    - split; [intros _ k ? ? Hx; apply aget_ok_range in Hx; cbn in Hx; unfold zlen in Hx; cbn in Hx; lia|constructor].
    - injection H as H. split.
      + intros HI k a b. rewrite !aget_cons. inversion HI; subst. destruct (k =? 0); [congruence|]. apply IH; auto.
      + intros HI. constructor; [apply (HI 0); reflexivity|]. apply IH; [exact H|]. intros k a b Ha Hb. apply (HI (k + 1)).
        * rewrite aget_cons. pose proof (aget_ok_range _ _ _ Ha). destruct (Z.eqb_spec (k + 1) 0); [lia|]. now replace (k + 1 - 1) with k by lia.
        * rewrite aget_cons. pose proof (aget_ok_range _ _ _ Ha). destruct (Z.eqb_spec (k + 1) 0); [lia|]. now replace (k + 1 - 1) with k by lia. }
  apply HG; [apply aswap_len in Ha; apply aswap_len in Hs; unfold zlen in *; lia|].
  rewrite HG in HR by exact HL. apply aswap_inv in Ha as (x & y & Hx & Hy & _ & Hk). apply aswap_inv in Hs as (x2 & y2 & Hx2 & Hy2 & _ & Hk2).
  intros k p q. rewrite Hk, Hk2. destruct (k =? j); [intros [= <-] [= <-]; eauto|]. destruct (k =? i); [intros [= <-] [= <-]; eauto|]. apply HR.
Qed.
Lemma aswap_same_len {A B} (a : list A) (b b' : list B) i j : length a = length b -> aswap b i j = Ok b' -> exists a', aswap a i j = Ok a'.
Proof.
  intros HL H. apply aswap_inv in H as (x & y & Hx & Hy & _). apply aget_ok_range in Hx. apply aget_ok_range in Hy. apply aswap_some; unfold zlen in *; lia.
Qed.
Lemma swap_ok s i j s' : length (stride s) = length (shape s) -> swap_axes s i j = Ok s' ->
  exists sh st, aswap (shape s) i j = Ok sh /\ aswap (stride s) i j = Ok st /\ s' = mk (data s) sh st.
Proof.
  unfold swap_axes. intros HL. destruct (_ && _); [|discriminate]. intros H. apply bind_ok in H as (sh & H1 & H). apply bind_ok in H as (st & H2 & H).
  injection H as <-. eauto 6.
Qed.
Lemma swap_view lo hi s i j s' : view lo hi s -> swap_axes s i j = Ok s' -> view lo hi s'.
Proof.
  intros (V1 & V2 & V3 & V4 & V5) H. apply swap_ok in H as (sh & st & H1 & H2 & ->); [|exact V1]. unfold view. cbn [shape stride data].
  pose proof (aswap_len _ _ _ _ H1) as L1. pose proof (aswap_len _ _ _ _ H2) as L2.
  split; [unfold zlen in *; lia|]. split; [intros ->; destruct (shape s); [congruence|]; unfold zlen in L1; cbn in L1; lia|].
  split.
  { apply Forall_forall. intros x Hx. rewrite Forall_forall in V3. apply V3. apply In_aget in Hx as (k & _ & Hk). apply aswap_inv in H1 as (a & b & Ha & Hb & _ & HK).
    rewrite HK in Hk. destruct (k =? j); [injection Hk as <-; eapply aget_In; eauto|]. destruct (k =? i); [injection Hk as <-; eapply aget_In; eauto|]. eapply aget_In; eauto. }
  assert (HX : forall idx, in_range idx sh -> exists idx', aswap idx i j = Ok idx' /\ in_range idx' (shape s) /\ dot idx st = dot idx' (stride s)).
  { intros idx Hi. pose proof (in_range_length _ _ Hi) as HL. destruct (aswap_same_len idx sh (shape s) i j HL) as [idx' E]; [now apply aswap_back|].
    exists idx'. split; [exact E|]. split; [eapply in_range_aswap; [exact Hi|exact E|now apply aswap_back]|].
    symmetry. eapply aswap_dot; [|exact E|apply aswap_back; exact H2]. unfold zlen in *. lia. }
  split.
  - intros idx Hi. destruct (HX _ Hi) as (idx' & _ & Hr & ->). auto.
  - intros a b Ha Hb E. destruct (HX _ Ha) as (a' & Ea & Hra & Da). destruct (HX _ Hb) as (b' & Eb & Hrb & Db).
    rewrite Da, Db in E. apply V5 in E; auto. subst b'. apply aswap_back in Ea. apply aswap_back in Eb. congruence.
Qed.

Lemma submd_ok s xs s' : Forall (fun a => - 2 ^ 63 <= a < 2 ^ 63) xs -> Forall (fun n => 0 < n <= max32) (shape s) -> length (stride s) = length (shape s) ->
  (length xs < rank s)%nat -> submd s xs = Ok s' ->
  shape s' = skipn (length xs) (shape s) /\ stride s' = skipn (length xs) (stride s) /\
  forall idx, in_range idx (shape s') -> in_range (xs ++ idx) (shape s) /\ data s' + dot idx (stride s') = data s + dot (xs ++ idx) (stride s).
Proof.
  intros HX HS HL HR H. unfold submd, at_ in H. apply bind_ok in H as (a & Ha & H). injection H as <-. cbn [shape stride data].
  apply bind_ok in Ha as (o & Ho & Ha). injection Ha as <-.
  assert (HI : in_range (xs ++ repeat 0 (rank s - length xs)) (shape s)).
  { eapply index_inv; [| |exact Ho].
    - apply Forall_app. split; [exact HX|]. apply Forall_forall. intros x Hx. apply repeat_spec in Hx. subst. lia.
    - revert HS. apply Forall_impl. unfold max32. lia. }
  rewrite index_ok in Ho by (auto using dims_lt). injection Ho as <-. unfold rank in *.
  assert (L1 : length xs = length (firstn (length xs) (shape s))) by (rewrite firstn_length; lia).
  assert (L2 : length xs = length (firstn (length xs) (stride s))) by (rewrite firstn_length; lia).
  rewrite <- (firstn_skipn (length xs) (shape s)) in HI. apply in_range_app in HI as [HI1 _]; [|exact L1].
  split; [reflexivity|]. split; [reflexivity|]. intros idx Hidx. split.
  - rewrite <- (firstn_skipn (length xs) (shape s)). apply in_range_app; auto.
  - assert (HZ : forall k st, dot (repeat 0 k) st = 0).
    { clear. induction k; intros [|t st]; cbn [repeat dot]; auto. rewrite IHk. lia. }
    rewrite <- (firstn_skipn (length xs) (stride s)) at 1 3. rewrite !dot_app by exact L2. rewrite HZ. lia.
Qed.
Lemma Forall_skipn {A} (P : A -> Prop) l k : Forall P l -> Forall P (skipn k l).
Proof. intros H. revert k; induction H as [|x l Hx H IH]; intros [|k]; cbn; auto. Qed.
Lemma submd_view lo hi s xs s' : Forall (fun a => - 2 ^ 63 <= a < 2 ^ 63) xs -> (length xs < rank s)%nat -> view lo hi s -> submd s xs = Ok s' -> view lo hi s'.
Proof.
  intros HX HR (V1 & V2 & V3 & V4 & V5) H. apply submd_ok in H as (E1 & E2 & H); auto. unfold view. unfold rank in HR.
  split; [rewrite E1, E2, !skipn_length; lia|]. split; [intros E; rewrite E1 in E; apply (f_equal (@length Z)) in E; rewrite skipn_length in E; cbn in E; lia|].
  split; [rewrite E1; now apply Forall_skipn|]. split.
  - intros idx Hi. destruct (H _ Hi) as [Ha ->]. auto.
  - intros i j Hi Hj E. destruct (H _ Hi) as [Ha Ea]. destruct (H _ Hj) as [Hb Eb]. assert (Ex : xs ++ i = xs ++ j) by (apply V5; auto; lia). now apply app_inv_head in Ex.
Qed.

Lemma subspan_ok s off cnt s' n : shape s = [n] -> length (stride s) = 1%nat -> 0 < n <= max32 -> - 2 ^ 63 <= off < 2 ^ 63 -> 0 < cnt -> off + cnt <= n -> subspan s off cnt = Ok s' ->
  shape s' = [cnt] /\ stride s' = stride s /\ forall i, 0 <= i < cnt -> 0 <= off + i < n /\ data s' + dot [i] (stride s') = data s + dot [off + i] (stride s).
Proof.
  intros HS HL HN HO HC HB H. unfold subspan, at_ in H. apply bind_ok in H as (a & Ha & H). injection H as <-. cbn [shape stride data].
  apply bind_ok in Ha as (o & Ho & Ha). injection Ha as <-.
  assert (HI : in_range [off] (shape s)).
  { eapply index_inv; [| |exact Ho]; [repeat constructor; lia|]. rewrite HS. repeat constructor; unfold max32 in *; lia. }
  rewrite HS in HI. inversion HI as [|? ? ? ? H1 _]; subst.
  rewrite index_ok in Ho; [|rewrite HS; repeat constructor; lia|rewrite HS; repeat constructor; unfold max32 in *; lia|rewrite HS; cbn; congruence]. injection Ho as <-.
  rewrite wrap32_small by (unfold max32 in *; lia). split; [reflexivity|]. split; [reflexivity|]. intros i Hi. split; [lia|].
  destruct (stride s) as [|t [|? ?]]; cbn in HL; try discriminate. cbn [dot]. lia.
Qed.
Lemma subspan_view lo hi s off cnt s' n : view lo hi s -> shape s = [n] -> - 2 ^ 63 <= off < 2 ^ 63 -> 0 < cnt -> off + cnt <= n -> subspan s off cnt = Ok s' -> view lo hi s'.
Proof.
  intros (V1 & V2 & V3 & V4 & V5) HS HO HC HB H. rewrite HS in V1, V3, V4, V5. inversion V3; subst. pose proof V1 as V1'. cbn in V1'.
  apply subspan_ok with (n := n) in H as (E1 & E2 & H); auto. unfold view. rewrite E1.
  split; [rewrite E2; exact V1|]. split; [discriminate|].
  destruct (H 0 ltac:(lia)) as [Hoff _]. split; [repeat constructor; unfold max32 in *; lia|].
  assert (HX : forall idx, in_range idx [cnt] -> exists i, idx = [i] /\ 0 <= i < cnt).
  { intros idx Hi. inversion Hi as [|i ? t ? Hi1 Hi2]; subst. inversion Hi2; subst. eauto. }
  split.
  - intros idx Hi. destruct (HX _ Hi) as (i & -> & Hc). destruct (H _ Hc) as [Ha ->]. apply V4. repeat constructor; lia.
  - intros i j Hi Hj E. destruct (HX _ Hi) as (x & -> & Hc). destruct (HX _ Hj) as (y & -> & Hd). destruct (H _ Hc) as [Ha Ea]. destruct (H _ Hd) as [Hb Eb].
    assert (Ex : [off + x] = [off + y]) by (apply V5; [repeat constructor; lia|repeat constructor; lia|lia]). f_equal. injection Ex. lia.
Qed.

(** Any sequence of view operations. *)
Inductive vop := VTranspose | VSwap (i j : Z) | VSlice (r : nat) (args : list (Z * Z * Z)) | VSub (xs : list Z) | VSubspan (off cnt : Z).
Definition vrun1 (s : span) (o : vop) : res span :=
  match o with
  | VTranspose => transpose s
  | VSwap i j => swap_axes s i j
  | VSlice r args => slice s r args
  | VSub xs => submd s xs
  | VSubspan off cnt => subspan s off cnt
  end.
Definition vop_ok (s : span) (o : vop) : Prop :=
  match o with
  | VTranspose | VSwap _ _ => True
  | VSlice r args => (0 < r)%nat /\ Forall arg_ok args
  | VSub xs => (length xs < rank s)%nat /\ Forall (fun a => - 2 ^ 63 <= a < 2 ^ 63) xs
  | VSubspan off cnt => exists n, shape s = [n] /\ - 2 ^ 63 <= off < 2 ^ 63 /\ 0 < cnt /\ off + cnt <= n
  end.
Inductive vrun : span -> list vop -> span -> Prop :=
| vrun_nil s : vrun s [] s
| vrun_cons s o os s1 s2 : vop_ok s o -> vrun1 s o = Ok s1 -> vrun s1 os s2 -> vrun s (o :: os) s2.
Lemma vrun_view lo hi s os s' : view lo hi s -> vrun s os s' -> view lo hi s'.
Proof.
  intros V H. induction H as [|s o os s1 s2 HO H1 H2 IH]; [exact V|]. apply IH. destruct o; cbn [vrun1 vop_ok] in *.
  - eapply transpose_view; eauto.
  - eapply swap_view; eauto.
  - destruct HO. eapply slice_view; eauto.
  - destruct HO. eapply submd_view; eauto.
  - destruct HO as (n & A & B & C & D). eapply subspan_view; eauto.
Qed.

Definition packed_ok (ly : layout) (sh : list Z) : Prop :=
  sh <> [] /\ Forall (fun n => 0 < n <= max32) sh /\ match ly with RowMajor => prod (tl sh) <= max32 | ColMajor => prod (removelast sh) <= max32 end.
Lemma md_ok ly d sh : packed_ok ly sh -> md ly d sh = Ok (mk d sh (match ly with RowMajor => row_strides sh | ColMajor => col_strides 1 sh end)).
Proof.
  intros (H1 & H2 & H3). assert (H4 : Forall (fun n => 0 < n) sh) by (revert H2; apply Forall_impl; lia). unfold md. destruct ly.
  - rewrite shape2stride_row by auto. reflexivity.
  - rewrite shape2stride_col by auto. reflexivity.
Qed.
Definition offset ly := match ly with RowMajor => row_offset | ColMajor => col_offset end.
Lemma md_at ly d sh s idx : packed_ok ly sh -> md ly d sh = Ok s -> in_range idx sh -> at_ s idx = Ok (d + offset ly sh idx).
Proof.
  intros HP E HR. rewrite md_ok in E by exact HP. injection E as <-. destruct HP as (H1 & H2 & H3). unfold at_.
  pose proof (in_range_length _ _ HR). rewrite index_ok; cbn [shape stride data]; auto using dims_lt.
  - cbn [bind]. f_equal. f_equal. destruct ly; cbn [offset]; [apply dot_row; auto|]. rewrite dot_col by auto. lia.
  - destruct ly; [apply row_strides_length|apply col_strides_length].
Qed.
Lemma md_view ly d sh s : packed_ok ly sh -> md ly d sh = Ok s -> view d (d + prod sh) s.
Proof.
  intros HP E. pose proof E as E0. rewrite md_ok in E by exact HP. injection E as <-. pose proof HP as (H1 & H2 & H3). unfold view. cbn [shape stride data].
  assert (HD : forall idx, in_range idx sh -> dot idx (match ly with RowMajor => row_strides sh | ColMajor => col_strides 1 sh end) = offset ly sh idx).
  { intros idx HR. apply in_range_length in HR. destruct ly; cbn [offset]; [apply dot_row; auto|]. rewrite dot_col by auto. lia. }
  split; [destruct ly; [apply row_strides_length|apply col_strides_length]|]. split; [exact H1|]. split; [exact H2|]. split.
  - intros idx HR. rewrite HD by exact HR. destruct ly; cbn [offset]; [pose proof (row_offset_range _ _ HR)|pose proof (col_offset_range _ _ HR)]; lia.
  - intros i j Hi Hj. rewrite !HD by auto. destruct ly; cbn [offset]; [apply row_offset_inj|apply col_offset_inj]; auto.
Qed.
