(** Indexing, strides, layouts, transposition, slicing. *)
From Verif Require Import Base Cspan_Model Cspan_Spec.

Lemma aget_nat {A} (l : list A) (r : nat) x : aget l (Z.of_nat r) = Ok x <-> nth_error l r = Some x.
Proof. rewrite aget_nth, Nat2Z.id. split; [tauto|]. intros H. split; [lia|exact H]. Qed.

Lemma firstn_snoc {A} (l : list A) (r : nat) x : nth_error l r = Some x -> firstn (S r) l = firstn r l ++ [x].
Proof.
  revert r; induction l as [|y l IH]; intros [|r] H; cbn in H; try discriminate.
  - injection H as ->. reflexivity.
  - cbn [firstn app]. f_equal. exact (IH r H).
Qed.

Lemma nth_error_ex {A} (l : list A) (r : nat) : (r < length l)%nat -> exists x, nth_error l r = Some x.
Proof. intros H. destruct (nth_error l r) eqn:E; [eauto|]. apply nth_error_None in E. lia. Qed.

Lemma dot_app a b c d : length a = length c -> dot (a ++ b) (c ++ d) = dot a c + dot b d.
Proof.
  revert c; induction a as [|x a IH]; intros [|y c] H; cbn in H; try discriminate; cbn [app dot]; [lia|].
  injection H as H. rewrite IH by exact H. lia.
Qed.

Lemma prod_app a b : prod (a ++ b) = prod a * prod b.
Proof. induction a as [|x a IH]; cbn [app prod]; [lia|]. rewrite IH. lia. Qed.

Lemma prod_pos l : Forall (fun n => 0 < n) l -> 0 < prod l.
Proof. induction 1; cbn [prod]; [lia|]. nia. Qed.

Lemma prod_nonneg l : Forall (fun n => 0 <= n) l -> 0 <= prod l.
Proof. induction 1; cbn [prod]; [lia|]. nia. Qed.

Lemma in_range_length idx sh : in_range idx sh -> length idx = length sh.
Proof. induction 1; cbn; congruence. Qed.

Lemma in_range_app a b c d : length a = length c -> in_range (a ++ b) (c ++ d) <-> in_range a c /\ in_range b d.
Proof.
  revert c; induction a as [|x a IH]; intros [|y c] H; cbn in H; try discriminate; cbn [app].
  - split; [intros Hx; split; [constructor|exact Hx]|intros [_ Hx]; exact Hx].
  - injection H as H. unfold in_range in *. split.
    + intros Hx. inversion Hx as [|? ? ? ? H1 H2]; subst. apply IH in H2 as [H2 H3]; [|exact H]. split; [constructor; auto|exact H3].
    + intros [Hx H3]. inversion Hx as [|? ? ? ? H1 H2]; subst. constructor; [exact H1|]. apply IH; auto.
Qed.

(** size *)
Lemma size_loop_ok sh r acc : (r < length sh)%nat ->
  size_loop sh r acc = Ok (acc * prod (skipn 1 (firstn (S r) sh))).
Proof.
  revert acc; induction r as [|r IH]; intros acc H.
  - cbn [size_loop]. destruct sh; cbn in *; [lia|]. f_equal. lia.
  - cbn [size_loop]. destruct (nth_error_ex sh (S r) H) as [x Hx].
    rewrite (proj2 (aget_nat sh (S r) x) Hx). cbn [bind]. rewrite IH by lia.
    rewrite (firstn_snoc sh (S r) x Hx). f_equal.
    destruct sh as [|y sh]; [cbn in H; lia|]. cbn [firstn app skipn]. rewrite prod_app. cbn [prod]. lia.
Qed.
Lemma size_ok s : shape s <> [] -> size s = Ok (prod (shape s)).
Proof.
  intros H. unfold size, rank. destruct (shape s) as [|n ns]; [congruence|]. cbn [aget]. change (aget (n :: ns) 0) with (Ok n). cbn [bind].
  rewrite size_loop_ok by (cbn; lia). cbn [length]. replace (S (S (length ns) - 1)) with (S (length ns)) by lia.
  change (S (length ns)) with (length (n :: ns)). rewrite firstn_all. reflexivity.
Qed.

(** index *)
Lemma uless_in a n : 0 <= a < n -> n < 2 ^ 63 -> uless a n = true.
Proof. intros H1 H2. unfold uless. rewrite !Z.mod_small by lia. apply Z.ltb_lt. lia. Qed.
Lemma uless_true a n : uless a n = true -> - 2 ^ 63 <= a < 2 ^ 63 -> 0 <= n < 2 ^ 63 -> 0 <= a < n.
Proof.
  unfold uless. intros H Ha Hn. apply Z.ltb_lt in H. rewrite (Z.mod_small n) in H by lia.
  destruct (Z.ltb_spec a 0) as [Hneg|]; [|rewrite Z.mod_small in H by lia; lia].
  assert (E : a mod 18446744073709551616 = a + 18446744073709551616).
  { symmetry. apply Z.mod_unique_pos with (q := -1); lia. }
  lia.
Qed.
Lemma uless_iff a n : - 2 ^ 63 <= a < 2 ^ 63 -> 0 <= n < 2 ^ 63 -> uless a n = true <-> 0 <= a < n.
Proof. intros Ha Hn. split; [intros H; apply uless_true; auto|intros H; apply uless_in; lia]. Qed.

Lemma nth_Forall2 {A B} (P : A -> B -> Prop) l1 l2 r x y : Forall2 P l1 l2 -> nth_error l1 r = Some x -> nth_error l2 r = Some y -> P x y.
Proof.
  intros H. revert r; induction H as [|a b l1 l2 H1 H2 IH]; intros [|r]; cbn; try discriminate; [congruence|]. apply IH.
Qed.
Lemma nth_Forall {A} (P : A -> Prop) l r x : Forall P l -> nth_error l r = Some x -> P x.
Proof. intros H E. rewrite Forall_forall in H. apply H. eapply nth_error_In; eauto. Qed.

Lemma index_loop_ok sh st args r off : in_range args sh -> Forall (fun n => n < 2 ^ 63) sh -> length st = length sh -> (r <= length sh)%nat ->
  index_loop sh st args r off = Ok (off + dot (firstn r args) (firstn r st)).
Proof.
  intros HR HB HL. pose proof (in_range_length _ _ HR) as HA. revert off; induction r as [|r IH]; intros off Hr.
  - cbn. f_equal. lia.
  - cbn [index_loop].
    destruct (nth_error_ex args r ltac:(lia)) as [a Ea]. destruct (nth_error_ex sh r ltac:(lia)) as [n En]. destruct (nth_error_ex st r ltac:(lia)) as [t Et].
    rewrite (proj2 (aget_nat _ _ _) Ea), (proj2 (aget_nat _ _ _) En). cbn [bind].
    rewrite uless_in; [|exact (nth_Forall2 _ _ _ _ _ _ HR Ea En)|exact (nth_Forall _ _ _ _ HB En)].
    rewrite (proj2 (aget_nat _ _ _) Et). cbn [bind]. rewrite IH by lia.
    rewrite (firstn_snoc _ _ _ Ea), (firstn_snoc _ _ _ Et), dot_app by (rewrite !firstn_length; lia). cbn [dot]. f_equal. lia.
Qed.
Lemma index_ok s idx : in_range idx (shape s) -> Forall (fun n => n < 2 ^ 63) (shape s) -> length (stride s) = length (shape s) ->
  index s idx = Ok (dot idx (stride s)).
Proof.
  intros HR HB HL. pose proof (in_range_length _ _ HR) as HA. unfold index, rank. rewrite HA, Nat.eqb_refl.
  rewrite index_loop_ok by auto. rewrite <- HA at 1. rewrite <- HL. rewrite !firstn_all. reflexivity.
Qed.
Lemma index_loop_inv sh st args r off o : Forall (fun a => - 2 ^ 63 <= a < 2 ^ 63) args -> Forall (fun n => 0 <= n < 2 ^ 63) sh ->
  length args = length sh -> (r <= length sh)%nat -> index_loop sh st args r off = Ok o -> in_range (firstn r args) (firstn r sh).
Proof.
  intros Ha Hn HL. revert off; induction r as [|r IH]; intros off Hr H.
  - constructor.
  - cbn [index_loop] in H. apply bind_ok in H as (a & Ea & H). apply bind_ok in H as (n & En & H).
    destruct (uless a n) eqn:E; [|discriminate]. apply bind_ok in H as (t & Et & H).
    apply aget_nat in Ea. apply aget_nat in En.
    rewrite (firstn_snoc _ _ _ Ea), (firstn_snoc _ _ _ En). apply in_range_app; [rewrite !firstn_length; lia|].
    split; [eapply IH; eauto; lia|]. constructor; [|constructor].
    apply uless_true; [exact E|exact (nth_Forall _ _ _ _ Ha Ea)|exact (nth_Forall _ _ _ _ Hn En)].
Qed.
Lemma index_inv s idx o : Forall (fun a => - 2 ^ 63 <= a < 2 ^ 63) idx -> Forall (fun n => 0 <= n < 2 ^ 63) (shape s) -> index s idx = Ok o -> in_range idx (shape s).
Proof.
  intros Ha Hn. unfold index, rank. destruct (Nat.eqb_spec (length idx) (length (shape s))) as [E|]; [|discriminate].
  intros H. pose proof (index_loop_inv _ _ _ _ _ _ Ha Hn E (le_n _) H) as HR. rewrite <- E in HR at 1. rewrite !firstn_all in HR. exact HR.
Qed.

(** strides *)
Fixpoint row_strides (sh : list Z) : list Z := match sh with [] => [] | _ :: t => prod t :: row_strides t end.
Fixpoint col_strides (k : Z) (sh : list Z) : list Z := match sh with [] => [] | n :: t => k :: col_strides (k * n) t end.
Lemma row_strides_length sh : length (row_strides sh) = length sh.
Proof. induction sh; cbn; auto. Qed.
Lemma col_strides_length k sh : length (col_strides k sh) = length sh.
Proof. revert k; induction sh; intros k; cbn; auto. Qed.

Lemma upd_mid {A} (a : list A) x b v : upd (a ++ x :: b) (length a) v = a ++ v :: b.
Proof. induction a as [|y a IH]; cbn; [reflexivity|]. now rewrite IH. Qed.
Lemma aget_mid {A} (a : list A) x b : aget (a ++ x :: b) (zlen a) = Ok x.
Proof. rewrite aget_app2 by lia. rewrite Z.sub_diag. reflexivity. Qed.
Lemma aset_mid {A} (a : list A) x b v : aset (a ++ x :: b) (zlen a) v = Ok (a ++ v :: b).
Proof.
  pose proof (zlen_nonneg a). pose proof (zlen_nonneg b). rewrite aset_ok by (rewrite zlen_app, zlen_cons; lia).
  unfold zlen. rewrite Nat2Z.id. now rewrite upd_mid.
Qed.

Definition dims32 (l : list Z) : Prop := Forall (fun n => 0 < n) l /\ prod l <= max32.

Lemma mul32_ok x y : 0 <= x * y <= max32 -> mul32 x y = Ok (x * y).
Proof. intros H. unfold mul32. destruct (Z.leb_spec (-2147483648) (x * y)), (Z.leb_spec (x * y) max32); try lia. reflexivity. Qed.

Lemma stride_loop_row a s1 rest : Forall (fun n => 0 < n) (a ++ s1 :: rest) -> prod (tl (a ++ s1 :: rest)) <= max32 ->
  stride_loop (-1) (length a) (a ++ prod rest :: row_strides rest) (zlen a) (prod rest) s1 = Ok (row_strides (a ++ s1 :: rest)).
Proof.
  revert s1 rest; induction a as [|x a IH] using rev_ind; intros s1 rest HP HB.
  - reflexivity.
  - rewrite app_length. cbn [length]. replace (length a + 1)%nat with (S (length a)) by lia. cbn [stride_loop].
    rewrite <- app_assoc in HP, HB. rewrite <- !app_assoc. cbn [app] in HP, HB |- *.
    replace (zlen (a ++ [x]) + -1) with (zlen a) by (rewrite zlen_app, zlen_cons, zlen_nil; lia).
    rewrite aget_mid. cbn [bind].
    assert (HP2 : Forall (fun n => 0 < n) (s1 :: rest)).
    { apply Forall_app in HP as [_ HP]. inversion HP; auto. }
    assert (HK : prod rest * s1 <= max32).
    { destruct a as [|y a]; cbn [app tl] in HB; [cbn [prod] in HB; lia|].
      rewrite prod_app in HB. cbn [prod] in HB.
      apply Forall_app in HP as [HPa HP]. inversion HP; subst. inversion HPa; subst.
      pose proof (prod_pos _ H4). pose proof (prod_pos _ HP2). cbn [prod] in H0. 
      assert (Hax : 1 <= prod a * x) by nia. rewrite (Z.mul_comm (prod rest)). assert (0 < s1 * prod rest) by lia.
      rewrite Z.mul_assoc in HB. nia. }
    pose proof (prod_pos _ HP2) as Hpos. cbn [prod] in Hpos.
    rewrite mul32_ok by lia. cbn [bind]. rewrite aset_mid. cbn [bind].
    specialize (IH x (s1 :: rest) HP HB). cbn [prod row_strides] in IH. rewrite (Z.mul_comm s1) in IH. exact IH.
Qed.

Lemma shape2stride_row sh : sh <> [] -> Forall (fun n => 0 < n) sh -> prod (tl sh) <= max32 -> shape2stride RowMajor sh = Ok (row_strides sh).
Proof.
  intros Hne HP HB. destruct (exists_last Hne) as (a & x & ->). unfold shape2stride.
  rewrite zlen_app, zlen_cons, zlen_nil. replace (zlen a + (1 + 0) - 1) with (zlen a) by lia.
  rewrite aget_mid. cbn [bind]. rewrite aset_mid. cbn [bind]. rewrite app_length. cbn [length].
  replace (length a + 1 - 1)%nat with (length a) by lia.
  exact (stride_loop_row a x [] HP HB).
Qed.

Lemma stride_loop_col done k s1 a : 0 < k -> Forall (fun n => 0 < n) (s1 :: a) -> k * prod (removelast (s1 :: a)) <= max32 ->
  stride_loop 1 (length a) (done ++ k :: a) (zlen done) k s1 = Ok (done ++ k :: col_strides (k * s1) a).
Proof.
  revert done k s1; induction a as [|x a IH]; intros done k s1 Hk HP HB.
  - reflexivity.
  - cbn [length stride_loop].
    replace (zlen done + 1) with (zlen (done ++ [k])) by (rewrite zlen_app, zlen_cons, zlen_nil; lia).
    replace (done ++ k :: x :: a) with ((done ++ [k]) ++ x :: a) by (rewrite <- app_assoc; reflexivity).
    rewrite aget_mid. cbn [bind]. inversion HP as [|? ? H1 H2]; subst.
    change (removelast (s1 :: x :: a)) with (s1 :: removelast (x :: a)) in HB. cbn [prod] in HB.
    assert (Hr : 1 <= prod (removelast (x :: a))).
    { enough (0 < prod (removelast (x :: a))) by lia. apply prod_pos. apply Forall_forall. intros z Hz. rewrite Forall_forall in H2. apply H2.
      rewrite (app_removelast_last x (l := x :: a)) by discriminate. apply in_or_app. auto. }
    assert (0 < k * s1) by nia. rewrite mul32_ok by nia. cbn [bind]. rewrite aset_mid. cbn [bind].
    rewrite IH; [|nia|exact H2|nia]. rewrite <- app_assoc. reflexivity.
Qed.
Lemma shape2stride_col sh : sh <> [] -> Forall (fun n => 0 < n) sh -> prod (removelast sh) <= max32 -> shape2stride ColMajor sh = Ok (col_strides 1 sh).
Proof.
  intros Hne HP HB. destruct sh as [|n sh]; [congruence|]. unfold shape2stride. cbn [aget bind].
  change (aget (n :: sh) 0) with (Ok n). cbn [bind]. pose proof (zlen_nonneg sh). rewrite aset_ok by (rewrite zlen_cons; lia). cbn [bind upd Z.to_nat].
  replace (length (n :: sh) - 1)%nat with (length sh) by (cbn [length]; lia).
  pose proof (stride_loop_col [] 1 n sh ltac:(lia) HP ltac:(lia)) as E. cbn [app] in E. change (zlen []) with 0 in E. rewrite E.
  cbn [col_strides]. reflexivity.
Qed.

(** offsets of packed layouts *)
Lemma dot_row sh idx : length idx = length sh -> dot idx (row_strides sh) = row_offset sh idx.
Proof. revert idx; induction sh as [|n sh IH]; intros [|i idx] H; cbn in H; try discriminate; cbn; [reflexivity|]. rewrite IH by congruence. reflexivity. Qed.
Lemma dot_col k sh idx : length idx = length sh -> dot idx (col_strides k sh) = k * col_offset sh idx.
Proof. revert k idx; induction sh as [|n sh IH]; intros k [|i idx] H; cbn in H; try discriminate; cbn [dot col_strides col_offset]; [lia|]. rewrite IH by congruence. lia. Qed.

Lemma row_offset_range sh idx : in_range idx sh -> 0 <= row_offset sh idx < prod sh.
Proof.
  induction 1 as [|i n idx sh H1 H2 IH]; cbn [row_offset prod]; [lia|]. nia.
Qed.
Lemma row_offset_inj sh idx idx' : in_range idx sh -> in_range idx' sh -> row_offset sh idx = row_offset sh idx' -> idx = idx'.
Proof.
  intros H. revert idx'; induction H as [|i n idx sh H1 H2 IH]; intros idx' H'; inversion H' as [|j ? idx2 ? H3 H4]; subst; [auto|].
  cbn [row_offset]. intros E. pose proof (row_offset_range _ _ H2). pose proof (row_offset_range _ _ H4).
  assert (i = j) by nia. subst j. f_equal. apply IH; [exact H4|lia].
Qed.
Lemma row_offset_surj sh o : Forall (fun n => 0 < n) sh -> 0 <= o < prod sh -> exists idx, in_range idx sh /\ row_offset sh idx = o.
Proof.
  intros H. revert o; induction H as [|n sh H1 H2 IH]; intros o Ho; cbn [prod] in Ho.
  - exists []. split; [constructor|]. cbn. lia.
  - pose proof (prod_pos _ H2). destruct (IH (o mod prod sh)) as (idx & HR & E); [apply Z.mod_pos_bound; lia|].
    exists (o / prod sh :: idx). split.
    + constructor; [|exact HR]. split; [apply Z.div_pos; lia|apply Z.div_lt_upper_bound; lia].
    + cbn [row_offset]. rewrite E. rewrite (Z.div_mod o (prod sh)) at 3 by lia. lia.
Qed.
Lemma col_offset_range sh idx : in_range idx sh -> 0 <= col_offset sh idx < prod sh.
Proof. induction 1 as [|i n idx sh H1 H2 IH]; cbn [col_offset prod]; [lia|]. nia. Qed.
Lemma col_offset_inj sh idx idx' : in_range idx sh -> in_range idx' sh -> col_offset sh idx = col_offset sh idx' -> idx = idx'.
Proof.
  intros H. revert idx'; induction H as [|i n idx sh H1 H2 IH]; intros idx' H'; inversion H' as [|j ? idx2 ? H3 H4]; subst; [auto|].
  cbn [col_offset]. intros E.
  assert (E2 : col_offset sh idx = col_offset sh idx2) by nia. f_equal; [nia|]. apply IH; auto.
Qed.
Lemma col_offset_surj sh o : Forall (fun n => 0 < n) sh -> 0 <= o < prod sh -> exists idx, in_range idx sh /\ col_offset sh idx = o.
Proof.
  intros H. revert o; induction H as [|n sh H1 H2 IH]; intros o Ho; cbn [prod] in Ho.
  - exists []. split; [constructor|]. cbn. lia.
  - destruct (IH (o / n)) as (idx & HR & E); [split; [apply Z.div_pos; lia|apply Z.div_lt_upper_bound; lia]|].
    exists (o mod n :: idx). split.
    + constructor; [apply Z.mod_pos_bound; lia|exact HR].
    + cbn [col_offset]. rewrite E. rewrite (Z.div_mod o n) at 3 by lia. lia.
Qed.

(** transpose *)
Lemma dot_rev a b : length a = length b -> dot (rev a) (rev b) = dot a b.
Proof.
  revert b; induction a as [|x a IH]; intros [|y b] H; cbn in H; try discriminate; [reflexivity|].
  cbn [rev]. rewrite dot_app by (rewrite !rev_length; congruence). rewrite IH by congruence. cbn [dot]. lia.
Qed.
Lemma in_range_rev a b : in_range a b -> in_range (rev a) (rev b).
Proof.
  induction 1 as [|i n a b H1 H2 IH]; [constructor|]. cbn [rev]. apply in_range_app; [rewrite !rev_length; now apply in_range_length|].
  split; [exact IH|]. constructor; [exact H1|constructor].
Qed.

Lemma zlen_rev {A} (l : list A) : zlen (rev l) = zlen l.
Proof. unfold zlen. now rewrite rev_length. Qed.
Lemma aswap_ends {A} (p : list A) x m y q : aswap (p ++ x :: m ++ y :: q) (zlen p) (zlen p + 1 + zlen m) = Ok (p ++ y :: m ++ x :: q).
Proof.
  unfold aswap. rewrite aget_mid. cbn [bind].
  replace (zlen p + 1 + zlen m) with (zlen (p ++ x :: m)) by (rewrite zlen_app, zlen_cons; lia).
  replace (p ++ x :: m ++ y :: q) with ((p ++ x :: m) ++ y :: q) at 1 by (rewrite <- app_assoc; reflexivity).
  rewrite aget_mid. cbn [bind]. rewrite aset_mid. cbn [bind].
  replace (p ++ y :: m ++ y :: q) with ((p ++ y :: m) ++ y :: q) by (rewrite <- app_assoc; reflexivity).
  replace (zlen (p ++ x :: m)) with (zlen (p ++ y :: m)) by (rewrite !zlen_app, !zlen_cons; lia).
  rewrite aset_mid. rewrite <- app_assoc. reflexivity.
Qed.
Lemma transpose_loop_ok fuel : forall p1 m1 q1 p2 m2 q2, (length m1 < fuel)%nat -> length m1 = length m2 -> length p1 = length p2 ->
  transpose_loop fuel (p1 ++ m1 ++ q1) (p2 ++ m2 ++ q2) (zlen p1) (zlen p1 + zlen m1) = Ok (p1 ++ rev m1 ++ q1, p2 ++ rev m2 ++ q2).
Proof.
  induction fuel as [|f IH]; intros p1 m1 q1 p2 m2 q2 HL H1 H2; cbn [transpose_loop].
  - lia.
  - destruct (Z.ltb_spec (zlen p1) (zlen p1 + zlen m1 - 1)) as [Hlt|Hge].
    + assert (HS : forall m : list Z, (2 <= length m)%nat -> exists x m' y, m = x :: m' ++ [y]).
      { intros m Hm. destruct m as [|x m]; [cbn in Hm; lia|]. destruct m as [|z m] using rev_ind; [cbn in Hm; lia|]. eauto. }
      unfold zlen in Hlt. destruct (HS m1 ltac:(lia)) as (x & m & y & ->). destruct (HS m2 ltac:(lia)) as (x2 & m' & y2 & ->).
      cbn [length app] in HL, H1 |- *. rewrite !app_length in *. cbn [length] in HL, H1.
      rewrite <- !app_assoc. cbn [app].
      replace (zlen p1 + zlen (x :: m ++ [y]) - 1) with (zlen p1 + 1 + zlen m) by (rewrite zlen_cons, zlen_app, zlen_cons, zlen_nil; lia).
      rewrite aswap_ends. cbn [bind].
      replace (zlen p1) with (zlen p2) at 1 by (unfold zlen; lia). replace (zlen p1 + 1 + zlen m) with (zlen p2 + 1 + zlen m') at 1 by (unfold zlen; lia).
      rewrite aswap_ends. cbn [bind].
      specialize (IH (p1 ++ [y]) m (x :: q1) (p2 ++ [y2]) m' (x2 :: q2)). rewrite !app_length in IH. cbn [length] in IH.
      specialize (IH ltac:(lia) ltac:(lia) ltac:(lia)).
      rewrite !zlen_app, zlen_cons, zlen_nil in IH. replace (zlen p1 + (1 + 0)) with (zlen p1 + 1) in IH by lia.
      rewrite <- !app_assoc in IH. cbn [app] in IH. rewrite IH.
      cbn [rev]. rewrite !rev_app_distr. cbn [rev app]. rewrite <- !app_assoc. reflexivity.
    + unfold zlen in Hge. destruct m1 as [|x [|? ?]]; destruct m2 as [|x2 [|? ?]]; cbn in H1, Hge; try lia; reflexivity.
Qed.
Lemma transpose_ok s : length (stride s) = length (shape s) -> transpose s = Ok (mk (data s) (rev (shape s)) (rev (stride s))).
Proof.
  intros H. unfold transpose, rank.
  pose proof (transpose_loop_ok (S (length (shape s))) [] (shape s) [] [] (stride s) [] (le_n _) (eq_sym H) eq_refl) as E.
  cbn [app] in E. rewrite !app_nil_r in E. change (zlen []) with 0 in E. rewrite Z.add_0_l in E. rewrite E. reflexivity.
Qed.

(** swap_axes on lists *)
Lemma aswap_dot a b i j a' b' : length a = length b -> aswap a i j = Ok a' -> aswap b i j = Ok b' -> length a' = length b' /\ dot a' b' = dot a b.
Proof.
  intros HL Ha Hb.
  assert (HI : 0 <= i < zlen a /\ 0 <= j < zlen a).
  { apply aswap_inv in Ha as (x & y & Hx & Hy & _). apply aget_ok_range in Hx. apply aget_ok_range in Hy. auto. }
  assert (HS : forall u v (c : list Z) c', 0 <= u < v -> v < zlen c -> aswap c u v = Ok c' ->
             exists p x m y q, c = p ++ x :: m ++ y :: q /\ c' = p ++ y :: m ++ x :: q /\ zlen p = u /\ zlen m = v - u - 1).
  { intros u v c c' Hu Hv Hc.
    destruct (aget_some c u) as [x Hx]; [lia|]. apply aget_nth in Hx as [_ Hx]. apply nth_error_split in Hx as (p & r & -> & Hp).
    assert (Hpu : zlen p = u) by (unfold zlen; lia).
    destruct (aget_some r (v - u - 1)) as [y Hy]; [rewrite zlen_app, zlen_cons in Hv; lia|].
    apply aget_nth in Hy as [_ Hy]. apply nth_error_split in Hy as (m & q & -> & Hm).
    assert (Hmv : zlen m = v - u - 1) by (unfold zlen; lia).
    exists p, x, m, y, q. replace u with (zlen p) in Hc. replace v with (zlen p + 1 + zlen m) in Hc by lia. rewrite aswap_ends in Hc. injection Hc as <-. auto. }
  assert (HSym : forall (c : list Z) u v c', aswap c u v = Ok c' -> aswap c v u = Ok c').
  { intros c u v c' Hc. pose proof Hc as Hc2. apply aswap_inv in Hc as (x & y & Hx & Hy & Hl & Hk).
    destruct (aswap_some c v u) as [c2 Hc3]; [eapply aget_ok_range; eauto..|]. rewrite Hc3. f_equal.
    apply aswap_inv in Hc3 as (x' & y' & Hx' & Hy' & Hl' & Hk'). rewrite Hy in Hx'. injection Hx' as <-. rewrite Hx in Hy'. injection Hy' as <-.
    apply aget_ext; [lia|]. intros k _. rewrite Hk, Hk'. destruct (Z.eqb_spec k u), (Z.eqb_spec k v); subst; auto. congruence. }
  assert (Main : forall u v, 0 <= u < v -> v < zlen a -> aswap a u v = Ok a' -> aswap b u v = Ok b' -> length a' = length b' /\ dot a' b' = dot a b).
  { intros u v Hu Hv Ea Eb. destruct (HS u v a a' Hu Hv Ea) as (p & x & m & y & q & -> & -> & Hp & Hm).
    destruct (HS u v b b' Hu) as (p2 & x2 & m2 & y2 & q2 & -> & -> & Hp2 & Hm2); [unfold zlen in *; lia|exact Eb|].
    assert (length p = length p2) by (unfold zlen in *; lia). assert (length m = length m2) by (unfold zlen in *; lia).
    split; [repeat (rewrite !app_length in *; cbn [length] in * ); lia|].
    rewrite !dot_app by assumption. cbn [dot]. rewrite !dot_app by assumption. cbn [dot]. lia. }
  destruct (Z.lt_total i j) as [H|[->|H]].
  - apply (Main i j); auto; lia.
  - apply aswap_inv in Ha as (x & y & Hx & Hy & Hl & Hk). apply aswap_inv in Hb as (x2 & y2 & Hx2 & Hy2 & Hl2 & Hk2).
    rewrite Hx in Hy. injection Hy as <-. rewrite Hx2 in Hy2. injection Hy2 as <-.
    assert (a' = a). { apply aget_ext; [exact Hl|]. intros k _. rewrite Hk. destruct (Z.eqb_spec k j); subst; auto. }
    assert (b' = b). { apply aget_ext; [exact Hl2|]. intros k _. rewrite Hk2. destruct (Z.eqb_spec k j); subst; auto. }
    subst. auto.
  - apply (Main j i); auto; lia.
Qed.
