(** cspan: C46, C47, C48, C80, C81, C82 and C03 for spans.
    [at_ s idx] is the address cspan_at(&s, idx...) yields, [in_range idx shape] an index tuple
    inside a shape, [prod shape] the number of elements. *)
From Coq Require Import Sorted.
From Verif Require Import Base Cspan_Model Cspan_Spec Cspan_Proofs Cspan_Proofs2 Cspan_Proofs3 Cspan_Proofs4.

Ltac num := repeat (match goal with |- in_range _ _ => unfold in_range | |- packed_ok _ _ => unfold packed_ok | |- Forall _ _ => constructor | |- Forall2 _ _ _ => constructor | |- _ /\ _ => split end);
  unfold arg_ok, max32, c_END; cbn; try lia; try discriminate.

(** [packed_ok]: no dimension is 0 and the strides fit in 32 bits. *)
Lemma at_eq s idx : length (stride s) = length (shape s) -> Forall (fun n => 0 < n <= max32) (shape s) -> in_range idx (shape s) -> at_ s idx = Ok (data s + dot idx (stride s)).
Proof. intros H1 H2 HR. unfold at_. rewrite index_ok by (auto using dims_lt). reflexivity. Qed.
Lemma at_eq_pos s idx : length (stride s) = length (shape s) -> Forall (fun n => n < 2 ^ 63) (shape s) -> in_range idx (shape s) -> at_ s idx = Ok (data s + dot idx (stride s)).
Proof. intros H1 H2 HR. unfold at_. rewrite index_ok by auto. reflexivity. Qed.

(** C46. *)
Theorem C46_packed_offset_partial ly d sh : packed_ok ly sh -> exists s, md ly d sh = Ok s /\ shape s = sh /\ size s = Ok (prod sh) /\
  forall idx, in_range idx sh -> at_ s idx = Ok (d + match ly with RowMajor => row_offset sh idx | ColMajor => col_offset sh idx end).
Proof.
  intros HP. pose proof (md_ok ly d sh HP) as E. eexists. split; [exact E|]. split; [reflexivity|]. split; [apply size_ok; cbn; apply HP|].
  intros idx HR. destruct ly; exact (md_at _ d sh _ idx HP E HR).
Qed.
Theorem C46_packed_bijection_partial ly d sh : packed_ok ly sh -> exists s, md ly d sh = Ok s /\
  (forall idx, in_range idx sh -> exists a, at_ s idx = Ok a /\ d <= a < d + prod sh) /\
  (forall i j a, in_range i sh -> in_range j sh -> at_ s i = Ok a -> at_ s j = Ok a -> i = j) /\
  (forall a, d <= a < d + prod sh -> exists idx, in_range idx sh /\ at_ s idx = Ok a).
Proof.
  intros HP. pose proof (md_ok ly d sh HP) as E. eexists. split; [exact E|]. pose proof HP as (H1 & H2 & H3).
  assert (H4 : Forall (fun n => 0 < n) sh) by (revert H2; apply Forall_impl; lia).
  assert (HA : forall idx, in_range idx sh -> at_ (mk d sh match ly with RowMajor => row_strides sh | ColMajor => col_strides 1 sh end) idx = Ok (d + offset ly sh idx)) by (intros; apply (md_at ly d sh); auto).
  repeat split.
  - intros idx HR. rewrite HA by exact HR. eexists. split; [reflexivity|]. destruct ly; cbn [offset]; [pose proof (row_offset_range _ _ HR)|pose proof (col_offset_range _ _ HR)]; lia.
  - intros i j a Hi Hj. rewrite !HA by auto. intros [= <-] [= E2]. destruct ly; cbn [offset] in E2; [apply (row_offset_inj sh)|apply (col_offset_inj sh)]; auto; lia.
  - intros a Ha. destruct ly.
    + destruct (row_offset_surj sh (a - d) H4 ltac:(lia)) as (idx & HR & Eo). exists idx. split; [exact HR|]. rewrite HA by exact HR. cbn [offset]. f_equal. lia.
    + destruct (col_offset_surj sh (a - d) H4 ltac:(lia)) as (idx & HR & Eo). exists idx. split; [exact HR|]. rewrite HA by exact HR. cbn [offset]. f_equal. lia.
Qed.
Example C46_met : packed_ok RowMajor [3; 4; 5] /\ packed_ok ColMajor [3; 4; 5] /\ in_range [2; 3; 1] [3; 4; 5] /\
  (exists s, md RowMajor 10 [3; 4; 5] = Ok s /\ at_ s [2; 3; 1] = Ok 66) /\ (exists s, md ColMajor 10 [3; 4; 5] = Ok s /\ at_ s [2; 3; 1] = Ok 33).
Proof.
  split; [num|]. split; [num|]. split; [num|]. split; eexists; split; reflexivity.
Qed.
(** A shape whose strides exceed 32 bits (an array of 8 GiB) overflows while the strides are made. *)
Theorem C46_large_shape_refuted : ~ (forall sh, sh <> [] -> Forall (fun n => 0 < n <= max32) sh -> exists s, md RowMajor 0 sh = Ok s).
Proof.
  intros H. destruct (H [2; 65536; 65536]) as (s & E); [discriminate|num|]. vm_compute in E. discriminate.
Qed.
(** An index outside of the shape is caught by the assertion. *)
Theorem C46_index_checked s idx : Forall (fun a => - 2 ^ 63 <= a < 2 ^ 63) idx -> Forall (fun n => 0 <= n < 2 ^ 63) (shape s) -> length (stride s) = length (shape s) -> length idx = length (shape s) ->
  ~ in_range idx (shape s) -> at_ s idx = Err AssertFail.
Proof.
  intros Ha Hn HL HI HR. unfold at_. destruct (index s idx) as [o|e] eqn:E; [exfalso; apply HR; eapply index_inv; eauto|]. cbn [bind]. f_equal.
  unfold index in E. destruct (_ =? _)%nat; [|congruence].
  assert (HX : forall sh st args r off e, (r <= length sh)%nat -> length st = length sh -> length args = length sh -> index_loop sh st args r off = Err e -> e = AssertFail).
  { clear. intros sh st args r. induction r as [|r IH]; intros off e Hr H1 H2 E; cbn [index_loop] in E; [discriminate|].
    destruct (nth_error_ex args r ltac:(lia)) as [a Ea]. destruct (nth_error_ex sh r ltac:(lia)) as [n En]. destruct (nth_error_ex st r ltac:(lia)) as [t Et].
    rewrite (proj2 (aget_nat _ _ _) Ea), (proj2 (aget_nat _ _ _) En), (proj2 (aget_nat _ _ _) Et) in E. cbn [bind] in E. destruct (uless a n); [|congruence]. eapply IH; eauto; lia. }
  eapply HX; [| | |exact E]; unfold rank; lia.
Qed.

(** C47.  [each] is the loop for (c_each(it, Span, s)); it yields the position and value of each visited element. *)
Theorem C47_iteration {A} (mem : list A) s : length (stride s) = length (shape s) -> shape s <> [] -> Forall (fun n => 0 < n <= max32) (shape s) ->
  (forall idx, in_range idx (shape s) -> exists a x, at_ s idx = Ok a /\ aget mem a = Ok x) ->
  exists l, each (S (Z.to_nat (prod (shape s)))) mem s = Ok l /\ StronglySorted lex (map fst l) /\
    (forall idx, In idx (map fst l) <-> in_range idx (shape s)) /\
    (forall idx x, In (idx, x) l -> exists a, at_ s idx = Ok a /\ aget mem a = Ok x).
Proof.
  intros H1 H2 H3 H4.
  assert (HM : in_mem mem s).
  { split; [exact H1|]. split; [exact H2|]. split; [revert H3; apply Forall_impl; lia|]. intros idx HR. destruct (H4 idx HR) as (a & x & Ea & Ex). rewrite at_eq in Ea by auto. injection Ea as <-. eapply aget_ok_range; eauto. }
  destruct (each_spec mem s HM) as (l & E & S & I & V). exists l. repeat (split; [assumption|]). intros idx x Hin. exists (data s + dot idx (stride s)).
  assert (HR : in_range idx (shape s)) by (apply I; apply in_map with (f := fst) in Hin; exact Hin). split; [apply at_eq; auto|auto].
Qed.
(** A transposed, strided view of a 4x6 array. *)
Example C47_met : exists s0 s1 s2, md RowMajor 1 [4; 6] = Ok s0 /\ slice s0 2 [(1, 4, 2); (0, c_END, 3)] = Ok s1 /\ transpose s1 = Ok s2 /\
  each 5 (map Z.of_nat (seq 100 25)) s2 = Ok [([0; 0], 107); ([0; 1], 119); ([1; 0], 110); ([1; 1], 122)].
Proof. do 3 eexists. split; [reflexivity|]. split; [reflexivity|]. split; reflexivity. Qed.
(** C03 for spans. *)
Theorem C03_cspan_each_partial {A} (mem : list A) d n : 0 < n <= max32 -> 0 <= d -> d + n <= zlen mem ->
  exists l, each (S (Z.to_nat n)) mem (from_n d n) = Ok l /\ map snd l = firstn (Z.to_nat n) (skipn (Z.to_nat d) mem).
Proof.
  intros Hn Hd Hm. unfold from_n. rewrite wrap32_small by (unfold max32 in *; lia).
  assert (HM : in_mem mem (mk d [n] [1])).
  { split; [reflexivity|]. split; [discriminate|]. split; [num|]. intros idx HR. cbn [shape stride data] in *. inversion HR as [|i ? t ? Hi Ht]; subst. inversion Ht; subst. cbn [dot]. lia. }
  destruct (each_ok mem _ HM) as (l & E & F & M). cbn [shape prod] in *. rewrite Z.mul_1_r in *. exists l. split; [exact E|].
  assert (HL : length l = Z.to_nat n). { apply (f_equal (@length Z)) in M. rewrite map_length in M. rewrite M. clear. generalize 0. induction (Z.to_nat n); intros k; cbn; auto. }
  apply aget_ext.
  - rewrite zlen_firstn, zlen_skipn by lia. unfold zlen at 1. rewrite map_length, HL. lia.
  - intros i Hi. unfold zlen in Hi. rewrite map_length, HL in Hi. rewrite aget_firstn by lia. rewrite aget_skipn by lia.
    rewrite aget_map. destruct (aget_some l i) as [q Hq]; [unfold zlen; lia|]. rewrite Hq. rewrite Forall_forall in F. pose proof (F q (aget_In _ _ _ Hq)) as [F1 F2]. destruct q as [idx x]. cbn [fst snd shape stride data] in *.
    inversion F1 as [|k ? t ? Hk Ht]; subst. inversion Ht; subst. cbn [dot] in F2.
    assert (Ek : aget (map (fun q => row_offset [n] (fst q)) l) i = Ok k) by (rewrite aget_map, Hq; cbn; f_equal; lia).
    rewrite M in Ek. assert (k = i); [|subst; rewrite <- F2; f_equal; lia].
    assert (HZ : forall m c j, 0 <= j < Z.of_nat m -> aget (zup c m) j = Ok (c + j)).
    { clear. induction m as [|m IH]; intros c j Hj; [lia|]. cbn [zup]. rewrite aget_cons. destruct (Z.eqb_spec j 0); [subst; f_equal; lia|]. rewrite IH by lia. f_equal. lia. }
    rewrite HZ in Ek by lia. injection Ek. lia.
Qed.
Theorem C03_cspan_each_empty_refuted : ~ (forall (mem : list Z) d, 0 <= d <= zlen mem -> exists f, each f mem (from_n d 0) = Ok []).
Proof. intros H. destruct (H [] 0) as (f & E); [cbn; lia|]. destruct f; discriminate. Qed.

(** C48. *)
Theorem C48_slice_partial s r args s' : length (stride s) = length (shape s) -> Forall (fun n => 0 < n <= max32) (shape s) -> Forall arg_ok args -> slice s r args = Ok s' ->
  let ds := dims_of (shape s) args in
  length (shape s') = r /\ Forall2 fits ds (shape s) /\ kept ds (shape s') /\
  forall idx, in_range idx (shape s') -> in_range (source ds idx) (shape s) /\ exists a, at_ s (source ds idx) = Ok a /\ at_ s' idx = Ok a.
Proof.
  intros HL HS HA H. apply slice_ok in H as (L1 & L2 & L3 & L4 & L5 & L6 & L7 & L8 & L9); auto. split; [exact L1|]. split; [exact L6|]. split; [exact L7|].
  intros idx HR. destruct (L8 _ HR) as [R E]. split; [exact R|]. rewrite (at_eq s) by auto. rewrite (at_eq s') by (auto; congruence). rewrite E. eauto.
Qed.
(** Every selection that fits is accepted. *)
Theorem C48_slice_accepts s args : length (stride s) = length (shape s) -> length args = length (shape s) -> Forall (fun n => 0 < n <= max32) (shape s) -> Forall arg_ok args ->
  Forall2 fits (dims_of (shape s) args) (shape s) -> no_overflow (dims_of (shape s) args) (stride s) -> exists s', slice s (out_rank (dims_of (shape s) args)) args = Ok s'.
Proof.
  intros H1 H2 H3 H4 H5 H6. unfold slice. destruct (slice_loop_total (shape s) (out_rank (dims_of (shape s) args)) (stride s) args) as (q & E & L); auto using dims_le.
  rewrite E. cbn [bind]. rewrite L, Nat.eqb_refl. eauto.
Qed.
Definition args48 : list (Z * Z * Z) := [(2, 0, 0); (1, c_END, 2); (0, 3, 0)].
Example C48_slice_met : exists s s', md RowMajor 0 [3; 6; 5] = Ok s /\ Forall arg_ok args48 /\ slice s 2 args48 = Ok s' /\ shape s' = [3; 3] /\
  Forall2 fits (dims_of (shape s) args48) (shape s) /\ no_overflow (dims_of (shape s) args48) (stride s) /\ source (dims_of (shape s) args48) [1; 2] = [2; 3; 2].
Proof.
  eexists. eexists. split; [reflexivity|]. unfold args48. split; [num|]. split; [reflexivity|]. split; [reflexivity|].
  split; [num|]. split; [vm_compute; repeat split; discriminate|reflexivity].
Qed.
Theorem C48_transpose s : length (stride s) = length (shape s) -> Forall (fun n => 0 < n <= max32) (shape s) ->
  exists s', transpose s = Ok s' /\ shape s' = rev (shape s) /\ transpose s' = Ok s /\
  forall idx, in_range idx (shape s) -> in_range (rev idx) (shape s') /\ at_ s' (rev idx) = at_ s idx.
Proof.
  intros HL HS. rewrite transpose_ok by exact HL. eexists. split; [reflexivity|]. split; [reflexivity|]. split.
  - rewrite transpose_ok by (cbn; rewrite !rev_length; exact HL). cbn [data shape stride]. rewrite !rev_involutive. destruct s; reflexivity.
  - intros idx HR. split; [now apply in_range_rev|]. rewrite (at_eq s) by auto. rewrite at_eq; cbn [shape stride data].
    + rewrite dot_rev by (rewrite HL; now apply in_range_length). reflexivity.
    + now rewrite !rev_length.
    + now apply Forall_rev.
    + now apply in_range_rev.
Qed.
Theorem C48_swap_axes s i j s' : length (stride s) = length (shape s) -> Forall (fun n => 0 < n <= max32) (shape s) -> swap_axes s i j = Ok s' ->
  aswap (shape s) i j = Ok (shape s') /\ swap_axes s' i j = Ok s /\
  forall idx idx', in_range idx (shape s) -> aswap idx i j = Ok idx' -> in_range idx' (shape s') /\ at_ s' idx' = at_ s idx.
Proof.
  intros HL HS H. pose proof H as H0. apply swap_ok in H as (sh & st & E1 & E2 & ->); [|exact HL]. cbn [shape]. split; [exact E1|].
  pose proof (aswap_len _ _ _ _ E1) as L1. pose proof (aswap_len _ _ _ _ E2) as L2.
  assert (HS' : Forall (fun n => 0 < n <= max32) sh).
  { apply Forall_forall. intros x Hx. rewrite Forall_forall in HS. apply HS. apply In_aget in Hx as (k & _ & Hk). apply aswap_inv in E1 as (a & b & Ha & Hb & _ & HK).
    rewrite HK in Hk. destruct (k =? j); [injection Hk as <-; eapply aget_In; eauto|]. destruct (k =? i); [injection Hk as <-; eapply aget_In; eauto|]. eapply aget_In; eauto. }
  split.
  - unfold swap_axes in *. cbn [shape stride data]. rewrite L1. destruct (_ && _); [|discriminate]. rewrite (aswap_back _ _ _ _ E1), (aswap_back _ _ _ _ E2). cbn [bind]. destruct s; reflexivity.
  - intros idx idx' HR Ei. assert (HR' : in_range idx' sh) by (eapply in_range_aswap; eauto). split; [exact HR'|]. rewrite (at_eq s) by auto.
    assert (HLi : length idx = length (stride s)) by (apply in_range_length in HR; congruence).
    destruct (aswap_dot idx (stride s) i j idx' st HLi Ei E2) as [L3 Ed].
    rewrite at_eq; cbn [shape stride data]; auto; [rewrite Ed; reflexivity|]. unfold zlen in *. lia.
Qed.
Theorem C48_submd s xs s' : Forall (fun a => - 2 ^ 63 <= a < 2 ^ 63) xs -> Forall (fun n => 0 < n <= max32) (shape s) -> length (stride s) = length (shape s) -> (length xs < rank s)%nat ->
  submd s xs = Ok s' -> shape s' = skipn (length xs) (shape s) /\
  forall idx, in_range idx (shape s') -> in_range (xs ++ idx) (shape s) /\ at_ s' idx = at_ s (xs ++ idx).
Proof.
  intros HX HS HL HR H. apply submd_ok in H as (E1 & E2 & H); auto. split; [exact E1|]. intros idx Hi. destruct (H idx Hi) as [R E]. split; [exact R|]. rewrite (at_eq s) by auto. rewrite at_eq, E; auto.
  - rewrite E1, E2, !skipn_length. congruence.
  - rewrite E1. now apply Forall_skipn.
Qed.
Example C48_submd_met : exists s s', md ColMajor 0 [3; 6; 5] = Ok s /\ submd s [2; 4] = Ok s' /\ shape s' = [5] /\ at_ s' [3] = Ok 68 /\ (exists t, swap_axes s 0 2 = Ok t /\ shape t = [5; 6; 3]).
Proof. eexists. eexists. do 4 (split; [reflexivity|]). eexists. split; reflexivity. Qed.
(** cspan_subspan does not look at the count. *)
Theorem C48_subspan_partial s off cnt s' n : shape s = [n] -> length (stride s) = 1%nat -> 0 < n <= max32 -> - 2 ^ 63 <= off < 2 ^ 63 -> 0 < cnt -> off + cnt <= n -> subspan s off cnt = Ok s' ->
  shape s' = [cnt] /\ forall i, 0 <= i < cnt -> at_ s' [i] = at_ s [off + i].
Proof.
  intros HS HL HN HO HC HB H. pose proof H as H0. apply subspan_ok with (n := n) in H as (E1 & E2 & H); auto. split; [exact E1|]. intros i Hi. destruct (H i Hi) as [R E].
  destruct (H 0 ltac:(lia)) as [R0 _]. rewrite (at_eq s); [rewrite at_eq, E; auto| | |]; rewrite ?E1, ?E2, ?HS; try exact HL; repeat constructor; unfold max32 in *; lia.
Qed.
Theorem C48_subspan_refuted : ~ (forall s off cnt s' n, shape s = [n] -> stride s = [1] -> subspan s off cnt = Ok s' -> off + cnt <= n).
Proof. intros H. specialize (H (from_n 0 5) 3 4 _ 5 eq_refl eq_refl eq_refl). lia. Qed.
(** Any sequence of view operations starting from a packed array: every element of the last view
    is an element of the array, and different index tuples are different elements. *)
Theorem C48_history_partial ly d sh s os s' : packed_ok ly sh -> md ly d sh = Ok s -> vrun s os s' ->
  (forall idx, in_range idx (shape s') -> exists a, at_ s' idx = Ok a /\ d <= a < d + prod sh) /\
  (forall i j a, in_range i (shape s') -> in_range j (shape s') -> at_ s' i = Ok a -> at_ s' j = Ok a -> i = j).
Proof.
  intros HP E HV. pose proof (vrun_view _ _ _ _ _ (md_view _ _ _ _ HP E) HV) as V. pose proof V as (V1 & V2 & V3 & V4 & V5). split.
  - intros idx HR. rewrite at_eq by auto. eauto.
  - intros i j a Hi Hj. rewrite !at_eq by auto. intros [= <-] [= E2]. apply V5; auto. lia.
Qed.
Definition views48 : list vop := [VTranspose; VSlice 2 [(1, 4, 0); (2, 0, 0); (0, c_END, 2)]; VSwap 0 1; VSub [1]; VSubspan 1 2].
Example C48_history_met : exists s s', packed_ok RowMajor [3; 4; 5] /\ md RowMajor 7 [3; 4; 5] = Ok s /\ vrun s views48 s' /\ shape s' = [2] /\ at_ s' [1] = Ok 60.
Proof.
  eexists. eexists. split; [num|]. split; [reflexivity|]. split.
  - eapply vrun_cons; [exact I|reflexivity|]. eapply vrun_cons; [split; [lia|num]|reflexivity|].
    eapply vrun_cons; [exact I|reflexivity|]. eapply vrun_cons; [split; [vm_compute; lia|num]|reflexivity|].
    eapply vrun_cons; [exists 3; split; [reflexivity|lia]|reflexivity|]. apply vrun_nil.
  - split; reflexivity.
Qed.

(** C80: wrong slice arguments are rejected. *)
Theorem C80_slice_checked_partial s r args : length (stride s) = length (shape s) -> length args = length (shape s) -> Forall (fun n => 0 < n <= max32) (shape s) -> Forall arg_ok args ->
  ~ Forall2 fits (dims_of (shape s) args) (shape s) -> ~ exists s', slice s r args = Ok s'.
Proof. intros H1 H2 H3 H4 HN (s' & E). apply HN. apply slice_ok in E; auto. apply E. Qed.
(** A negative start passes the checks and gives a view before the array. *)
Theorem C80_negative_start_refuted : ~ (forall s r args s', length (stride s) = length (shape s) -> Forall (fun n => 0 < n <= max32) (shape s) -> slice s r args = Ok s' -> Forall2 fits (dims_of (shape s) args) (shape s)).
Proof.
  intros H. specialize (H (from_n 4 8) 1%nat [(-2, 3, 0)] _ eq_refl ltac:(num) eq_refl). inversion H as [|? ? ? ? H1 _]; subst. cbn in H1. lia.
Qed.
(** Too many ranges for the rank of the result: the dimensions are stored past the result before the rank is checked. *)
Theorem C80_rank_checked_late_refuted : ~ (forall s r args, length (stride s) = length (shape s) -> length args = length (shape s) -> Forall (fun n => 0 < n <= max32) (shape s) -> Forall arg_ok args -> slice s r args <> Err OOB).
Proof.
  intros H. apply (H (mk 0 [4; 5] [5; 1]) 1%nat [(0, c_END, 0); (0, c_END, 0)]); try reflexivity; num.
Qed.
Example C80_met : ~ Forall2 fits (dims_of [4; 5] [(1, 0, 0); (2, 6, 0)]) [4; 5] /\ Forall arg_ok [(1, 0, 0); (2, 6, 0)] /\ slice (mk 0 [4; 5] [5; 1]) 1 [(1, 0, 0); (2, 6, 0)] = Err AssertFail.
Proof.
  split; [intros H; inversion H as [|? ? ? ? _ H1]; subst; inversion H1 as [|? ? ? ? H2 _]; subst; cbn in H2; lia|]. split; [num|reflexivity].
Qed.

(** C81: cspan_print, for brackets [op] [cl] and an optional separator. *)
Theorem C81_print_partial {C A} (op cl sp nl : C) (comma : option C) (fld : bool -> A -> list C) (mem : list A) s (val : list Z -> A) :
  length (stride s) = length (shape s) -> shape s <> [] -> (length (shape s) <= 8)%nat -> Forall (fun n => 0 < n <= max32) (shape s) ->
  (forall idx, in_range idx (shape s) -> exists a, at_ s idx = Ok a /\ aget mem a = Ok (val idx)) ->
  print op cl sp nl comma fld (S (Z.to_nat (prod (shape s)))) mem s =
  Ok (text op cl sp nl (match comma with Some c => [c] | None => [] end) (length (shape s)) (fun idx => fld (0 <? last idx 0) (val idx)) (shape s) [] ++ [nl]).
Proof.
  intros H1 H2 H8 H3 H4.
  assert (HV : forall idx, in_range idx (shape s) -> aget mem (data s + dot idx (stride s)) = Ok (val idx)).
  { intros idx HR. destruct (H4 idx HR) as (a & Ea & Ex). rewrite at_eq in Ea by auto. injection Ea as <-. exact Ex. }
  apply print_ok; [|exact H8|exact HV]. split; [exact H1|]. split; [exact H2|]. split; [revert H3; apply Forall_impl; lia|]. intros idx HR. apply HV in HR. eapply aget_ok_range; eauto.
Qed.
(** [1 2] / [3 4] with separator 44: "[[1, 2],\n [3, 4]]\n" (numbers stand for themselves). *)
Example C81_met : print 91 93 32 10 (Some 44) (fun b x => (if b : bool then [32] else []) ++ [x]) 5 [1; 2; 3; 4] (mk 0 [2; 2] [2; 1]) =
  Ok [91; 91; 1; 44; 32; 2; 93; 44; 10; 32; 91; 3; 44; 32; 4; 93; 93; 10].
Proof. reflexivity. Qed.

(** C82: equality, cspan_set_all and the layout tests. *)
Theorem C82_eq_partial {A} (eqb : A -> A -> bool) (m1 m2 : list A) s1 s2 : fits_mem (zlen m1) s1 -> fits_mem (zlen m2) s2 ->
  exists b, eq (S (Z.to_nat (prod (shape s1)))) eqb m1 m2 s1 s2 = Ok b /\
    (b = true <-> shape s1 = shape s2 /\ forall idx x y, in_range idx (shape s1) ->
        aget m1 (data s1 + dot idx (stride s1)) = Ok x -> aget m2 (data s2 + dot idx (stride s2)) = Ok y -> eqb x y = true).
Proof. exact (eq_ok eqb s1 s2 m1 m2). Qed.
Theorem C82_set_all_partial {A} (mem : list A) s v : fits_mem (zlen mem) s ->
  exists mem', set_all (S (Z.to_nat (prod (shape s)))) mem s v = Ok mem' /\ zlen mem' = zlen mem /\
    (forall idx, in_range idx (shape s) -> aget mem' (data s + dot idx (stride s)) = Ok v) /\
    (forall a, (forall idx, in_range idx (shape s) -> a <> data s + dot idx (stride s)) -> aget mem' a = aget mem a).
Proof. exact (set_all_ok s v mem). Qed.
Theorem C82_layout ly s : packed_ok ly (shape s) -> (rank s <= 8)%nat ->
  exists b, is_layout ly s = Ok b /\ (b = true <-> md ly (data s) (shape s) = Ok s).
Proof.
  intros HP H8. pose proof (md_ok ly (data s) (shape s) HP) as E. unfold is_layout. destruct (Nat.ltb_spec 8 (rank s)); [lia|]. unfold md in *.
  apply bind_ok in E as (st & E1 & E2). rewrite E1. cbn [bind]. destruct (list_eq_dec Z.eq_dec (stride s) st) as [Es|Ns].
  - exists true. split; [reflexivity|]. split; [intros _|reflexivity]. subst st. destruct s; reflexivity.
  - exists false. split; [reflexivity|]. split; [discriminate|]. intros [= E3]. destruct s; cbn in *; congruence.
Qed.
(** cspan_back is the last element of a packed span, but not of a strided one. *)
Theorem C82_back_partial ly d sh : packed_ok ly sh -> exists s a, md ly d sh = Ok s /\ back s = Ok a /\ at_ s (map Z.pred sh) = Ok a.
Proof.
  intros HP. destruct (C46_packed_offset_partial ly d sh HP) as (s & E & Es & En & H). pose proof HP as (_ & H2 & _). exists s.
  assert (HR : in_range (map Z.pred sh) sh). { clear - H2. unfold in_range. induction H2; cbn [map]; constructor; auto; lia. }
  rewrite (H _ HR). unfold back. rewrite En. cbn [bind].
  assert (Ed : data s = d). { unfold md in E. apply bind_ok in E as (x & _ & [= <-]). reflexivity. } rewrite Ed.
  eexists. split; [exact E|]. split; [reflexivity|]. f_equal. enough (HQ : match ly with RowMajor => row_offset sh (map Z.pred sh) | ColMajor => col_offset sh (map Z.pred sh) end = prod sh - 1) by (rewrite HQ; lia).
  clear. destruct ly; induction sh as [|n t IH]; cbn [map row_offset col_offset prod]; try rewrite IH; lia.
Qed.
Theorem C82_back_refuted : ~ (forall s a, length (stride s) = length (shape s) -> Forall (fun n => 0 < n <= max32) (shape s) -> back s = Ok a -> at_ s (map Z.pred (shape s)) = Ok a).
Proof. intros H. specialize (H (mk 0 [3] [2]) 2 eq_refl ltac:(num) eq_refl). discriminate. Qed.
Example C82_met : fits_mem 60 (mk 4 [3; 4] [2; 12]) /\ fits_mem 12 (mk 0 [3; 4] [4; 1]) /\ packed_ok ColMajor [3; 4] /\
  is_layout ColMajor (mk 0 [3; 4] [1; 3]) = Ok true /\ is_layout RowMajor (mk 0 [3; 4] [1; 3]) = Ok false.
Proof.
  assert (H : forall d st0 st1 m, (forall i j, 0 <= i < 3 -> 0 <= j < 4 -> 0 <= d + (i * st0 + (j * st1 + 0)) < m) -> fits_mem m (mk d [3; 4] [st0; st1])).
  { intros d a b m H. split; [reflexivity|]. split; [discriminate|]. split; [num|]. intros idx HR. cbn [shape stride data] in *.
    inversion HR as [|i ? t ? Hi Ht]; subst. inversion Ht as [|j ? t' ? Hj Ht']; subst. inversion Ht'; subst. cbn [dot]. auto. }
  split; [apply H; lia|]. split; [apply H; lia|]. split; [num|]. split; reflexivity.
Qed.
Print Assumptions C46_packed_offset_partial.
Print Assumptions C46_packed_bijection_partial.
Print Assumptions C46_large_shape_refuted.
Print Assumptions C46_index_checked.
Print Assumptions C47_iteration.
Print Assumptions C03_cspan_each_partial.
Print Assumptions C03_cspan_each_empty_refuted.
Print Assumptions C48_slice_partial.
Print Assumptions C48_slice_accepts.
Print Assumptions C48_transpose.
Print Assumptions C48_swap_axes.
Print Assumptions C48_submd.
Print Assumptions C48_subspan_partial.
Print Assumptions C48_subspan_refuted.
Print Assumptions C48_history_partial.
Print Assumptions C80_slice_checked_partial.
Print Assumptions C80_negative_start_refuted.
Print Assumptions C80_rank_checked_late_refuted.
Print Assumptions C81_print_partial.
Print Assumptions C82_eq_partial.
Print Assumptions C82_set_all_partial.
Print Assumptions C82_layout.
Print Assumptions C82_back_partial.
Print Assumptions C82_back_refuted.
