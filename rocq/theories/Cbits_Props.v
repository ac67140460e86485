(** cbits.h properties: C43, C44, C45. *)
From Verif Require Import Base Slots Cbits_Model Cbits_Spec Cbits_Proofs Cbits_Proofs2 Cbits_Proofs3 Cbits_Proofs4.

(** C43.  Every history of operations on [n] bit set variables, starting empty, behaves as
    the same operations on lists of booleans: same outputs, no out-of-bounds access, no read
    of uninitialised words, no use of freed memory; for each word size and realloc. *)
Theorem C43_cbits_is_bit_list lg rz n h S' xs : 0 <= lg ->
  srun lg rz (repeat [] n) h = Some (S', xs) ->
  exists st', run lg rz (repeat null_bits n) h = Ok (st', xs) /\ Forall2 (bits_repr lg) st' S'.
Proof.
  intros Hlg H. apply (run_ok lg rz Hlg h _ (repeat [] n)); auto.
  clear H. induction n; constructor; [now apply null_repr|exact IHn].
Qed.
(** The same from any represented state: stale bits above the size do not matter. *)
Theorem C43_cbits_from_any_state lg rz st S h S' xs : 0 <= lg -> Forall2 (bits_repr lg) st S ->
  srun lg rz S h = Some (S', xs) ->
  exists st', run lg rz st h = Ok (st', xs) /\ Forall2 (bits_repr lg) st' S'.
Proof. intros Hlg HS H. exact (run_ok lg rz Hlg h st S S' xs HS H). Qed.
(** Each bit is what [test] reads, and determines the represented list. *)
Theorem C43_cbits_test lg s l i : 0 <= lg -> bits_repr lg s l -> 0 <= i < zlen l ->
  test lg s i = aget l i.
Proof. intros Hlg HR Hi. apply (repr_words lg Hlg) in HR as (b & HL & _ & HW). destruct (test_ok lg Hlg s b l i HL HW Hi) as (v & -> & ->). reflexivity. Qed.
Theorem C43_cbits_repr_unique lg s l m : 0 <= lg -> bits_repr lg s l -> bits_repr lg s m -> l = m.
Proof. intros Hlg. exact (bits_inj lg Hlg s l m). Qed.
Theorem C43_cbits_disjoint lg s o l m : 0 <= lg -> bits_repr lg s l -> bits_repr lg o m -> zlen l = zlen m ->
  disjoint lg s o = Ok (disj l m).
Proof. intros Hlg. exact (disjoint_ok lg Hlg s o l m). Qed.
(** The fixed-size type: constructors fill all [len] bits, whatever the array held. *)
Theorem C43_cbits_fixed_with_size lg len n v : 0 <= lg -> 1 <= len -> n <= len ->
  exists s, fixed_with_size lg len n v = Ok s /\ bits_repr lg s (repeat v (Z.to_nat len)).
Proof. intros Hlg. exact (fixed_with_size_ok lg Hlg len n v). Qed.
Theorem C43_cbits_fixed_with_pattern lg len n p : 0 <= lg -> 1 <= len -> n <= len -> 0 <= p < 2 ^ 2 ^ lg ->
  exists s, fixed_with_pattern lg len n p = Ok s /\ bits_repr lg s (pattern lg len p).
Proof. intros Hlg. exact (fixed_with_pattern_ok lg Hlg len n p). Qed.
Theorem C43_cbits_fixed_from lg len str : 0 <= lg -> 1 <= len -> zlen str <= len ->
  exists s, fixed_from lg len str = Ok s /\
    bits_repr lg s (map (fun c => c =? 49) str ++ repeat false (Z.to_nat (len - zlen str))).
Proof. intros Hlg. exact (fixed_from_ok lg Hlg len str). Qed.
(** The portable population count (no compiler builtin) counts the bits of every word... *)
Theorem C43_popcount64 x : 0 <= x < 2 ^ 64 -> popc_swar 6 x = popc x.
Proof. exact (popc_swar64 x). Qed.
Theorem C43_popcount32 x : 0 <= x < 2 ^ 32 -> popc_swar 5 x = popc x.
Proof. exact (popc_swar32 x). Qed.
Theorem C43_popcount_is_bits m w : 0 <= w < 2 ^ Z.of_nat m ->
  popc w = ones_in (map (fun k => Z.testbit w (Z.of_nat k)) (seq 0 m)).
Proof. intros H. pose proof (popc_low m w (proj1 H)) as E. rewrite Z.land_ones, Z.mod_small in E by lia. exact E. Qed.
(** ...so [count] is the number of 1 bits with either. *)
Theorem C43_cbits_count_portable64 s l : bits_repr 6 s l -> count 6 (popc_swar 6) s = Ok (ones_in l).
Proof. apply count_swar; [lia|exact popc_swar64]. Qed.
Theorem C43_cbits_count_portable32 s l : bits_repr 5 s l -> count 5 (popc_swar 5) s = Ok (ones_in l).
Proof. apply count_swar; [lia|exact popc_swar32]. Qed.
(** Out-of-range [at] is caught by its assertion. *)
Theorem C43_cbits_at_out_of_range lg s l i : bits_repr lg s l -> i < 0 \/ zlen l <= i -> at_ lg s i = Err AssertFail.
Proof.
  intros HR Hi. unfold at_. rewrite (repr_size lg s l HR).
  destruct (Z.leb_spec 0 i); [|reflexivity]. destruct (Z.ltb_spec i (zlen l)); [lia|reflexivity].
Qed.

(** C44.  resize(n, v) keeps the first min(size, n) bits and sets the others to v. *)
Theorem C44_cbits_resize lg rz s l n v : 0 <= lg -> bits_repr lg s l -> 0 <= n -> (rz = true -> 0 < n) ->
  exists s', resize lg rz s n v = Ok (s', true) /\
    bits_repr lg s' (firstn (Z.to_nat n) l ++ repeat v (Z.to_nat n - length l)).
Proof. intros Hlg. exact (resize_ok lg Hlg rz s l n v). Qed.
(** Shrinking and growing again: the bits cut off do not come back. *)
Theorem C44_cbits_shrink_grow lg rz s l n v w : 0 <= lg -> bits_repr lg s l -> 0 < n <= zlen l ->
  exists s' s2, resize lg rz s n w = Ok (s', true) /\ resize lg rz s' (zlen l) v = Ok (s2, true) /\
    bits_repr lg s2 (firstn (Z.to_nat n) l ++ repeat v (Z.to_nat (zlen l - n))).
Proof.
  intros Hlg HR Hn. destruct (resize_ok lg Hlg rz s l n w HR) as (s' & E & R); [lia..|].
  destruct (resize_ok lg Hlg rz s' _ (zlen l) v R) as (s2 & E2 & R2); [lia..|].
  exists s', s2. split; [exact E|]. split; [exact E2|].
  unfold zlen in *. replace (Z.to_nat n - length l)%nat with 0%nat in R2 by lia. cbn [repeat] in R2. rewrite app_nil_r in R2.
  rewrite firstn_firstn, firstn_length, !Nat2Z.id in R2.
  replace (Nat.min (length l) (Z.to_nat n)) with (Z.to_nat n) in R2 by lia.
  replace (length l - Nat.min (Z.to_nat n) (length l))%nat with (Z.to_nat (Z.of_nat (length l) - n)) in R2 by lia. exact R2.
Qed.
(** With a realloc that frees on size 0 (glibc), resizing a set to 0 bits leaves it pointing
    to freed memory with its old size: the next use of it, even dropping it, is invalid. *)
Theorem C44_cbits_resize_zero_refuted lg s l v : 0 <= lg -> 0 < zlen l -> bits_repr lg s l ->
  exists s', resize lg true s 0 v = Ok (s', false) /\ size s' = zlen l /\
    drop s' = Err UseAfterFree /\ forall i, test lg s' i = Err UseAfterFree.
Proof.
  intros Hlg Hl HR. exists (mkbits Freed (size s)). pose proof (repr_size lg s l HR) as ES.
  destruct HR as (ws & HB & _ & HZ & _). unfold resize. replace (words lg 0) with 0.
  2:{ symmetry. unfold words. apply Z.quot_small. assert (0 < WB lg) by (apply WB_pos; lia). lia. }
  assert (buf s = Live (map Some ws)) as ->.
  { destruct HB as [HB|[_ ->]]; [exact HB|]. exfalso. change (zlen (@nil Z)) with 0 in HZ.
    assert (0 < 2 ^ lg) by (apply Z.pow_pos_nonneg; lia).
    assert (1 <= (zlen l + 2 ^ lg - 1) / 2 ^ lg) by (apply Z.div_le_lower_bound; lia). lia. }
  cbn. repeat split; auto.
Qed.

(** C45.  subset_of(self, other) is documented as "is set a subset of other?"; it answers
    whether [other] is a subset of [self]. *)
Theorem C45_subset_of_reversed lg s o l m : 0 <= lg -> bits_repr lg s l -> bits_repr lg o m -> zlen l = zlen m ->
  subset_of lg s o = Ok (sub_set m l).
Proof. intros Hlg. exact (subset_ok lg Hlg s o l m). Qed.
Theorem C45_subset_of_refuted :
  ~ (forall s o l m, bits_repr 6 s l -> bits_repr 6 o m -> zlen l = zlen m -> subset_of 6 s o = Ok (sub_set l m)).
Proof.
  intros H. destruct (with_size_ok 6 ltac:(lia) 1 true ltac:(lia)) as (s & _ & R1).
  destruct (with_size_ok 6 ltac:(lia) 1 false ltac:(lia)) as (o & _ & R2).
  pose proof (H s o _ _ R1 R2 eq_refl) as E. rewrite (subset_ok 6 ltac:(lia) s o _ _ R1 R2 eq_refl) in E. discriminate E.
Qed.

(** The hypotheses are met: a history with a shrink to 65 bits and growth to 130. *)
Example cbits_history :
  let h := [ONew 0 70 true; OReset 0 3; OResize 0 65 false; OResize 0 130 false; OSet 0 129; OCount 0;
            OClone 1 0; OFlipAll 1; ODisjoint 0 1; OUnion 1 0; OCount 1; OMove 2 1; OSize 1; OTest 2 3; OAt 0 3; OPrint 0 0 5] in
  match srun 6 true (repeat [] 3) h with
  | Some (_, xs) => xs = [RUnit; RUnit; RBool true; RBool true; RUnit; RInt 65; RUnit; RUnit; RBool true; RUnit; RInt 130;
                          RUnit; RInt 0; RBool true; RBool false; RStr [49; 49; 49; 48; 49]]
  | None => False
  end.
Proof. reflexivity. Qed.
Example cbits_repr_case : exists s l, bits_repr 6 s l /\ zlen l = 65 /\ ones_in l = 64.
Proof.
  destruct (with_size_ok 6 ltac:(lia) 65 true ltac:(lia)) as (s & _ & R).
  destruct (reset_ok 6 ltac:(lia) s _ 64 R ltac:(split; reflexivity || (intros; discriminate))) as (s' & _ & R').
  eexists s', _. split; [exact R'|]. split; reflexivity.
Qed.
Example subset_case : sub_set [true; false; true] [true; true; true] = true /\ sub_set [true; true; true] [true; false; true] = false.
Proof. split; reflexivity. Qed.

Print Assumptions C43_cbits_is_bit_list.
Print Assumptions C43_cbits_from_any_state.
Print Assumptions C43_cbits_count_portable64.
Print Assumptions C43_cbits_count_portable32.
Print Assumptions C44_cbits_resize.
Print Assumptions C44_cbits_shrink_grow.
Print Assumptions C44_cbits_resize_zero_refuted.
Print Assumptions C45_subset_of_reversed.
Print Assumptions C45_subset_of_refuted.
