(** vec functions whose array argument lies in the vec itself: C101. *)
From Verif Require Import Base Slots Vec_Model Vec_Spec Vec_Proofs Vali_Model.

Section ValiProofs.
Context {A : Type}.
Implicit Types (v : vec A) (l : list A).

Lemma push_room v l x : stored v l -> zlen l < capacity v -> exists v', push v x = Ok (v', Some (zlen l)) /\ stored v' (l ++ [x]) /\ capacity v' = capacity v.
Proof.
  intros [Hs Hh] H. unfold push. rewrite Hs. destruct (Z.eqb_spec (zlen l) (capacity v)); [lia|].
  destruct (holds_wr_end (buf v) l x Hh H) as (s & W & Hs' & Z'). rewrite Hs, W. cbn [bind]. eexists. split; [reflexivity|].
  split; [split; [cbn [size]; now rewrite zlen_app|exact Hs']|exact Z'].
Qed.
Lemma push_grow v l x : stored v l -> zlen l = capacity v -> exists v', push v x = Ok (v', Some (zlen l)) /\ stored v' (l ++ [x]) /\ capacity v' <> capacity v.
Proof.
  intros St H. destruct (push_spec v l x St) as (v' & E & St'). exists v'. split; [exact E|]. split; [exact St'|].
  pose proof (stored_cap _ _ St') as C. rewrite zlen_app in C. change (zlen [x]) with 1 in C. lia.
Qed.
Lemma aget_in l a : 0 <= a < zlen l -> exists x, aget l a = Ok x /\ forall n, firstn (S n) (skipn (Z.to_nat a) l) = x :: firstn n (skipn (Z.to_nat (a + 1)) l).
Proof.
  intros H. destruct (aget_some l a H) as (x & E). exists x. split; [exact E|]. intros n. apply aget_nth in E as (H0 & E).
  destruct (nth_error_split _ _ E) as (l1 & l2 & -> & L1). replace (Z.to_nat (a + 1)) with (S (length l1)) by lia. rewrite <- L1.
  rewrite skipn_app, skipn_all, Nat.sub_diag. change (l1 ++ x :: l2) with (l1 ++ [x] ++ l2). rewrite app_assoc.
  replace (S (length l1)) with (length (l1 ++ [x])) by (rewrite app_length; cbn; lia). rewrite skipn_app, skipn_all, Nat.sub_diag. reflexivity.
Qed.
(** As long as there is room, and for one element more. *)
Lemma put_n_own_ok n : forall v l a c0, stored v l -> c0 = capacity v -> 0 <= a -> a + Z.of_nat n <= zlen l -> zlen l + Z.of_nat n <= capacity v + 1 ->
  exists v', put_n_own n v c0 a = Ok v' /\ stored v' (l ++ firstn n (skipn (Z.to_nat a) l)).
Proof.
  induction n as [|n IH]; intros v l a c0 St -> Ha Hn Hc; cbn [put_n_own].
  - exists v. cbn [firstn]. rewrite app_nil_r. auto.
  - rewrite Z.eqb_refl. cbn [negb]. destruct (aget_in l a ltac:(lia)) as (x & E & F). rewrite F. rewrite (holds_rd (buf v) l) by (try apply St; lia). rewrite E. cbn [bind].
    destruct (Z.eq_dec (zlen l) (capacity v)) as [G|G].
    + destruct (push_grow v l x St G) as (v' & P & St' & _). rewrite P. cbn [bind fst]. assert (n = O) as -> by lia. cbn [put_n_own firstn]. eauto.
    + pose proof (stored_cap _ _ St). destruct (push_room v l x St ltac:(lia)) as (v' & P & St' & C). rewrite P. cbn [bind fst].
      destruct (IH v' (l ++ [x]) (a + 1) (capacity v) St' (eq_sym C)) as (v2 & P2 & St2); try lia.
      { rewrite zlen_app. change (zlen [x]) with 1. lia. }
      { rewrite zlen_app. change (zlen [x]) with 1. lia. }
      exists v2. split; [exact P2|]. rewrite <- app_assoc in St2. cbn [app] in St2.
      replace (firstn n (skipn (Z.to_nat (a + 1)) (l ++ [x]))) with (firstn n (skipn (Z.to_nat (a + 1)) l)) in St2; [exact St2|].
      rewrite skipn_app, firstn_app. unfold zlen in *. replace (n - length (skipn (Z.to_nat (a + 1)) l))%nat with O by (rewrite skipn_length; lia). cbn [firstn]. now rewrite app_nil_r.
Qed.
Lemma put_n_own_bad n : forall v l a c0, stored v l -> c0 = capacity v -> 0 <= a -> a + Z.of_nat n <= zlen l -> capacity v + 1 < zlen l + Z.of_nat n ->
  put_n_own n v c0 a = Err UseAfterFree.
Proof.
  induction n as [|n IH]; intros v l a c0 St -> Ha Hn Hc; cbn [put_n_own].
  - pose proof (stored_cap _ _ St). lia.
  - rewrite Z.eqb_refl. cbn [negb]. destruct (aget_in l a ltac:(lia)) as (x & E & F). rewrite (holds_rd (buf v) l) by (try apply St; lia). rewrite E. cbn [bind].
    destruct (Z.eq_dec (zlen l) (capacity v)) as [G|G].
    + destruct (push_grow v l x St G) as (v' & P & St' & C). rewrite P. cbn [bind fst]. destruct n as [|n]; [lia|]. cbn [put_n_own]. destruct (Z.eqb_spec (capacity v') (capacity v)); [contradiction|reflexivity].
    + pose proof (stored_cap _ _ St). destruct (push_room v l x St ltac:(lia)) as (v' & P & St' & C). rewrite P. cbn [bind fst].
      apply (IH v' (l ++ [x])); auto; try lia; rewrite zlen_app; change (zlen [x]) with 1; lia.
Qed.
End ValiProofs.

(** C101.  vec put_n of elements of the vec itself appends copies of them exactly when at most
    one element more than there is room for is appended ... *)
Theorem C101_vec_put_n_own {A} (v : vec A) l a n :
  stored v l -> 0 <= a -> a + Z.of_nat n <= zlen l -> zlen l + Z.of_nat n <= capacity v + 1 ->
  exists v', put_n_own n v (capacity v) a = Ok v' /\ stored v' (l ++ firstn n (skipn (Z.to_nat a) l)).
Proof. intros. now apply put_n_own_ok. Qed.
(** ... and reads the freed buffer otherwise. *)
Theorem C101_vec_put_n_own_refuted {A} (v : vec A) l a n :
  stored v l -> 0 <= a -> a + Z.of_nat n <= zlen l -> capacity v + 1 < zlen l + Z.of_nat n ->
  put_n_own n v (capacity v) a = Err UseAfterFree.
Proof. intros St Ha Hn Hc. exact (put_n_own_bad n v l a _ St eq_refl Ha Hn Hc). Qed.

(** C101.  insert_n of elements before the position inserts copies of them, when there is room. *)
Theorem C101_vec_insert_n_own {A} (v : vec A) l idx a n :
  stored v l -> 0 <= a -> 0 <= n -> a + n <= idx -> idx <= zlen l -> zlen l + n < capacity v ->
  exists v', insert_n_own v idx a n = Ok (v', Some idx) /\
    stored v' (firstn (Z.to_nat idx) l ++ firstn (Z.to_nat n) (skipn (Z.to_nat a) l) ++ skipn (Z.to_nat idx) l).
Proof.
  intros [Hs Hh] Ha Hn Hi Hl Hc. set (xs := firstn (Z.to_nat n) (skipn (Z.to_nat a) l)).
  assert (ZX : zlen xs = n). { unfold xs. unfold zlen in *. rewrite firstn_length, skipn_length. lia. }
  unfold insert_n_own, insert_uninit. rewrite Hs. destruct (Z.geb_spec (zlen l + n) (capacity v)); [lia|]. rewrite Hs.
  destruct (holds_insert (buf v) l idx xs Hh ltac:(lia) ltac:(unfold capacity in *; lia)) as (s1 & s2 & M & W & Hh2 & Z1 & Z2).
  rewrite ZX in M. rewrite M. cbn [bind fst snd buf size]. unfold capacity. cbn [buf]. rewrite Z1, Z.eqb_refl. cbn [negb].
  replace ((a <? idx + n) && (idx <? a + n)) with false by (symmetry; apply Bool.andb_false_iff; right; apply Z.ltb_ge; lia).
  assert (H1 : holds s1 (firstn (Z.to_nat idx) l)).
  { apply holds_of; [rewrite zlen_firstn by lia; unfold capacity in *; lia|]. intros i x E. pose proof (aget_ok_range _ _ _ E) as R. rewrite zlen_firstn in R by lia.
    rewrite aget_firstn in E by lia. destruct (amove_inv _ _ _ _ _ M) as (_ & _ & _ & _ & _ & _ & AG). rewrite AG. destruct (Z.leb_spec (idx + n) i); [lia|]. cbn [andb]. apply (holds_aget _ l); auto. }
  rewrite (holds_rds s1 (firstn (Z.to_nat idx) l)) by (auto; rewrite zlen_firstn; lia). cbn [bind].
  replace (firstn (Z.to_nat n) (skipn (Z.to_nat a) (firstn (Z.to_nat idx) l))) with xs.
  2: { unfold xs. rewrite skipn_firstn_comm, firstn_firstn. f_equal. lia. }
  rewrite W. cbn [bind]. eexists. split; [reflexivity|]. split; [|exact Hh2]. cbn [size]. rewrite !zlen_app, ZX, zlen_firstn, zlen_skipn by lia. lia.
Qed.
(** C101.  Elements behind the position have been moved when they are copied: inserting the
    second of five elements before the first inserts the first.  Without room the freed buffer
    is read. *)
Theorem C101_vec_insert_n_own_refuted :
  insert_n_own (mkvec [Some 1; Some 2; Some 3; Some 4; Some 5; None; None] 5) 0 1 1 =
    Ok (mkvec [Some 1; Some 1; Some 2; Some 3; Some 4; Some 5; None] 6, Some 0) /\
  insert_n_own (mkvec [Some 1; Some 2; Some 3] 3) 3 0 2 = Err UseAfterFree.
Proof. split; vm_compute; reflexivity. Qed.

(** C101.  Elements that lie across the position are copied with memcpy onto themselves. *)
Theorem C101_vec_insert_n_overlap_refuted {A} (v : vec A) l idx a n :
  stored v l -> 0 <= a -> 0 <= idx <= zlen l -> a + n <= zlen l -> zlen l + n < capacity v ->
  a < idx + n -> idx < a + n -> insert_n_own v idx a n = Err Overlap.
Proof.
  intros [Hs Hh] Ha Hi Hn Hc H1 H2. set (xs := firstn (Z.to_nat n) (skipn (Z.to_nat a) l)).
  assert (ZX : zlen xs = n). { unfold xs. unfold zlen in *. rewrite firstn_length, skipn_length. lia. }
  unfold insert_n_own, insert_uninit. rewrite Hs. destruct (Z.geb_spec (zlen l + n) (capacity v)); [lia|]. rewrite Hs.
  destruct (holds_insert (buf v) l idx xs Hh ltac:(lia) ltac:(unfold capacity in *; lia)) as (s1 & s2 & M & W & Hh2 & Z1 & Z2).
  rewrite ZX in M. rewrite M. cbn [bind fst snd buf size]. unfold capacity. cbn [buf]. rewrite Z1, Z.eqb_refl. cbn [negb].
  replace ((a <? idx + n) && (idx <? a + n)) with true; [reflexivity|].
  symmetry. apply Bool.andb_true_iff. split; apply Z.ltb_lt; lia.
Qed.

Example C101_vec_met :
  let v := mkvec [Some 1; Some 2; Some 3; None; None; None] 3 in
  stored v [1; 2; 3] /\ put_n_own 3 v (capacity v) 0 = Ok (mkvec [Some 1; Some 2; Some 3; Some 1; Some 2; Some 3] 6) /\
  insert_n_own v 3 0 2 = Ok (mkvec [Some 1; Some 2; Some 3; Some 1; Some 2; None] 5, Some 3) /\
  put_n_own 3 (mkvec [Some 1; Some 2; Some 3] 3) 3 0 = Err UseAfterFree /\
  insert_n_own v 1 0 2 = Err Overlap.
Proof. cbn zeta. split; [split; [reflexivity|]; now exists [None; None; None]|]. repeat split; vm_compute; reflexivity. Qed.
Print Assumptions C101_vec_put_n_own.
Print Assumptions C101_vec_put_n_own_refuted.
Print Assumptions C101_vec_insert_n_own.
Print Assumptions C101_vec_insert_n_own_refuted.
Print Assumptions C101_vec_insert_n_overlap_refuted.
