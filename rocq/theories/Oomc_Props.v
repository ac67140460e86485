(** cstr when memory runs out: C99. *)
From Verif Require Import Base Slots Utf8_Model View_Spec Cstr_Model Cstr_Spec Cstr_Proofs Oomc_Model.

(** C99.  Growth that is not needed is never asked for: whatever the allocator answers, the
    edits below do what they always do. *)
Theorem C99_cstr_fits_partial s l b n v a : repr s l ->
  (zlen l + zlen b <= scap s -> exists s', append_n_f a s b = Ok (s', true) /\ repr s' (l ++ b)) /\
  (zlen b <= scap s -> exists s', assign_n_f a s b = Ok (s', true) /\ repr s' b) /\
  (0 <= n <= scap s -> (exists s', resize_f a s n v = Ok (s', true) /\ repr s' (firstn (Z.to_nat n) l ++ repeat v (Z.to_nat (n - zlen l)))) /\
                       reserve_f a s n = Ok (s, true)).
Proof.
  intros R. destruct (wf_cap s (proj1 R)) as (HC & HD). pose proof R as (W & C & SZ & LE). pose proof (zlen_nonneg l). pose proof (zlen_nonneg b).
  assert (RF : forall m, m <= scap s -> reserve_f a s m = Ok (s, true)).
  { intros m Hm. destruct (reserve_ok s l m R ltac:(lia)) as (s1 & mv & E & _ & _ & _ & E1 & E2). specialize (E2 Hm). subst mv. rewrite (E1 eq_refl) in E.
    unfold reserve_f. rewrite E. destruct a; [reflexivity|]. destruct s; cbn [scap] in Hm.
    - rewrite SZ. cbn [bind]. destruct (Z.ltb_spec s_cap m); [lia|reflexivity].
    - destruct (Z.ltb_spec cap m); [lia|reflexivity]. }
  split; [|split].
  - intros H1. unfold append_n_f. rewrite SZ. cbn [bind]. destruct (Z.ltb_spec (scap s) (zlen l + zlen b)); [lia|].
    assert (E0 : exists s', append_n s (Ext b) = Ok s' /\ repr s' (l ++ b)).
    { unfold append_n. rewrite SZ. cbn [bind slen]. destruct (Z.ltb_spec (scap s) (zlen l + zlen b)); [lia|]. cbn [bind fst snd andb copy_in fetch].
      destruct (write_ok s (zlen l) b W) as (d & E & W1 & S1 & C1 & X1); [lia|lia|]. rewrite E. cbn [bind].
      destruct (set_size_ok (wdata s d) (l ++ b) (zlen l + zlen b)) as (s' & E' & R' & _); eauto.
      - rewrite sdata_wdata. apply cells_app. split; [|exact X1]. eapply frame_cells; [exact C1|now apply repr_data|]. lia.
      - now rewrite zlen_app.
      - rewrite scap_wdata, zlen_app. lia. }
    destruct E0 as (s' & -> & R'). eexists. split; [reflexivity|exact R'].
  - intros H1. unfold assign_n_f. rewrite (RF _ H1). cbn [bind snd negb]. destruct (assign_ok s l b R ltac:(lia)) as (s' & -> & R'). eexists. split; [reflexivity|exact R'].
  - intros H1. split; [|apply RF; lia]. unfold resize_f. rewrite SZ. cbn [bind]. destruct (Z.ltb_spec (scap s) n); [lia|]. rewrite andb_false_r.
    destruct (resize_ok s l n v R ltac:(lia)) as (s' & -> & R'). eexists. split; [reflexivity|exact R'].
Qed.
Example C99_cstr_fits_met : exists s, repr s [104; 105] /\ zlen [104; 105] + zlen [33] <= scap s.
Proof. destruct (from_n_ok [104; 105] ltac:(cbn; lia)) as (s & _ & R). exists s. split; [exact R|]. pose proof (wf_cap s (proj1 R)). cbn. lia. Qed.

(** The data pointer of [s] is NULL: no byte can be read. *)
Definition no_data (s : cstr) : Prop := forall i, rd (sdata s) i = Err OOB.
(** What a refused growth to [cap] does to a string of [n] bytes: a short one is written to a
    null pointer; a long one loses its buffer but keeps its size. *)
Definition lost (s : cstr) (n cap : Z) (r : res (cstr * bool)) : Prop :=
  match s with
  | Short _ => r = Err NullDeref
  | Long _ _ _ => exists s', r = Ok (s', false) /\ no_data s' /\ ssize s' = Ok n /\ scap s' = cap
  end.

(** C99.  A refused growth never leaves the string as it was, whatever its contents. *)
Theorem C99_cstr_grow_refuted s l b n v : repr s l -> zlen l + zlen b <= 2 ^ 61 -> n < 2 ^ 63 - 1 ->
  (scap s < n -> lost s (zlen l) n (reserve_f false s n) /\ lost s (zlen l) n (resize_f false s n v)) /\
  (scap s < zlen b -> lost s (zlen l) (zlen b) (assign_n_f false s b)) /\
  (scap s < zlen l + zlen b -> lost s (zlen l) (zlen l * 3 / 2 + zlen b) (append_n_f false s b)).
Proof.
  intros R HB HN. pose proof R as (W & C & SZ & LE). pose proof (zlen_nonneg l). pose proof (zlen_nonneg b).
  assert (RF : forall m, scap s < m < 2 ^ 63 - 1 -> lost s (zlen l) m (reserve_f false s m) /\ forall f, lost s (zlen l) m (let* r := reserve_f false s m in if negb (snd r) then Ok r else f)).
  { intros m Hm. unfold lost, reserve_f. destruct s as [d|d sz c]; cbn [scap] in Hm.
    - unfold s_cap in *. rewrite SZ. cbn [bind]. unfold s_cap. destruct (Z.ltb_spec 22 m); [|lia]. rewrite cap_ok_ok by lia. split; reflexivity.
    - destruct (Z.ltb_spec c m); [|lia]. cbn in LE. rewrite cap_ok_ok by lia. cbn [bind snd negb]. cbn [ssize] in SZ. injection SZ as ->.
      assert (ND : forall k, no_data (Long [] (zlen l) k)). { intros k i. unfold rd. cbn [sdata]. unfold aget. destruct (i <? 0); [reflexivity|]. now destruct (Z.to_nat i). }
      split; [|intros f]; eexists; (split; [reflexivity|]); repeat split; apply ND. }
  split; [|split].
  - intros H1. destruct (RF n ltac:(lia)) as (R1 & R2). split; [exact R1|]. unfold resize_f. rewrite SZ. cbn [bind].
    destruct (Z.ltb_spec (zlen l) n); [|lia]. destruct (Z.ltb_spec (scap s) n); [|lia]. cbn [andb]. apply R2.
  - intros H1. unfold assign_n_f. apply RF. lia.
  - intros H1. unfold append_n_f. rewrite SZ. cbn [bind]. destruct (Z.ltb_spec (scap s) (zlen l + zlen b)); [|lia].
    destruct (grow_ok (zlen l) (zlen b)) as (c & E & G); try lia. rewrite E. cbn [bind].
    assert (c = zlen l * 3 / 2 + zlen b) as <-. { unfold grow in E. destruct ((zlen l * 3 <=? imax) && _); [|discriminate]. now injection E as <-. }
    apply RF. lia.
Qed.
Example C99_cstr_grow_met :
  (exists s, from_n (repeat 97 30) = Ok s /\ repr s (repeat 97 30) /\ scap s = 30) /\
  exists s s', from_n (repeat 97 30) = Ok s /\ append_n_f false s [98] = Ok (s', false) /\ ssize s' = Ok 30 /\ sdata s' = [] /\ append_n s' (Ext [99]) = Err OOB.
Proof.
  split.
  - destruct (from_n_ok (repeat 97 30)) as (s & E & R); [cbn; lia|]. exists s. split; [exact E|]. split; [exact R|]. vm_compute in E. injection E as <-. reflexivity.
  - match goal with |- exists s s', ?r = _ /\ _ => let v := eval vm_compute in r in match v with Ok ?a => exists a end end.
    eexists. repeat (split; [vm_compute; reflexivity|]). vm_compute. reflexivity.
Qed.

(** C99.  So do shrinking a long string and making one. *)
Theorem C99_cstr_shrink_refuted s l : repr s l -> 22 < zlen l -> zlen l <> scap s ->
  exists s', shrink_to_fit_f false s = Ok s' /\ no_data s' /\ ssize s' = Ok (zlen l).
Proof.
  intros (W & C & SZ & LE) HL HN. unfold shrink_to_fit_f. rewrite SZ. cbn [bind negb andb]. destruct (Z.eqb_spec (zlen l) (scap s)); [contradiction|].
  unfold s_cap. destruct (Z.ltb_spec 22 (zlen l)); [|lia]. cbn [negb andb]. eexists. split; [reflexivity|]. split; [|reflexivity].
  intros i. unfold rd. cbn [sdata]. unfold aget. destruct (i <? 0); [reflexivity|]. now destruct (Z.to_nat i).
Qed.
Example C99_cstr_shrink_met : exists s r, from_n (repeat 97 30) = Ok s /\ reserve s 40 = Ok r /\ repr (fst r) (repeat 97 30) /\ zlen (repeat 97 30) <> scap (fst r).
Proof.
  destruct (from_n_ok (repeat 97 30)) as (s & E & R); [cbn; lia|]. destruct (reserve_ok s _ 40 R ltac:(lia)) as (s1 & mv & E1 & R1 & L1 & _).
  exists s, (s1, mv). split; [exact E|]. split; [exact E1|]. split; [exact R1|]. cbn [fst]. replace (zlen (repeat 97 30)) with 30 by reflexivity. lia.
Qed.
Theorem C99_cstr_from_n_refuted b : 22 < zlen b < 2 ^ 63 - 1 -> from_n_f false b = Err NullDeref.
Proof.
  intros H. unfold from_n_f, s_cap. cbn [negb andb]. destruct (Z.ltb_spec 22 (zlen b)); [|lia]. rewrite cap_ok_ok by lia. reflexivity.
Qed.
Example C99_cstr_from_n_met : 22 < zlen (repeat 97 30) < 2 ^ 63 - 1.
Proof. now vm_compute. Qed.
Print Assumptions C99_cstr_fits_partial.
Print Assumptions C99_cstr_grow_refuted.
Print Assumptions C99_cstr_shrink_refuted.
Print Assumptions C99_cstr_from_n_refuted.
