(** Proofs about the coption model: the parts of coption_get. *)
From Verif Require Import Base Opt_Model Opt_Spec.

Definition nz (s : str) : Prop := Forall (fun c => c <> 0) s.

Lemma aget_at {B} (l1 l2 : list B) x i : i = zlen l1 -> aget (l1 ++ x :: l2) i = Ok x.
Proof. intros ->. rewrite aget_app2 by lia. rewrite aget_cons. replace (zlen l1 - zlen l1 =? 0) with true by lia. reflexivity. Qed.
Lemma aset_at {B} (l1 l2 : list B) x y i : i = zlen l1 -> aset (l1 ++ x :: l2) i y = Ok (l1 ++ y :: l2).
Proof.
  intros ->. rewrite aset_ok by (rewrite zlen_app, zlen_cons; pose proof (zlen_nonneg l1); pose proof (zlen_nonneg l2); lia).
  f_equal. unfold zlen. rewrite Nat2Z.id. clear. induction l1; cbn; congruence.
Qed.
Lemma ch_at (u w : str) c k : k = zlen u -> ch (u ++ c :: w) k = Ok c.
Proof.
  intros ->. unfold ch. rewrite zlen_app, zlen_cons. pose proof (zlen_nonneg w). destruct (Z.eqb_spec (zlen u) (zlen u + (1 + zlen w))); [lia|].
  apply aget_at; reflexivity.
Qed.
Lemma ch_end (s : str) k : k = zlen s -> ch s k = Ok 0.
Proof. intros ->. unfold ch. rewrite Z.eqb_refl. reflexivity. Qed.
(** The character at [zlen u]: the head of the rest, or the terminator. *)
Lemma ch_hd (u w : str) k : k = zlen u -> ch (u ++ w) k = Ok (hd 0 w).
Proof. destruct w; intro E; cbn [hd]; [rewrite app_nil_r; apply ch_end; assumption|apply ch_at; assumption]. Qed.
Lemma ch_0 (s : str) : ch s 0 = Ok (hd 0 s).
Proof. exact (ch_hd [] s 0 eq_refl). Qed.
Lemma hd_zero (w : str) : nz w -> (hd 0 w =? 0) = match w with [] => true | _ => false end.
Proof. destruct w; cbn; [reflexivity|]. intro N. inversion N. apply Z.eqb_neq. assumption. Qed.

Lemma nonopt_ok s : nz s -> nonopt s = Ok (plain s).
Proof.
  intro N. unfold nonopt. rewrite ch_0. cbn [bind]. destruct s as [|c [|d t]]; cbn [hd plain].
  - reflexivity.
  - destruct (Z.eqb_spec c chDash); cbn [negb]; [|reflexivity]. rewrite (ch_end [c] 1) by reflexivity. reflexivity.
  - destruct (Z.eqb_spec c chDash); cbn [negb]; [|reflexivity]. rewrite (ch_at [c] t d 1 eq_refl : ch (c :: d :: t) 1 = Ok d). cbn [bind].
    inversion N; subst. inversion H2; subst. destruct (Z.eqb_spec d 0); [contradiction|reflexivity].
Qed.
Lemma dashed_ok s : (let* c := ch s 0 in Ok (negb (c =? chDash))) = Ok (negb (dashed s)).
Proof. rewrite ch_0. destruct s; reflexivity. Qed.

(** Moving an argument over the non-options. *)
Lemma shift_ok N : forall A x B j k, j - k = zlen A + zlen N ->
  exists y, shift (A ++ N ++ x :: B) j k (length N) = Ok (A ++ y :: N ++ B).
Proof.
  induction N as [|y N IH] using rev_ind; intros A x B j k Hj.
  - exists x. reflexivity.
  - rewrite app_length. cbn [length]. rewrite Nat.add_1_r. cbn [shift]. rewrite zlen_app, zlen_cons, zlen_nil in Hj.
    replace (A ++ (N ++ [y]) ++ x :: B) with ((A ++ N) ++ y :: x :: B) by (rewrite <- !app_assoc; reflexivity).
    rewrite aget_at by (rewrite zlen_app; lia). cbn [bind].
    replace ((A ++ N) ++ y :: x :: B) with ((A ++ N ++ [y]) ++ x :: B) by (rewrite <- !app_assoc; reflexivity).
    rewrite aset_at by (rewrite !zlen_app, zlen_cons, zlen_nil; lia). cbn [bind].
    destruct (IH A y (y :: B) j (k + 1) ltac:(lia)) as (z & E).
    replace ((A ++ N ++ [y]) ++ y :: B) with (A ++ N ++ y :: y :: B) by (rewrite <- !app_assoc; reflexivity).
    rewrite E. exists z. rewrite <- !app_assoc. reflexivity.
Qed.
Lemma permute_ok A N p B j n : j = zlen A + zlen N -> n = zlen N -> permute (A ++ N ++ p :: B) j n = Ok (A ++ p :: N ++ B).
Proof.
  intros -> ->. unfold permute. rewrite app_assoc. rewrite aget_at by (rewrite zlen_app; reflexivity). rewrite <- app_assoc. cbn [bind].
  unfold zlen at 3. rewrite Nat2Z.id. destruct (shift_ok N A p B (zlen A + zlen N) 0 ltac:(lia)) as (y & ->). cbn [bind].
  apply aset_at. pose proof (zlen_nonneg N). lia.
Qed.
Lemma permutes_ok M : forall A N B j n, j = zlen A + zlen N -> n = zlen N -> permutes (A ++ N ++ M ++ B) j n (length M) = Ok (A ++ M ++ N ++ B).
Proof.
  induction M as [|p M IH]; intros A N B j n Hj Hn; [reflexivity|]. cbn [length permutes app]. rewrite permute_ok by assumption. cbn [bind].
  replace (A ++ p :: N ++ M ++ B) with ((A ++ [p]) ++ N ++ M ++ B) by (rewrite <- app_assoc; reflexivity).
  rewrite IH by (rewrite ?zlen_app, ?zlen_cons, ?zlen_nil; lia). rewrite <- app_assoc. reflexivity.
Qed.
(** The end of a call that leaves argv[i]. *)
Lemma finish_ok A N M B i0 optc o : zlen A + zlen N = i0 -> onargs o = zlen N -> oi o = i0 + zlen M - 1 -> M <> [] ->
  (opos o < 0 \/ 0 <= opos o /\ exists s, aget (A ++ N ++ M ++ B) (oi o) = Ok s /\ ch s (opos o) = Ok 0) ->
  finish (A ++ N ++ M ++ B) i0 optc o =
  Ok (optc, mkco (zlen A + zlen M) (oopt o) (optstr o) (oarg o) (zlen A + zlen N + zlen M) 0 (zlen N), A ++ M ++ N ++ B).
Proof.
  intros Hi Hn Hoi HM Hadv. unfold finish.
  assert (E : (if opos o <? 0 then Ok true else let* s := aget (A ++ N ++ M ++ B) (oi o) in let* c := ch s (opos o) in Ok (c =? 0)) = Ok true).
  { destruct Hadv as [Hneg|(H0 & s & Hs & Hc)]; [replace (opos o <? 0) with true by lia; reflexivity|].
    replace (opos o <? 0) with false by lia. rewrite Hs. cbn [bind]. rewrite Hc. reflexivity. }
  rewrite E. cbn [bind].
  replace (if 0 <? onargs o then permutes (A ++ N ++ M ++ B) i0 (onargs o) (Z.to_nat (oi o + 1 - i0)) else Ok (A ++ N ++ M ++ B)) with (Ok (A ++ M ++ N ++ B)).
  - cbn [bind]. rewrite Hn, Hoi. do 3 f_equal. f_equal; lia.
  - rewrite Hn. destruct (Z.ltb_spec 0 (zlen N)).
    + replace (Z.to_nat (oi o + 1 - i0)) with (length M) by (unfold zlen in *; lia). rewrite permutes_ok by (try reflexivity; lia). reflexivity.
    + destruct N as [|x N]; [reflexivity|]. rewrite zlen_cons in H. pose proof (zlen_nonneg N). lia.
Qed.
(** The end of a call that stays in argv[i]. *)
Lemma finish_stay argv i0 optc o s c : aget argv (oi o) = Ok s -> 0 <= opos o -> ch s (opos o) = Ok c -> c <> 0 ->
  finish argv i0 optc o = Ok (optc, mkco (oi o - onargs o) (oopt o) (optstr o) (oarg o) (oi o) (opos o) (onargs o), argv).
Proof.
  intros Hs H0 Hc Hn. unfold finish. replace (opos o <? 0) with false by lia. rewrite Hs. cbn [bind]. rewrite Hc. cbn [bind].
  destruct (Z.eqb_spec c 0); [contradiction|reflexivity].
Qed.
(** Skipping non-options. *)
Lemma skip_ok X : forall P Y nargs fuel i, i = zlen P -> strings (X ++ Y) -> Forall (fun s => plain s = true) X ->
  match Y with [] => True | y :: _ => plain y = false end -> (length X <= fuel)%nat ->
  skip (P ++ X ++ Y) (zlen (P ++ X ++ Y)) i nargs fuel = Ok (i + zlen X, nargs + zlen X).
Proof.
  induction X as [|x X IH]; intros P Y nargs fuel i Hi Hs HX HY Hf; cbn [length] in Hf.
  - rewrite zlen_nil, !Z.add_0_r. cbn [app] in *. destruct Y as [|y Y].
    + destruct fuel; cbn [skip]; (replace (i <? zlen (P ++ [])) with false by (rewrite app_nil_r; lia)); reflexivity.
    + assert (nz y) by (inversion Hs; assumption).
      assert (E : (i <? zlen (P ++ y :: Y)) = true) by (rewrite zlen_app, zlen_cons; pose proof (zlen_nonneg Y); lia).
      destruct fuel; cbn [skip]; rewrite E, aget_at by assumption; cbn [bind]; rewrite nonopt_ok by assumption; cbn [bind]; rewrite HY; reflexivity.
  - destruct fuel as [|fuel]; [lia|]. inversion HX; subst. cbn [app] in *. inversion Hs; subst.
    cbn [skip]. replace (zlen P <? zlen (P ++ x :: X ++ Y)) with true by (rewrite zlen_app, zlen_cons; pose proof (zlen_nonneg (X ++ Y)); lia).
    rewrite aget_at by reflexivity. cbn [bind]. rewrite nonopt_ok by assumption. cbn [bind]. rewrite H1.
    replace (P ++ x :: X ++ Y) with ((P ++ [x]) ++ X ++ Y) by (rewrite <- app_assoc; reflexivity).
    rewrite IH; try assumption; try lia; [|rewrite zlen_app, zlen_cons, zlen_nil; lia]. rewrite zlen_cons. do 2 f_equal; lia.
Qed.

(** strchr *)
Lemma strchr_ok sh c : c <> 0 -> nz sh ->
  match after sh c with
  | None => strchr sh c = None
  | Some t => exists p, strchr sh c = Some p /\ 0 <= p /\ ch sh (p + 1) = Ok (hd 0 t) /\ (t <> [] -> ch sh (p + 2) = Ok (hd 0 (tl t))) /\ nz t /\ In c sh
  end.
Proof.
  intros Hc. induction sh as [|x sh IH]; intro N; cbn [after strchr].
  - destruct (Z.eqb_spec c 0); [contradiction|reflexivity].
  - inversion N; subst. destruct (Z.eqb_spec x c) as [->|n].
    + exists 0. split; [reflexivity|]. split; [lia|]. split; [exact (ch_hd [c] sh 1 eq_refl)|]. split; [|split; [assumption|left; reflexivity]].
      destruct sh as [|y sh]; [congruence|]. intros _. exact (ch_hd [c; y] sh 2 eq_refl).
    + specialize (IH H2). destruct (after sh c) as [t|].
      * destruct IH as (p & -> & Hp & E1 & E2 & Nt & Hi). exists (p + 1). split; [reflexivity|]. split; [lia|].
        assert (S : forall k r, ch sh k = Ok r -> 0 <= k -> ch (x :: sh) (k + 1) = Ok r).
        { intros k r. unfold ch. rewrite zlen_cons. destruct (Z.eqb_spec k (zlen sh)), (Z.eqb_spec (k + 1) (1 + zlen sh)); try lia; try tauto.
          intros Hk H0. rewrite aget_cons. replace (k + 1 =? 0) with false by lia. replace (k + 1 - 1) with k by lia. assumption. }
        split; [apply S; [assumption|lia]|]. split; [|split; [assumption|right; assumption]].
        intro Ht. replace (p + 1 + 2) with (p + 2 + 1) by lia. apply S; [auto|lia].
      * rewrite IH. reflexivity.
Qed.

(** The name of a long option. *)
Lemma split_eq_app w : w = fst (split_eq w) ++ match snd (split_eq w) with Some v => chEq :: v | None => [] end.
Proof.
  induction w as [|c w IH]; [reflexivity|]. cbn [split_eq]. destruct (Z.eqb_spec c chEq) as [->|n]; [reflexivity|].
  destruct (split_eq w) as [n' v]. cbn [fst snd] in *. cbn [app]. f_equal. exact IH.
Qed.
Lemma name_end_ok w : forall u k fuel, nz w -> k = zlen u -> (length w <= fuel)%nat -> name_end (u ++ w) k fuel = Ok (k + zlen (fst (split_eq w))).
Proof.
  induction w as [|c w IH]; intros u k fuel N Hk Hf.
  - cbn [split_eq fst]. rewrite zlen_nil, app_nil_r. destruct fuel; cbn [name_end]; rewrite ch_end by assumption; cbn [bind]; cbn; rewrite Z.add_0_r; reflexivity.
  - cbn [length] in Hf. destruct fuel as [|fuel]; [lia|]. cbn [name_end]. rewrite ch_at by assumption. cbn [bind]. inversion N; subst.
    destruct (Z.eqb_spec c 0); [contradiction|]. cbn [negb andb split_eq]. destruct (Z.eqb_spec c chEq); cbn [negb fst].
    + rewrite zlen_nil, Z.add_0_r. reflexivity.
    + replace (u ++ c :: w) with ((u ++ [c]) ++ w) by (rewrite <- app_assoc; reflexivity).
      rewrite IH; [|assumption|rewrite zlen_app, zlen_cons, zlen_nil; lia|lia]. destruct (split_eq w). cbn [fst]. rewrite zlen_cons. f_equal. lia.
Qed.
Lemma strncmp_ok n : forall w name, strncmp0 (n ++ w) name (length n) = prefix n name.
Proof. induction n as [|c n IH]; intros w name; [reflexivity|]. cbn. destruct name as [|d name]; [reflexivity|]. destruct (c =? d); cbn; auto. Qed.
Lemma prefix_app n s : prefix n s = true -> exists t, s = n ++ t.
Proof.
  revert s; induction n as [|c n IH]; intros s; cbn; [eauto|]. destruct s as [|d s]; [discriminate|]. rewrite andb_true_iff. intros [E H].
  apply Z.eqb_eq in E. subst. destruct (IH _ H) as (t & ->). exists t. reflexivity.
Qed.
Definition last_o (l : list lopt) (d : option lopt) : option lopt := fold_left (fun _ o => Some o) l d.
Lemma match_long_ok n w ls : forall ne np oe op, Forall (fun l => nz (lname l)) ls ->
  match_long (chDash :: chDash :: n ++ w) (2 + zlen n) ls ne np oe op =
  Ok (ne + zlen (filter (exact n) ls), np + zlen (filter (partial n) ls), last_o (filter (exact n) ls) oe, last_o (filter (partial n) ls) op).
Proof.
  induction ls as [|l ls IH]; intros ne np oe op F; cbn [match_long filter].
  - rewrite zlen_nil, !Z.add_0_r. reflexivity.
  - inversion F; subst. cbn [skipn]. replace (Z.to_nat (2 + zlen n - 2)) with (length n) by (unfold zlen; lia). rewrite strncmp_ok.
    replace (exact n l) with (prefix n (lname l) && (zlen n =? zlen (lname l))) by reflexivity.
    replace (partial n l) with (prefix n (lname l) && (zlen n <? zlen (lname l))) by reflexivity. destruct (prefix n (lname l)) eqn:E; cbn [andb]; [|apply IH; assumption].
    destruct (prefix_app _ _ E) as (t & Et). rewrite Et. rewrite ch_hd by lia. cbn [bind]. rewrite Et in H1. apply Forall_app in H1 as [_ Nt].
    rewrite hd_zero by exact Nt. rewrite zlen_app. destruct t as [|c t].
    + rewrite zlen_nil. replace (zlen n =? zlen n + 0) with true by lia. replace (zlen n <? zlen n + 0) with false by lia. rewrite IH by assumption.
      rewrite zlen_cons. rewrite Z.add_assoc. reflexivity.
    + rewrite zlen_cons. pose proof (zlen_nonneg t). replace (zlen n =? zlen n + (1 + zlen t)) with false by lia. replace (zlen n <? zlen n + (1 + zlen t)) with true by lia.
      rewrite IH by assumption. rewrite zlen_cons. rewrite Z.add_assoc. reflexivity.
Qed.
