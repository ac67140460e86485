(** The macros of utility.h on vec and deque. *)
From Verif Require Import Base Slots Vec_Model Vec_Spec Vec_Proofs Deque_Model Deque_Spec Deque_Proofs Util_Model Util_Proofs.

Section Ptrs.
Context {A : Type}.
Implicit Types (s : slots A) (l : list A).
Definition ptrs (g : Z -> Z) (n : nat) : list Z := map (fun k => g (Z.of_nat k)) (seq 0 n).
Lemma ptrs_from s (g : Z -> Z) : forall l k, (forall i x, aget l i = Ok x -> rd s (g (Z.of_nat k + i)) = Ok x) -> at_ptrs s (map (fun k => g (Z.of_nat k)) (seq k (length l))) l.
Proof.
  induction l as [|x l IH]; intros k H; cbn [length seq map]; constructor.
  - specialize (H 0 x eq_refl). now rewrite Z.add_0_r in H.
  - apply IH. intros i y Hy. pose proof (aget_ok_range _ _ _ Hy). replace (Z.of_nat (S k) + i) with (Z.of_nat k + (i + 1)) by lia. apply H. rewrite aget_cons. destruct (Z.eqb_spec (i + 1) 0); [lia|]. rewrite <- Hy. f_equal. lia.
Qed.
Lemma ptrs_to s (g : Z -> Z) : forall l k, at_ptrs s (map (fun k => g (Z.of_nat k)) (seq k (length l))) l -> forall i x, aget l i = Ok x -> rd s (g (Z.of_nat k + i)) = Ok x.
Proof.
  induction l as [|y l IH]; intros k H i x Hx; pose proof (aget_ok_range _ _ _ Hx) as R.
  - cbn in R. unfold zlen in R. cbn in R. lia.
  - inversion H; subst. rewrite aget_cons in Hx. destruct (Z.eqb_spec i 0) as [->|N].
    + injection Hx as ->. now rewrite Z.add_0_r.
    + replace (Z.of_nat k + i) with (Z.of_nat (S k) + (i - 1)) by lia. apply IH; assumption.
Qed.
Lemma ptrs_firstn g n k : (k <= n)%nat -> firstn k (ptrs g n) = ptrs g k.
Proof.
  intros H. unfold ptrs. rewrite firstn_map. f_equal. replace n with (k + (n - k))%nat by lia. rewrite seq_app. rewrite firstn_app, seq_length, Nat.sub_diag. cbn. rewrite app_nil_r. apply firstn_all2. rewrite seq_length. lia.
Qed.
Lemma ptrs_nodup g n : (forall i j, 0 <= i < Z.of_nat n -> 0 <= j < Z.of_nat n -> g i = g j -> i = j) -> NoDup (ptrs g n).
Proof.
  intros H. unfold ptrs. assert (HN : NoDup (seq 0 n)) by apply seq_NoDup. assert (HI : forall k, In k (seq 0 n) -> (k < n)%nat) by (intros k Hk; apply in_seq in Hk; lia).
  revert HN HI. generalize (seq 0 n) as t. induction t as [|a t IH]; intros HN HI; cbn; constructor; inversion HN; subst.
  - intros HX. apply in_map_iff in HX as (b & Eb & Hb). apply H in Eb; [|specialize (HI b ltac:(now right)); lia|specialize (HI a ltac:(now left)); lia]. apply Nat2Z.inj in Eb. now subst.
  - apply IH; auto. intros k Hk. apply HI. now right.
Qed.
Lemma filter_le {B} (p : B -> bool) (l : list B) : (length (filter p l) <= length l)%nat.
Proof. induction l; cbn; [lia|]. destruct (p a); cbn; lia. Qed.
Lemma filter_split {B} (p : B -> bool) (l : list B) : zlen (filter p l) + zlen (filter (fun x => negb (p x)) l) = zlen l.
Proof. unfold zlen. induction l as [|a l IH]; [reflexivity|]. cbn [filter]. destruct (p a); cbn [negb length]; lia. Qed.
End Ptrs.

Section Vec.
Context {A : Type}.
Implicit Types (v : vec A) (l : list A).
Lemma vec_walk_from n : forall m k it, (k + m = n)%nat -> Vec_Model.ref it = (if (m =? 0)%nat then None else Some (Z.of_nat k)) -> (m = 0%nat \/ Vec_Model.iend it = Some (Z.of_nat n)) ->
  walk Vec_Model.ref Vec_Model.next it (map (fun k => Z.of_nat k) (seq k m)).
Proof.
  induction m as [|m IH]; intros k it Hn HR HE; cbn [seq map walk]; [exact HR|]. cbn in HR. split; [exact HR|]. destruct HE as [|HE]; [discriminate|].
  unfold Vec_Model.next. rewrite HR, HE. cbn [Vec_Model.oeqb]. apply IH; [lia| |].
  - destruct (Z.eqb_spec (Z.of_nat k + 1) (Z.of_nat n)); destruct (Nat.eqb_spec m 0); cbn [Vec_Model.ref]; try reflexivity; try (exfalso; lia). f_equal. lia.
  - destruct (Z.eqb_spec (Z.of_nat k + 1) (Z.of_nat n)); [left; lia|]. right. reflexivity.
Qed.
Lemma vec_walk v l : stored v l -> (l <> [] \/ Vec_Model.capacity v = 0) -> walk Vec_Model.ref Vec_Model.next (Vec_Model.begin v) (ptrs (fun i => i) (length l)).
Proof.
  intros Hst Hor. pose proof (stored_cap _ _ Hst) as Hc. pose proof Hst as [Hs _]. unfold ptrs. apply vec_walk_from with (n := length l); auto; unfold Vec_Model.begin, Vec_Model.is_null.
  - destruct (Z.eqb_spec (Vec_Model.capacity v) 0), (Nat.eqb_spec (length l) 0) as [L|L]; cbn; auto.
    + unfold zlen in Hc. lia.
    + apply length_zero_iff_nil in L. destruct Hor; [congruence|lia].
  - destruct (Z.eqb_spec (Vec_Model.capacity v) 0); [left; unfold zlen in Hc; lia|right; cbn; now rewrite Hs].
Qed.
Lemma vec_ptrs v l : stored v l -> at_ptrs (Vec_Model.buf v) (ptrs (fun i => i) (length l)) l.
Proof.
  intros [Hs Hh]. unfold ptrs. apply (ptrs_from _ (fun i => i)). intros i x Hx. cbn. pose proof (aget_ok_range _ _ _ Hx). rewrite (holds_rd _ l); auto. lia.
Qed.
Lemma vec_fuel_ok v l : stored v l -> (length l < vec_fuel v)%nat.
Proof. intros H. apply stored_cap in H. unfold vec_fuel, zlen in *. lia. Qed.
Lemma vec_find_ok v l p : stored v l -> (l <> [] \/ Vec_Model.capacity v = 0) ->
  match vec_find_if v p with
  | Ok None => forallb (fun x => negb (p x)) l = true
  | Ok (Some it) => exists l1 x l2, l = l1 ++ x :: l2 /\ forallb (fun x => negb (p x)) l1 = true /\ p x = true /\ Vec_Model.ref it = Some (zlen l1)
  | Err _ => False
  end.
Proof.
  intros H1 H2. pose proof (find_if_ok _ _ p _ l _ _ _ (vec_walk v l H1 H2) (vec_ptrs v l H1) (vec_fuel_ok v l H1)) as H. unfold vec_find_if. destruct (find_if _ _ _ _ _ _) as [[it|]|]; auto.
  destruct H as (l1 & x & l2 & ps1 & q & ps2 & -> & Ha & Hb & Hc & Hd & He & _). exists l1, x, l2. repeat (split; [auto; fail|]). rewrite He. f_equal.
  assert (E : nth_error (ptrs (fun i => i) (length (l1 ++ x :: l2))) (length l1) = Some q) by (rewrite Hc, nth_error_app2 by lia; rewrite Hd, Nat.sub_diag; reflexivity).
  unfold ptrs in E. erewrite map_nth_error in E; [injection E as <-; unfold zlen; reflexivity|]. rewrite nth_error_nth' with (d := 0%nat) by (rewrite seq_length, app_length; cbn; lia). rewrite seq_nth by (rewrite app_length; cbn; lia). reflexivity.
Qed.
Lemma vec_eraseremove_ok v l p : stored v l -> (l <> [] \/ Vec_Model.capacity v = 0) ->
  exists v', vec_eraseremove_if v p = Ok (v', filter p l) /\ stored v' (filter (fun x => negb (p x)) l) /\ Vec_Model.capacity v' = Vec_Model.capacity v.
Proof.
  intros H1 H2. assert (HN : NoDup (ptrs (fun i => i) (length l))) by (apply ptrs_nodup; auto).
  destruct (eraseremove_ok _ _ p l _ _ _ _ (vec_walk v l H1 H2) HN (vec_ptrs v l H1) (vec_fuel_ok v l H1)) as (s' & E & L & HK). unfold vec_eraseremove_if. rewrite E. cbn [bind]. eexists. split; [reflexivity|].
  rewrite ptrs_firstn in HK by apply filter_le. unfold ptrs in HK. pose proof (ptrs_to _ (fun i => i) _ 0%nat HK) as HT. cbn in HT. pose proof (filter_split p l) as HF. pose proof H1 as [Hs _]. pose proof (stored_cap _ _ H1) as HC.
  split; [|exact L]. apply stored_holds. split; [cbn; lia|]. cbn. apply holds_of.
  - unfold Vec_Model.capacity in HC. pose proof (zlen_nonneg (filter p l)). lia.
  - intros i x Hx. apply HT in Hx. unfold rd in Hx. destruct (aget s' i) as [[y|]|]; cbn in Hx; congruence.
Qed.
Lemma vec_append_ok {O} (push : O -> A -> res O) (R : O -> list A -> Prop) v l p o m :
  (forall o m x, R o m -> exists o', push o x = Ok o' /\ R o' (m ++ [x])) -> stored v l -> (l <> [] \/ Vec_Model.capacity v = 0) -> R o m ->
  exists o', vec_append_if push v p o = Ok o' /\ R o' (m ++ filter p l).
Proof. intros HP H1 H2 HR. exact (append_if_ok _ _ push p _ R HP l _ _ _ _ _ (vec_walk v l H1 H2) (vec_ptrs v l H1) (vec_fuel_ok v l H1) HR). Qed.
Lemma vec_push_out_ok o m (x : A) : stored o m -> exists o', vec_push_out o x = Ok o' /\ stored o' (m ++ [x]).
Proof. intros H. destruct (Vec_Proofs.push_spec o m x H) as (o' & E & H'). exists o'. unfold vec_push_out. rewrite E. auto. Qed.
Lemma vec_reverse_ok v l : stored v l -> exists v', vec_reverse v = Ok v' /\ stored v' (rev l).
Proof.
  intros H. unfold vec_reverse. rewrite (proj1 H). apply (reverse_ok _ _ (@stored A)); auto.
  - intros c m i [Hs Hh] Hi. unfold Vec_Model.at_. rewrite Hs. destruct (Z.leb_spec 0 i), (Z.ltb_spec i (zlen m)); try lia. cbn [andb]. apply holds_rd; auto; lia.
  - intros c m i x m' [Hs Hh] Hm. unfold vec_put_at. pose proof Hm as Hm'. apply aset_inv in Hm' as [Hi _]. rewrite Hs. destruct (Z.leb_spec 0 i), (Z.ltb_spec i (zlen m)); try lia. cbn [andb].
    destruct (holds_wr _ _ _ _ _ Hh Hm) as (s' & E & H' & _). rewrite E. cbn [bind]. eexists. split; [reflexivity|]. split; [cbn; apply aset_zlen in Hm; lia|exact H'].
Qed.
End Vec.

Section Deque.
Context {A : Type}.
Implicit Types (d : deque A) (l : list A).
Definition dpos d (i : Z) : Z := nrm (cap d) (start d + i).
Lemma deque_walk_from d l : rg d l -> forall m k it, (k + m = length l)%nat -> Deque_Model.ref it = (if (m =? 0)%nat then None else Some (dpos d (Z.of_nat k))) -> (m = 0%nat \/ Deque_Model.pos it = dpos d (Z.of_nat k)) ->
  walk Deque_Model.ref (Deque_Model.next d) it (map (fun k => dpos d (Z.of_nat k)) (seq k m)).
Proof.
  intros HR. induction m as [|m IH]; intros k it Hn Hr HP; cbn [seq map walk]; [exact Hr|]. cbn in Hr. split; [exact Hr|]. destruct HP as [|HP]; [discriminate|].
  assert (Hit : it = mkit (Some (dpos d (Z.of_nat k))) (dpos d (Z.of_nat k))) by (destruct it; cbn in *; subst; reflexivity). rewrite Hit. unfold dpos. rewrite (next_spec d l) by (auto; unfold zlen; lia).
  apply IH; [lia| |].
  - cbn [Deque_Model.ref]. destruct (Z.eqb_spec (Z.of_nat k + 1) (zlen l)); destruct (Nat.eqb_spec m 0); try reflexivity; try (exfalso; unfold zlen in *; lia). unfold dpos. do 3 f_equal. lia.
  - right. cbn. unfold dpos. do 2 f_equal. lia.
Qed.
Lemma deque_walk d l : rg d l -> walk Deque_Model.ref (Deque_Model.next d) (Deque_Model.begin d) (ptrs (dpos d) (length l)).
Proof.
  intros HR. unfold ptrs. destruct l as [|x0 l0] eqn:El.
  - cbn. unfold Deque_Model.begin. rewrite (rg_is_empty d [] HR). reflexivity.
  - rewrite <- El in *. assert (Hne : l <> []) by (rewrite El; discriminate). apply (deque_walk_from d l HR); [lia| |]; rewrite (begin_spec d l HR Hne); cbn.
    + rewrite El. reflexivity.
    + right. reflexivity.
Qed.
Lemma deque_ptrs d l : rg d l -> at_ptrs (cbuf d) (ptrs (dpos d) (length l)) l.
Proof. intros HR. unfold ptrs. apply ptrs_from. intros i x Hx. cbn. eapply rg_rd; eauto. Qed.
Lemma deque_fuel_ok d l : rg d l -> (length l < deque_fuel d)%nat.
Proof. intros (_ & H & _). unfold deque_fuel, cap, zlen in *. lia. Qed.
Lemma deque_find_ok d l p : rg d l ->
  match deque_find_if d p with
  | Ok None => forallb (fun x => negb (p x)) l = true
  | Ok (Some it) => exists l1 x l2, l = l1 ++ x :: l2 /\ forallb (fun x => negb (p x)) l1 = true /\ p x = true /\ Deque_Model.ref it = Some (dpos d (zlen l1))
  | Err _ => False
  end.
Proof.
  intros H1. pose proof (find_if_ok _ _ p _ l _ _ _ (deque_walk d l H1) (deque_ptrs d l H1) (deque_fuel_ok d l H1)) as H. unfold deque_find_if. destruct (find_if _ _ _ _ _ _) as [[it|]|]; auto.
  destruct H as (l1 & x & l2 & ps1 & q & ps2 & -> & Ha & Hb & Hc & Hd & He & _). exists l1, x, l2. repeat (split; [auto; fail|]). rewrite He. f_equal.
  assert (E : nth_error (ptrs (dpos d) (length (l1 ++ x :: l2))) (length l1) = Some q) by (rewrite Hc, nth_error_app2 by lia; rewrite Hd, Nat.sub_diag; reflexivity).
  unfold ptrs in E. erewrite map_nth_error in E; [injection E as <-; unfold zlen; reflexivity|]. rewrite nth_error_nth' with (d := 0%nat) by (rewrite seq_length, app_length; cbn; lia). rewrite seq_nth by (rewrite app_length; cbn; lia). reflexivity.
Qed.
Lemma deque_eraseremove_ok d l p : rg d l ->
  exists d', deque_eraseremove_if d p = Ok (d', filter p l) /\ rg d' (filter (fun x => negb (p x)) l) /\ capmask d' = capmask d.
Proof.
  intros H1. pose proof H1 as (Hw & Hz & He & Hv). pose proof (wf_start d Hw) as Hsr. pose proof (wf_end d Hw). assert (HN : NoDup (ptrs (dpos d) (length l))).
  { apply ptrs_nodup. intros i j Hi Hj. unfold dpos. fold (zlen l) in Hi, Hj. nrm_tac. }
  destruct (eraseremove_ok _ _ p l _ _ _ _ (deque_walk d l H1) HN (deque_ptrs d l H1) (deque_fuel_ok d l H1)) as (s' & E & L & HK). unfold deque_eraseremove_if. rewrite E. cbn [bind]. eexists. split; [reflexivity|].
  rewrite ptrs_firstn in HK by apply filter_le. unfold ptrs in HK. pose proof (ptrs_to _ (dpos d) _ 0%nat HK) as HT. cbn in HT. pose proof (filter_split p l) as HF. pose proof (zlen_nonneg (filter p l)) as HP. pose proof (zlen_nonneg (filter (fun x => negb (p x)) l)) as HQ.
  split; [|reflexivity]. unfold deque_adjust_end. cbn [cbuf start dend capmask].
  assert (EE : Z.land (dend d + - zlen (filter p l)) (capmask d) = nrm (cap d) (start d + zlen (filter (fun x => negb (p x)) l))) by (rewrite land_cap by (auto; lia); rewrite He; nrm_tac).
  rewrite EE. split; [|split; [unfold cap in *; cbn; lia|split; [reflexivity|]]].
  - constructor; unfold cap in *; cbn; [apply Hw|exact Hsr|nrm_tac|]. destruct (wf_buf d Hw) as [X|[X Y]]; [left; unfold cap in *; lia|right; split; [exact X|]]. rewrite Y in L. destruct s'; [reflexivity|rewrite zlen_cons in L; pose proof (zlen_nonneg s'); change (zlen (@nil (option A))) with 0 in L; lia].
  - intros i x Hx. apply HT in Hx. unfold vw, cap. cbn [cbuf start capmask]. change (rd s' (nrm (capmask d + 1) (start d + i)) = Ok x) in Hx. unfold rd in Hx. destruct (aget s' _) as [[y|]|]; cbn in Hx; congruence.
Qed.
Lemma deque_append_ok {O} (push : O -> A -> res O) (R : O -> list A -> Prop) d l p o m :
  (forall o m x, R o m -> exists o', push o x = Ok o' /\ R o' (m ++ [x])) -> rg d l -> R o m ->
  exists o', deque_append_if push d p o = Ok o' /\ R o' (m ++ filter p l).
Proof. intros HP H1 HR. exact (append_if_ok _ _ push p _ R HP l _ _ _ _ _ (deque_walk d l H1) (deque_ptrs d l H1) (deque_fuel_ok d l H1) HR). Qed.
Lemma deque_reverse_ok d l : rg d l -> exists d', deque_reverse d = Ok d' /\ rg d' (rev l).
Proof.
  intros H. unfold deque_reverse. rewrite (rg_size d l H). apply (reverse_ok _ _ (@rg A)); auto.
  - intros c m i HR Hi. apply rg_at; auto.
  - intros c m i x m' HR Hm. pose proof Hm as Hm'. apply aset_inv in Hm' as [Hi _]. assert (Hne : m <> []) by (intros ->; unfold zlen in Hi; cbn in Hi; lia). pose proof (rg_buf c m HR Hne) as HB. pose proof (rg_size c m HR) as HS. pose proof HR as (Hw & Hz & He & Hv).
    destruct (put_at_spec c (zlen m) i x Hw HB HS Hi Hz) as (c' & E & W' & C' & B' & S' & D' & _ & M' & V'). exists c'. split; [exact E|]. pose proof (aset_zlen _ _ _ _ Hm) as LZ.
    split; [exact W'|]. split; [lia|]. split; [rewrite D', C', S', LZ; exact He|]. intros j y Hy. pose proof (aget_ok_range _ _ _ Hy). rewrite V' by lia. rewrite (aget_aset _ _ _ _ j Hm) in Hy. destruct (Z.eqb_spec j i); [injection Hy as ->; reflexivity|]. now apply Hv.
Qed.
End Deque.
