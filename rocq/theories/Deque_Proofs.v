(** Proofs about the deque model. *)
From Verif Require Import Base Slots Pow2 Deque_Model Deque_Spec.

(** Reduction of x in [-c, 2c) modulo c. *)
Definition nrm (c x : Z) : Z := if x <? 0 then x + c else if x <? c then x else x - c.

Lemma nrm_mod c x : 0 < c -> - c <= x < 2 * c -> x mod c = nrm c x.
Proof.
  intros Hc Hx. unfold nrm. destruct (Z.ltb_spec x 0).
  - symmetry. apply (Z.mod_unique_pos x c (-1)); lia.
  - destruct (Z.ltb_spec x c); [apply Z.mod_small; lia|]. symmetry. apply (Z.mod_unique_pos x c 1); lia.
Qed.

Lemma land_nrm c x : is_pow2 c -> - c <= x < 2 * c -> Z.land x (c - 1) = nrm c x.
Proof. intros Hc Hx. rewrite land_mask by exact Hc. apply nrm_mod; [now apply is_pow2_pos|exact Hx]. Qed.

Ltac nrm_tac :=
  unfold nrm in *;
  repeat match goal with
  | |- context [?a <? ?b] => destruct (Z.ltb_spec a b)
  | H : context [?a <? ?b] |- _ => destruct (Z.ltb_spec a b)
  end; try lia.

Section P.
Context {A : Type}.
Implicit Types (d : deque A) (l : list A).

Definition cap d : Z := capmask d + 1.
(** the slot holding index i *)
Definition vw d (i : Z) : res (option A) := aget (cbuf d) (nrm (cap d) (start d + i)).

Record wf d : Prop := {
  wf_pow : is_pow2 (cap d);
  wf_start : 0 <= start d < cap d;
  wf_end : 0 <= dend d < cap d;
  wf_buf : zlen (cbuf d) = cap d \/ (cap d = 1 /\ cbuf d = []) }.

Definition rg d l : Prop :=
  wf d /\ zlen l < cap d /\ dend d = nrm (cap d) (start d + zlen l) /\
  forall i x, aget l i = Ok x -> vw d i = Ok (Some x).

Lemma cap_pos d : wf d -> 0 < cap d.
Proof. intros H. apply is_pow2_pos. apply wf_pow; auto. Qed.

Lemma rg_ring d l : rg d l <-> ring d l.
Proof.
  pose proof (zlen_nonneg l) as Hl. unfold rg, ring. fold (cap d). split.
  - intros (Hw & Hz & He & Hv). destruct Hw as [W1 W2 W3 W4]. pose proof (is_pow2_pos _ W1).
    split; [exact W1|]. split; [exact W4|]. split; [exact W2|]. split; [exact Hz|].
    split; [rewrite nrm_mod by lia; exact He|].
    intros i x Hx. pose proof (aget_ok_range _ _ _ Hx). rewrite nrm_mod by lia. now apply Hv.
  - intros (W1 & W4 & W2 & Hz & He & Hv). pose proof (is_pow2_pos _ W1).
    rewrite nrm_mod in He by lia.
    split; [constructor; auto; rewrite He; nrm_tac|]. split; [exact Hz|]. split; [exact He|].
    intros i x Hx. pose proof (aget_ok_range _ _ _ Hx). unfold vw. rewrite <- nrm_mod by lia. now apply Hv.
Qed.

Lemma land_cap d x : wf d -> - cap d <= x < 2 * cap d -> Z.land x (capmask d) = nrm (cap d) x.
Proof.
  intros Hw Hx. replace (capmask d) with (cap d - 1) by (unfold cap; lia). apply land_nrm; [apply wf_pow; auto|exact Hx].
Qed.

Lemma rg_init : rg init [].
Proof.
  split; [constructor; cbn; try lia; [exists 0; split; [lia|reflexivity]|right; auto]|].
  split; [cbn; lia|]. split; [reflexivity|]. intros i x Hx. pose proof (aget_ok_range _ _ _ Hx). cbn in H. lia.
Qed.

Lemma rg_size d l : rg d l -> size d = zlen l.
Proof.
  intros (Hw & Hz & He & _). pose proof (wf_start d Hw). pose proof (zlen_nonneg l).
  unfold size, toidx. rewrite land_cap by (auto; nrm_tac). rewrite He. nrm_tac.
Qed.

Lemma rg_buf d l : rg d l -> l <> [] -> zlen (cbuf d) = cap d.
Proof.
  intros (Hw & Hz & _) Hne. destruct (wf_buf d Hw) as [E|[E _]]; [exact E|].
  destruct l; [congruence|]. rewrite zlen_cons in Hz. pose proof (zlen_nonneg l). lia.
Qed.

Lemma rg_is_empty d l : rg d l -> is_empty d = (zlen l =? 0).
Proof.
  intros (Hw & Hz & He & _). pose proof (wf_start d Hw). pose proof (zlen_nonneg l). unfold is_empty. rewrite He.
  nrm_tac; destruct (Z.eqb_spec (zlen l) 0); try (apply Z.eqb_neq; lia); try (apply Z.eqb_eq; lia).
Qed.

Lemma topos_nrm d i : wf d -> 0 <= i <= cap d -> topos d i = nrm (cap d) (start d + i).
Proof. intros Hw Hi. pose proof (wf_start d Hw). unfold topos. rewrite land_cap by (auto; lia). reflexivity. Qed.

Lemma rg_at d l i : rg d l -> 0 <= i < zlen l -> at_ d i = aget l i.
Proof.
  intros Hr Hi. pose proof (rg_size d l Hr) as Hsz. pose proof Hr as (Hw & Hz & He & Hv).
  unfold at_. rewrite Hsz. destruct (Z.leb_spec 0 i); [|lia]. destruct (Z.ltb_spec i (zlen l)); [|lia]. cbn [andb].
  rewrite topos_nrm by (auto; lia). destruct (aget_some l i Hi) as [x Hx]. rewrite Hx.
  specialize (Hv i x Hx). unfold vw in Hv. unfold rd. rewrite Hv. reflexivity.
Qed.

Lemma rg_stores d l : rg d l -> stores d l.
Proof. intros Hr. split; [now apply rg_size|]. intros i Hi. now apply rg_at. Qed.

Lemma rg_inj d l1 l2 : rg d l1 -> rg d l2 -> l1 = l2.
Proof.
  intros H1 H2. pose proof (rg_size _ _ H1) as Z1. pose proof (rg_size _ _ H2) as Z2.
  apply aget_ext; [congruence|]. intros i Hi. rewrite <- (rg_at d l1), <- (rg_at d l2); auto; lia.
Qed.

(** writing index i of the ring *)
Lemma wr_vw d i x : wf d -> 0 <= i < cap d -> zlen (cbuf d) = cap d ->
  exists b, wr (cbuf d) (nrm (cap d) (start d + i)) x = Ok b /\ zlen b = cap d /\
    forall j, 0 <= j < cap d -> aget b (nrm (cap d) (start d + j)) = if j =? i then Ok (Some x) else vw d j.
Proof.
  intros Hw Hi Hb. pose proof (wf_start d Hw).
  destruct (aset_some (cbuf d) (nrm (cap d) (start d + i)) (Some x)) as [b Eb]; [rewrite Hb; nrm_tac|].
  exists b. split; [exact Eb|]. split; [rewrite (aset_zlen _ _ _ _ Eb); exact Hb|].
  intros j Hj. rewrite (aget_aset _ _ _ _ _ Eb). unfold vw.
  destruct (Z.eqb_spec j i) as [->|Hne]; [now rewrite Z.eqb_refl|].
  destruct (Z.eqb_spec (nrm (cap d) (start d + j)) (nrm (cap d) (start d + i))) as [E|E]; [|reflexivity].
  exfalso. revert E. nrm_tac.
Qed.

Lemma wf_upd d b : wf d -> zlen b = cap d -> wf (mkdq b (start d) (dend d) (capmask d)).
Proof. intros [W1 W2 W3 W4] Hb. constructor; unfold cap in *; cbn [cbuf start dend capmask] in *; auto. Qed.

(** ** reserve *)
Lemma reserve_spec d l c : rg d l -> 0 <= c ->
  exists d' ok, reserve d c = Ok (d', ok) /\ rg d' l /\ c < cap d' /\ cap d <= cap d' /\
    ok = negb (is_null d') /\ (cap d < c + 1 -> zlen (cbuf d') = cap d').
Proof.
  intros Hr Hc. pose proof Hr as (Hw & Hz & He & Hv). pose proof (cap_pos d Hw). pose proof (zlen_nonneg l).
  destruct (pow2_ceil_pow2 (c + 1)) as [Hp Hpc]; [lia|].
  unfold reserve. fold (cap d). set (np := pow2_ceil (c + 1)) in *.
  destruct (Z.leb_spec np (cap d)) as [Hle|Hgt].
  { exists d, (negb (is_null d)). split; [reflexivity|]. split; [exact Hr|]. repeat split; auto; try lia. }
  pose proof (is_pow2_double (cap d) np (wf_pow d Hw) Hp Hgt) as Hdbl.
  pose proof (wf_start d Hw) as Hst. pose proof (wf_end d Hw) as Hen.
  assert (Hb : zlen (realloc (cbuf d) np) = np) by (apply zlen_realloc; lia).
  assert (Hg : forall i x, aget (cbuf d) i = Ok x -> aget (realloc (cbuf d) np) i = Ok x).
  { intros i x Hx. pose proof (aget_ok_range _ _ _ Hx) as Ri.
    assert (zlen (cbuf d) <= np) by (destruct (wf_buf d Hw) as [E|[E ->]]; cbn in *; lia).
    unfold realloc. rewrite firstn_all2 by (unfold zlen in *; lia). rewrite aget_app1 by lia. exact Hx. }
  assert (Hnn : forall (b : slots A) s e, zlen b = np -> negb (is_null (mkdq b s e (np - 1))) = true).
  { intros b s e Eb. unfold is_null. cbn [cbuf]. rewrite Eb. destruct (Z.eqb_spec np 0); [lia|reflexivity]. }
  destruct (Z.leb_spec (start d) (dend d)) as [Hse|Hse].
  - do 2 eexists. split; [reflexivity|].
    assert (Hcap : cap (mkdq (realloc (cbuf d) np) (start d) (dend d) (np - 1)) = np) by (unfold cap; cbn; lia).
    split; [|rewrite Hcap; split; [lia|]; split; [lia|]; split; [now rewrite Hnn|]; intros; exact Hb].
    split; [constructor; rewrite Hcap; cbn [cbuf start dend]; auto; lia|].
    rewrite Hcap. cbn [start dend]. split; [lia|]. split; [revert He; nrm_tac|].
    intros i x Hx. unfold vw. rewrite Hcap. cbn [cbuf start].
    pose proof (aget_ok_range _ _ _ Hx). specialize (Hv i x Hx). unfold vw in Hv.
    replace (nrm np (start d + i)) with (nrm (cap d) (start d + i)) by (revert He; nrm_tac). auto.
  - assert (Hbz : zlen (cbuf d) = cap d).
    { destruct (wf_buf d Hw) as [E|[E ->]]; auto. lia. }
    destruct (Z.ltb_spec (cap d - start d) (dend d)) as [Hhd|Hhd].
    + set (h := cap d - start d) in *.
      destruct (amove_some (realloc (cbuf d) np) (start d) (np - h) h) as [b Eb]; try (unfold h in *; lia).
      rewrite Eb. cbn [bind]. apply amove_inv in Eb as (_ & _ & _ & _ & _ & Zb & G).
      do 2 eexists. split; [reflexivity|].
      assert (Hcap : cap (mkdq b (np - h) (dend d) (np - 1)) = np) by (unfold cap; cbn; lia).
      split; [|rewrite Hcap; split; [lia|]; split; [lia|]; split; [rewrite Hnn; [reflexivity|lia]|]; intros; cbn [cbuf]; lia].
      split; [constructor; rewrite Hcap; cbn [cbuf start dend]; auto; unfold h in *; lia|].
      rewrite Hcap. cbn [start dend]. split; [lia|]. split; [revert He; unfold h in *; nrm_tac|].
      intros i x Hx. unfold vw. rewrite Hcap. cbn [cbuf start].
      pose proof (aget_ok_range _ _ _ Hx). specialize (Hv i x Hx). unfold vw in Hv. apply Hg in Hv.
      rewrite G. destruct (Z.ltb_spec i h).
      * replace (nrm np (np - h + i)) with (np - h + i) by (unfold h in *; nrm_tac).
        destruct (Z.leb_spec (np - h) (np - h + i)), (Z.ltb_spec (np - h + i) (np - h + h)); try lia. cbn [andb].
        rewrite <- Hv. f_equal. unfold h in *. nrm_tac.
      * replace (nrm np (np - h + i)) with (i - h) by (unfold h in *; nrm_tac).
        destruct (Z.leb_spec (np - h) (i - h)); [unfold h in *; lia|]. cbn [andb].
        rewrite <- Hv. f_equal. unfold h in *. nrm_tac.
    + destruct (amove_some (realloc (cbuf d) np) 0 (cap d) (dend d)) as [b Eb]; try lia.
      rewrite Eb. cbn [bind]. apply amove_inv in Eb as (_ & _ & _ & _ & _ & Zb & G).
      do 2 eexists. split; [reflexivity|].
      assert (Hcap : cap (mkdq b (start d) (dend d + cap d) (np - 1)) = np) by (unfold cap; cbn; lia).
      split; [|rewrite Hcap; split; [lia|]; split; [lia|]; split; [rewrite Hnn; [reflexivity|lia]|]; intros; cbn [cbuf]; lia].
      split; [constructor; rewrite Hcap; cbn [cbuf start dend]; auto; lia|].
      rewrite Hcap. cbn [start dend]. split; [lia|]. split; [revert He; nrm_tac|].
      intros i x Hx. unfold vw. rewrite Hcap. cbn [cbuf start].
      pose proof (aget_ok_range _ _ _ Hx). specialize (Hv i x Hx). unfold vw in Hv. apply Hg in Hv.
      rewrite G. destruct (Z.ltb_spec (start d + i) (cap d)).
      * replace (nrm np (start d + i)) with (start d + i) by nrm_tac.
        destruct (Z.leb_spec (cap d) (start d + i)); [lia|]. cbn [andb].
        rewrite <- Hv. f_equal. nrm_tac.
      * replace (nrm np (start d + i)) with (start d + i) by nrm_tac.
        destruct (Z.leb_spec (cap d) (start d + i)); [|lia].
        destruct (Z.ltb_spec (start d + i) (cap d + dend d)).
        -- cbn [andb]. rewrite <- Hv. f_equal. nrm_tac.
        -- exfalso. revert He. nrm_tac.
Qed.

Lemma rg_write_end d l x e : rg d l -> zlen l + 1 < cap d -> zlen (cbuf d) = cap d ->
  e = nrm (cap d) (dend d + 1) ->
  exists b, wr (cbuf d) (dend d) x = Ok b /\ rg (mkdq b (start d) e (capmask d)) (l ++ [x]).
Proof.
  intros (Hw & Hz & He & Hv) Hroom Hb ->. pose proof (wf_start d Hw). pose proof (wf_end d Hw). pose proof (zlen_nonneg l).
  destruct (wr_vw d (zlen l) x Hw) as (b & Eb & Zb & G); [lia|exact Hb|]. rewrite <- He in Eb.
  exists b. split; [exact Eb|].
  assert (Hl : zlen (l ++ [x]) = zlen l + 1) by (rewrite zlen_app; reflexivity).
  split; [destruct Hw; constructor; unfold cap in *; cbn [cbuf start dend capmask] in *; auto; nrm_tac|].
  unfold cap in *. cbn [cbuf start dend capmask]. rewrite Hl. split; [lia|]. split; [revert He; nrm_tac|].
  intros i y Hy. unfold vw, cap. cbn [cbuf start dend capmask]. pose proof (aget_ok_range _ _ _ Hy) as Ri.
  rewrite G by lia. rewrite aget_app in Hy by lia. destruct (Z.ltb_spec i (zlen l)).
  - destruct (Z.eqb_spec i (zlen l)); [lia|]. now apply Hv.
  - replace (i - zlen l) with 0 in Hy by lia. cbn in Hy. injection Hy as <-.
    destruct (Z.eqb_spec i (zlen l)); [reflexivity|lia].
Qed.

Lemma push_back_spec d l x : rg d l -> exists d', push_back d x = Ok d' /\ rg d' (l ++ [x]).
Proof.
  intros Hr. pose proof Hr as (Hw & Hz & He & Hv). pose proof (wf_start d Hw). pose proof (wf_end d Hw). pose proof (zlen_nonneg l).
  unfold push_back. rewrite land_cap by (auto; lia).
  destruct (Z.eqb_spec (nrm (cap d) (dend d + 1)) (start d)) as [E|E].
  - destruct (reserve_spec d l (capmask d + 3) Hr) as (d1 & ok & E1 & Hr1 & Hc1 & Hc2 & _ & Hb1); [unfold cap in *; lia|].
    rewrite E1. cbn [bind fst snd]. pose proof Hr1 as (Hw1 & _). pose proof (wf_end d1 Hw1).
    rewrite land_cap by (auto; lia).
    destruct (rg_write_end d1 l x (nrm (cap d1) (dend d1 + 1)) Hr1) as (b & Eb & Hr2); auto; try (unfold cap in *; lia).
    rewrite Eb. cbn [bind]. eauto.
  - cbn [bind fst snd].
    assert (zlen l + 1 < cap d) by (revert E He; nrm_tac).
    destruct (rg_write_end d l x (nrm (cap d) (dend d + 1)) Hr) as (b & Eb & Hr2); auto.
    { destruct (wf_buf d Hw) as [?|[? _]]; [assumption|]. lia. }
    rewrite Eb. cbn [bind]. eauto.
Qed.

Lemma rg_write_front d l x s : rg d l -> zlen l + 1 < cap d -> zlen (cbuf d) = cap d ->
  s = nrm (cap d) (start d - 1) ->
  exists b, wr (cbuf d) s x = Ok b /\ rg (mkdq b s (dend d) (capmask d)) (x :: l).
Proof.
  intros (Hw & Hz & He & Hv) Hroom Hb Hs. pose proof (wf_start d Hw). pose proof (wf_end d Hw). pose proof (zlen_nonneg l).
  destruct (aset_some (cbuf d) s (Some x)) as [b Eb]; [rewrite Hb, Hs; nrm_tac|].
  exists b. split; [exact Eb|].
  assert (Hl : zlen (x :: l) = zlen l + 1) by (rewrite zlen_cons; lia).
  split; [destruct Hw as [W1 W2 W3 W4]; constructor; unfold cap in *; cbn [cbuf start dend capmask] in *; auto;
          [revert Hs; nrm_tac|left; rewrite (aset_zlen _ _ _ _ Eb); exact Hb]|].
  unfold cap in *. cbn [cbuf start dend capmask]. rewrite Hl. split; [lia|]. split; [revert He Hs; nrm_tac|].
  intros i y Hy. unfold vw, cap. cbn [cbuf start dend capmask]. pose proof (aget_ok_range _ _ _ Hy) as Ri.
  rewrite (aget_aset _ _ _ _ _ Eb). rewrite aget_cons in Hy. destruct (Z.eqb_spec i 0) as [->|].
  - injection Hy as <-. destruct (Z.eqb_spec (nrm (capmask d + 1) (s + 0)) s) as [E|E]; [reflexivity|].
    exfalso. revert E Hs. nrm_tac.
  - destruct (Z.eqb_spec (nrm (capmask d + 1) (s + i)) s) as [E|E].
    + exfalso. revert E Hs. nrm_tac.
    + specialize (Hv (i - 1) y Hy). unfold vw, cap in Hv. rewrite <- Hv. f_equal. revert Hs. nrm_tac.
Qed.

Lemma push_front_spec d l x : rg d l -> exists d', push_front d x = Ok d' /\ rg d' (x :: l).
Proof.
  intros Hr. pose proof Hr as (Hw & Hz & He & Hv). pose proof (wf_start d Hw). pose proof (wf_end d Hw). pose proof (zlen_nonneg l).
  unfold push_front. rewrite land_cap by (auto; lia).
  destruct (Z.eqb_spec (nrm (cap d) (start d - 1)) (dend d)) as [E|E].
  - destruct (reserve_spec d l (capmask d + 3) Hr) as (d1 & ok & E1 & Hr1 & Hc1 & Hc2 & _ & Hb1); [unfold cap in *; lia|].
    rewrite E1. cbn [bind fst snd]. pose proof Hr1 as (Hw1 & _). pose proof (wf_start d1 Hw1).
    rewrite land_cap by (auto; lia).
    destruct (rg_write_front d1 l x (nrm (cap d1) (start d1 - 1)) Hr1) as (b & Eb & Hr2); auto; try (unfold cap in *; lia).
    rewrite Eb. cbn [bind]. eauto.
  - cbn [bind fst snd].
    assert (zlen l + 1 < cap d) by (revert E He; nrm_tac).
    destruct (rg_write_front d l x (nrm (cap d) (start d - 1)) Hr) as (b & Eb & Hr2); auto.
    { destruct (wf_buf d Hw) as [?|[? _]]; [assumption|]. lia. }
    rewrite Eb. cbn [bind]. eauto.
Qed.

Lemma rd_vw d i x : vw d i = Ok (Some x) -> rd (cbuf d) (nrm (cap d) (start d + i)) = Ok x.
Proof. unfold vw, rd. intros ->. reflexivity. Qed.

Lemma pop_front_spec d x l : rg d (x :: l) -> exists d', pop_front d = Ok (d', x) /\ rg d' l /\ front d = Ok x.
Proof.
  intros Hr. pose proof Hr as (Hw & Hz & He & Hv). pose proof (wf_start d Hw). pose proof (zlen_nonneg l).
  rewrite zlen_cons in *.
  assert (Hx : rd (cbuf d) (start d) = Ok x).
  { replace (start d) with (nrm (cap d) (start d + 0)) by nrm_tac. apply rd_vw. apply Hv. reflexivity. }
  unfold pop_front, front. rewrite (rg_is_empty d _ Hr), zlen_cons. destruct (Z.eqb_spec (1 + zlen l) 0); [lia|].
  rewrite Hx. cbn [bind]. rewrite land_cap by (auto; lia). eexists. split; [reflexivity|]. split; [|reflexivity].
  split; [destruct Hw; constructor; unfold cap in *; cbn [cbuf start dend capmask] in *; auto; nrm_tac|].
  unfold cap in *. cbn [cbuf start dend capmask]. split; [lia|]. split; [revert He; nrm_tac|].
  intros i y Hy. pose proof (aget_ok_range _ _ _ Hy).
  assert (Hy1 : aget (x :: l) (i + 1) = Ok y).
  { rewrite aget_cons. destruct (Z.eqb_spec (i + 1) 0); [lia|]. now replace (i + 1 - 1) with i by lia. }
  specialize (Hv _ _ Hy1). unfold vw, cap in *. cbn [cbuf start capmask] in *. rewrite <- Hv. f_equal. nrm_tac.
Qed.

Lemma pop_back_spec d x l : rg d (l ++ [x]) -> exists d', pop_back d = Ok (d', x) /\ rg d' l /\ back d = Ok x.
Proof.
  intros Hr. pose proof Hr as (Hw & Hz & He & Hv). pose proof (wf_start d Hw). pose proof (wf_end d Hw). pose proof (zlen_nonneg l).
  assert (Hl : zlen (l ++ [x]) = zlen l + 1) by (rewrite zlen_app; reflexivity). rewrite Hl in *.
  unfold pop_back, back. rewrite (rg_is_empty d _ Hr), Hl. destruct (Z.eqb_spec (zlen l + 1) 0); [lia|].
  rewrite land_cap by (auto; lia).
  assert (Hpos : nrm (cap d) (dend d - 1) = nrm (cap d) (start d + zlen l)) by (revert He; nrm_tac).
  rewrite Hpos. rewrite (rd_vw d (zlen l) x).
  2:{ apply Hv. rewrite aget_app2 by lia. rewrite Z.sub_diag. reflexivity. }
  cbn [bind]. eexists. split; [reflexivity|]. split; [|reflexivity].
  split; [destruct Hw; constructor; unfold cap in *; cbn [cbuf start dend capmask] in *; auto; nrm_tac|].
  unfold cap in *. cbn [cbuf start dend capmask]. split; [lia|]. split; [reflexivity|].
  intros i y Hy. pose proof (aget_ok_range _ _ _ Hy). unfold vw, cap. cbn [cbuf start capmask].
  apply (Hv i y). rewrite aget_app1 by lia. exact Hy.
Qed.

(** ** index loops *)
(** [upd_at d i x d']: d' is d with index i holding x. *)
Lemma put_at_spec d n i x : wf d -> zlen (cbuf d) = cap d -> size d = n -> 0 <= i < n -> n < cap d ->
  exists d', put_at d i x = Ok d' /\ wf d' /\ cap d' = cap d /\ zlen (cbuf d') = cap d /\ start d' = start d /\
    dend d' = dend d /\ size d' = n /\ capmask d' = capmask d /\
    forall j, 0 <= j < cap d -> vw d' j = if j =? i then Ok (Some x) else vw d j.
Proof.
  intros Hw Hb Hs Hi Hn. unfold put_at. rewrite Hs.
  destruct (Z.leb_spec 0 i); [|lia]. destruct (Z.ltb_spec i n); [|lia]. cbn [andb].
  rewrite topos_nrm by (auto; lia).
  destruct (wr_vw d i x Hw) as (b & Eb & Zb & G); [lia|exact Hb|]. rewrite Eb. cbn [bind].
  eexists. split; [reflexivity|]. split; [apply wf_upd; auto|]. unfold cap. cbn [capmask cbuf start dend].
  repeat (split; [first [reflexivity|exact Zb|exact Hs]|]).
  intros j Hj. unfold vw. unfold cap in *. cbn [cbuf start capmask]. now apply G.
Qed.

Lemma at_vw d n i x : wf d -> size d = n -> 0 <= i < n -> n < cap d -> vw d i = Ok (Some x) -> at_ d i = Ok x.
Proof.
  intros Hw Hs Hi Hn Hv. unfold at_. rewrite Hs.
  destruct (Z.leb_spec 0 i); [|lia]. destruct (Z.ltb_spec i n); [|lia]. cbn [andb].
  rewrite topos_nrm by (auto; lia). now apply rd_vw.
Qed.

Lemma shift_down_spec fuel d i j len : wf d -> zlen (cbuf d) = cap d -> size d = len -> len < cap d ->
  0 <= i -> i <= j <= len -> len - j < Z.of_nat fuel ->
  (forall k, j <= k < len -> exists x, vw d k = Ok (Some x)) ->
  exists d', shift_down fuel d i j len = Ok d' /\ wf d' /\ cap d' = cap d /\ zlen (cbuf d') = cap d /\
    start d' = start d /\ dend d' = dend d /\ capmask d' = capmask d /\
    forall k, 0 <= k < cap d -> vw d' k = if (i <=? k) && (k <? i + (len - j)) then vw d (k + (j - i)) else vw d k.
Proof.
  revert d i j. induction fuel as [|fuel IH]; intros d i j Hw Hb Hs Hlen Hi Hij Hf Hlive; cbn [shift_down].
  { lia. }
  destruct (Z.ltb_spec j len).
  - destruct (Hlive j) as [x Hx]; [lia|]. rewrite (at_vw d len j x) by (auto; lia). cbn [bind].
    destruct (put_at_spec d len i x) as (d1 & E1 & W1 & C1 & B1 & S1 & D1 & N1 & M1 & G1); auto; try lia.
    rewrite E1. cbn [bind].
    destruct (IH d1 (i + 1) (j + 1)) as (d2 & E2 & W2 & C2 & B2 & S2 & D2 & M2 & G2); auto; try lia.
    { intros k Hk. rewrite G1 by lia. destruct (Z.eqb_spec k i); [lia|]. apply Hlive. lia. }
    exists d2. split; [exact E2|]. repeat (split; [first [assumption|congruence]|]).
    intros k Hk. rewrite G2 by lia.
    destruct (Z.leb_spec (i + 1) k), (Z.ltb_spec k (i + 1 + (len - (j + 1)))), (Z.leb_spec i k), (Z.ltb_spec k (i + (len - j)));
      cbn [andb]; try lia; rewrite G1 by lia.
    + destruct (Z.eqb_spec (k + (j + 1 - (i + 1))) i); [lia|]. f_equal. lia.
    + destruct (Z.eqb_spec k i); [lia|reflexivity].
    + destruct (Z.eqb_spec k i); [|lia]. subst k. replace (i + (j - i)) with j by lia. now rewrite Hx.
    + destruct (Z.eqb_spec k i); [lia|reflexivity].
  - exists d. split; [reflexivity|]. repeat (split; [first [assumption|reflexivity]|]).
    intros k Hk. destruct (Z.leb_spec i k), (Z.ltb_spec k (i + (len - j))); cbn [andb]; auto; lia.
Qed.

Lemma shift_up_spec fuel d i idx n len : wf d -> zlen (cbuf d) = cap d -> size d = len + n -> len + n < cap d ->
  0 <= idx -> idx - 1 <= i < len -> 0 <= n -> i - idx + 1 < Z.of_nat fuel ->
  (forall k, idx <= k <= i -> exists x, vw d k = Ok (Some x)) ->
  exists d', shift_up fuel d i (i + n) idx = Ok d' /\ wf d' /\ cap d' = cap d /\ zlen (cbuf d') = cap d /\
    start d' = start d /\ dend d' = dend d /\ capmask d' = capmask d /\
    forall k, 0 <= k < cap d -> vw d' k = if (idx + n <=? k) && (k <=? i + n) then vw d (k - n) else vw d k.
Proof.
  revert d i. induction fuel as [|fuel IH]; intros d i Hw Hb Hs Hlen Hi Hii Hn Hf Hlive; cbn [shift_up]; [cbn in Hf; lia|].
  rewrite Z.geb_leb. destruct (Z.leb_spec idx i).
  - destruct (Hlive i) as [x Hx]; [lia|]. rewrite (at_vw d (len + n) i x) by (auto; lia). cbn [bind].
    destruct (put_at_spec d (len + n) (i + n) x) as (d1 & E1 & W1 & C1 & B1 & S1 & D1 & N1 & M1 & G1); auto; try lia.
    rewrite E1. cbn [bind]. replace (i + n - 1) with (i - 1 + n) by lia.
    destruct (Z.eq_dec n 0) as [->|Hn0].
    + destruct (IH d1 (i - 1)) as (d2 & E2 & W2 & C2 & B2 & S2 & D2 & M2 & G2); auto; try lia.
      { intros k Hk. rewrite G1 by lia. destruct (Z.eqb_spec k (i + 0)); [eauto|]. apply Hlive. lia. }
      exists d2. split; [exact E2|]. repeat (split; [first [assumption|congruence]|]).
      intros k Hk. rewrite G2 by lia. replace (k - 0) with k by lia. rewrite G1 by lia.
      assert ((if k =? i + 0 then Ok (Some x) else vw d k) = vw d k) as ->.
      { destruct (Z.eqb_spec k (i + 0)); [|reflexivity]. replace k with i by lia. now rewrite Hx. }
      destruct ((idx + 0 <=? k) && (k <=? i - 1 + 0)), ((idx + 0 <=? k) && (k <=? i + 0)); reflexivity.
    + destruct (IH d1 (i - 1)) as (d2 & E2 & W2 & C2 & B2 & S2 & D2 & M2 & G2); auto; try lia.
      { intros k Hk. rewrite G1 by lia. destruct (Z.eqb_spec k (i + n)); [lia|]. apply Hlive. lia. }
      exists d2. split; [exact E2|]. repeat (split; [first [assumption|congruence]|]).
      intros k Hk. rewrite G2 by lia.
      destruct (Z.leb_spec (idx + n) k), (Z.leb_spec k (i - 1 + n)), (Z.leb_spec k (i + n));
        cbn [andb]; try lia; rewrite G1 by lia;
        match goal with |- context [?a =? i + n] => destruct (Z.eqb_spec a (i + n)) end; try lia; try reflexivity.
      subst k. replace (i + n - n) with i by lia. now rewrite Hx.
  - exists d. split; [reflexivity|]. repeat (split; [first [assumption|reflexivity]|]).
    intros k Hk. destruct (Z.leb_spec (idx + n) k), (Z.leb_spec k (i + n)); cbn [andb]; auto; lia.
Qed.

Lemma fill_spec xs : forall d i n, wf d -> zlen (cbuf d) = cap d -> size d = n -> n < cap d -> 0 <= i -> i + zlen xs <= n ->
  exists d', fill d i xs = Ok d' /\ wf d' /\ cap d' = cap d /\ zlen (cbuf d') = cap d /\
    start d' = start d /\ dend d' = dend d /\ capmask d' = capmask d /\
    forall k, 0 <= k < cap d ->
      vw d' k = if (i <=? k) && (k <? i + zlen xs) then match aget xs (k - i) with Ok x => Ok (Some x) | Err e => Err e end else vw d k.
Proof.
  induction xs as [|x xs IH]; intros d i n Hw Hb Hs Hn Hi Hle; cbn [fill].
  - exists d. split; [reflexivity|]. repeat (split; [first [assumption|reflexivity]|]).
    intros k Hk. rewrite zlen_nil. destruct (Z.leb_spec i k), (Z.ltb_spec k (i + 0)); cbn [andb]; auto; lia.
  - rewrite zlen_cons in Hle. pose proof (zlen_nonneg xs).
    destruct (put_at_spec d n i x) as (d1 & E1 & W1 & C1 & B1 & S1 & D1 & N1 & M1 & G1); auto; try lia.
    rewrite E1. cbn [bind].
    destruct (IH d1 (i + 1) n) as (d2 & E2 & W2 & C2 & B2 & S2 & D2 & M2 & G2); auto; try lia.
    exists d2. split; [exact E2|]. repeat (split; [first [assumption|congruence]|]).
    intros k Hk. rewrite G2 by lia. rewrite zlen_cons, aget_cons.
    destruct (Z.leb_spec (i + 1) k), (Z.ltb_spec k (i + 1 + zlen xs)), (Z.leb_spec i k), (Z.ltb_spec k (i + (1 + zlen xs)));
      cbn [andb]; try lia.
    + destruct (Z.eqb_spec (k - i) 0); [lia|]. replace (k - (i + 1)) with (k - i - 1) by lia. reflexivity.
    + rewrite G1 by lia. destruct (Z.eqb_spec k i); [lia|reflexivity].
    + rewrite G1 by lia. destruct (Z.eqb_spec k i); [|lia]. destruct (Z.eqb_spec (k - i) 0); [reflexivity|lia].
    + rewrite G1 by lia. destruct (Z.eqb_spec k i); [lia|reflexivity].
Qed.

Lemma drop_down_spec k d l idx : rg d l -> 0 <= idx -> idx + Z.of_nat k <= zlen l ->
  drop_down k d idx = Ok (rev (firstn k (skipn (Z.to_nat idx) l))).
Proof.
  intros Hr Hi. induction k as [|k IH]; intros Hk; [reflexivity|]. cbn [drop_down].
  rewrite (rg_at d l) by (auto; lia).
  destruct (aget_some l (idx + Z.of_nat k)) as [x Hx]; [lia|]. rewrite Hx. cbn [bind]. rewrite IH by lia. cbn [bind].
  assert (firstn (S k) (skipn (Z.to_nat idx) l) = firstn k (skipn (Z.to_nat idx) l) ++ [x]) as ->.
  { rewrite <- (aget_skipn l idx (Z.of_nat k)) in Hx by lia.
    apply aget_nth in Hx as [_ Hx]. rewrite Nat2Z.id in Hx. revert Hx. generalize (skipn (Z.to_nat idx) l). clear.
    induction k as [|k IH]; intros [|h t] Hx; cbn in Hx; try discriminate.
    - injection Hx as ->. reflexivity.
    - change (h :: firstn (S k) t = h :: (firstn k t ++ [x])). now rewrite (IH t Hx). }
  rewrite rev_app_distr. reflexivity.
Qed.

Lemma erase_n_spec d l idx n : rg d l -> 0 <= idx -> 0 <= n -> idx + n <= zlen l ->
  exists d', erase_n d idx n = Ok (d', rev (firstn (Z.to_nat n) (skipn (Z.to_nat idx) l))) /\
    rg d' (firstn (Z.to_nat idx) l ++ skipn (Z.to_nat (idx + n)) l) /\
    start d' = start d /\ cap d' = cap d /\ dend d' = nrm (cap d) (dend d - n).
Proof.
  intros Hr Hi Hn Hle. pose proof Hr as (Hw & Hz & He & Hv). pose proof (zlen_nonneg l).
  pose proof (wf_start d Hw). pose proof (wf_end d Hw).
  unfold erase_n. rewrite (rg_size d l Hr). destruct (Z.leb_spec (idx + n) (zlen l)); [|lia]. cbn [negb].
  rewrite (drop_down_spec _ d l) by (auto; lia). cbn [bind].
  set (nl := firstn (Z.to_nat idx) l ++ skipn (Z.to_nat (idx + n)) l).
  assert (Hnl : zlen nl = zlen l - n) by (unfold nl; rewrite zlen_app, zlen_firstn, zlen_skipn by lia; lia).
  destruct (Z.eq_dec (zlen l) 0) as [El|El].
  { assert (idx = 0) by lia. assert (n = 0) by lia. subst idx n. rewrite El. cbn [Z.to_nat Z.sub Z.add Z.opp Z.pos_sub shift_down].
    assert (El' : l = []) by (destruct l as [|a l']; [reflexivity|rewrite zlen_cons in El; pose proof (zlen_nonneg l'); lia]). clear H.
    cbn [shift_down Z.ltb Z.compare bind]. rewrite Z.sub_0_r. rewrite land_cap by (auto; lia).
    eexists. split; [subst l; reflexivity|].
    assert (nrm (cap d) (dend d) = dend d) as -> by nrm_tac.
    unfold nl. subst l. cbn. destruct d. cbn. split; [exact Hr|]. auto. }
  assert (Hne : l <> []) by (intros ->; apply El; reflexivity).
  pose proof (rg_buf d l Hr Hne) as Hb.
  destruct (shift_down_spec (S (Z.to_nat (zlen l - idx - n))) d idx (idx + n) (zlen l))
    as (d1 & E1 & W1 & C1 & B1 & S1 & D1 & M1 & G1); auto; try lia.
  { now apply rg_size. }
  { intros k Hk. destruct (aget_some l k) as [x Hx]; [lia|]. eauto. }
  rewrite E1. cbn [bind]. rewrite D1, M1, S1. rewrite land_cap by (auto; lia).
  eexists. split; [reflexivity|]. cbn [start dend capmask]. unfold cap at 2. cbn [capmask]. fold (cap d).
  split; [|auto].
  split.
  { destruct Hw as [P1 P2 P3 P4]. constructor; unfold cap in *; cbn [cbuf start dend capmask] in *; auto; try (left; congruence); nrm_tac. }
  repeat match goal with |- context [cap (mkdq ?a ?b ?c ?e)] => change (cap (mkdq a b c e)) with (cap d) end.
  cbn [cbuf start dend capmask]. rewrite Hnl. split; [lia|]. split; [revert He; nrm_tac|].
  intros i x Hx. pose proof (aget_ok_range _ _ _ Hx) as Ri. rewrite Hnl in Ri.
  assert (vw d1 i = Ok (Some x)) as Hvx.
  { rewrite G1 by lia. unfold nl in Hx. rewrite aget_app in Hx by lia. rewrite zlen_firstn in Hx by lia.
    destruct (Z.ltb_spec i (Z.min idx (zlen l))).
    - rewrite aget_firstn in Hx by lia. destruct (Z.leb_spec idx i); [lia|]. cbn [andb]. now apply Hv.
    - rewrite aget_skipn in Hx by lia.
      destruct (Z.leb_spec idx i); [|lia]. destruct (Z.ltb_spec i (idx + (zlen l - (idx + n)))); [|lia]. cbn [andb].
      apply Hv. rewrite <- Hx. f_equal. lia. }
  unfold vw in *. rewrite C1, S1 in Hvx. unfold cap in *. cbn [cbuf start capmask]. exact Hvx.
Qed.

(** insertion *)
Lemma insert_n_spec d l idx xs : rg d l -> 0 <= idx <= zlen l ->
  exists d' it, insert_n d idx xs = Ok (d', it) /\
    rg d' (firstn (Z.to_nat idx) l ++ xs ++ skipn (Z.to_nat idx) l) /\
    (xs <> [] -> ref it = Some (pos it) /\ pos it = nrm (cap d') (start d' + idx)).
Proof.
  intros Hr Hi. pose proof (zlen_nonneg l). pose proof (zlen_nonneg xs) as Hxs.
  unfold insert_n, insert_uninit. rewrite (rg_size d l Hr).
  set (nl := firstn (Z.to_nat idx) l ++ xs ++ skipn (Z.to_nat idx) l).
  assert (Hnl : zlen nl = zlen l + zlen xs) by (unfold nl; rewrite !zlen_app, zlen_firstn, zlen_skipn by lia; lia).
  assert (HR : exists d1 ok, (if zlen l + zlen xs >=? capmask d then reserve d (zlen l + zlen xs) else Ok (d, true)) = Ok (d1, ok)
      /\ rg d1 l /\ zlen l + zlen xs < cap d1 /\
      ((ok = true /\ zlen (cbuf d1) = cap d1) \/ (ok = false /\ l = [] /\ xs = []))).
  { pose proof Hr as (Hw & Hz & He & Hv). destruct (Z.geb_spec (zlen l + zlen xs) (capmask d)).
    - destruct (reserve_spec d l (zlen l + zlen xs) Hr) as (d1 & ok & E1 & Hr1 & Hc1 & Hc2 & Hok & Hb1); [lia|].
      exists d1, ok. split; [exact E1|]. split; [exact Hr1|]. split; [exact Hc1|]. subst ok.
      pose proof Hr1 as (Hw1 & _). unfold is_null.
      destruct (wf_buf d1 Hw1) as [B|[B1 B2]].
      + left. rewrite B. pose proof (cap_pos d1 Hw1). destruct (Z.eqb_spec (cap d1) 0); [lia|auto].
      + right. rewrite B2. cbn. split; [reflexivity|]. 
        assert (zlen l = 0 /\ zlen xs = 0) as [Q1 Q2] by lia.
        split; [destruct l|destruct xs]; auto; rewrite zlen_cons in *; [pose proof (zlen_nonneg l)|pose proof (zlen_nonneg xs)]; lia.
    - exists d, true. split; [reflexivity|]. split; [exact Hr|]. split; [unfold cap; lia|]. left. split; [reflexivity|].
      destruct (wf_buf d Hw) as [B|[B1 B2]]; auto. unfold cap in *. lia. }
  destruct HR as (d1 & ok & E1 & Hr1 & Hroom & Hok). rewrite E1. cbn [bind fst snd].
  destruct Hok as [[-> Hb]|(-> & Hl0 & Hx0)].
  2:{ cbn [bind fst snd]. subst l xs. cbn [fill bind fst snd]. do 2 eexists. split; [reflexivity|].
      split; [|congruence]. unfold nl. rewrite firstn_nil, skipn_nil. exact Hr1. }
  pose proof Hr1 as (Hw1 & Hz1 & He1 & Hv1). pose proof (wf_start d1 Hw1). pose proof (wf_end d1 Hw1).
  rewrite topos_nrm by (auto; lia). rewrite land_cap by (auto; lia). set (n := zlen xs) in *.
  set (p := nrm (cap d1) (start d1 + idx)). set (e := nrm (cap d1) (dend d1 + n)).
  set (d2 := mkdq (cbuf d1) (start d1) e (capmask d1)).
  assert (Hc2 : cap d2 = cap d1) by reflexivity.
  assert (He2 : e = nrm (cap d1) (start d1 + (zlen l + n))) by (unfold e; rewrite He1; nrm_tac).
  assert (Hw2 : wf d2).
  { destruct Hw1. constructor; rewrite ?Hc2; cbn [cbuf start dend d2]; auto. unfold e. nrm_tac. }
  assert (Hs2 : size d2 = zlen l + n).
  { unfold size, toidx, d2. cbn [dend start capmask]. fold d2. replace (capmask d1) with (capmask d2) by reflexivity.
    rewrite land_cap by (auto; rewrite ?Hc2, ?He2; nrm_tac). rewrite Hc2, He2. nrm_tac. }
  (* after making room: views idx+n.. hold the old tail *)
  assert (Hmid : exists d3, 
     (if p <? e then
        let* b := amove (cbuf d2) p (p + n) (zlen l - idx) in
        Ok (mkdq b (start d2) e (capmask d2), mkit (Some p) p)
      else
        let* d3 := shift_up (S (Z.to_nat (zlen l - idx))) d2 (zlen l - 1) (zlen l - 1 + n) idx in
        Ok (d3, mkit (Some p) p)) = Ok (d3, mkit (Some p) p) /\
     wf d3 /\ cap d3 = cap d1 /\ zlen (cbuf d3) = cap d1 /\ start d3 = start d1 /\ dend d3 = e /\ capmask d3 = capmask d1 /\
     (forall k, 0 <= k < idx -> vw d3 k = vw d1 k) /\
     (forall k, idx <= k < zlen l -> vw d3 (k + n) = vw d1 k)).
  { destruct (Z.ltb_spec p e) as [Hpe|Hpe].
    - assert (Hnw : p + (zlen l - idx + n) = e /\ (start d1 + idx < cap d1 -> start d1 + (zlen l + n) < cap d1)).
      { unfold p in *. rewrite He2 in *. revert Hpe. nrm_tac. }
      change (cbuf d2) with (cbuf d1).
      destruct (amove_some (cbuf d1) p (p + n) (zlen l - idx)) as [b Eb]; rewrite ?Hb; try lia.
      { unfold p. nrm_tac. } { unfold p. nrm_tac. }
      { unfold e in *. revert Hnw. nrm_tac. } { unfold e in *. revert Hnw. nrm_tac. }
      rewrite Eb. cbn [bind]. apply amove_inv in Eb as (_ & _ & _ & _ & _ & Zb & G).
      eexists. split; [reflexivity|].
      split; [destruct Hw2 as [P1 P2 P3 P4]; constructor; unfold cap in *; cbn [cbuf start dend capmask d2] in *; auto; left; lia|].
      unfold cap. cbn [cbuf start dend capmask d2]. fold (cap d1).
      repeat (split; [first [reflexivity|lia]|]).
      split; intros k Hk; unfold vw, cap; cbn [cbuf start capmask]; fold (cap d1); rewrite G.
      + match goal with |- (if ?c then _ else _) = _ => replace c with false; [reflexivity|] end.
        symmetry. apply andb_false_iff. revert Hnw. unfold p. nrm_tac; intros; rewrite Z.leb_gt, Z.ltb_ge; lia.
      + assert (Hq : nrm (cap d1) (start d1 + (k + n)) = p + (k - idx) + n).
        { revert Hnw. unfold p. rewrite He2. nrm_tac. }
        assert (Hq0 : nrm (cap d1) (start d1 + k) = p + (k - idx)).
        { revert Hnw. unfold p. rewrite He2. nrm_tac. }
        rewrite Hq, Hq0. destruct (Z.leb_spec (p + n) (p + (k - idx) + n)), (Z.ltb_spec (p + (k - idx) + n) (p + n + (zlen l - idx))); try lia.
        cbn [andb]. f_equal. lia.
    - destruct (shift_up_spec (S (Z.to_nat (zlen l - idx))) d2 (zlen l - 1) idx n (zlen l))
        as (d3 & E3 & W3 & C3 & B3 & S3 & D3 & M3 & G3); auto; try (rewrite ?Hc2; lia).
      { intros k Hk. destruct (aget_some l k) as [x Hx]; [lia|]. exists x. exact (Hv1 k x Hx). }
      rewrite E3. cbn [bind]. exists d3. split; [reflexivity|].
      repeat (split; [first [assumption|congruence]|]).
      split; intros k Hk; rewrite G3 by (rewrite Hc2; lia).
      + destruct (Z.leb_spec (idx + n) k); [lia|]. reflexivity.
      + destruct (Z.leb_spec (idx + n) (k + n)), (Z.leb_spec (k + n) (zlen l - 1 + n)); try lia. cbn [andb].
        replace (k + n - n) with k by lia. reflexivity. }
  destruct Hmid as (d3 & E3 & W3 & C3 & B3 & S3 & D3 & M3 & G3a & G3b).
  rewrite E3. cbn [bind fst snd].
  assert (Hs3 : size d3 = zlen l + n).
  { rewrite <- Hs2. unfold size, toidx. rewrite S3, D3, M3. reflexivity. }
  destruct (fill_spec xs d3 idx (zlen l + n)) as (d4 & E4 & W4 & C4 & B4 & S4 & D4 & M4 & G4); auto; try (fold n; lia).
  rewrite E4. cbn [bind]. do 2 eexists. split; [reflexivity|]. cbn [ref pos].
  split.
  2:{ intros _. split; [reflexivity|]. unfold p. rewrite C4, C3, S4, S3. reflexivity. }
  split; [exact W4|]. rewrite C4, C3, Hnl. fold n. split; [lia|]. split; [rewrite D4, D3, S4, S3, He2; reflexivity|].
  intros i x Hx. pose proof (aget_ok_range _ _ _ Hx) as Ri. rewrite Hnl in Ri. fold n in Ri.
  rewrite G4 by lia. fold n. unfold nl in Hx. rewrite aget_app in Hx by lia. rewrite zlen_firstn in Hx by lia.
  destruct (Z.ltb_spec i (Z.min idx (zlen l))).
  - rewrite aget_firstn in Hx by lia. destruct (Z.leb_spec idx i); [lia|]. cbn [andb]. rewrite G3a by lia. now apply Hv1.
  - replace (Z.min idx (zlen l)) with idx in * by lia. rewrite aget_app in Hx by lia. fold n in Hx.
    destruct (Z.leb_spec idx i); [|lia]. destruct (Z.ltb_spec (i - idx) n).
    + destruct (Z.ltb_spec i (idx + n)); [|lia]. cbn [andb]. now rewrite Hx.
    + destruct (Z.ltb_spec i (idx + n)); [lia|]. cbn [andb]. rewrite aget_skipn in Hx by lia.
      replace i with (i - n + n) by lia. rewrite G3b by lia. apply Hv1. rewrite <- Hx. f_equal. lia.
Qed.

(** ** iteration *)
Lemma next_spec d l k : rg d l -> 0 <= k < zlen l ->
  next d (mkit (Some (nrm (cap d) (start d + k))) (nrm (cap d) (start d + k))) =
  mkit (if k + 1 =? zlen l then None else Some (nrm (cap d) (start d + (k + 1)))) (nrm (cap d) (start d + (k + 1))).
Proof.
  intros (Hw & Hz & He & _) Hk. pose proof (wf_start d Hw). pose proof (wf_end d Hw).
  unfold next. cbn [pos ref].
  assert (Hp : (if negb (nrm (cap d) (start d + k) =? capmask d)
     then (Some (nrm (cap d) (start d + k) + 1), nrm (cap d) (start d + k) + 1)
     else (Some (nrm (cap d) (start d + k) - nrm (cap d) (start d + k)), 0))
     = (Some (nrm (cap d) (start d + (k + 1))), nrm (cap d) (start d + (k + 1)))).
  { destruct (Z.eqb_spec (nrm (cap d) (start d + k)) (capmask d)) as [E|E]; cbn [negb].
    - assert (nrm (cap d) (start d + (k + 1)) = 0) as -> by (unfold cap in *; nrm_tac). rewrite Z.sub_diag. reflexivity.
    - assert (nrm (cap d) (start d + (k + 1)) = nrm (cap d) (start d + k) + 1) as -> by (unfold cap in *; nrm_tac). reflexivity. }
  rewrite Hp. destruct (Z.eqb_spec (nrm (cap d) (start d + (k + 1))) (dend d)) as [E|E], (Z.eqb_spec (k + 1) (zlen l)) as [E2|E2]; auto.
  - exfalso. rewrite He in E. revert E. nrm_tac.
  - exfalso. apply E. rewrite He, E2. reflexivity.
Qed.

Lemma skipn_S_aget l (k : nat) x : aget l (Z.of_nat k) = Ok x -> skipn k l = x :: skipn (S k) l.
Proof.
  intros [_ Hx]%aget_nth. rewrite Nat2Z.id in Hx. revert l Hx.
  induction k as [|k IH]; intros [|h t] Hx; cbn in Hx; try discriminate.
  - injection Hx as ->. reflexivity.
  - change (skipn k t = x :: skipn (S k) t). now apply IH.
Qed.

Lemma rg_rd d l k x : rg d l -> aget l k = Ok x -> rd (cbuf d) (nrm (cap d) (start d + k)) = Ok x.
Proof. intros (_ & _ & _ & Hv) Hx. apply rd_vw. now apply Hv. Qed.

Lemma each_loop_spec fuel d l (k : nat) : rg d l -> (k < length l)%nat -> (length l - k < fuel)%nat ->
  each_loop (next d) fuel (cbuf d) (mkit (Some (nrm (cap d) (start d + Z.of_nat k))) (nrm (cap d) (start d + Z.of_nat k))) = Ok (skipn k l).
Proof.
  intros Hr. revert k. induction fuel as [|fuel IH]; intros k Hk Hf; [lia|]. cbn [each_loop ref].
  destruct (aget_some l (Z.of_nat k)) as [x Hx]; [unfold zlen; lia|]. rewrite (rg_rd d l _ x Hr Hx). cbn [bind].
  rewrite (next_spec d l) by (auto; unfold zlen; lia).
  rewrite (skipn_S_aget _ _ _ Hx).
  destruct (Z.eqb_spec (Z.of_nat k + 1) (zlen l)) as [E|E].
  - destruct fuel; [lia|]. cbn [each_loop ref bind]. rewrite (skipn_all2 l); [reflexivity|unfold zlen in E; lia].
  - replace (Z.of_nat k + 1) with (Z.of_nat (S k)) by lia. rewrite IH; [reflexivity| |]; unfold zlen in E; lia.
Qed.

Lemma begin_spec d l : rg d l -> l <> [] ->
  begin d = mkit (Some (nrm (cap d) (start d + Z.of_nat 0))) (nrm (cap d) (start d + Z.of_nat 0)).
Proof.
  intros Hr Hne. unfold begin. rewrite (rg_is_empty d l Hr). pose proof Hr as (Hw & _). pose proof (wf_start d Hw).
  destruct (Z.eqb_spec (zlen l) 0) as [E|E].
  - destruct l; [congruence|rewrite zlen_cons in E; pose proof (zlen_nonneg l); lia].
  - assert (nrm (cap d) (start d + Z.of_nat 0) = start d) as -> by nrm_tac. reflexivity.
Qed.

Lemma each_spec d l : rg d l -> each d = Ok l.
Proof.
  intros Hr. unfold each. destruct l as [|x0 l0] eqn:El.
  - unfold begin. rewrite (rg_is_empty d [] Hr). cbn. reflexivity.
  - rewrite <- El in *. assert (Hne : l <> []) by (rewrite El; discriminate).
    rewrite (begin_spec d l Hr Hne). pose proof Hr as (_ & Hz & _). fold (cap d).
    rewrite (each_loop_spec _ d l 0 Hr); [reflexivity| |].
    + rewrite El. cbn. lia.
    + unfold zlen in Hz. lia.
Qed.

Lemma rnext_spec d l k : rg d l -> 0 <= k < zlen l ->
  rnext d (mkit (Some (nrm (cap d) (start d + k))) (nrm (cap d) (start d + k))) =
  if k =? 0 then mkit None (start d) else mkit (Some (nrm (cap d) (start d + (k - 1)))) (nrm (cap d) (start d + (k - 1))).
Proof.
  intros (Hw & Hz & He & _) Hk. pose proof (wf_start d Hw).
  unfold rnext. cbn [pos ref].
  destruct (Z.eqb_spec (nrm (cap d) (start d + k)) (start d)) as [E|E], (Z.eqb_spec k 0) as [E2|E2].
  - now rewrite E.
  - exfalso. revert E. nrm_tac.
  - exfalso. apply E. subst k. nrm_tac.
  - destruct (Z.eqb_spec (nrm (cap d) (start d + k)) 0) as [E3|E3]; cbn [negb].
    + assert (nrm (cap d) (start d + (k - 1)) = capmask d) as -> by (unfold cap in *; nrm_tac).
      rewrite E3. reflexivity.
    + assert (nrm (cap d) (start d + (k - 1)) = nrm (cap d) (start d + k) - 1) as -> by nrm_tac. reflexivity.
Qed.

Lemma rev_loop_spec fuel d l (k : nat) : rg d l -> (k < length l)%nat -> (S k < fuel)%nat ->
  each_loop (rnext d) fuel (cbuf d) (mkit (Some (nrm (cap d) (start d + Z.of_nat k))) (nrm (cap d) (start d + Z.of_nat k))) = Ok (rev (firstn (S k) l)).
Proof.
  intros Hr. revert k. induction fuel as [|fuel IH]; intros k Hk Hf; [lia|]. cbn [each_loop ref].
  destruct (aget_some l (Z.of_nat k)) as [x Hx]; [unfold zlen; lia|]. rewrite (rg_rd d l _ x Hr Hx). cbn [bind].
  rewrite (rnext_spec d l) by (auto; unfold zlen; lia).
  assert (firstn (S k) l = firstn k l ++ [x]) as ->.
  { apply aget_nth in Hx as [_ Hx]. rewrite Nat2Z.id in Hx. clear - Hx. revert l Hx.
    induction k as [|k IH]; intros [|h t] Hx; cbn in Hx; try discriminate.
    - injection Hx as ->. reflexivity.
    - change (h :: firstn (S k) t = h :: (firstn k t ++ [x])). now rewrite (IH t Hx). }
  rewrite rev_app_distr. cbn [rev app].
  destruct (Z.eqb_spec (Z.of_nat k) 0) as [E|E].
  - destruct fuel; [lia|]. cbn [each_loop ref bind]. assert (k = 0%nat) by lia. subst k. reflexivity.
  - destruct k as [|k]; [lia|]. replace (Z.of_nat (S k) - 1) with (Z.of_nat k) by lia. rewrite IH; [reflexivity| |]; lia.
Qed.

Lemma each_reverse_spec d l : rg d l -> each_reverse d = Ok (rev l).
Proof.
  intros Hr. pose proof Hr as (Hw & Hz & He & _). pose proof (wf_start d Hw). pose proof (wf_end d Hw).
  unfold each_reverse, rbegin. rewrite (rg_is_empty d l Hr). pose proof (zlen_nonneg l).
  destruct (Z.eqb_spec (zlen l) 0) as [E|E].
  - destruct l; [reflexivity|rewrite zlen_cons in E; pose proof (zlen_nonneg l); lia].
  - rewrite land_cap by (auto; lia). fold (cap d).
    assert (nrm (cap d) (dend d - 1) = nrm (cap d) (start d + Z.of_nat (length l - 1))) as ->.
    { assert (Z.of_nat (length l - 1) = zlen l - 1) as -> by (unfold zlen in *; lia). rewrite He. nrm_tac. }
    rewrite (rev_loop_spec _ d l (length l - 1) Hr); try (unfold zlen in *; lia).
    f_equal. f_equal. apply firstn_all2. lia.
Qed.

Lemma clear_spec d l : rg d l -> exists d', clear d = Ok (d', l) /\ rg d' [].
Proof.
  intros Hr. unfold clear. rewrite (each_spec d l Hr). cbn [bind]. eexists. split; [reflexivity|].
  pose proof Hr as (Hw & _). pose proof (cap_pos d Hw).
  split; [destruct Hw; constructor; unfold cap in *; cbn [cbuf start dend capmask] in *; auto; lia|].
  unfold cap in *. cbn [cbuf start dend capmask]. rewrite zlen_nil. split; [lia|]. split; [unfold nrm; nrm_tac|].
  intros i x Hx. apply aget_ok_range in Hx. cbn in Hx. lia.
Qed.

(** a fresh buffer filled with l *)
Lemma fresh_spec (l : list A) : exists t ok, reserve init (zlen l) = Ok (t, ok) /\ start t = 0 /\
  (if is_null t then l = [] /\ cbuf t = [] /\ capmask t = 0
   else exists b, wrs (cbuf t) 0 l = Ok b /\ rg (mkdq b 0 (zlen l) (capmask t)) l).
Proof.
  pose proof (zlen_nonneg l). unfold reserve. change (capmask (@init A) + 1) with 1.
  destruct (pow2_ceil_pow2 (zlen l + 1)) as [Hp Hpc]; [lia|]. set (np := pow2_ceil (zlen l + 1)) in *.
  destruct (Z.leb_spec np 1).
  - exists init, false. split; [reflexivity|]. split; [reflexivity|]. cbn.
    split; auto. destruct l; auto. rewrite zlen_cons in *. pose proof (zlen_nonneg l). lia.
  - cbn [start dend init]. destruct (Z.leb_spec 0 0); [|lia].
    do 2 eexists. split; [reflexivity|]. split; [reflexivity|].
    assert (Zb : zlen (realloc (cbuf (@init A)) np) = np) by (apply zlen_realloc; lia).
    unfold is_null. cbn [cbuf]. rewrite Zb. destruct (Z.eqb_spec np 0); [lia|].
    destruct (ablit_some (realloc (cbuf (@init A)) np) 0 (map Some l)) as [b Eb]; [lia|rewrite zlen_map; lia|].
    exists b. split; [exact Eb|]. apply ablit_inv in Eb as (_ & _ & Z2 & G).
    cbn [capmask].
    assert (Hc : cap (mkdq b 0 (zlen l) (np - 1)) = np) by (unfold cap; cbn; lia).
    split; [constructor; rewrite Hc; cbn [cbuf start dend]; auto; lia|]. rewrite Hc. cbn [start dend].
    split; [lia|]. split; [nrm_tac|]. intros i x Hx. pose proof (aget_ok_range _ _ _ Hx). unfold vw. rewrite Hc. cbn [cbuf start].
    replace (nrm np (0 + i)) with i by nrm_tac. rewrite G, zlen_map.
    destruct (Z.leb_spec 0 i), (Z.ltb_spec i (0 + zlen l)); try lia. cbn [andb]. rewrite Z.sub_0_r, aget_map, Hx. reflexivity.
Qed.

Lemma shrink_spec d l : rg d l -> exists d', shrink_to_fit d = Ok d' /\ rg d' l.
Proof.
  intros Hr. unfold shrink_to_fit. rewrite (rg_size d l Hr).
  destruct (zlen l >? capmask d / 2); [eauto|].
  destruct (fresh_spec l) as (t & ok & -> & S0 & HH). cbn [bind fst snd].
  destruct (is_null t); [eauto|]. destruct HH as (b & Eb & Hb). rewrite (each_spec d l Hr). cbn [bind]. rewrite Eb. cbn [bind].
  rewrite S0. eauto.
Qed.

Lemma clone_spec d l : rg d l -> exists d', clone d = Ok d' /\ rg d' l.
Proof.
  intros Hr. unfold clone. rewrite (rg_size d l Hr).
  destruct (fresh_spec l) as (t & ok & -> & S0 & HH). cbn [bind fst snd].
  destruct (is_null t); cbn [negb].
  - destruct HH as (-> & E1 & E2). cbn [bind]. rewrite E1, E2. eexists. split; [reflexivity|]. exact rg_init.
  - destruct HH as (b & Eb & Hb). rewrite (each_spec d l Hr). cbn [bind]. rewrite Eb. cbn [bind]. eauto.
Qed.

(** ** equality *)
Lemma eq_loop_spec eqb fuel d1 d2 l m (k : nat) : rg d1 l -> rg d2 m -> zlen l = zlen m ->
  (k <= length l)%nat -> (length l - k < fuel)%nat ->
  let it d (k : nat) := mkit (if Z.of_nat k =? zlen l then None else Some (nrm (cap d) (start d + Z.of_nat k))) (nrm (cap d) (start d + Z.of_nat k)) in
  exists b, eq_loop eqb fuel d1 d2 (it d1 k) (it d2 k) = Ok b /\
    (b = true <-> forall i x y, Z.of_nat k <= i -> aget l i = Ok x -> aget m i = Ok y -> eqb x y = true).
Proof.
  intros H1 H2 Hz. revert k. induction fuel as [|fuel IH]; intros k Hk Hf it; [lia|]. cbn [eq_loop].
  unfold it at 1 2. cbn [ref].
  destruct (Z.eqb_spec (Z.of_nat k) (zlen l)) as [E|E].
  - exists true. split; [reflexivity|]. split; auto. intros _ i x y Hi Hx. pose proof (aget_ok_range _ _ _ Hx). lia.
  - destruct (aget_some l (Z.of_nat k)) as [x Hx]; [unfold zlen in *; lia|].
    destruct (aget_some m (Z.of_nat k)) as [y Hy]; [unfold zlen in *; lia|].
    rewrite (rg_rd d1 l _ x H1 Hx), (rg_rd d2 m _ y H2 Hy). cbn [bind].
    destruct (eqb x y) eqn:Exy; cbn [negb].
    + assert (N1 : next d1 (it d1 k) = it d1 (S k)).
      { unfold it. destruct (Z.eqb_spec (Z.of_nat k) (zlen l)); [lia|]. rewrite (next_spec d1 l) by (auto; unfold zlen in *; lia).
        replace (Z.of_nat k + 1) with (Z.of_nat (S k)) by lia. reflexivity. }
      assert (N2 : next d2 (it d2 k) = it d2 (S k)).
      { unfold it. destruct (Z.eqb_spec (Z.of_nat k) (zlen l)); [lia|]. rewrite (next_spec d2 m) by (auto; unfold zlen in *; lia).
        replace (Z.of_nat k + 1) with (Z.of_nat (S k)) by lia. rewrite <- Hz. reflexivity. }
      rewrite N1, N2. destruct (IH (S k)) as (b & Eb & Hb); [unfold zlen in *; lia|unfold zlen in *; lia|].
      exists b. split; [exact Eb|]. rewrite Hb. split; intros H i x0 y0 Hi Hx0 Hy0; [|apply (H i); auto; lia].
      destruct (Z.eq_dec i (Z.of_nat k)) as [->|]; [congruence|]. apply (H i); auto. lia.
    + exists false. split; [reflexivity|]. split; [discriminate|]. intros H. rewrite <- Exy. apply (H (Z.of_nat k)); auto. lia.
Qed.

Lemma eq_spec eqb d1 d2 l m : rg d1 l -> rg d2 m ->
  exists b, eq eqb d1 d2 = Ok b /\ (b = true <-> Forall2 (fun x y => eqb x y = true) l m).
Proof.
  intros H1 H2. unfold eq. rewrite (rg_size d1 l H1), (rg_size d2 m H2).
  destruct (Z.eqb_spec (zlen l) (zlen m)) as [E|E]; cbn [negb].
  - assert (B : forall d q, rg d q -> zlen q = zlen l -> begin d =
       mkit (if Z.of_nat 0 =? zlen l then None else Some (nrm (cap d) (start d + Z.of_nat 0))) (nrm (cap d) (start d + Z.of_nat 0))).
    { intros d q Hq Hqz. pose proof Hq as (Hw & _). pose proof (wf_start d Hw). unfold begin. rewrite (rg_is_empty d q Hq), Hqz.
      assert (nrm (cap d) (start d + Z.of_nat 0) = start d) as -> by nrm_tac. rewrite Z.eqb_sym. reflexivity. }
    rewrite (B d1 l H1 eq_refl), (B d2 m H2 (Logic.eq_sym E)).
    destruct (eq_loop_spec eqb (S (Z.to_nat (zlen l))) d1 d2 l m 0 H1 H2 E) as (b & Eb & Hb); [lia|unfold zlen; lia|].
    exists b. split; [exact Eb|]. rewrite Hb. clear - E. split.
    + revert m E. induction l as [|x l IH]; intros [|y m] E H.
      * constructor.
      * rewrite zlen_cons, zlen_nil in E. pose proof (zlen_nonneg m). lia.
      * rewrite zlen_cons, zlen_nil in E. pose proof (zlen_nonneg l). lia.
      * constructor; [apply (H 0); [lia|reflexivity|reflexivity]|]. apply IH; [rewrite !zlen_cons in E; lia|].
        intros i a b Hi Ha Hb. apply (H (i + 1)); [lia| |]; rewrite aget_cons; destruct (Z.eqb_spec (i + 1) 0); try lia;
        now replace (i + 1 - 1) with i by lia.
    + intros HF. induction HF as [|x y l m Hxy HF IH]; intros i a b Hi Ha Hb.
      * pose proof (aget_ok_range _ _ _ Ha). cbn in H. lia.
      * rewrite aget_cons in Ha, Hb. destruct (Z.eqb_spec i 0); [congruence|].
        apply (IH ltac:(rewrite !zlen_cons in E; lia) (i - 1)); auto. lia.
  - exists false. split; [reflexivity|]. split; [discriminate|]. intros HF.
    exfalso. apply E. clear - HF. induction HF; rewrite ?zlen_cons; lia.
Qed.

(** ** histories *)
Lemma step_spec d l o : rg d l -> legal_op l o ->
  exists d', step d o = Ok (d', snd (seq_step l o)) /\ rg d' (fst (seq_step l o)).
Proof.
  assert (Hlast : forall (l0 : list A) x, skipn (length (l0 ++ [x]) - 1) (l0 ++ [x]) = [x]).
  { intros l0 x. rewrite app_length. cbn [length]. replace (length l0 + 1 - 1)%nat with (length l0 + 0)%nat by lia.
    rewrite skipn_app, (skipn_all2 l0) by lia. replace (length l0 + 0 - length l0)%nat with 0%nat by lia. reflexivity. }
  intros Hr Hl. destruct o; cbn [step seq_step fst snd legal_op] in *.
  - destruct (push_back_spec d l x Hr) as (d' & -> & H). cbn. eauto.
  - destruct (push_front_spec d l x Hr) as (d' & -> & H). cbn. eauto.
  - destruct (exists_last Hl) as (l0 & x & ->). destruct (pop_back_spec d x l0 Hr) as (d' & -> & H & _). cbn [bind fst snd].
    rewrite removelast_last, Hlast. eauto.
  - destruct l as [|x l]; [congruence|]. destruct (pop_front_spec d x l Hr) as (d' & -> & H & _). cbn. eauto.
  - destruct (exists_last Hl) as (l0 & x & ->). destruct (pop_back_spec d x l0 Hr) as (d' & -> & H & _). cbn [bind fst snd].
    rewrite removelast_last, Hlast. eauto.
  - destruct l as [|x l]; [congruence|]. destruct (pop_front_spec d x l Hr) as (d' & -> & H & _). cbn. eauto.
  - destruct (insert_n_spec d l idx xs Hr Hl) as (d' & it & -> & H & _). cbn. eauto.
  - destruct Hl as (H1 & H2 & H3). destruct (erase_n_spec d l idx n Hr H1 H2 H3) as (d' & -> & H & _). cbn. eauto.
  - destruct (reserve_spec d l cap0 Hr Hl) as (d' & ok & -> & H & _). cbn. eauto.
  - destruct (shrink_spec d l Hr) as (d' & -> & H). cbn. eauto.
  - destruct (clear_spec d l Hr) as (d' & -> & H). cbn. eauto.
Qed.

Lemma run_spec ops d l : rg d l -> legal l ops ->
  exists d', run d ops = Ok (d', snd (seq_run l ops)) /\ rg d' (fst (seq_run l ops)).
Proof.
  revert d l. induction ops as [|o ops IH]; intros d l Hst Hl; cbn [run seq_run fst snd].
  - eauto.
  - destruct Hl as [Ho Hl]. destruct (step_spec d l o Hst Ho) as (v1 & -> & H1). cbn [bind fst snd].
    destruct (IH v1 _ H1 Hl) as (v2 & -> & H2). cbn [bind fst snd]. eauto.
Qed.

(** ** iterators as positions *)
Definition it_at d (i : Z) : iter := mkit (Some (nrm (cap d) (start d + i))) (nrm (cap d) (start d + i)).

Lemma toidx_at d i : wf d -> 0 <= i < cap d -> toidx d (nrm (cap d) (start d + i)) = i.
Proof.
  intros Hw Hi. pose proof (wf_start d Hw). unfold toidx. rewrite land_cap by (auto; nrm_tac). nrm_tac.
Qed.

Lemma advance_spec d l i n : rg d l -> 0 <= i < zlen l -> 0 <= n -> i + n < zlen l ->
  advance d (it_at d i) n = it_at d (i + n).
Proof.
  intros Hr Hi Hn Hin. pose proof Hr as (Hw & Hz & _). pose proof (wf_start d Hw).
  unfold advance, it_at. cbn [pos ref]. rewrite toidx_at by (auto; lia). rewrite (rg_size d l Hr).
  destruct (Z.leb_spec 0 (i + n)), (Z.ltb_spec (i + n) (zlen l)); try lia. cbn [andb].
  rewrite land_cap by (auto; nrm_tac).
  assert (nrm (cap d) (nrm (cap d) (start d + i) + n) = nrm (cap d) (start d + (i + n))) as -> by nrm_tac.
  f_equal. f_equal. lia.
Qed.

Lemma erase_at_spec d l i x : rg d l -> aget l i = Ok x ->
  exists d', erase_at d (it_at d i) = Ok (d', [x], if i + 1 =? zlen l then mkit None (pos (it_at d i)) else it_at d' i) /\
    rg d' (firstn (Z.to_nat i) l ++ skipn (Z.to_nat (i + 1)) l).
Proof.
  intros Hr Hx. pose proof (aget_ok_range _ _ _ Hx) as Ri. pose proof Hr as (Hw & Hz & He & _).
  pose proof (wf_start d Hw). pose proof (wf_end d Hw).
  unfold erase_at, it_at. cbn [pos ref]. rewrite toidx_at by (auto; lia).
  destruct (erase_n_spec d l i 1 Hr) as (d' & E & Hr' & S' & C' & D'); try lia. rewrite E. cbn [bind fst snd].
  exists d'. split; [|exact Hr']. rewrite C', S'.
  assert (Hsl : rev (firstn (Z.to_nat 1) (skipn (Z.to_nat i) l)) = [x]).
  { rewrite (skipn_S_aget l (Z.to_nat i) x) by (rewrite Z2Nat.id by lia; exact Hx). reflexivity. }
  rewrite Hsl. f_equal. f_equal. rewrite D', He.
  destruct (Z.eqb_spec (nrm (cap d) (start d + i)) (nrm (cap d) (nrm (cap d) (start d + zlen l) - 1))) as [E1|E1],
    (Z.eqb_spec (i + 1) (zlen l)) as [E2|E2]; auto.
  - exfalso. revert E1. nrm_tac.
  - exfalso. apply E1. nrm_tac.
Qed.

Lemma erase_range_spec d l i j : rg d l -> 0 <= i -> i <= j -> j < zlen l ->
  exists d', erase_range d (it_at d i) (it_at d j) =
     Ok (d', rev (firstn (Z.to_nat (j - i)) (skipn (Z.to_nat i) l)), it_at d' i) /\
    rg d' (firstn (Z.to_nat i) l ++ skipn (Z.to_nat j) l).
Proof.
  intros Hr Hi Hij Hj. pose proof Hr as (Hw & Hz & He & _). pose proof (wf_start d Hw). pose proof (wf_end d Hw).
  unfold erase_range, it_at. cbn [pos ref]. rewrite !toidx_at by (auto; lia).
  destruct (erase_n_spec d l i (j - i) Hr) as (d' & E & Hr' & S' & C' & D'); try lia. rewrite E. cbn [bind fst snd].
  replace (i + (j - i)) with j in Hr' by lia.
  exists d'. split; [|exact Hr']. rewrite C', S'. f_equal. f_equal. rewrite D', He.
  destruct (Z.eqb_spec (nrm (cap d) (start d + i)) (nrm (cap d) (nrm (cap d) (start d + zlen l) - (j - i)))) as [E1|E1]; auto.
  exfalso. revert E1. nrm_tac.
Qed.

Lemma insert_at_spec d l i x : rg d l -> 0 <= i < zlen l ->
  exists d' it, insert_at d (it_at d i) x = Ok (d', it) /\ it = it_at d' i /\
    rg d' (firstn (Z.to_nat i) l ++ [x] ++ skipn (Z.to_nat i) l).
Proof.
  intros Hr Hi. pose proof Hr as (Hw & Hz & _).
  unfold insert_at, it_at. cbn [pos]. rewrite toidx_at by (auto; lia).
  destruct (insert_n_spec d l i [x] Hr) as (d' & it & E & Hr' & Hit); [lia|].
  destruct (Hit ltac:(discriminate)) as [H1 H2].
  exists d', it. split; [exact E|]. split; [|exact Hr'].
  destruct it as [rf ps]. cbn [ref pos] in *. subst. reflexivity.
Qed.

(** search *)
Lemma find_loop_spec eqb fuel d l raw (k : nat) : rg d l -> (k <= length l)%nat -> (length l - k < fuel)%nat ->
  exists it, find_loop eqb fuel d
     (mkit (if Z.of_nat k =? zlen l then None else Some (nrm (cap d) (start d + Z.of_nat k))) (nrm (cap d) (start d + Z.of_nat k))) end_ raw = Ok it /\
   ((exists i x, Z.of_nat k <= i /\ it = it_at d i /\ aget l i = Ok x /\ eqb raw x = true /\
        forall j y, Z.of_nat k <= j < i -> aget l j = Ok y -> eqb raw y = false) \/
    (ref it = None /\ forall j y, Z.of_nat k <= j -> aget l j = Ok y -> eqb raw y = false)).
Proof.
  intros Hr. revert k. induction fuel as [|fuel IH]; intros k Hk Hf; [lia|]. cbn [find_loop ref end_].
  destruct (Z.eqb_spec (Z.of_nat k) (zlen l)) as [E|E].
  - eexists. split; [reflexivity|]. right. split; [reflexivity|]. intros j y Hj Hy. pose proof (aget_ok_range _ _ _ Hy). lia.
  - cbn [oeqb]. destruct (aget_some l (Z.of_nat k)) as [x Hx]; [unfold zlen in *; lia|].
    rewrite (rg_rd d l _ x Hr Hx). cbn [bind]. destruct (eqb raw x) eqn:Ex.
    + eexists. split; [reflexivity|]. left. exists (Z.of_nat k), x. repeat split; auto; try lia.
    + rewrite (next_spec d l) by (auto; unfold zlen in *; lia). replace (Z.of_nat k + 1) with (Z.of_nat (S k)) by lia.
      destruct (IH (S k)) as (it & Eit & Hit); [unfold zlen in *; lia|unfold zlen in *; lia|].
      exists it. split; [exact Eit|]. destruct Hit as [(i & y & H1 & H2 & H3 & H4 & H5)|[H1 H2]].
      * left. exists i, y. repeat split; auto; [lia|]. intros j z Hj Hz.
        destruct (Z.eq_dec j (Z.of_nat k)) as [->|]; [congruence|]. apply (H5 j); auto. lia.
      * right. split; auto. intros j z Hj Hz. destruct (Z.eq_dec j (Z.of_nat k)) as [->|]; [congruence|]. apply (H2 j); auto. lia.
Qed.
End P.
