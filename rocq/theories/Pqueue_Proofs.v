(** Proofs about the pqueue model. *)
From Coq Require Import Sorted.
From Verif Require Import Base Order Slots Pqueue_Model Pqueue_Spec.
Ltac Zify.zify_post_hook ::= Z.div_mod_to_equations.

Section P.
Context {A : Type}.
Variable less : A -> A -> bool.
Hypothesis Hswo : strict_weak_order less.
Notation le := (leb_of less).

(** element at base-1 index [c] is not greater than the one at [p] *)
Definition le_at (l : list A) (c p : Z) : Prop :=
  forall x y, aget l (c - 1) = Ok x -> aget l (p - 1) = Ok y -> le x y.

(** heap order for all parents >= k *)
Definition heap_from (k : Z) (l : list A) : Prop :=
  forall c, 2 <= c <= zlen l -> k <= c / 2 -> le_at l c (c / 2).

Definition heap (l : list A) : Prop := heap_from 1 l.

Lemma aset_get (l l' : list A) i x : aset l i x = Ok l' ->
  forall k, aget l' k = if k =? i then Ok x else aget l k.
Proof. intros H k. eapply aget_aset; eauto. Qed.

(** swapping on the slots and on the live list *)
Lemma holds_swap s (l : list A) i j xi xj :
  holds s l -> aget l i = Ok xi -> aget l j = Ok xj -> 
  exists s1 s2 l', wr s i xj = Ok s1 /\ wr s1 j xi = Ok s2 /\ holds s2 l' /\ zlen s2 = zlen s /\
    aswap l i j = Ok l'.
Proof.
  intros Hs Hi Hj.
  pose proof (aget_ok_range _ _ _ Hi) as Ri. pose proof (aget_ok_range _ _ _ Hj) as Rj.
  destruct (aset_some l i xj Ri) as [l1 H1].
  destruct (holds_wr s l i xj l1 Hs H1) as (s1 & W1 & Hs1 & Z1).
  destruct (aset_some l1 j xi) as [l2 H2]; [rewrite (aset_zlen _ _ _ _ H1); exact Rj|].
  destruct (holds_wr s1 l1 j xi l2 Hs1 H2) as (s2 & W2 & Hs2 & Z2).
  exists s1, s2, l2. repeat split; auto; try lia.
  unfold aswap. rewrite Hi. cbn [bind]. rewrite Hj. cbn [bind]. rewrite H1. exact H2.
Qed.

Lemma sift_loop_spec fuel s l r k :
  holds s l -> 1 <= r -> 1 <= k ->
  zlen l - r + 1 <= Z.of_nat fuel -> 1 <= Z.of_nat fuel ->
  (forall c, 2 <= c <= zlen l -> k <= c / 2 -> c / 2 <> r -> le_at l c (c / 2)) ->
  (forall c, 2 <= c <= zlen l -> c / 2 = r -> k <= r / 2 -> 2 <= r -> le_at l c (r / 2)) ->
  exists s' l', sift_loop less fuel s r (r * 2) (zlen l) = Ok s' /\ holds s' l' /\
    zlen s' = zlen s /\ Permutation l l' /\ heap_from k l'.
Proof.
  revert s l r. induction fuel as [|fuel IH]; intros s l r Hs Hr Hk Hf Hf1 Hh Hg; [lia|].
  cbn [sift_loop]. destruct (Z.leb_spec (r * 2) (zlen l)) as [Hc|Hc].
  - set (n := zlen l) in *. set (c := r * 2) in *.
    destruct (aget_some l (c - 1)) as [x Hx]; [unfold n, c in *; lia|].
    destruct (aget_some l (c + (if c <? n then 1 else 0) - 1)) as [y Hy];
      [destruct (Z.ltb_spec c n); unfold n, c in *; lia|].
    rewrite (holds_rd s l) by (auto; unfold n, c in *; lia). rewrite Hx. cbn [bind].
    rewrite (holds_rd s l) by (auto; destruct (Z.ltb_spec c n); unfold n, c in *; lia). rewrite Hy. cbn [bind].
    set (c1 := c + (if less x y then 1 else 0)) in *.
    assert (Hc1 : c <= c1 <= n /\ c1 / 2 = r /\ (c1 = c \/ c1 = c + 1)).
    { unfold c1. destruct (less x y) eqn:E; [|unfold c in *; lia].
      destruct (Z.ltb_spec c n); [unfold c in *; lia|].
      replace (c + 0 - 1) with (c - 1) in Hy by lia. rewrite Hx in Hy. injection Hy as <-.
      rewrite (swo_irrefl _ Hswo) in E. discriminate. }
    destruct (aget_some l (r - 1)) as [ar Har]; [unfold n, c in *; lia|].
    destruct (aget_some l (c1 - 1)) as [ac Hac]; [unfold n, c in *; lia|].
    rewrite (holds_rd s l) by (auto; unfold n, c in *; lia). rewrite Har. cbn [bind].
    rewrite (holds_rd s l) by (auto; unfold n, c in *; lia). rewrite Hac. cbn [bind].
    (* ac is the largest child *)
    assert (Hmax : forall d z, 2 <= d <= n -> d / 2 = r -> aget l (d - 1) = Ok z -> le z ac).
    { intros d z Hd Hd2 Hz. assert (d = c \/ d = c + 1) as [->| ->] by (unfold c; lia).
      - rewrite Hx in Hz. injection Hz as <-.
        unfold c1 in Hac. destruct (less x y) eqn:E.
        + destruct (Z.ltb_spec c n); [|lia]. rewrite Hy in Hac. injection Hac as <-. apply less_le; auto.
        + replace (c + 0 - 1) with (c - 1) in Hac by lia. rewrite Hx in Hac. injection Hac as <-. apply le_refl; auto.
      - destruct (Z.ltb_spec c n); [|lia]. rewrite Hy in Hz. injection Hz as <-.
        unfold c1 in Hac. destruct (less x y) eqn:E.
        + rewrite Hy in Hac. injection Hac as <-. apply le_refl; auto.
        + replace (c + 0 - 1) with (c - 1) in Hac by lia. rewrite Hx in Hac. injection Hac as <-. exact E. }
    destruct (less ar ac) eqn:E; cbn [negb].
    + destruct (holds_swap s l (r - 1) (c1 - 1) ar ac Hs Har Hac) as (s1 & s2 & l2 & W1 & W2 & Hs2 & Z2 & Sw).
      rewrite W1. cbn [bind]. rewrite W2. cbn [bind].
      pose proof (aswap_Permutation _ _ _ _ Sw) as Pm.
      pose proof Sw as Sw'. apply aswap_inv in Sw' as (x1 & y1 & Hx1 & Hy1 & Zl2 & G).
      rewrite Har in Hx1. injection Hx1 as <-. rewrite Hac in Hy1. injection Hy1 as <-.
      replace n with (zlen l2) by (unfold n; lia).
      destruct (IH s2 l2 c1) as (s' & l' & R & Hs' & Z' & P' & H'); auto; try (unfold n, c in *; lia).
      * (* heap except at c1 *)
        intros d Hd Hdk Hdc u w Hu Hw. rewrite G in Hu, Hw.
        destruct (Z.eqb_spec (d - 1) (c1 - 1)).
        -- (* d = c1, parent r *) assert (d = c1) by lia. subst d. injection Hu as <-.
           destruct (Z.eqb_spec (c1 / 2 - 1) (c1 - 1)); [unfold c in *; lia|].
           destruct (Z.eqb_spec (c1 / 2 - 1) (r - 1)); [|lia]. injection Hw as <-. apply less_le; auto.
        -- destruct (Z.eqb_spec (d - 1) (r - 1)).
           ++ (* d = r, parent r/2 *) assert (d = r) by lia. subst d. injection Hu as <-.
              destruct (Z.eqb_spec (r / 2 - 1) (c1 - 1)); [unfold c in *; lia|].
              destruct (Z.eqb_spec (r / 2 - 1) (r - 1)); [lia|].
              apply (Hg c1); auto; unfold c in *; lia.
           ++ destruct (Z.eqb_spec (d / 2 - 1) (c1 - 1)); [lia|].
              destruct (Z.eqb_spec (d / 2 - 1) (r - 1)).
              ** injection Hw as <-. apply (Hmax d); auto; [unfold n in *; lia|lia].
              ** apply (Hh d); auto; unfold n in *; lia.
      * (* grandparent condition *)
        intros d Hd Hd2 Hk2 Hr2 u w Hu Hw. rewrite G in Hu, Hw.
        destruct (Z.eqb_spec (d - 1) (c1 - 1)); [lia|]. destruct (Z.eqb_spec (d - 1) (r - 1)); [unfold c in *; lia|].
        destruct (Z.eqb_spec (c1 / 2 - 1) (c1 - 1)); [lia|].
        destruct (Z.eqb_spec (c1 / 2 - 1) (r - 1)); [|lia]. injection Hw as <-.
        assert (le_at l d (d / 2)) as HH by (apply Hh; unfold n, c in *; lia).
        apply (HH u ac); [exact Hu|]. rewrite Hd2. exact Hac.
      * exists s', l'. split; [exact R|]. split; [exact Hs'|]. split; [lia|]. split; [|exact H'].
        eapply perm_trans; eauto.
    + exists s, l. split; [reflexivity|]. split; [exact Hs|]. split; [reflexivity|]. split; [apply Permutation_refl|].
      intros d Hd Hdk u w Hu Hw. destruct (Z.eq_dec (d / 2) r) as [Er|].
      * rewrite Er in Hw. rewrite Har in Hw. injection Hw as <-.
        eapply (le_trans less Hswo); [|exact E]. apply (Hmax d); auto.
      * eapply (Hh d); eauto.
  - exists s, l. split; [reflexivity|]. split; [exact Hs|]. split; [reflexivity|]. split; [apply Permutation_refl|].
    intros d Hd Hdk. apply Hh; auto. lia.
Qed.

Lemma sift_down_spec s l r k n :
  holds s l -> zlen l = n -> 1 <= r -> 1 <= k ->
  (forall c, 2 <= c <= n -> k <= c / 2 -> c / 2 <> r -> le_at l c (c / 2)) ->
  (forall c, 2 <= c <= n -> c / 2 = r -> k <= r / 2 -> 2 <= r -> le_at l c (r / 2)) ->
  exists s' l', sift_down less s r n = Ok s' /\ holds s' l' /\
    zlen s' = zlen s /\ Permutation l l' /\ heap_from k l'.
Proof.
  intros Hs <- Hr Hk Hh Hg. unfold sift_down. pose proof (zlen_nonneg l).
  apply sift_loop_spec; auto; lia.
Qed.

Lemma make_heap_loop_spec k s l :
  holds s l -> Z.of_nat k <= zlen l / 2 ->
  heap_from (Z.of_nat k + 1) l ->
  exists s' l', make_heap_loop less k s (zlen l) = Ok s' /\ holds s' l' /\ zlen s' = zlen s /\
    Permutation l l' /\ heap l'.
Proof.
  revert s l. induction k as [|k IH]; intros s l Hs Hk Hh.
  - exists s, l. repeat split; auto.
  - cbn [make_heap_loop].
    destruct (sift_down_spec s l (Z.of_nat (S k)) (Z.of_nat (S k)) (zlen l)) as (s1 & l1 & E1 & Hs1 & Z1 & P1 & H1);
      auto; try lia.
    { intros c Hc Hc2 Hne. apply Hh; lia. }
    rewrite E1. cbn [bind].
    assert (Hl1 : zlen l1 = zlen l) by (unfold zlen; now rewrite (Permutation_length P1)).
    rewrite <- Hl1.
    destruct (IH s1 l1) as (s2 & l2 & E2 & Hs2 & Z2 & P2 & H2); auto; try lia.
    { replace (Z.of_nat k + 1) with (Z.of_nat (S k)) by lia. exact H1. }
    exists s2, l2. repeat split; auto; [lia|]. eapply perm_trans; eauto.
Qed.

(** ** push *)
Lemma sift_up_spec fuel s l x c r :
  (* [l] with a hole at base-1 index c; the virtual contents put x there *)
  holds s l -> 1 <= c <= zlen l -> c <= Z.of_nat fuel ->
  aset l (c - 1) x = Ok r -> 
  (forall d, 2 <= d <= zlen l -> d / 2 <> c -> d <> c -> le_at l d (d / 2)) ->
  (forall d, 2 <= d <= zlen l -> d / 2 = c -> forall u, aget l (d - 1) = Ok u -> le u x) ->
  (forall d, 2 <= d <= zlen l -> d / 2 = c -> 2 <= c -> le_at l d (c / 2)) ->
  exists s' l' c' s2 r', sift_up_loop less fuel s x c = Ok (s', c') /\ holds s' l' /\ zlen s' = zlen s /\
    wr s' (c' - 1) x = Ok s2 /\ holds s2 r' /\ zlen s2 = zlen s /\ Permutation r r' /\ heap r' /\ zlen r' = zlen l.
Proof.
  revert s l c r. induction fuel as [|fuel IH]; intros s l c r Hs Hc Hf Hr Hh Hch Hgp; [lia|].
  cbn [sift_up_loop].
  (* stopping is correct when the parent is not less *)
  assert (Hstop : (c = 1 \/ exists p, aget l (c / 2 - 1) = Ok p /\ le x p) ->
    exists s' l' c' s2 r', Ok (s, c) = Ok (s', c') /\ holds s' l' /\ zlen s' = zlen s /\
    wr s' (c' - 1) x = Ok s2 /\ holds s2 r' /\ zlen s2 = zlen s /\ Permutation r r' /\ heap r' /\ zlen r' = zlen l).
  { intros Hpar.
    destruct (holds_wr s l (c - 1) x r Hs Hr) as (s2 & W & Hs2 & Z2).
    exists s, l, c, s2, r. repeat split; auto; [|eapply aset_zlen; eauto].
    pose proof (aset_get _ _ _ _ Hr) as G. pose proof (aset_zlen _ _ _ _ Hr) as Zr.
    intros d Hd _ u w Hu Hw. rewrite Zr in Hd. rewrite G in Hu, Hw.
    destruct (Z.eqb_spec (d - 1) (c - 1)).
    - assert (d = c) by lia. subst d. injection Hu as <-.
      destruct (Z.eqb_spec (c / 2 - 1) (c - 1)); [lia|].
      destruct Hpar as [->|(p & Hp & Hxp)]; [lia|]. rewrite Hp in Hw. injection Hw as <-. exact Hxp.
    - destruct (Z.eqb_spec (d / 2 - 1) (c - 1)).
      + injection Hw as <-. apply (Hch d); auto. lia.
      + apply (Hh d); auto; lia. }
  destruct (Z.ltb_spec 1 c) as [H1|H1].
  - destruct (aget_some l (c / 2 - 1)) as [p Hp]; [lia|].
    rewrite (holds_rd s l) by (auto; lia). rewrite Hp. cbn [bind].
    destruct (less p x) eqn:E.
    + destruct (aset_some l (c - 1) p) as [l1 Hl1]; [lia|].
      destruct (holds_wr s l (c - 1) p l1 Hs Hl1) as (s1 & W1 & Hs1 & Z1).
      rewrite W1. cbn [bind]. pose proof (aset_zlen _ _ _ _ Hl1) as Zl1.
      pose proof (aset_get _ _ _ _ Hl1) as G1.
      destruct (aset_some l1 (c / 2 - 1) x) as [r1 Hr1]; [lia|].
      destruct (IH s1 l1 (c / 2) r1) as (s' & l' & c' & s2 & r' & E' & Hs' & Z' & W' & Hs2' & Z2' & P' & H' & Zr'); auto; try lia.
      * intros d Hd Hdc Hdne u w Hu Hw. rewrite G1 in Hu, Hw.
        destruct (Z.eqb_spec (d - 1) (c - 1)).
        { assert (d = c) by lia. subst d. lia. }
        destruct (Z.eqb_spec (d / 2 - 1) (c - 1)).
        { injection Hw as <-. apply (Hgp d) with (x := u) (y := p); auto; lia. }
        apply (Hh d); auto; lia.
      * intros d Hd Hdc u Hu. rewrite G1 in Hu. destruct (Z.eqb_spec (d - 1) (c - 1)).
        { injection Hu as <-. apply less_le; auto. }
        apply (le_trans less Hswo) with (y := p); [|apply less_le; auto].
        apply (Hh d) with (x := u) (y := p); auto; try lia. rewrite Hdc. exact Hp.
      * intros d Hd Hdc Hc2 u w Hu Hw. rewrite G1 in Hu, Hw.
        destruct (Z.eqb_spec (c / 2 / 2 - 1) (c - 1)); [lia|].
        assert (le p w).
        { apply (Hh (c / 2)); auto; lia. }
        destruct (Z.eqb_spec (d - 1) (c - 1)); [injection Hu as <-; auto|].
        apply (le_trans less Hswo) with (y := p); auto.
        apply (Hh d) with (x := u) (y := p); auto; try lia. rewrite Hdc. exact Hp.
      * exists s', l', c', s2, r'. split; [exact E'|]. repeat split; auto; try lia.
        eapply perm_trans; [|exact P'].
        (* r is l with x at c; r1 is l with p at c and x at c/2: a swap *)
        destruct (aget_some l (c - 1)) as [o Ho]; [lia|].
        pose proof (aset_Permutation _ _ _ _ _ Ho Hr) as Q1.
        pose proof (aset_Permutation _ _ _ _ _ Ho Hl1) as Q2.
        assert (Hp1 : aget l1 (c / 2 - 1) = Ok p) by (rewrite G1; destruct (Z.eqb_spec (c / 2 - 1) (c - 1)); auto).
        pose proof (aset_Permutation _ _ _ _ _ Hp1 Hr1) as Q3.
        (* o::r ~ x::l ; o::l1 ~ p::l ; p::r1 ~ x::l1 *)
        apply Permutation_cons_inv with (a := o). apply Permutation_cons_inv with (a := p).
        rewrite Q1. rewrite (perm_swap o p r1). rewrite Q3. rewrite (perm_swap x o l1). rewrite Q2.
        apply perm_swap.
    + apply Hstop. right. exists p. split; auto.
  - apply Hstop. left. lia.
Qed.

(** ** representation *)
Definition repr (q : pqueue A) (l : list A) : Prop :=
  holds (buf q) l /\ size q = zlen l /\ heap l.

Lemma repr_init : repr init [].
Proof. repeat split; [apply holds_nil|]. intros c Hc. cbn in Hc. lia. Qed.

Lemma holds_reserve (q : pqueue A) l cap : holds (buf q) l -> size q = zlen l -> 0 <= cap ->
  holds (buf (reserve q cap)) l /\ size (reserve q cap) = zlen l /\ cap <= Z.max (capacity (reserve q cap)) (zlen l).
Proof.
  intros Hh Hs Hc. unfold reserve, capacity. pose proof (holds_zlen _ _ Hh).
  destruct (Z.eqb_spec cap (size q)); cbn [negb andb].
  - repeat split; auto.
    + cbn [buf]. apply holds_realloc; auto. lia.
    + cbn [buf]. rewrite zlen_realloc by lia. lia.
  - destruct (Z.leb_spec cap (zlen (buf q))).
    + repeat split; auto. lia.
    + repeat split; auto.
      * cbn [buf]. apply holds_realloc; auto. lia.
      * cbn [buf]. rewrite zlen_realloc by lia. lia.
Qed.

Lemma push_spec q l x : repr q l ->
  exists q' l', push less q x = Ok q' /\ repr q' l' /\ Permutation l' (x :: l).
Proof.
  intros (Hh & Hs & Hp). unfold push.
  set (q1 := if size q =? capacity q then reserve q (size q * 3 / 2 + 4) else q).
  pose proof (zlen_nonneg l).
  assert (Hq1 : holds (buf q1) l /\ size q1 = zlen l /\ zlen l < zlen (buf q1)).
  { unfold q1. destruct (Z.eqb_spec (size q) (capacity q)).
    - destruct (holds_reserve q l (size q * 3 / 2 + 4)) as (H1 & H2 & H3); auto; [lia|].
      repeat split; auto. unfold capacity in H3. lia.
    - repeat split; auto. pose proof (holds_zlen _ _ Hh). unfold capacity in *. lia. }
  destruct Hq1 as (Hh1 & Hs1 & Hcap).
  rewrite Hs1.
  (* extend the live prefix by the virtual element: the loop never reads slot [size] *)
  destruct (holds_wr_end (buf q1) l x Hh1 Hcap) as (s1 & W1 & Hs1' & Z1).
  (* simulate on the buffer with slot [size] already holding x *)
  assert (Hsim : forall fuel s s1 c, c <= Z.of_nat fuel -> 1 <= c -> wr s (c - 1) x = Ok s1 -> 
    match sift_up_loop less fuel s1 x c with
    | Ok (t1, c') => exists t, sift_up_loop less fuel s x c = Ok (t, c') /\ forall u, wr t1 (c' - 1) x = Ok u -> wr t (c' - 1) x = Ok u
    | Err e => True
    end).
  { clear - Hswo. induction fuel as [|fuel IH]; intros s s1 c Hf Hc Hw; cbn [sift_up_loop]; [auto|].
    pose proof Hw as Hw'. unfold wr in Hw'. pose proof (aget_aset _ _ _ _ (c / 2 - 1) Hw') as G.
    destruct (Z.ltb_spec 1 c).
    - assert (Hrd : rd s1 (c / 2 - 1) = rd s (c / 2 - 1)).
      { unfold rd. rewrite G. destruct (Z.eqb_spec (c / 2 - 1) (c - 1)); [lia|reflexivity]. }
      rewrite Hrd. destruct (rd s (c / 2 - 1)) as [p|e] eqn:Ep; cbn [bind]; [|exact I].
      destruct (less p x).
      + assert (Hww : forall v, wr s1 (c - 1) v = wr s (c - 1) v).
        { intros v. apply aset_inv in Hw' as [Hr ->]. unfold wr, aset.
          replace (zlen (upd s (Z.to_nat (c - 1)) (Some x))) with (zlen s) by (unfold zlen; now rewrite length_upd).
          destruct ((0 <=? c - 1) && (c - 1 <? zlen s)); [|reflexivity]. f_equal.
          generalize (Z.to_nat (c - 1)) as k. clear. induction s as [|h t IHs]; intros [|k]; cbn; auto. now rewrite IHs. }
        rewrite Hww. destruct (wr s (c - 1) p) as [s2|e] eqn:E2; cbn [bind]; [|exact I].
        destruct (sift_up_loop less fuel s2 x (c / 2)) as [[t1 c']|e]; [|exact I].
        exists t1. split; auto.
      + exists s. split; [reflexivity|]. intros u Hu. rewrite <- Hu. symmetry.
        apply aset_inv in Hw' as [Hr ->]. unfold wr, aset.
        replace (zlen (upd s (Z.to_nat (c - 1)) (Some x))) with (zlen s) by (unfold zlen; now rewrite length_upd).
        destruct ((0 <=? c - 1) && (c - 1 <? zlen s)); [|reflexivity]. f_equal.
        generalize (Z.to_nat (c - 1)) as k. clear. induction s as [|h t IHs]; intros [|k]; cbn; auto. now rewrite IHs.
    - exists s. split; [reflexivity|]. intros u Hu. rewrite <- Hu. symmetry.
      apply aset_inv in Hw' as [Hr ->]. unfold wr, aset.
      replace (zlen (upd s (Z.to_nat (c - 1)) (Some x))) with (zlen s) by (unfold zlen; now rewrite length_upd).
      destruct ((0 <=? c - 1) && (c - 1 <? zlen s)); [|reflexivity]. f_equal.
      generalize (Z.to_nat (c - 1)) as k. clear. induction s as [|h t IHs]; intros [|k]; cbn; auto. now rewrite IHs. }
  specialize (Hsim (S (Z.to_nat (zlen l + 1))) (buf q1) s1 (zlen l + 1) ltac:(lia) ltac:(lia)).
  replace (zlen l + 1 - 1) with (zlen l) in Hsim by lia. specialize (Hsim W1).
  assert (HL : zlen (l ++ [x]) = zlen l + 1) by (rewrite zlen_app; reflexivity).
  destruct (sift_up_spec (S (Z.to_nat (zlen l + 1))) s1 (l ++ [x]) x (zlen l + 1) (l ++ [x]))
    as (s' & l' & c' & s2 & r' & E' & Hs' & Z' & W' & Hs2' & Z2' & P' & H' & Zr'); auto; try lia.
  { replace (zlen l + 1 - 1) with (zlen l) by lia. rewrite aset_ok by lia. f_equal.
    replace (Z.to_nat (zlen l)) with (length l) by (unfold zlen; lia). apply upd_app_cons. }
  { intros d Hd Hd1 Hd2 u w Hu Hw. rewrite aget_app1 in Hu by lia. rewrite aget_app1 in Hw by lia.
    apply (Hp d); auto; lia. }
  rewrite E' in Hsim. destruct Hsim as (t & Et & Ht).
  rewrite Et. cbn [bind fst snd]. rewrite (Ht _ W'). cbn [bind].
  eexists _, r'. split; [reflexivity|]. split.
  - repeat split; auto. cbn [size]. lia.
  - rewrite <- P'. symmetry. apply Permutation_cons_append.
Qed.

(** the heap's root is maximal *)
Lemma heap_root l m : heap l -> aget l 0 = Ok m -> forall y, In y l -> less m y = false.
Proof.
  intros Hh Hm y Hy. apply In_aget in Hy as (i & Hi & Hy).
  assert (HH : forall k, 0 <= k -> forall i y, 0 <= i <= k -> aget l i = Ok y -> le y m).
  { intros k Hk. pattern k. apply natlike_ind; auto; clear k Hk i y Hi Hy.
    - intros i y Hi Hy. assert (i = 0) by lia. subst i. rewrite Hm in Hy. injection Hy as <-. apply le_refl; auto.
    - intros k Hk IH i y Hi Hy. destruct (Z.eq_dec i 0) as [->|].
      { apply (IH 0); auto; lia. }
      pose proof (aget_ok_range _ _ _ Hy).
      destruct (aget_some l ((i + 1) / 2 - 1)) as [p Hp]; [lia|].
      apply (le_trans less Hswo) with (y := p).
      + apply (Hh (i + 1)) with (x := y) (y := p); auto; try lia. replace (i + 1 - 1) with i by lia. exact Hy.
      + apply (IH ((i + 1) / 2 - 1)); auto. lia. }
  apply (HH i) with (i := i); auto; lia.
Qed.

Lemma split_last (l : list A) : l <> [] -> exists l0 z, l = l0 ++ [z].
Proof. intros H. destruct (exists_last H) as (l0 & z & ->). eauto. Qed.

(** erase_at: the heap survives if the last element is not greater than the parent of the hole *)
Lemma erase_at_spec q l idx d : repr q l -> aget l idx = Ok d ->
  (idx = 0 \/ forall p z, aget l ((idx + 1) / 2 - 1) = Ok p -> aget l (zlen l - 1) = Ok z -> le z p) ->
  exists q' l', erase_at less q idx = Ok (q', d) /\ repr q' l' /\ Permutation l (d :: l').
Proof.
  intros (Hh & Hs & Hp) Hd Hcond.
  pose proof (aget_ok_range _ _ _ Hd) as Ri.
  destruct (split_last l) as (l0 & z & El); [intros ->; cbn in Ri; lia|].
  assert (Zl : zlen l = zlen l0 + 1) by (rewrite El, zlen_app; reflexivity).
  unfold erase_at. rewrite (holds_rd _ l) by (auto; lia). rewrite Hd. cbn [bind].
  rewrite Hs. replace (zlen l - 1) with (zlen l0) in * by lia.
  rewrite (holds_rd _ l) by (auto; lia).
  assert (Hz : aget l (zlen l0) = Ok z).
  { rewrite El, aget_app2 by lia. now rewrite Z.sub_diag. }
  rewrite Hz. cbn [bind].
  destruct (aset_some l idx z Ri) as [l1 Hl1].
  destruct (holds_wr _ l idx z l1 Hh Hl1) as (s1 & W1 & Hs1 & Z1). rewrite W1. cbn [bind].
  pose proof (aset_zlen _ _ _ _ Hl1) as Zl1. pose proof (aset_get _ _ _ _ Hl1) as G1.
  (* live prefix after the removal *)
  set (l2 := firstn (length l0) l1).
  assert (Z2 : zlen l2 = zlen l0).
  { unfold l2. replace (length l0) with (Z.to_nat (zlen l0)) by (unfold zlen; lia).
    rewrite zlen_firstn by apply zlen_nonneg. lia. }
  assert (G2 : forall k, k < zlen l0 -> aget l2 k = if k =? idx then Ok z else aget l k).
  { intros k Hk. unfold l2. replace (length l0) with (Z.to_nat (zlen l0)) by (unfold zlen; lia).
    rewrite aget_firstn by lia. apply G1. }
  assert (Hs2 : holds s1 l2) by (unfold l2; now apply holds_firstn).
  destruct (sift_down_spec s1 l2 (idx + 1) 1 (zlen l0)) as (s' & l' & E' & Hs' & Z' & P' & H'); auto; try lia.
  { intros c Hc Hc1 Hc2 u w Hu Hw. rewrite G2 in Hu by lia. rewrite G2 in Hw by lia.
    destruct (Z.eqb_spec (c / 2 - 1) idx); [lia|].
    destruct (Z.eqb_spec (c - 1) idx).
    - injection Hu as <-. assert (c = idx + 1) by lia. subst c.
      destruct Hcond as [->|Hcond]; [lia|]. apply Hcond; auto.
    - apply (Hp c); auto; lia. }
  { intros c Hc Hc1 Hc2 Hc3 u w Hu Hw. rewrite G2 in Hu by lia. rewrite G2 in Hw by lia.
    destruct (Z.eqb_spec (c - 1) idx); [lia|]. destruct (Z.eqb_spec ((idx + 1) / 2 - 1) idx); [lia|].
    destruct (aget_some l (idx)) as [p Hpp]; [lia|].
    apply (le_trans less Hswo) with (y := p).
    - apply (Hp c) with (x := u) (y := p); auto; try lia. replace (c / 2 - 1) with idx by lia. exact Hpp.
    - apply (Hp (idx + 1)) with (x := p) (y := w); auto; try lia. now replace (idx + 1 - 1) with idx by lia. }
  rewrite E'. cbn [bind]. eexists _, l'. split; [reflexivity|]. split.
  - repeat split; auto. cbn [size]. rewrite <- Z2. unfold zlen. now rewrite (Permutation_length P').
  - rewrite <- P'.
    destruct (Z.eq_dec idx (zlen l0)) as [->|Hne].
    + assert (l2 = l0) as ->.
      { apply aget_ext; [exact Z2|]. intros k Hk. rewrite G2 by lia. destruct (Z.eqb_spec k (zlen l0)); [lia|].
        rewrite El. apply aget_app1. lia. }
      rewrite Hd in Hz. injection Hz as <-. rewrite El. symmetry. apply Permutation_cons_append.
    + assert (Hd0 : aget l0 idx = Ok d) by (rewrite El, aget_app1 in Hd by lia; exact Hd).
      destruct (aset_some l0 idx z) as [l0' Hl0']; [lia|].
      assert (l2 = l0') as ->.
      { apply aget_ext; [rewrite Z2; symmetry; eapply aset_zlen; eauto|].
        intros k Hk. rewrite G2 by lia. rewrite (aset_get _ _ _ _ Hl0').
        destruct (Z.eqb_spec k idx); [reflexivity|]. rewrite El. apply aget_app1. lia. }
      rewrite El. rewrite (aset_Permutation _ _ _ _ _ Hd0 Hl0'). symmetry. apply Permutation_cons_append.
Qed.

Lemma pop_spec q l : repr q l -> l <> [] ->
  exists q' l' m, pop less q = Ok (q', m) /\ top q = Ok m /\ repr q' l' /\ Permutation l (m :: l') /\ maximal less m l.
Proof.
  intros Hr Hne. pose proof Hr as (Hh & Hs & Hp).
  destruct l as [|m l0]; [congruence|].
  assert (Hm : aget (m :: l0) 0 = Ok m) by reflexivity.
  unfold pop. rewrite Hs, zlen_cons. pose proof (zlen_nonneg l0).
  destruct (Z.eqb_spec (1 + zlen l0) 0); [lia|].
  destruct (erase_at_spec q (m :: l0) 0 m) as (q' & l' & E & Hr' & P'); auto.
  exists q', l', m. split; [exact E|]. split.
  { unfold top. rewrite (holds_rd _ (m :: l0)) by (auto; rewrite zlen_cons; lia). reflexivity. }
  split; [exact Hr'|]. split; [exact P'|]. split; [now left|].
  intros y Hy. eapply heap_root; eauto.
Qed.

Lemma clear_loop_spec k s (l : list A) : holds s l -> Z.of_nat k <= zlen l ->
  clear_loop k s = Ok (rev (firstn k l)).
Proof.
  intros Hs. induction k as [|k IH]; intros Hk; [reflexivity|]. cbn [clear_loop].
  rewrite (holds_rd s l) by (auto; lia).
  destruct (aget_some l (Z.of_nat k)) as [x Hx]; [lia|]. rewrite Hx. cbn [bind].
  rewrite IH by lia. cbn [bind].
  assert (firstn (S k) l = firstn k l ++ [x]) as ->.
  { apply aget_nth in Hx as [_ Hx]. rewrite Nat2Z.id in Hx. clear - Hx.
    revert l Hx. induction k as [|k IH]; intros [|h t] Hx; cbn in Hx; try discriminate.
    - injection Hx as ->. reflexivity.
    - change (h :: firstn (S k) t = h :: (firstn k t ++ [x])). now rewrite (IH t Hx). }
  rewrite rev_app_distr. reflexivity.
Qed.

Lemma make_heap_spec (q : pqueue A) l : holds (buf q) l -> size q = zlen l ->
  exists q' l', make_heap less q = Ok q' /\ repr q' l' /\ Permutation l l'.
Proof.
  intros Hh Hs. unfold make_heap. rewrite Hs. pose proof (zlen_nonneg l).
  destruct (make_heap_loop_spec (Z.to_nat (zlen l / 2)) (buf q) l) as (s' & l' & E & Hs' & Z' & P' & H'); auto; try lia.
  { intros c Hc Hc2. lia. }
  rewrite E. cbn [bind]. eexists _, l'. split; [reflexivity|]. split; [|exact P'].
  repeat split; auto. cbn [size]. unfold zlen. now rewrite (Permutation_length P').
Qed.

Lemma step_spec q l o : repr q l -> legal (length l) [o] ->
  exists q' l' out, step less q o = Ok (q', out) /\ repr q' l' /\ bag_step less l o l' out.
Proof.
  intros Hr Hl. destruct o; cbn [step].
  - destruct (push_spec q l x Hr) as (q' & l' & E & Hr' & P). rewrite E. cbn [bind].
    exists q', l', []. split; [reflexivity|]. split; [exact Hr'|]. now constructor.
  - assert (l <> []) by (intros ->; exact Hl).
    destruct (pop_spec q l Hr) as (q' & l' & m & E & _ & Hr' & P & Hm); auto.
    rewrite E. cbn [bind fst snd]. exists q', l', [m]. split; [reflexivity|]. split; [exact Hr'|]. now constructor.
  - destruct Hr as (Hh & Hs & Hp). unfold clear. pose proof (zlen_nonneg l). rewrite (clear_loop_spec _ _ l) by (auto; lia). cbn [bind].
    rewrite Hs. rewrite firstn_all2 by (unfold zlen; lia).
    eexists _, [], (rev l). split; [reflexivity|]. split.
    + repeat split; [apply holds_nil|]. intros c Hc. cbn in Hc. lia.
    + constructor. apply Permutation_rev.
  - destruct Hr as (Hh & Hs & Hp). destruct Hl as [Hcap _].
    destruct (holds_reserve q l cap) as (H1 & H2 & _); auto.
    exists (reserve q cap), l, []. split; [reflexivity|]. split; [now repeat split|]. constructor. apply Permutation_refl.
  - destruct Hr as (Hh & Hs & Hp). unfold shrink_to_fit. pose proof (zlen_nonneg l).
    destruct (holds_reserve q l (size q)) as (H1 & H2 & _); auto; [lia|].
    exists (reserve q (size q)), l, []. split; [reflexivity|]. split; [now repeat split|]. constructor. apply Permutation_refl.
  - destruct Hr as (Hh & Hs & Hp). destruct (make_heap_spec q l) as (q' & l' & E & Hr' & P); auto.
    rewrite E. cbn [bind]. exists q', l', []. split; [reflexivity|]. split; [exact Hr'|]. now constructor.
Qed.

Lemma legal_step (o : op A) ops (l l' : list A) out : bag_step less l o l' out ->
  legal (length l) (o :: ops) -> legal (length l) [o] /\ legal (length l') ops.
Proof.
  intros Hb Hl. destruct Hb; cbn in *;
    repeat match goal with H : Permutation _ _ |- _ => apply Permutation_length in H; cbn in H end.
  - split; [exact I|]. now rewrite H.
  - destruct (length b) as [|n] eqn:E; [contradiction|]. split; [exact I|].
    injection H0 as <-. exact Hl.
  - split; [exact I|exact Hl].
  - destruct Hl as [H1 H2]. split; [split; [exact H1|exact I]|]. now rewrite <- H.
  - split; [exact I|]. now rewrite <- H.
  - split; [exact I|]. now rewrite <- H.
Qed.

Lemma run_spec ops q l : repr q l -> legal (length l) ops ->
  exists q' l' outs, run less q ops = Ok (q', outs) /\ repr q' l' /\ bag_run less l ops l' outs.
Proof.
  revert q l. induction ops as [|o ops IH]; intros q l Hr Hl.
  - exists q, l, []. split; [reflexivity|]. split; [exact Hr|constructor].
  - assert (Hl1 : legal (length l) [o]).
    { destruct o; cbn in *; auto; [destruct (length l); auto|destruct Hl; auto]. }
    destruct (step_spec q l o Hr Hl1) as (q1 & l1 & out & E & Hr1 & Hb).
    destruct (legal_step _ _ _ _ _ Hb Hl) as [_ Hl2].
    destruct (IH q1 l1 Hr1 Hl2) as (q2 & l2 & outs & E2 & Hr2 & Hb2).
    cbn [run]. rewrite E. cbn [bind fst snd]. rewrite E2. cbn [bind fst snd].
    exists q2, l2, (out :: outs). split; [reflexivity|]. split; [exact Hr2|]. econstructor; eauto.
Qed.

(** The elements currently stored, read slot by slot. *)
Lemma repr_top q l : repr q l -> l <> [] -> exists m, top q = Ok m /\ maximal less m l.
Proof.
  intros Hr Hne. destruct (pop_spec q l Hr Hne) as (q' & l' & m & _ & Ht & _ & _ & Hm). eauto.
Qed.

(** Popping everything. *)
Lemma bag_run_pops k b b' outs :
  bag_run less b (repeat Pop k) b' outs -> k = length b ->
  b' = [] /\ exists ms, outs = map (fun m => [m]) ms /\ Permutation b ms /\ sorted_by less (rev ms).
Proof.
  revert b outs. induction k as [|k IH]; intros b outs Hr Hk; inversion Hr; subst.
  - split; [now destruct b'|]. exists []. repeat split; [|constructor]. destruct b'; [apply Permutation_refl|discriminate].
  - inversion H2; subst. pose proof (Permutation_length H0) as HL. cbn in HL.
    destruct (IH b1 outs0 H5) as (-> & ms & -> & Pm & Sm); [lia|].
    split; [reflexivity|]. exists (m :: ms). split; [reflexivity|]. split.
    + rewrite H0. now constructor.
    + cbn [rev]. unfold sorted_by.
      assert (Happ : forall (q : list A) z, StronglySorted (leb_of less) q -> Forall (fun y => leb_of less y z) q ->
                 StronglySorted (leb_of less) (q ++ [z])).
      { induction q as [|h q IHq]; intros z HS HF; cbn; [repeat constructor|].
        inversion HS; subst. inversion HF; subst. constructor; [apply IHq; auto|].
        apply Forall_app. split; auto. }
      apply Happ; [exact Sm|]. apply Forall_forall. intros y Hy. apply in_rev in Hy.
      destruct H as [_ Hmax]. apply Hmax. apply (Permutation_in _ (Permutation_sym H0)).
      right. apply (Permutation_in _ (Permutation_sym Pm)). exact Hy.
Qed.
End P.
