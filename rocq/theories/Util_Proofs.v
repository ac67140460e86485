(** Proofs about the macros of utility.h. *)
From Verif Require Import Base Slots Vec_Model Vec_Spec Vec_Proofs Deque_Model Deque_Spec Deque_Proofs Util_Model.

Section Macros.
Context {A I : Type}.
Variable ref : I -> option Z.
Variable next : I -> I.
(** The iterator yields the pointers [ps]. *)
Fixpoint walk (it : I) (ps : list Z) : Prop :=
  match ps with [] => ref it = None | q :: t => ref it = Some q /\ walk (next it) t end.
Definition at_ptrs (s : slots A) (ps : list Z) (l : list A) : Prop := Forall2 (fun q x => rd s q = Ok x) ps l.

Lemma find_if_ok p s : forall l ps it f, walk it ps -> at_ptrs s ps l -> (length l < f)%nat ->
  match find_if ref next f s it p with
  | Ok None => forallb (fun x => negb (p x)) l = true
  | Ok (Some it') => exists l1 x l2 ps1 q ps2, l = l1 ++ x :: l2 /\ forallb (fun x => negb (p x)) l1 = true /\ p x = true /\ ps = ps1 ++ q :: ps2 /\ length ps1 = length l1 /\ walk it' (q :: ps2)
  | Err _ => False
  end.
Proof.
  induction l as [|x l IH]; intros ps it f HW HA Hf; inversion HA as [|q ? ps' ? Hq HA']; subst; (destruct f as [|f]; [cbn in Hf; lia|]); cbn [find_if].
  - cbn in HW. rewrite HW. reflexivity.
  - destruct HW as [R HW]. rewrite R, Hq. cbn [bind length] in *. destruct (p x) eqn:Ep.
    + exists [], x, l, [], q, ps'. do 5 (split; [auto; reflexivity|]). split; auto.
    + specialize (IH ps' (next it) f HW HA' ltac:(lia)). destruct (find_if ref next f s (next it) p) as [[it'|]|]; [| |exact IH].
      * destruct IH as (l1 & y & l2 & ps1 & q' & ps2 & -> & H1 & H2 & -> & H3 & H4). exists (x :: l1), y, l2, (q :: ps1), q', ps2. cbn. rewrite Ep, H1. do 4 (split; [auto|]). split; auto.
      * cbn. now rewrite Ep, IH.
Qed.
Lemma all_of_ok p s l ps it f : walk it ps -> at_ptrs s ps l -> (length l < f)%nat -> all_of ref next f s it p = Ok (forallb p l).
Proof.
  intros HW HA Hf. unfold all_of. pose proof (find_if_ok (fun x => negb (p x)) s l ps it f HW HA Hf) as H. destruct (find_if _ _ _ _ _ _) as [[it'|]|]; [| |destruct H]; cbn [bind]; f_equal; symmetry.
  - destruct H as (l1 & x & l2 & _ & _ & _ & -> & _ & H2 & _). rewrite forallb_app. cbn. apply negb_true_iff in H2. now rewrite H2, andb_false_r.
  - rewrite forallb_forall in *. intros x Hx. specialize (H x Hx). now rewrite negb_involutive in H.
Qed.
Lemma any_of_ok p s l ps it f : walk it ps -> at_ptrs s ps l -> (length l < f)%nat -> any_of ref next f s it p = Ok (existsb p l) /\ none_of ref next f s it p = Ok (negb (existsb p l)).
Proof.
  intros HW HA Hf. unfold any_of, none_of. pose proof (find_if_ok p s l ps it f HW HA Hf) as H. destruct (find_if _ _ _ _ _ _) as [[it'|]|]; [| |destruct H]; cbn [bind].
  - destruct H as (l1 & x & l2 & _ & _ & _ & -> & _ & H2 & _). rewrite existsb_app. cbn. now rewrite H2, orb_true_r.
  - assert (E : existsb p l = false); [|now rewrite E]. apply not_true_is_false. intros HE. apply existsb_exists in HE as (x & Hx & Hp). rewrite forallb_forall in H. specialize (H x Hx). rewrite Hp in H. discriminate.
Qed.
Lemma append_if_ok {O} (push : O -> A -> res O) p s (R : O -> list A -> Prop) (HP : forall o m x, R o m -> exists o', push o x = Ok o' /\ R o' (m ++ [x])) :
  forall l ps it f o m, walk it ps -> at_ptrs s ps l -> (length l < f)%nat -> R o m -> exists o', append_if ref next push f s it p o = Ok o' /\ R o' (m ++ filter p l).
Proof.
  induction l as [|x l IH]; intros ps it f o m HW HA Hf HR; inversion HA as [|q ? ps' ? Hq HA']; subst; (destruct f as [|f]; [cbn in Hf; lia|]); cbn [append_if].
  - cbn in HW. rewrite HW. exists o. cbn. now rewrite app_nil_r.
  - destruct HW as [Rr HW]. rewrite Rr, Hq. cbn [bind length filter] in *. destruct (p x) eqn:Ep.
    + destruct (HP o m x HR) as (o1 & E1 & R1). rewrite E1. cbn [bind]. destruct (IH ps' (next it) f o1 (m ++ [x]) HW HA' ltac:(lia) R1) as (o' & E & R'). exists o'. split; [exact E|]. now rewrite <- app_assoc in R'.
    + cbn [bind]. apply IH with (ps := ps'); auto. lia.
Qed.

Lemma at_ptrs_wr s s' q x ps l : at_ptrs s ps l -> wr s q x = Ok s' -> ~ In q ps -> at_ptrs s' ps l.
Proof.
  intros H HW. induction H as [|r y ps l Hr H IH]; intros HN; constructor.
  - unfold rd in *. rewrite (aget_aset_other _ _ _ _ r HW); [exact Hr|]. intros ->. apply HN. now left.
  - apply IH. intros HI. apply HN. now right.
Qed.
Lemma rd_wr (s s' : slots A) q x : wr s q x = Ok s' -> rd s' q = Ok x.
Proof. intros H. unfold rd. rewrite (aget_aset_same _ _ _ _ H). reflexivity. Qed.
Lemma rd_range (s : slots A) q x : rd s q = Ok x -> 0 <= q < zlen s.
Proof. unfold rd. destruct (aget s q) eqn:E; [|discriminate]. intros _. eapply aget_ok_range; eauto. Qed.

Lemma er_loop_ok p : forall l qs rs s i it n dr f, walk i (qs ++ rs) -> walk it rs -> NoDup (qs ++ rs) -> at_ptrs s rs l -> Forall (fun q => 0 <= q < zlen s) qs -> (length l < f)%nat ->
  exists s', er_loop ref next f s i it p n dr = Ok (s', n + zlen (filter p l), dr ++ filter p l) /\ zlen s' = zlen s /\
    at_ptrs s' (firstn (length (filter (fun x => negb (p x)) l)) (qs ++ rs)) (filter (fun x => negb (p x)) l) /\
    (forall q, ~ In q (qs ++ rs) -> aget s' q = aget s q).
Proof.
  induction l as [|x l IH]; intros qs rs s i it n dr f HI HT HN HA HQ Hf; inversion HA as [|r ? rs' ? Hr HA']; subst; (destruct f as [|f]; [cbn in Hf; lia|]); cbn [er_loop].
  - cbn in HT. rewrite HT. exists s. cbn [filter length firstn]. rewrite app_nil_r. unfold zlen at 1. cbn [length Z.of_nat]. rewrite Z.add_0_r. do 2 (split; [reflexivity|]). split; [constructor|auto].
  - destruct HT as [Rt HT]. rewrite Rt, Hr. cbn [bind length filter] in *. destruct (p x) eqn:Ep; cbn [negb].
    + destruct (IH (qs ++ [r]) rs' s i (next it) (n + 1) (dr ++ [x]) f) as (s' & E & L & HK & HO); try (rewrite <- app_assoc; assumption); auto; [apply Forall_app; split; auto; constructor; [eapply rd_range; eauto|constructor]|lia|].
      exists s'. rewrite E. rewrite <- !app_assoc in *. cbn [app] in *. split; [f_equal; f_equal; f_equal; rewrite zlen_cons; lia|]. auto.
    + destruct qs as [|q qs].
      * cbn [app] in *. destruct HI as [Ri HI]. rewrite Ri. pose proof (rd_range _ _ _ Hr) as HR. destruct (aset_some s r (Some x) HR) as [s1 Es]. unfold wr at 1. rewrite Es. cbn [bind].
        inversion HN as [|? ? HN1 HN2]; subst.
        destruct (IH [] rs' s1 (next i) (next it) n dr f) as (s' & E & L & HK & HO); cbn [app]; auto; [eapply at_ptrs_wr; eauto|lia|]. cbn [app] in *. exists s'. rewrite E. split; [reflexivity|]. split; [rewrite L; eapply aset_zlen; eauto|].
        split.
        -- cbn [length firstn]. constructor; [|exact HK]. unfold rd. rewrite HO by exact HN1. fold (rd s1 r). eapply rd_wr; eauto.
        -- intros q Hq. rewrite HO; [|intros X; apply Hq; now right]. eapply aget_aset_other; eauto. intros ->. apply Hq. now left.
      * cbn [app] in *. destruct HI as [Ri HI]. rewrite Ri. inversion HQ as [|? ? HQ1 HQ2]; subst. destruct (aset_some s q (Some x) HQ1) as [s1 Es]. unfold wr at 1. rewrite Es. cbn [bind].
        inversion HN as [|? ? HN1 HN2]; subst. pose proof (aset_zlen _ _ _ _ Es) as LZ.
        destruct (IH (qs ++ [r]) rs' s1 (next i) (next it) n dr f) as (s' & E & L & HK & HO); try (rewrite <- app_assoc; assumption); auto.
        -- eapply at_ptrs_wr; eauto. intros X. apply HN1. apply in_or_app. right. now right.
        -- rewrite LZ. apply Forall_app. split; auto. constructor; [eapply rd_range; eauto|constructor].
        -- lia.
        -- exists s'. rewrite E. rewrite <- !app_assoc in *. cbn [app] in *. split; [reflexivity|]. split; [congruence|]. split.
           ++ cbn [length firstn]. constructor; [|exact HK]. unfold rd. rewrite HO by exact HN1. fold (rd s1 q). eapply rd_wr; eauto.
           ++ intros z Hz. rewrite HO; [|intros X; apply Hz; now right]. eapply aget_aset_other; eauto. intros ->. apply Hz. now left.
Qed.
Lemma er_skip_ok p s : forall l ps it f, walk it ps -> at_ptrs s ps l -> (length l < f)%nat ->
  exists it' l1 l2 ps1 ps2, er_skip ref next f s it p = Ok it' /\ l = l1 ++ l2 /\ ps = ps1 ++ ps2 /\ length ps1 = length l1 /\ walk it' ps2 /\ at_ptrs s ps1 l1 /\ at_ptrs s ps2 l2 /\ filter p l1 = [] /\ filter (fun x => negb (p x)) l1 = l1.
Proof.
  induction l as [|x l IH]; intros ps it f HW HA Hf; inversion HA as [|q ? ps' ? Hq HA']; subst; (destruct f as [|f]; [cbn in Hf; lia|]); cbn [er_skip].
  - cbn in HW. rewrite HW. exists it, [], [], [], []. cbn. repeat (split; [reflexivity || assumption || constructor|]). reflexivity.
  - pose proof HW as [R HW']. rewrite R, Hq. cbn [bind length] in *. destruct (p x) eqn:Ep.
    + exists it, [], (x :: l), [], (q :: ps'). cbn [app filter]. do 4 (split; [reflexivity|]). split; [exact HW|]. split; [constructor|]. split; [exact HA|]. split; reflexivity.
    + destruct (IH ps' (next it) f HW' HA' ltac:(lia)) as (it' & l1 & l2 & ps1 & ps2 & E & -> & -> & HL & H1 & H2 & H3 & H4 & H5). exists it', (x :: l1), l2, (q :: ps1), ps2. cbn [app filter length]. rewrite Ep. cbn [negb].
      split; [exact E|]. do 2 (split; [reflexivity|]). split; [auto|]. split; [exact H1|]. split; [constructor; assumption|]. split; [exact H3|]. split; [exact H4|]. now rewrite H5.
Qed.
Lemma eraseremove_ok p l ps s it f : walk it ps -> NoDup ps -> at_ptrs s ps l -> (length l < f)%nat ->
  exists s', eraseremove_if ref next f s it p = Ok (s', zlen (filter p l), filter p l) /\ zlen s' = zlen s /\
    at_ptrs s' (firstn (length (filter (fun x => negb (p x)) l)) ps) (filter (fun x => negb (p x)) l).
Proof.
  intros HW HN HA Hf. destruct (er_skip_ok p s l ps it f HW HA Hf) as (it' & l1 & l2 & ps1 & ps2 & E & -> & -> & HL & H1 & H2 & H3 & H4 & H5). unfold eraseremove_if. rewrite E. cbn [bind].
  destruct (er_loop_ok p l2 [] ps2 s it' it' 0 [] f) as (s' & E2 & L & HK & HO); cbn [app]; auto.
  - clear - HN. induction ps1 as [|a t IH]; [exact HN|]. inversion HN; auto.
  - rewrite app_length in Hf. lia.
  - cbn [app] in *. rewrite !filter_app, H4, H5. exists s'. split; [exact E2|]. split; [exact L|]. rewrite app_length. rewrite firstn_app, <- HL. replace (length ps1 + _ - length ps1)%nat with (length (filter (fun x => negb (p x)) l2)) by lia. rewrite firstn_all2 by lia.
    apply Forall2_app; [|exact HK]. clear - H2 HO HN. induction H2 as [|a b t u Ha H IH]; constructor.
    + unfold rd in *. rewrite HO; [exact Ha|]. inversion HN as [|? ? X _]; subst. intros Y. apply X. apply in_or_app. now right.
    + apply IH. inversion HN; auto.
Qed.
End Macros.

Section Reverse.
Context {A C : Type}.
Variable get : C -> Z -> res A.
Variable put : C -> Z -> A -> res C.
Variable R : C -> list A -> Prop.
Hypothesis R_get : forall c l i, R c l -> 0 <= i < zlen l -> get c i = aget l i.
Hypothesis R_put : forall c l i x l', R c l -> aset l i x = Ok l' -> exists c', put c i x = Ok c' /\ R c' l'.
Lemma rev_loop_ok (l0 : list A) : forall f c l i, R c l -> 0 <= i -> zlen l = zlen l0 -> i <= zlen l0 - i + 1 ->
  (forall k, 0 <= k < zlen l0 -> aget l k = aget l0 (if (k <? i) || (zlen l0 - i <=? k) then zlen l0 - 1 - k else k)) ->
  zlen l0 - i < Z.of_nat f -> exists c', rev_loop get put f c i (zlen l0 - 1 - i) = Ok c' /\ R c' (rev l0).
Proof.
  induction f as [|f IH]; intros c l i HR Hi HL Hb HK Hf.
  - exfalso. pose proof (zlen_nonneg l0). lia.
  - cbn [rev_loop]. destruct (Z.ltb_spec i (zlen l0 - 1 - i)).
    + rewrite (R_get _ _ i HR) by lia. rewrite (R_get _ _ (zlen l0 - 1 - i) HR) by lia. destruct (aget_some l i) as [x Ex]; [lia|]. destruct (aget_some l (zlen l0 - 1 - i)) as [y Ey]; [lia|]. rewrite Ex, Ey. cbn [bind].
      destruct (aset_some l i y) as [l1 E1]; [lia|]. pose proof (aset_zlen _ _ _ _ E1) as L1. destruct (R_put _ _ _ _ _ HR E1) as (c1 & P1 & R1). rewrite P1. cbn [bind].
      destruct (aset_some l1 (zlen l0 - 1 - i) x) as [l2 E2]; [lia|]. pose proof (aset_zlen _ _ _ _ E2) as L2. destruct (R_put _ _ _ _ _ R1 E2) as (c2 & P2 & R2). rewrite P2. cbn [bind].
      replace (zlen l0 - 1 - i - 1) with (zlen l0 - 1 - (i + 1)) by lia. apply (IH c2 l2 (i + 1)); auto; try lia.
      intros k Hk. rewrite (aget_aset _ _ _ _ k E2), (aget_aset _ _ _ _ k E1).
      pose proof (HK i ltac:(lia)) as Ki. pose proof (HK (zlen l0 - 1 - i) ltac:(lia)) as Kj. rewrite Ex in Ki. rewrite Ey in Kj.
      assert (Ni : (i <? i) || (zlen l0 - i <=? i) = false) by (apply orb_false_iff; split; [apply Z.ltb_ge; lia|apply Z.leb_gt; lia]).
      assert (Nj : (zlen l0 - 1 - i <? i) || (zlen l0 - i <=? zlen l0 - 1 - i) = false) by (apply orb_false_iff; split; [apply Z.ltb_ge; lia|apply Z.leb_gt; lia]).
      rewrite Ni in Ki. rewrite Nj in Kj.
      destruct (Z.eqb_spec k (zlen l0 - 1 - i)) as [->|N1].
      * replace ((zlen l0 - 1 - i <? i + 1) || (zlen l0 - (i + 1) <=? zlen l0 - 1 - i)) with true by (symmetry; apply orb_true_iff; right; apply Z.leb_le; lia). rewrite Ki. f_equal. lia.
      * destruct (Z.eqb_spec k i) as [->|N2].
        -- replace ((i <? i + 1) || (zlen l0 - (i + 1) <=? i)) with true by (symmetry; apply orb_true_iff; left; apply Z.ltb_lt; lia). rewrite Kj. reflexivity.
        -- rewrite HK by lia. destruct (Z.ltb_spec k i), (Z.ltb_spec k (i + 1)), (Z.leb_spec (zlen l0 - i) k), (Z.leb_spec (zlen l0 - (i + 1)) k); cbn [orb]; try reflexivity; exfalso; lia.
    + exists c. split; [reflexivity|]. enough (E : l = rev l0) by (rewrite <- E; exact HR). apply aget_ext; [rewrite HL; unfold zlen; now rewrite rev_length|].
      intros k Hk. rewrite HL in Hk. rewrite HK by lia.
      assert (ER : aget (rev l0) k = aget l0 (zlen l0 - 1 - k)).
      { destruct (aget_some (rev l0) k) as [z Ez]; [unfold zlen in *; rewrite rev_length; lia|]. rewrite Ez. apply aget_nth in Ez as [Z0 Ez]. symmetry. apply aget_nth. split; [lia|].
        assert (HH : nth_error (rev l0) (Z.to_nat k) = nth_error l0 (length l0 - S (Z.to_nat k))).
        { clear - Hk. unfold zlen in Hk. destruct (nth_error l0 (length l0 - S (Z.to_nat k))) as [w|] eqn:E; [|apply nth_error_None in E; lia]. rewrite nth_error_nth' with (d := w) by (rewrite rev_length; lia). rewrite rev_nth by lia. f_equal. apply nth_error_nth with (d := w) in E. exact E. }
        rewrite HH in Ez. rewrite <- Ez. f_equal. unfold zlen in *. lia. }
      rewrite ER. destruct (Z.ltb_spec k i), (Z.leb_spec (zlen l0 - i) k); cbn [orb]; try reflexivity. f_equal. lia.
Qed.
Lemma reverse_ok c l : R c l -> exists c', reverse get put c (zlen l) = Ok c' /\ R c' (rev l).
Proof.
  intros HR. unfold reverse. replace (zlen l - 1) with (zlen l - 1 - 0) by lia. pose proof (zlen_nonneg l). apply (rev_loop_ok l _ c l 0); auto; try lia.
  intros k Hk. destruct (Z.ltb_spec k 0), (Z.leb_spec (zlen l - 0) k); cbn [orb]; try reflexivity; lia.
Qed.
End Reverse.
