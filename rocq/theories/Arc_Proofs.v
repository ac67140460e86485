(** Proofs about arc.h. *)
From Verif Require Import Base Arc_Model.
From Coq Require Import Permutation.

Definition handle_dec : forall x y : handle, {x = y} + {x <> y}.
Proof. decide equality; apply Z.eq_dec. Defined.
Definition stage_dec : forall x y : stage, {x = y} + {x <> y}.
Proof. decide equality. Defined.
Definition pend_dec : forall x y : handle * stage, {x = y} + {x <> y}.
Proof. decide equality; [apply stage_dec|apply handle_dec]. Defined.
Definition blk_dec : forall x y : Z * Z, {x = y} + {x <> y}.
Proof. decide equality; apply Z.eq_dec. Defined.

Definition count (h : handle) (l : list handle) : Z := Z.of_nat (count_occ handle_dec l h).
Definition upto (n : Z) : list Z := map Z.of_nat (seq 0 (Z.to_nat n)).
Lemma upto_S n : 0 <= n -> upto (n + 1) = upto n ++ [n].
Proof. intros H. unfold upto. replace (Z.to_nat (n + 1)) with (S (Z.to_nat n)) by lia. rewrite seq_S, map_app. cbn. rewrite Z2Nat.id by lia. reflexivity. Qed.
Lemma upto_In n x : In x (upto n) <-> 0 <= x < n.
Proof. unfold upto. rewrite in_map_iff. split; [intros (k & <- & Hk); apply in_seq in Hk; lia|]. intros H. exists (Z.to_nat x). split; [lia|]. apply in_seq. lia. Qed.
Lemma upto_NoDup n : NoDup (upto n).
Proof. unfold upto. apply FinFun.Injective_map_NoDup; [intros x y; apply Nat2Z.inj|apply seq_NoDup]. Qed.

(** disjoint blocks *)
Definition dis (b c : Z * Z) : Prop := fst b + snd b <= fst c \/ fst c + snd c <= fst b.
Fixpoint disjoint (l : list (Z * Z)) : Prop :=
  match l with [] => True | b :: t => Forall (dis b) t /\ disjoint t end.
Definition within (a : Z) (b : Z * Z) : Prop := fst b <= a < fst b + snd b.
Lemma dis_sym b c : dis b c -> dis c b.
Proof. unfold dis. tauto. Qed.
Lemma disjoint_perm l m : Permutation l m -> disjoint l -> disjoint m.
Proof.
  induction 1; cbn; auto.
  - intros [H1 H2]. split; [|auto]. eapply Permutation_Forall; eauto.
  - intros [H1 [H2 H3]]. inversion H1; subst. split; [constructor; [now apply dis_sym|exact H2]|]. split; assumption.
Qed.
Lemma disjoint_app l m : disjoint (l ++ m) -> forall b c, In b l -> In c m -> dis b c.
Proof.
  induction l as [|x l IH]; cbn; intros H b c Hb Hc; [tauto|]. destruct H as [H1 H2]. destruct Hb as [->|Hb]; [|now apply IH]. rewrite Forall_forall in H1. apply H1. apply in_or_app. now right.
Qed.
Lemma disjoint_r l m : disjoint (l ++ m) -> disjoint m.
Proof. induction l; cbn; tauto. Qed.
Lemma inside_spec bs a : inside bs a = true <-> exists b, In b bs /\ within a b.
Proof.
  unfold inside. rewrite existsb_exists. split; intros (b & Hb & H); exists b; (split; [exact Hb|]); unfold within in *; [apply andb_true_iff in H as [H1 H2]; apply Z.leb_le in H1; apply Z.ltb_lt in H2; lia|apply andb_true_iff; split; [apply Z.leb_le|apply Z.ltb_lt]; lia].
Qed.
Lemma place_spec bs a n : place bs a n = true -> 0 < a /\ Forall (dis (a, n)) bs.
Proof.
  unfold place. rewrite andb_true_iff, forallb_forall. intros [H1 H2]. apply Z.ltb_lt in H1. split; [exact H1|]. apply Forall_forall. intros b Hb. specialize (H2 b Hb). apply orb_true_iff in H2 as [H2|H2]; apply Z.leb_le in H2; unfold dis; cbn; lia.
Qed.
Lemma free_ok bs a n l : Permutation bs ((a, n) :: l) -> disjoint bs -> Forall (fun b => 0 < snd b) bs -> exists bs', free bs a n = Ok bs' /\ Permutation bs' l.
Proof.
  revert l. induction bs as [|b bs IH]; intros l HP HD HF; [apply Permutation_nil in HP; discriminate|]. cbn [free]. destruct HD as [HD1 HD2]. inversion HF as [|? ? F1 F2]; subst.
  destruct (Z.eqb_spec (fst b) a) as [E|N].
  - assert (Hb : b = (a, n)).
    { assert (HI : In (a, n) (b :: bs)) by (eapply Permutation_in; [symmetry; exact HP|now left]). destruct HI as [->|HI]; [reflexivity|]. rewrite Forall_forall in HD1, F2. specialize (HD1 _ HI). specialize (F2 _ HI). unfold dis in HD1. cbn in *. lia. }
    subst b. cbn. rewrite Z.eqb_refl. exists bs. split; [reflexivity|]. now apply Permutation_cons_inv in HP.
  - assert (HI : In b l). { assert (X : In b ((a, n) :: l)) by (eapply Permutation_in; [exact HP|now left]). destruct X as [<-|X]; [cbn in N; lia|exact X]. }
    apply in_split in HI as (l1 & l2 & ->). assert (HP2 : Permutation bs ((a, n) :: l1 ++ l2)).
    { apply Permutation_cons_inv with (a := b). rewrite HP. rewrite perm_swap. apply perm_skip. symmetry. apply Permutation_middle. }
    destruct (IH _ HP2 HD2 F2) as (bs' & -> & H'). cbn [bind]. exists (b :: bs'). split; [reflexivity|]. rewrite H'. apply Permutation_middle.
Qed.
Lemma pick_perm {B} : forall k (l : list B) x r, pick k l = Some (x, r) -> Permutation l (x :: r).
Proof.
  induction k as [|k IH]; intros [|y l] x r; cbn; try discriminate; [intros [= <- <-]; reflexivity|]. destruct (pick k l) as [[z t]|] eqn:E; [|discriminate]. intros [= <- <-]. apply IH in E. rewrite E. apply perm_swap.
Qed.
Lemma thr_split {B} (ts : list B) i t t' : aget ts i = Ok t -> exists a b, ts = a ++ t :: b /\ aset ts i t' = Ok (a ++ t' :: b).
Proof.
  intros H. pose proof (aget_ok_range _ _ _ H) as R. destruct (aset_some ts i t' R) as [ts' E]. apply aget_nth in H as [_ H]. apply nth_error_split in H as (a & b & -> & L). exists a, b. split; [reflexivity|]. rewrite E. f_equal.
  pose proof E as E'. apply aset_inv in E' as [_ ->]. unfold upd. 
  apply aget_ext; [apply aset_zlen in E; unfold upd in E; rewrite E; unfold zlen; rewrite !app_length; reflexivity|]. intros j Hj.
  pose proof (aget_aset _ _ _ _ j E) as G. unfold upd in G. rewrite G. apply aset_zlen in E. unfold upd in E. rewrite E in Hj. clear G E.
  assert (Hi : i = zlen a) by (unfold zlen; lia). subst i. destruct (Z.eqb_spec j (zlen a)) as [->|N].
  - symmetry. apply aget_nth. split; [apply zlen_nonneg|]. rewrite nth_error_app2 by (unfold zlen; lia). replace (Z.to_nat (zlen a) - length a)%nat with 0%nat by (unfold zlen; lia). reflexivity.
  - destruct (Z.lt_ge_cases j (zlen a)).
    + rewrite !aget_app1 by lia. reflexivity.
    + rewrite !aget_app2 by lia. rewrite !aget_cons. destruct (Z.eqb_spec (j - zlen a) 0); [lia|reflexivity].
Qed.

(** the arcs in use *)
Record cell := mkc { cu : Z; cg : Z; cid : Z; cmk : bool; cph : option stage }.
Definition hd (c : cell) : handle := mkh (cg c) (cu c).
Section Inv.
Variables w OFFSET REP VAL EXTRA : Z.
Hypothesis Hw : 0 < w.
Hypothesis Hoff : 0 < OFFSET.
Hypothesis Hval : 0 < VAL.
Hypothesis Hrep : OFFSET + VAL <= REP.
Hypothesis Hext : 0 < EXTRA.
Definition blocks_of (c : cell) : list (Z * Z) :=
  match cph c with
  | Some SFree2 => [(cg c, VAL)]
  | _ => if cmk c then [(cu c, REP)] else [(cu c, OFFSET + EXTRA); (cg c, VAL)]
  end.
Definition pend_of (c : cell) : list (handle * stage) := match cph c with None => [] | Some s => [(hd c, s)] end.
Definition id_of (c : cell) : list Z := match cph c with None | Some SDestroy => [cid c] | _ => [] end.
Definition cellok (ct : Z -> option Z) (ob : Z -> option Z) (H : list handle) (c : cell) : Prop :=
  (if cmk c then cg c = cu c + OFFSET /\ cph c <> Some SFree2 else True) /\
  (match cph c with None | Some SDestroy => ob (cg c) = Some (cid c) | _ => True end) /\
  (match cph c with None => 1 <= count (hd c) H /\ ct (cu c) = Some (wrap w (count (hd c) H)) | _ => True end).
Definition rawblk (r : Z * Z) : Z * Z := (fst r, VAL).
Record inv (bs : list (Z * Z)) (ct ob : Z -> option Z) (md : Z) (gn : list Z) (H : list handle) (R : list Z) (P : list (handle * stage)) (cs : list cell) (rp : list (Z * Z)) : Prop := {
  i_blocks : Permutation bs (flat_map blocks_of cs ++ map rawblk rp);
  i_raws : Permutation R (map fst rp);
  i_pend : Permutation P (flat_map pend_of cs);
  i_ids : Permutation (flat_map id_of cs ++ map snd rp ++ gn) (upto md);
  i_dis : disjoint bs;
  i_pos : Forall (fun b => 0 < fst b /\ 0 < snd b) bs;
  i_md : 0 <= md;
  i_cells : Forall (cellok ct ob H) cs;
  i_raw : Forall (fun r => ob (fst r) = Some (snd r)) rp;
  i_hs : forall h, In h H -> uc h = 0 \/ exists c, In c cs /\ cph c = None /\ hd c = h }.

Lemma count_perm h l m : Permutation l m -> count h l = count h m.
Proof. intros HP. unfold count. f_equal. now apply (Permutation_count_occ handle_dec). Qed.
Lemma cellok_perm ct ob H H' c : Permutation H H' -> cellok ct ob H c -> cellok ct ob H' c.
Proof. intros HP. unfold cellok. rewrite (count_perm _ _ _ HP). auto. Qed.
Lemma inv_perm bs ct ob md gn H R P cs rp H' R' P' cs' rp' : inv bs ct ob md gn H R P cs rp -> Permutation H H' -> Permutation R R' -> Permutation P P' -> Permutation cs cs' -> Permutation rp rp' ->
  inv bs ct ob md gn H' R' P' cs' rp'.
Proof.
  intros [A B C D E F G I J K] HH HR HP HC HQ. constructor; auto.
  - rewrite A. apply Permutation_app; [now apply Permutation_flat_map|now apply Permutation_map].
  - rewrite <- HR, B. now apply Permutation_map.
  - rewrite <- HP, C. now apply Permutation_flat_map.
  - rewrite <- D. apply Permutation_app; [symmetry; now apply Permutation_flat_map|]. apply Permutation_app_tail. symmetry. now apply Permutation_map.
  - eapply Permutation_Forall; [exact HC|]. eapply Forall_impl; [|exact I]. intros c. now apply cellok_perm.
  - eapply Permutation_Forall; eauto.
  - intros h Hh. destruct (K h) as [X|(c & X & Y)]; [eapply Permutation_in; [symmetry; exact HH|exact Hh]|now left|]. right. exists c. split; [eapply Permutation_in; eauto|exact Y].
Qed.
(** address of the counter and of the object lie in the cell's own blocks *)
Lemma cu_in c : cph c <> Some SFree2 -> exists b, In b (blocks_of c) /\ fst b = cu c /\ within (cu c) b.
Proof. intros H. unfold blocks_of. destruct (cph c) as [[]|]; try congruence; destruct (cmk c); eexists; (split; [left; reflexivity|]); unfold within; cbn; lia. Qed.
Lemma cg_in c ct ob H : cellok ct ob H c -> exists b, In b (blocks_of c) /\ within (cg c) b.
Proof.
  intros (A & _). unfold blocks_of. destruct (cmk c).
  - destruct A as [A A']. exists (cu c, REP). split; [destruct (cph c) as [[]|]; try congruence; now left|]. unfold within. cbn. lia.
  - exists (cg c, VAL). split; [destruct (cph c) as [[]|]; cbn; auto|]. unfold within. cbn. lia.
Qed.
Lemma own_in bs ct ob md gn H R P c cs rp : inv bs ct ob md gn H R P (c :: cs) rp -> forall b, In b (blocks_of c) -> In b bs.
Proof. intros I b Hb. eapply Permutation_in; [symmetry; apply (i_blocks _ _ _ _ _ _ _ _ _ _ I)|]. cbn. rewrite <- app_assoc. apply in_or_app. now left. Qed.
Lemma within_dis a b c : within a b -> within a c -> dis b c -> False.
Proof. unfold within, dis. lia. Qed.
Lemma other_cell bs ct ob md gn H R P c cs rp : inv bs ct ob md gn H R P (c :: cs) rp -> forall a b, In b (blocks_of c) -> within a b -> 
  (forall c', In c' cs -> forall b', In b' (blocks_of c') -> within a b' -> False) /\ (forall r, In r rp -> within a (rawblk r) -> False).
Proof.
  intros I a b Hb Ha. pose proof (i_dis _ _ _ _ _ _ _ _ _ _ I) as HD. pose proof (i_blocks _ _ _ _ _ _ _ _ _ _ I) as HB. cbn in HB. rewrite <- app_assoc in HB. apply (disjoint_perm _ _ HB) in HD. pose proof (disjoint_app _ _ HD b) as X. split.
  - intros c' Hc' b' Hb' Hw'. apply (within_dis a b b' Ha Hw'). apply X; auto. apply in_or_app. left. apply in_flat_map. now exists c'.
  - intros r Hr Hw'. apply (within_dis a b _ Ha Hw'). apply X; auto. apply in_or_app. right. now apply in_map.
Qed.
Lemma new_addr bs a n x b : Forall (dis (a, n)) bs -> a <= x < a + n -> In b bs -> within x b -> False.
Proof. intros HF Hx Hb Hw'. rewrite Forall_forall in HF. specialize (HF b Hb). apply (within_dis x (a, n) b); auto. Qed.
Lemma setf_same {B} (f : Z -> option B) a x : setf f a x a = x.
Proof. unfold setf. now rewrite Z.eqb_refl. Qed.
Lemma setf_other {B} (f : Z -> option B) a x b : b <> a -> setf f a x b = f b.
Proof. unfold setf. destruct (Z.eqb_spec b a); congruence. Qed.
Lemma count_cons h x l : count h (x :: l) = (if handle_dec x h then 1 else 0) + count h l.
Proof. unfold count. cbn. destruct (handle_dec x h); lia. Qed.

(** null handles do not matter *)
Lemma L_null bs ct ob md gn H R P cs rp h : uc h = 0 -> inv bs ct ob md gn H R P cs rp <-> inv bs ct ob md gn (h :: H) R P cs rp.
Proof.
  intros Hz. 
  assert (CK : forall c, Permutation bs (flat_map blocks_of cs ++ map rawblk rp) -> Forall (fun b => 0 < fst b /\ 0 < snd b) bs -> In c cs -> (cellok ct ob H c <-> cellok ct ob (h :: H) c)).
  { intros c HB HP Hc. destruct (cph c) as [s|] eqn:E; unfold cellok; rewrite E; [tauto|]. rewrite count_cons. destruct (handle_dec h (hd c)) as [->|N]; [|rewrite Z.add_0_l; tauto].
    exfalso. destruct (cu_in c) as (b & Hb & E1 & _); [congruence|]. rewrite Forall_forall in HP. destruct (HP b) as [X _]; [eapply Permutation_in; [symmetry; exact HB|]; apply in_or_app; left; apply in_flat_map; now exists c|]. cbn in Hz. lia. }
  split; intros [A B C D E F G I J K]; constructor; auto.
  - rewrite Forall_forall in *. intros c Hc. apply CK; auto. rewrite Forall_forall. exact F.
  - intros x [<-|Hx]; [now left|now apply K].
  - rewrite Forall_forall in *. intros c Hc. apply CK; auto. rewrite Forall_forall. exact F.
  - intros x Hx. apply K. now right.
Qed.
Lemma ok_other bs ct ob md gn H R P c cs rp ct' ob' : inv bs ct ob md gn H R P (c :: cs) rp -> (forall a, a <> cu c -> ct' a = ct a) -> (forall a, a <> cg c -> ob' a = ob a) -> cph c <> Some SFree2 ->
  forall H', (forall h, h <> hd c -> count h H' = count h H) -> Forall (cellok ct' ob' H') cs /\ Forall (fun r => ob' (fst r) = Some (snd r)) rp.
Proof.
  intros I HC HO Hph H' HH. pose proof (i_cells _ _ _ _ _ _ _ _ _ _ I) as HF. inversion HF as [|? ? F1 F2]; subst.
  destruct (cg_in c _ _ _ F1) as (b & Hb & Hbw). destruct (other_cell _ _ _ _ _ _ _ _ _ _ _ I _ b Hb Hbw) as [O1 O2].
  destruct (cu_in c Hph) as (bu & Hbu & _ & Hbuw). destruct (other_cell _ _ _ _ _ _ _ _ _ _ _ I _ bu Hbu Hbuw) as [U1 U2].
  split; rewrite Forall_forall in *.
  - intros c' Hc'. pose proof (F2 c' Hc') as OK. destruct (cg_in c' _ _ _ OK) as (b' & Hb' & Hbw').
    assert (NG : cg c' <> cg c) by (intros X; rewrite X in Hbw'; eapply O1; eauto).
    assert (NH : hd c' <> hd c) by (intros X; unfold hd in X; congruence).
    destruct OK as (K1 & K2 & K3). split; [exact K1|]. rewrite HO by exact NG. split; [exact K2|]. destruct (cph c') as [s|] eqn:E; [exact I0 || exact Logic.I|]. rewrite HH by exact NH. rewrite HC; [exact K3|]. destruct (cu_in c') as (b2 & Hb2 & _ & Hb2w); [congruence|]. intros X. rewrite X in Hb2w. eapply U1; eauto.
  - intros r Hr. rewrite HO; [pose proof (i_raw _ _ _ _ _ _ _ _ _ _ I) as X; rewrite Forall_forall in X; now apply X|]. intros X. eapply O2; eauto. unfold within, rawblk. cbn. lia.
Qed.

Lemma L_alloc bs ct ob md gn H R P cs rp p : inv bs ct ob md gn H R P cs rp -> place bs p VAL = true -> inv ((p, VAL) :: bs) ct (setf ob p (Some md)) (md + 1) gn H (p :: R) P cs ((p, md) :: rp).
Proof.
  intros I HP. apply place_spec in HP as [HP1 HP2]. pose proof I as [A B C D E F G J K L]. constructor; try assumption.
  - cbn. rewrite A. apply Permutation_middle.
  - cbn. now apply perm_skip.
  - rewrite upto_S by lia. rewrite <- D. cbn. rewrite <- Permutation_middle. apply Permutation_cons_append.
  - cbn. split; assumption.
  - constructor; [cbn; lia|exact F].
  - lia.
  - rewrite Forall_forall in *. intros c Hc. pose proof (J c Hc) as OK. destruct (cg_in c _ _ _ OK) as (b & Hb & Hbw). destruct OK as (K1 & K2 & K3). split; [exact K1|]. split; [|exact K3]. rewrite setf_other; [exact K2|]. intros X. rewrite X in Hbw.
    apply (new_addr bs p VAL p b); auto; [rewrite Forall_forall; exact HP2|lia|]. eapply Permutation_in; [symmetry; exact A|]. apply in_or_app. left. apply in_flat_map. now exists c.
  - constructor; [cbn; apply setf_same|]. rewrite Forall_forall in *. intros r Hr. rewrite setf_other; [now apply K|]. intros X. apply (new_addr bs p VAL p (rawblk r)); auto; [rewrite Forall_forall; exact HP2|lia| |].
    + eapply Permutation_in; [symmetry; exact A|]. apply in_or_app. right. now apply in_map.
    + unfold within, rawblk. cbn. lia.
Qed.

Lemma new_cell_others bs ct ob md gn H R P cs rp a n ob' h : inv bs ct ob md gn H R P cs rp -> Forall (dis (a, n)) bs -> 0 < n -> 0 < a ->
  uc h = a -> (forall x, ~ (a <= x < a + n) -> ob' x = ob x) ->
  Forall (cellok (setf ct a (Some 1)) ob' (h :: H)) cs /\ Forall (fun r => ob' (fst r) = Some (snd r)) rp /\ count h H = 0.
Proof.
  intros I HD Hn Ha Hh HO. pose proof I as [A B C D E F G J K L]. split; [|split].
  - rewrite Forall_forall in *. intros c Hc. pose proof (J c Hc) as OK. destruct (cg_in c _ _ _ OK) as (b & Hb & Hbw). destruct OK as (K1 & K2 & K3). 
    assert (IB : forall b, In b (blocks_of c) -> In b bs) by (intros b0 Hb0; eapply Permutation_in; [symmetry; exact A|]; apply in_or_app; left; apply in_flat_map; now exists c).
    split; [exact K1|]. split.
    + rewrite HO; [exact K2|]. intros X. apply (new_addr bs a n (cg c) b); auto. rewrite Forall_forall. exact HD.
    + destruct (cph c) as [s|] eqn:E2; [exact Logic.I|]. destruct (cu_in c) as (b2 & Hb2 & _ & Hb2w); [congruence|].
      assert (N : cu c <> a) by (intros X; rewrite X in Hb2w; apply (new_addr bs a n a b2); auto; [rewrite Forall_forall; exact HD|lia]).
      rewrite setf_other by exact N. rewrite count_cons. destruct (handle_dec h (hd c)) as [X|X]; [exfalso; apply N; rewrite <- Hh, X; reflexivity|]. rewrite Z.add_0_l. exact K3.
  - rewrite Forall_forall in *. intros r Hr. rewrite HO; [now apply K|]. intros X. apply (new_addr bs a n (fst r) (rawblk r)); auto; [rewrite Forall_forall; exact HD| |].
    + eapply Permutation_in; [symmetry; exact A|]. apply in_or_app. right. now apply in_map.
    + unfold within, rawblk. cbn. lia.
  - unfold count. replace (count_occ handle_dec H h) with 0%nat; [reflexivity|]. symmetry. apply count_occ_not_In. intros HI. destruct (L h HI) as [Z0|(c & Hc & Ec & Eh)]; [lia|].
    destruct (cu_in c) as (b & Hb & _ & Hbw); [congruence|]. apply (new_addr bs a n (cu c) b); auto; [subst h; cbn in Hh; lia|]. eapply Permutation_in; [symmetry; exact A|]. apply in_or_app. left. apply in_flat_map. now exists c.
Qed.
Lemma wrap1 : wrap w 1 = 1.
Proof. unfold wrap. apply Z.mod_small. split; [lia|]. apply Z.pow_gt_1; lia. Qed.
Lemma L_make bs ct ob md gn H R P cs rp a : inv bs ct ob md gn H R P cs rp -> place bs a REP = true ->
  inv ((a, REP) :: bs) (setf ct a (Some 1)) (setf ob (a + OFFSET) (Some md)) (md + 1) gn (mkh (a + OFFSET) a :: H) R P (mkc a (a + OFFSET) md true None :: cs) rp.
Proof.
  intros I HP. apply place_spec in HP as [HP1 HP2]. pose proof I as [A B C D E F G J K L].
  destruct (new_cell_others _ _ _ _ _ _ _ _ _ _ a REP (setf ob (a + OFFSET) (Some md)) (mkh (a + OFFSET) a) I HP2) as (N1 & N2 & N3); auto; [lia|intros x Hx; apply setf_other; lia|].
  constructor; try assumption.
  - cbn. now apply perm_skip.
  - rewrite upto_S by lia. rewrite <- D. cbn. apply Permutation_cons_append.
  - cbn. split; assumption.
  - constructor; [cbn; lia|exact F].
  - lia.
  - constructor; [|exact N1]. split; [cbn; split; [reflexivity|discriminate]|]. split; [cbn; apply setf_same|]. cbn [cph]. rewrite count_cons. unfold hd. cbn [cg cu]. rewrite N3. destruct (handle_dec _ _); [|congruence]. cbn [Z.add]. split; [lia|]. rewrite setf_same, wrap1. reflexivity.
  - intros h [<-|Hh]; [right; eexists; split; [left; reflexivity|]; split; reflexivity|]. destruct (L h Hh) as [X|(c & X & Y)]; [now left|right]. exists c. split; [now right|exact Y].
Qed.
Lemma L_from bs ct ob md gn H R P cs p id rp a : inv bs ct ob md gn H (p :: R) P cs ((p, id) :: rp) -> place bs a (OFFSET + EXTRA) = true ->
  inv ((a, OFFSET + EXTRA) :: bs) (setf ct a (Some 1)) ob md gn (mkh p a :: H) R P (mkc a p id false None :: cs) rp.
Proof.
  intros I HP. apply place_spec in HP as [HP1 HP2]. pose proof I as [A B C D E F G J K L].
  destruct (new_cell_others _ _ _ _ _ _ _ _ _ _ a (OFFSET + EXTRA) ob (mkh p a) I HP2) as (N1 & N2 & N3); auto; [lia|]. inversion N2 as [|? ? N2a N2b]; subst.
  constructor; try assumption.
  - cbn. rewrite A. cbn. apply perm_skip. symmetry. apply Permutation_middle.
  - cbn in B. now apply Permutation_cons_inv in B.
  - rewrite <- D. cbn. apply Permutation_middle.
  - cbn. split; assumption.
  - constructor; [cbn; lia|exact F].
  - constructor; [|exact N1]. split; [exact Logic.I|]. split; [cbn; exact N2a|]. cbn [cph]. rewrite count_cons. unfold hd. cbn [cg cu]. rewrite N3. destruct (handle_dec _ _); [|congruence]. cbn [Z.add]. split; [lia|]. rewrite setf_same, wrap1. reflexivity.
  - intros h [<-|Hh]; [right; eexists; split; [left; reflexivity|]; split; reflexivity|]. destruct (L h Hh) as [X|(c & X & Y)]; [now left|right]. exists c. split; [now right|exact Y].
Qed.
(** the counter of a live handle *)
Lemma L_load bs ct ob md gn H R P c cs rp : inv bs ct ob md gn H R P (c :: cs) rp -> cph c = None ->
  inside bs (cu c) = true /\ inside bs (cg c) = true /\ ct (cu c) = Some (wrap w (count (hd c) H)) /\ ob (cg c) = Some (cid c) /\ ~ In (cid c) gn /\ 0 < cu c.
Proof.
  intros I Hp. pose proof (i_cells _ _ _ _ _ _ _ _ _ _ I) as HF. inversion HF as [|? ? F1 F2]; subst. pose proof F1 as (K1 & K2 & K3). rewrite Hp in K2, K3.
  destruct (cu_in c) as (b & Hb & Eb & Hbw); [congruence|]. destruct (cg_in c _ _ _ F1) as (b2 & Hb2 & Hbw2). split; [|split; [|split; [apply K3|split; [exact K2|split]]]].
  - apply inside_spec. exists b. split; [eapply own_in; eauto|exact Hbw].
  - apply inside_spec. exists b2. split; [eapply own_in; eauto|exact Hbw2].
  - intros HI. pose proof (i_ids _ _ _ _ _ _ _ _ _ _ I) as D. cbn in D. unfold id_of in D at 1. rewrite Hp in D. cbn in D. assert (ND : NoDup (cid c :: flat_map id_of cs ++ map snd rp ++ gn)) by (eapply Permutation_NoDup; [symmetry; exact D|apply upto_NoDup]). inversion ND as [|? ? X _]; subst. apply X. apply in_or_app. right. apply in_or_app. now right.
  - pose proof (i_pos _ _ _ _ _ _ _ _ _ _ I) as F. rewrite Forall_forall in F. destruct (F b) as [X _]; [eapply own_in; eauto|]. lia.
Qed.
Lemma wrap_add x y : wrap w (wrap w x + y) = wrap w (x + y).
Proof. unfold wrap. apply Z.add_mod_idemp_l. pose proof (Z.pow_pos_nonneg 2 w). lia. Qed.
Lemma L_clone bs ct ob md gn H R P c cs rp : inv bs ct ob md gn H R P (c :: cs) rp -> cph c = None ->
  inv bs (setf ct (cu c) (Some (wrap w (wrap w (count (hd c) H) + 1)))) ob md gn (hd c :: H) R P (c :: cs) rp.
Proof.
  intros I Hp. pose proof I as [A B C D E F G J K L]. inversion J as [|? ? J1 J2]; subst.
  destruct (ok_other _ _ _ _ _ _ _ _ _ _ _ (setf ct (cu c) (Some (wrap w (wrap w (count (hd c) H) + 1)))) ob I) with (H' := hd c :: H) as [O1 O2]; auto.
  - intros a Ha. now apply setf_other.
  - congruence.
  - intros h Hh. rewrite count_cons. destruct (handle_dec (hd c) h); [congruence|lia].
  - constructor; try assumption.
    + constructor; [|exact O1]. destruct J1 as (K1 & K2 & K3). split; [exact K1|]. split; [exact K2|]. rewrite Hp in *. rewrite count_cons. destruct (handle_dec _ _); [|congruence]. split; [lia|]. rewrite setf_same, wrap_add. do 2 f_equal. lia.
    + intros h [<-|Hh]; [right; exists c; split; [now left|]; auto|now apply L].
Qed.
Lemma L_drop bs ct ob md gn H R P c cs rp : inv bs ct ob md gn (hd c :: H) R P (c :: cs) rp -> cph c = None -> count (hd c) (hd c :: H) <= 2 ^ w ->
  let v := wrap w (wrap w (count (hd c) (hd c :: H)) - 1) in
  if v =? 0 then inv bs (setf ct (cu c) (Some v)) ob md gn H R ((hd c, SDestroy) :: P) (mkc (cu c) (cg c) (cid c) (cmk c) (Some SDestroy) :: cs) rp
  else inv bs (setf ct (cu c) (Some v)) ob md gn H R P (c :: cs) rp.
Proof.
  intros I Hp Hb v. pose proof I as [A B C D E F G J K L]. inversion J as [|? ? J1 J2]; subst. pose proof J1 as (K1 & K2 & K3). rewrite Hp in K2, K3.
  assert (Ec : count (hd c) (hd c :: H) = 1 + count (hd c) H) by (rewrite count_cons; destruct (handle_dec _ _); [lia|congruence]).
  assert (Hc0 : 0 <= count (hd c) H) by (unfold count; lia).
  assert (Ev : v = count (hd c) H) by (unfold v; rewrite <- Z.add_opp_r, wrap_add, Ec; unfold wrap; rewrite Z.mod_small; lia).
  destruct (ok_other _ _ _ _ _ _ _ _ _ _ _ (setf ct (cu c) (Some v)) ob I) with (H' := H) as [O1 O2]; auto.
  { intros a Ha. now apply setf_other. } { congruence. } { intros h Hh. rewrite count_cons. destruct (handle_dec (hd c) h); [congruence|lia]. }
  destruct (Z.eqb_spec v 0) as [E0|N0].
  - constructor; try assumption.
    + cbn. unfold blocks_of at 1. cbn. cbn in A. unfold blocks_of in A at 1. rewrite Hp in A. exact A.
    + cbn. unfold pend_of at 1. cbn. cbn in C. unfold pend_of in C at 1. rewrite Hp in C. cbn in C. now apply perm_skip.
    + cbn in *. unfold id_of in D at 1. rewrite Hp in D. exact D.
    + constructor; [|exact O1]. split; [cbn; destruct (cmk c); [split; [apply K1|discriminate]|exact Logic.I]|]. split; [cbn; exact K2|exact Logic.I].
    + intros h Hh. destruct (L h (or_intror Hh)) as [X|(c' & X & Y1 & Y2)]; [now left|right]. destruct X as [<-|X].
      * exfalso. assert (Hn : count (hd c) H = 0) by lia. unfold count in Hn. assert (Hn' : count_occ handle_dec H (hd c) = 0%nat) by lia. apply count_occ_not_In in Hn'. apply Hn'. now rewrite Y2.
      * exists c'. split; [now right|auto].
  - constructor; try assumption.
    + constructor; [|exact O1]. split; [exact K1|]. rewrite Hp. split; [exact K2|]. split; [lia|]. rewrite setf_same, Ev. f_equal. unfold wrap. symmetry. apply Z.mod_small. lia.
    + intros h Hh. apply L. now right.
Qed.
Definition phase (c : cell) (s : stage) : cell := mkc (cu c) (cg c) (cid c) (cmk c) (Some s).
Lemma pend_cell (cs : list cell) h s P : Permutation ((h, s) :: P) (flat_map pend_of cs) -> exists c cs', Permutation cs (c :: cs') /\ hd c = h /\ cph c = Some s.
Proof.
  intros HP. assert (HI : In (h, s) (flat_map pend_of cs)) by (eapply Permutation_in; [exact HP|now left]). apply in_flat_map in HI as (c & Hc & HI). apply in_split in Hc as (l1 & l2 & ->). exists c, (l1 ++ l2). split; [symmetry; apply Permutation_middle|]. unfold pend_of in HI. destruct (cph c); [|destruct HI]. destruct HI as [HI|[]]. injection HI as <- <-. auto.
Qed.
Lemma L_destroy bs ct ob md gn H R P c cs rp : inv bs ct ob md gn H R ((hd c, SDestroy) :: P) (c :: cs) rp -> cph c = Some SDestroy ->
  inside bs (cg c) = true /\ ob (cg c) = Some (cid c) /\ inv bs ct (setf ob (cg c) None) md (gn ++ [cid c]) H R ((hd c, SFree) :: P) (phase c SFree :: cs) rp.
Proof.
  intros I Hp. pose proof I as [A B C D E F G J K L]. inversion J as [|? ? J1 J2]; subst. pose proof J1 as (K1 & K2 & K3). rewrite Hp in K2, K3.
  destruct (cg_in c _ _ _ J1) as (b2 & Hb2 & Hbw2). split; [apply inside_spec; exists b2; split; [eapply own_in; eauto|exact Hbw2]|]. split; [exact K2|].
  destruct (ok_other _ _ _ _ _ _ _ _ _ _ _ ct (setf ob (cg c) None) I) with (H' := H) as [O1 O2]; auto.
  { intros a Ha. now apply setf_other. } { congruence. }
  constructor; try assumption.
  - cbn in *. unfold blocks_of in A at 1. rewrite Hp in A. exact A.
  - cbn in *. unfold pend_of in C at 1. rewrite Hp in C. cbn in C. apply Permutation_cons_inv in C. now apply perm_skip.
  - cbn in *. unfold id_of in D at 1. rewrite Hp in D. cbn in D. rewrite <- D. rewrite !app_assoc. symmetry. apply Permutation_cons_append.
  - constructor; [|exact O1]. split; [cbn; destruct (cmk c); [split; [apply K1|discriminate]|exact Logic.I]|]. split; exact Logic.I.
  - intros h Hh. destruct (L h Hh) as [X|(c' & X & Y1 & Y2)]; [now left|right]. destruct X as [<-|X]; [congruence|]. exists c'. split; [now right|auto].
Qed.
Lemma pos_snd bs : Forall (fun b : Z * Z => 0 < fst b /\ 0 < snd b) bs -> Forall (fun b : Z * Z => 0 < snd b) bs.
Proof. apply Forall_impl. tauto. Qed.
Lemma disjoint_tl bs bs' b : disjoint bs -> Permutation bs (b :: bs') -> disjoint bs'.
Proof. intros H HP. apply (disjoint_perm _ _ HP) in H. apply H. Qed.
Lemma L_free bs ct ob md gn H R P c cs rp : inv bs ct ob md gn H R ((hd c, SFree) :: P) (c :: cs) rp -> cph c = Some SFree ->
  if cu c + OFFSET =? cg c then exists bs', free bs (cu c) REP = Ok bs' /\ inv bs' ct ob md gn H R P cs rp
  else exists bs', free bs (cu c) (OFFSET + EXTRA) = Ok bs' /\ inv bs' ct ob md gn H R ((hd c, SFree2) :: P) (phase c SFree2 :: cs) rp.
Proof.
  intros I Hp. pose proof I as [A B C D E F G J K L]. inversion J as [|? ? J1 J2]; subst. pose proof J1 as (K1 & K2 & K3).
  assert (LH : forall h, In h H -> uc h = 0 \/ exists c', In c' cs /\ cph c' = None /\ hd c' = h).
  { intros h Hh. destruct (L h Hh) as [X|(c' & X & Y1 & Y2)]; [now left|right]. destruct X as [<-|X]; [congruence|]. exists c'. auto. }
  cbn in A, C, D. unfold blocks_of in A at 1. unfold pend_of in C at 1. unfold id_of in D at 1. rewrite Hp in A, C, D. cbn in C, D. apply Permutation_cons_inv in C.
  destruct (cmk c) eqn:M.
  - destruct K1 as [K1 _]. rewrite K1, Z.eqb_refl. cbn in A. destruct (free_ok bs _ _ _ A E (pos_snd _ F)) as (bs' & E1 & P1). exists bs'. split; [exact E1|]. assert (A' : Permutation bs ((cu c, REP) :: bs')) by (rewrite A; apply perm_skip; symmetry; exact P1).
    constructor; try assumption; [eapply disjoint_tl; eauto|]. apply (Permutation_Forall A') in F. inversion F; auto.
  - cbn in A. destruct (Z.eqb_spec (cu c + OFFSET) (cg c)) as [X|X].
    + exfalso. apply (disjoint_perm _ _ A) in E. destruct E as [E _]. inversion E as [|? ? E1 _]; subst. unfold dis in E1. cbn in E1. lia.
    + destruct (free_ok bs _ _ _ A E (pos_snd _ F)) as (bs' & E1 & P1). exists bs'. split; [exact E1|]. assert (A' : Permutation bs ((cu c, OFFSET + EXTRA) :: bs')) by (rewrite A; apply perm_skip; symmetry; exact P1).
      constructor; try assumption.
      * cbn. now apply perm_skip.
      * eapply disjoint_tl; eauto.
      * apply (Permutation_Forall A') in F. inversion F; auto.
      * constructor; [|exact J2]. split; [cbn; rewrite M; exact Logic.I|]. split; exact Logic.I.
      * intros h Hh. destruct (LH h Hh) as [Y|(c' & Y1 & Y2)]; [now left|right]. exists c'. split; [now right|exact Y2].
Qed.
Lemma L_free2 bs ct ob md gn H R P c cs rp : inv bs ct ob md gn H R ((hd c, SFree2) :: P) (c :: cs) rp -> cph c = Some SFree2 ->
  exists bs', free bs (cg c) VAL = Ok bs' /\ inv bs' ct ob md gn H R P cs rp.
Proof.
  intros I Hp. pose proof I as [A B C D E F G J K L]. inversion J as [|? ? J1 J2]; subst.
  assert (LH : forall h, In h H -> uc h = 0 \/ exists c', In c' cs /\ cph c' = None /\ hd c' = h).
  { intros h Hh. destruct (L h Hh) as [X|(c' & X & Y1 & Y2)]; [now left|right]. destruct X as [<-|X]; [congruence|]. exists c'. auto. }
  cbn in A, C, D. unfold blocks_of in A at 1. unfold pend_of in C at 1. unfold id_of in D at 1. rewrite Hp in A, C, D. cbn in A, C, D. apply Permutation_cons_inv in C.
  destruct (free_ok bs _ _ _ A E (pos_snd _ F)) as (bs' & E1 & P1). exists bs'. split; [exact E1|]. assert (A' : Permutation bs ((cg c, VAL) :: bs')) by (rewrite A; apply perm_skip; symmetry; exact P1).
  constructor; try assumption; [eapply disjoint_tl; eauto|]. apply (Permutation_Forall A') in F. inversion F; auto.
Qed.
End Inv.
