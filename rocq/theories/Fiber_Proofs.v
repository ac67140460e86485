From Verif Require Import Base Fiber_Model Fiber_Spec.

Fixpoint chain (f : addr -> option (option addr)) (x : addr) (l : list addr) : Prop :=
  match l with [] => True | y :: l' => f x = Some (Some y) /\ chain f y l' end.
Definition ring (f : addr -> option (option addr)) (q : list addr) : Prop :=
  match q with [] => True | c :: q' => chain f c (q' ++ [c]) end.

Lemma chain_app f l1 y l2 : forall x, chain f x (l1 ++ y :: l2) <-> chain f x (l1 ++ [y]) /\ chain f y l2.
Proof. induction l1 as [|a l1 IH]; intros x; cbn; [tauto|]. rewrite IH. tauto. Qed.
Lemma ring_rot f c q : ring f (c :: q) -> ring f (q ++ [c]).
Proof.
  destruct q as [|d q]; [auto|]. cbn. intros [H1 H2]. rewrite <- app_assoc. cbn. rewrite chain_app. cbn. auto.
Qed.
(** Every link of the chain starts at x or at an element of l other than its last one. *)
Lemma chain_ext f g l : forall x z, (forall y, y = x \/ In y l -> f y = g y) -> chain f x (l ++ [z]) -> chain g x (l ++ [z]).
Proof.
  induction l as [|y l IH]; intros x z E H.
  - cbn in *. destruct H as [H _]. rewrite <- E; auto.
  - cbn in *. destruct H as [H1 H2]. split; [rewrite <- E; auto|]. apply IH; auto. intros u [->|Hu]; apply E; auto.
Qed.
Lemma chain_one f x y : chain f x [y] <-> f x = Some (Some y). Proof. cbn. tauto. Qed.

Record Rep (h : heap) (q : list addr) : Prop := mkRep {
  rp_ring : ring (next h) q;
  rp_nodup : NoDup q;
  rp_dom : forall x, next h x <> None <-> In x q;
  rp_lt : Forall (fun x => (x < brk h)%nat) q }.

Lemma setn_same f a v : setn f a v a = v. Proof. unfold setn. rewrite Nat.eqb_refl. auto. Qed.
Lemma setn_other f a v b : a <> b -> setn f a v b = f b.
Proof. intros. unfold setn. destruct (Nat.eqb_spec a b); congruence. Qed.

Lemma ring_last f l z : ring f (l ++ [z]) -> f z = Some (hd_error (l ++ [z])).
Proof.
  destruct l as [|c l]; cbn; [intros [H _]; exact H|]. rewrite <- app_assoc. cbn. rewrite chain_app. cbn. tauto.
Qed.
Lemma behind_split t n l1 l2 : ~ In t l1 -> behind t n (l1 ++ t :: l2) = l1 ++ t :: n :: l2.
Proof.
  induction l1 as [|a l1 IH]; cbn; intros H; [rewrite Nat.eqb_refl; auto|].
  destruct (Nat.eqb_spec a t); [tauto|]. rewrite IH; auto.
Qed.
Lemma behind_absent t n q : ~ In t q -> behind t n q = q.
Proof. induction q as [|a q IH]; cbn; intros H; auto. destruct (Nat.eqb_spec a t); [tauto|]. rewrite IH; auto. Qed.
Lemma in_behind t n q x : In x (behind t n q) <-> In x q \/ (x = n /\ In t q).
Proof.
  induction q as [|a q IH]; cbn; [tauto|]. destruct (Nat.eqb_spec a t) as [->|N]; cbn; [intuition congruence|].
  rewrite IH. intuition congruence.
Qed.
Lemma behind_nodup t n q : NoDup q -> ~ In n q -> NoDup (behind t n q).
Proof.
  induction q as [|a q IH]; cbn; intros D N; [constructor|]. inversion D; subst.
  destruct (Nat.eqb_spec a t) as [->|E].
  - constructor; [cbn; intuition|]. constructor; tauto.
  - constructor; [|apply IH; tauto]. rewrite in_behind. intuition.
Qed.
Lemma behind_snoc t n l z : t <> z -> behind t n (l ++ [z]) = behind t n l ++ [z].
Proof.
  intros N. induction l as [|a l IH]; cbn; [destruct (Nat.eqb_spec z t); congruence|].
  destruct (Nat.eqb_spec a t); [auto|]. rewrite IH; auto.
Qed.
Lemma behinds_snoc ts : forall n l z, ~ In z ts -> behinds ts n (l ++ [z]) = behinds ts n l ++ [z].
Proof.
  induction ts as [|t ts IH]; intros n l z N; cbn; auto. rewrite behind_snoc by (intros ->; apply N; left; auto).
  apply IH. intros H; apply N; right; auto.
Qed.
Lemma behind_hd t n c q : exists q', behind t n (c :: q) = c :: q' /\ (q = [] -> t = c \/ q' = []).
Proof. cbn. destruct (Nat.eqb_spec c t); eexists; split; eauto. intros ->. auto. Qed.
Lemma behinds_hd ts : forall n c q, exists q', behinds ts n (c :: q) = c :: q'.
Proof.
  induction ts as [|t ts IH]; intros n c q; cbn [behinds]; [eauto|].
  destruct (behind_hd t n c q) as (q' & -> & _). apply IH.
Qed.

Lemma spawn_rep h q t : Rep h q -> In t q ->
  exists h', spawn h t = Ok h' /\ Rep h' (behind t (brk h) q) /\ brk h' = S (brk h) /\ freed h' = freed h.
Proof.
  intros [R D M L] T. unfold spawn, load.
  destruct (in_split t q T) as (l1 & l2 & E).
  assert (T1 : ~ In t l1). { subst q. apply NoDup_remove_2 in D. intros H. apply D, in_or_app. auto. }
  assert (NX : exists n, next h t = Some (Some n)).
  { rewrite E in R. destruct l1 as [|c l1]; cbn in R.
    - destruct l2; cbn in R; destruct R; eauto.
    - rewrite <- app_assoc in R. cbn in R. apply chain_app in R. destruct R as [_ R]. destruct l2; cbn in R; destruct R; eauto. }
  destruct NX as (n & NX). rewrite NX. cbn [bind].
  assert (TB : t <> brk h). { rewrite Forall_forall in L. apply L in T. lia. }
  assert (NB : ~ In (brk h) q). { intros H. rewrite Forall_forall in L. apply L in H. lia. }
  cbn [alloc]. unfold store. cbn [next]. rewrite setn_other by auto. rewrite NX. eexists. split; [reflexivity|].
  cbn. split; [|auto]. rewrite E. rewrite behind_split by auto.
  set (b := brk h) in *. set (f := setn (setn (next h) b (Some (Some n))) t (Some (Some b))).
  assert (Ft : f t = Some (Some b)) by (unfold f; apply setn_same).
  assert (Fb : f b = Some (Some n)) by (unfold f; rewrite setn_other by auto; apply setn_same).
  assert (Fo : forall x, x <> t -> x <> b -> next h x = f x). { intros; unfold f; rewrite !setn_other; auto. }
  assert (IN1 : forall x, In x l1 -> x <> t /\ x <> b).
  { intros x Hx. split; intros ->; [auto|]. apply NB. rewrite E. apply in_or_app; auto. }
  assert (IN2 : forall x, In x l2 -> x <> t /\ x <> b).
  { intros x Hx. split; intros ->.
    - rewrite E in D. apply NoDup_remove_2 in D. apply D, in_or_app; auto.
    - apply NB. rewrite E. apply in_or_app; right; right; auto. }
  constructor; cbn [next brk].
  - fold f. rewrite E in R. destruct l1 as [|c l1]; cbn [ring app] in *.
    + destruct l2 as [|d l2]; cbn [chain app] in *.
      * destruct R as [R _]. assert (n = t) by congruence. subst n. auto.
      * destruct R as [R1 R2]. assert (n = d) by congruence. subst n. split; auto. split; auto.
        apply (chain_ext (next h)); auto. intros y Hy. apply Fo; apply IN2; destruct Hy as [->|]; [left|right| left|right]; auto.
    + rewrite <- app_assoc in R |- *. cbn [app] in R |- *. apply chain_app in R. destruct R as [R1 R2]. apply chain_app. split.
      * apply (chain_ext (next h)); auto. intros y Hy. apply Fo; apply IN1; destruct Hy as [->|]; [left|right|left|right]; auto.
      * cbn [chain]. split; auto. destruct l2 as [|d l2]; cbn [app chain] in *.
        -- destruct R2 as [R2 _]. assert (n = c) by congruence. subst. auto.
        -- destruct R2 as [R2 R3]. assert (n = d) by congruence. subst n. split; auto.
           apply (chain_ext (next h)); auto. intros y Hy. apply Fo; apply IN2; destruct Hy as [->|]; [left|right|left|right]; auto.
  - rewrite E in D, NB. pose proof (behind_nodup t b _ D NB) as K. rewrite behind_split in K by auto. exact K.
  - intros x. fold f. destruct (Nat.eq_dec x t) as [->|Nt]; [rewrite Ft; split; [intros _; apply in_or_app; right; left; auto|discriminate]|].
    destruct (Nat.eq_dec x b) as [->|Nb]; [rewrite Fb; split; [intros _; apply in_or_app; right; right; left; auto|discriminate]|].
    rewrite <- Fo by auto. rewrite M, E. rewrite !in_app_iff. cbn. intuition congruence.
  - rewrite E in L. apply Forall_app in L. destruct L as [L1 L2]. inversion L2; subst.
    apply Forall_app. split; [eapply Forall_impl; [|exact L1]; cbn; lia|]. constructor; [cbn; lia|]. constructor; [lia|].
    eapply Forall_impl; [|exact H2]; cbn; lia.
Qed.

Lemma spawns_rep ts : forall h q, Rep h q -> ok_targets ts (brk h) q ->
  exists h', spawns h ts = Ok h' /\ Rep h' (behinds ts (brk h) q) /\ brk h' = (brk h + length ts)%nat /\ freed h' = freed h.
Proof.
  induction ts as [|t ts IH]; intros h q R O; cbn in *.
  - exists h. repeat split; auto; try apply R.
  - destruct O as [O1 O2]. destruct (spawn_rep h q t R O1) as (h1 & E1 & R1 & B1 & F1). rewrite E1. cbn [bind].
    rewrite <- B1 in O2. destruct (IH h1 _ R1 O2) as (h2 & E2 & R2 & B2 & F2). exists h2. rewrite E2.
    rewrite B1 in R2, B2. repeat split; auto; try apply R2; [lia|congruence].
Qed.

Lemma rep_rot h c q : Rep h (c :: q) -> Rep h (q ++ [c]).
Proof.
  intros [R D M L]. constructor.
  - apply ring_rot; auto.
  - eapply Permutation.Permutation_NoDup; [|exact D]. apply Permutation.Permutation_cons_append.
  - intros x. rewrite M. rewrite in_app_iff. cbn. tauto.
  - inversion L; subst. apply Forall_app; auto.
Qed.
Lemma nodup_rot (c : addr) q : NoDup (c :: q) -> NoDup (q ++ [c]).
Proof. apply Permutation.Permutation_NoDup, Permutation.Permutation_cons_append. Qed.

(** One resumption, done right. *)
Definition back (q : list addr) : option addr := match q with [] => None | _ => Some (last q O) end.
Lemma back_snoc q z : back (q ++ [z]) = Some z.
Proof. unfold back. destruct (q ++ [z]) eqn:E; [destruct q; discriminate|]. rewrite <- E, last_last. reflexivity. Qed.
Lemma rep_drop h c m z : Rep h (c :: m ++ [z]) -> forall d, hd_error (m ++ [z]) = Some d ->
  next h c = Some (Some d) /\
  exists h1 h2, store h z (Some d) = Ok h1 /\ release h1 c = Ok h2 /\ Rep h2 (m ++ [z]) /\ brk h2 = brk h /\ freed h2 = freed h ++ [c].
Proof.
  intros [R D M L] d Hd.
  assert (Nc : next h c = Some (Some d)).
  { destruct m; cbn in R, Hd; injection Hd as <-; apply R. }
  split; auto.
  assert (Cz : c <> z). { intros ->. inversion D; subst. apply H1, in_or_app. right; left; auto. }
  assert (Dz : next h z <> None). { apply M. right. apply in_or_app. right; left; auto. }
  unfold store, release. destruct (next h z) as [nz|] eqn:Ez; [|congruence]. eexists. eexists. split; [reflexivity|]. cbn [next].
  rewrite setn_other by auto. rewrite Nc. split; [reflexivity|]. cbn [next brk freed]. split; [|auto].
  set (f := setn (setn (next h) z (Some (Some d))) c None).
  assert (Fz : f z = Some (Some d)). { unfold f. rewrite setn_other by auto. apply setn_same. }
  assert (Fo : forall x, x <> c -> x <> z -> next h x = f x). { intros; unfold f; rewrite !setn_other; auto. }
  inversion D as [|? ? Dc D']; subst.
  constructor; cbn [next brk]; auto.
  - fold f. destruct m as [|d' m]; cbn [app ring chain] in *.
    + injection Hd as <-. auto.
    + injection Hd as ->. destruct R as [_ R]. rewrite <- app_assoc in R |- *. cbn [app] in R |- *.
      apply chain_app in R. destruct R as [R1 _]. apply chain_app. split; [|cbn; auto].
      apply (chain_ext (next h)); auto. intros y Hy.
      apply Fo; intros ->.
      * apply Dc. destruct Hy as [->|Hy]; [left; auto|]. right. apply in_or_app; auto.
      * inversion D'; subst. destruct Hy as [<-|Hy]; [apply H1, in_or_app; right; left; auto|].
        apply NoDup_remove_2 in H2. rewrite app_nil_r in H2. auto.
  - intros x. fold f. destruct (Nat.eq_dec x z) as [->|Nz].
    + rewrite Fz. split; [intros _; apply in_or_app; right; left; auto|discriminate].
    + destruct (Nat.eq_dec x c) as [->|Ncx].
      * unfold f. rewrite setn_same. split; [congruence|]. intros H. exfalso. auto.
      * rewrite <- Fo by auto. rewrite M. cbn. intuition congruence.
  - inversion L; subst. auto.
Qed.

Lemma resume_rep h l z b : Rep h (l ++ [z]) -> ok_act (l ++ [z]) (brk h) b ->
  exists h' c, resume_next h z b = Ok (h', back (turn (l ++ [z]) b (brk h)), c) /\
    hd_error (l ++ [z]) = Some c /\ Rep h' (turn (l ++ [z]) b (brk h)) /\
    brk h' = (brk h + length (fst b))%nat /\ freed h' = if snd b then freed h ++ [c] else freed h.
Proof.
  intros R O. pose proof (ring_last _ _ _ (rp_ring _ _ R)) as Z. unfold resume_next, load at 1. rewrite Z.
  destruct (hd_error (l ++ [z])) as [c|] eqn:Hc; [|destruct l; discriminate]. cbn [bind].
  assert (IC : In c (l ++ [z])). { destruct l; cbn in Hc; injection Hc as <-; left; auto. }
  unfold load at 1. pose proof (proj2 (rp_dom _ _ R c) IC) as DC. destruct (next h c) eqn:Ec; [|congruence]. cbn [bind]. clear Ec DC.
  destruct b as [ts done]; cbn [fst snd] in *. destruct O as [O1 O2]. cbn [fst snd] in *.
  destruct (spawns_rep ts h _ R O1) as (h1 & E1 & R1 & B1 & F1). rewrite E1. cbn [bind].
  unfold turn. cbn [fst snd].
  assert (HD : exists q', behinds ts (brk h) (l ++ [z]) = c :: q').
  { destruct l as [|c' l]; cbn in Hc; injection Hc as ->; apply behinds_hd. }
  destruct HD as (q' & HD).
  destruct done.
  - specialize (O2 eq_refl l z eq_refl).
    destruct l as [|c' l]; cbn in Hc; injection Hc as ->.
    + rewrite Nat.eqb_refl. cbn [bind].
      assert (ts = []). { destruct ts as [|t ts]; auto. cbn in O1. destruct O1 as [[<-|[]] _]. exfalso. apply O2. left; auto. }
      subst ts. cbn in *. injection E1 as <-.
      destruct R1 as [R1 D1 M1 L1]. unfold store, release. rewrite Z. cbn [bind next]. rewrite setn_same. cbn [bind].
      eexists _, _. split; [reflexivity|]. split; [reflexivity|]. split; [|cbn; split; auto].
      constructor; cbn; [exact I|constructor| |constructor]. intros x; split; [|intros []].
      intros H. exfalso. destruct (Nat.eq_dec c x) as [->|N]; [rewrite setn_same in H; auto|].
      rewrite !setn_other in H by auto. apply M1 in H. destruct H as [H|[]]; auto.
    + assert (Cz : c <> z). { intros ->. pose proof (rp_nodup _ _ R) as D. inversion D; subst. apply H1, in_or_app. right; left; auto. }
      destruct (Nat.eqb_spec c z); [congruence|].
      assert (HM : exists m, q' = m ++ [z] /\ behinds ts (brk h) (c :: l) = c :: m).
      { rewrite behinds_snoc in HD by auto. destruct (behinds_hd ts (brk h) c l) as (m & Hm).
        rewrite Hm in HD. cbn in HD. injection HD as <-. exists m. split; auto. }
      destruct HM as (m & -> & _). rewrite HD in *. cbn [tl].
      destruct (hd_error (m ++ [z])) as [d|] eqn:Hd; [|destruct m; discriminate].
      destruct (rep_drop _ _ _ _ R1 d Hd) as (N1 & h2 & h3 & E2 & E3 & R3 & B3 & F3).
      unfold load. rewrite N1. cbn [bind]. rewrite E2. cbn [bind]. rewrite E3. cbn [bind].
      assert (RT : exists r, m ++ [z] = d :: r). { destruct m; cbn in Hd |- *; injection Hd as <-; eauto. }
      destruct RT as (r & RT). rewrite RT in *. cbn [rotate]. rewrite back_snoc.
      eexists _, _. split; [reflexivity|]. split; [reflexivity|]. split; [apply rep_rot; auto|]. split; congruence.
  - rewrite HD in *. cbn [rotate]. rewrite back_snoc. eexists _, _. split; [reflexivity|]. split; [auto|].
    split; [apply rep_rot; auto|]. auto.
Qed.

(** A whole run. *)
Lemma snoc_view (q : list addr) : q = [] \/ exists l z, q = l ++ [z].
Proof. destruct q using rev_ind; eauto. Qed.
Lemma turn_nil_back q : back q = None <-> q = [].
Proof. split; [|intros ->; auto]. destruct q; [auto|discriminate]. Qed.

Lemma run_rep bs : forall h s l z, q s = l ++ [z] -> Rep h (q s) -> brk h = nm s -> freed h = fin s -> ok_acts s bs ->
  exists h', run h z bs (tr s) = Ok (h', back (q (turns s bs)), tr (turns s bs)) /\
    Rep h' (q (turns s bs)) /\ brk h' = nm (turns s bs) /\ freed h' = fin (turns s bs).
Proof.
  induction bs as [|b bs IH]; intros h s l z Q R B F O.
  - exists h. assert (turns s [] = s) as -> by (destruct s as [[|]]; reflexivity). rewrite Q at 1. rewrite back_snoc. auto.
  - assert (NE : exists a r, q s = a :: r). { rewrite Q. destruct l; cbn; eauto. } destruct NE as (a & r & NE).
    assert (O' : ok_act (q s) (nm s) b /\ ok_acts (turn1 s b) bs). { cbn [ok_acts] in O. rewrite NE in O |- *. exact O. }
    clear O. destruct O' as [O1 O2].
    assert (TS : turns s (b :: bs) = turns (turn1 s b) bs) by (cbn [turns]; rewrite NE; reflexivity).
    rewrite TS. clear TS. cbn [run].
    rewrite <- B, Q in O1. rewrite Q in R. destruct (resume_rep h l z b R O1) as (h1 & c & E1 & C1 & R1 & B1 & F1).
    rewrite E1. cbn [bind].
    assert (c = a) by (rewrite <- Q, NE in C1; cbn in C1; congruence). subst c.
    assert (T1 : turn1 s b = mks (turn (l ++ [z]) b (brk h)) (nm s + length (fst b))%nat (tr s ++ [a]) (if snd b then fin s ++ [a] else fin s)).
    { unfold turn1. rewrite NE. rewrite <- NE, Q, B. reflexivity. }
    destruct (snoc_view (turn (l ++ [z]) b (brk h))) as [V|(l' & z' & V)].
    + rewrite V. cbn [back]. rewrite T1, V. exists h1.
      assert (ST : forall n t f, turns (mks [] n t f) bs = mks [] n t f) by (intros; destruct bs; reflexivity).
      rewrite ST. cbn. rewrite V in R1. repeat split; auto; try apply R1; [congruence|].
      rewrite F1. destruct (snd b); congruence.
    + rewrite V. rewrite back_snoc. rewrite V in T1. specialize (IH h1 (turn1 s b) l' z').
      rewrite T1 in IH |- *. cbn [q nm tr fin] in IH. rewrite T1 in O2. apply IH; auto; [congruence|congruence|].
      rewrite F1. destruct (snd b); congruence.
Qed.
Lemma start_rep : exists h, new_fiber (mkheap (fun _ => None) O []) = Ok (h, O) /\ Rep h (q (start O)) /\ brk h = 1%nat /\ freed h = [].
Proof.
  unfold new_fiber, alloc, store. cbn. eexists. split; [reflexivity|]. cbn. repeat split; auto; cbn; auto.
  - repeat constructor. intros [].
  - intros H. destruct x; [auto|]. exfalso. unfold setn in H. cbn in H. auto.
  - intros [<-|[]]. discriminate.
Qed.
Lemma run_task_turns bs : ok_acts (start O) bs -> exists h,
  run_task bs = Ok (h, back (q (turns (start O) bs)), tr (turns (start O) bs)) /\
  Rep h (q (turns (start O) bs)) /\ brk h = nm (turns (start O) bs) /\ freed h = fin (turns (start O) bs).
Proof.
  intros O. destruct start_rep as (h & E & R & B & F). unfold run_task. rewrite E. cbn [bind].
  destruct (run_rep bs h (start 0%nat) [] 0%nat eq_refl R B F O) as (h' & H). exists h'. exact H.
Qed.
