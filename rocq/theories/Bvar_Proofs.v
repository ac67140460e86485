From Coq Require Import Permutation.
From Verif Require Import Base Slots Cbits_Model Cbits_Spec Cbits_Proofs Cbits_Proofs2 Cbits_Proofs3 Var_Spec Var_Proofs Bvar_Model Bvar_Spec.

Section BvarProofs.
Variable lg : Z.
Hypothesis Hlg : 0 <= lg.
Variable rz : bool.
Variable stays : cbits -> cbits -> bool.
Implicit Types (h : list (option cbits)) (vs : list bvar) (l : list (option (list bool))) (k : list Z) (s : bstate).
Notation repr := (bits_repr lg).
(** Variable [v] has the bits [a]. *)
Definition good h (v : bvar) (a : list bool) : Prop :=
  True /\
  match v with
  | BUninit => False
  | BNull => a = []
  | BPtr p => exists c, aget h p = Ok (Some c) /\ True /\ repr c a
  end.
Definition ptrs (v : bvar) : list Z := match v with BPtr p => [p] | _ => [] end.
(** [k]: the live blocks that no variable owns. *)
Record sinv h vs k l : Prop := mkinv {
  c_len : zlen vs = zlen l;
  c_own : forall i a, owns l i = Some a -> exists v, aget vs i = Ok v /\ good h v a;
  c_sep : forall i j p, owns l i <> None -> owns l j <> None -> aget vs i = Ok (BPtr p) -> aget vs j = Ok (BPtr p) -> i = j;
  c_nodup : NoDup k;
  c_klive : forall p, In p k -> exists c, aget h p = Ok (Some c);
  c_kfree : forall p i, In p k -> owns l i <> None -> aget vs i <> Ok (BPtr p);
  c_live : forall p c, aget h p = Ok (Some c) -> In p k \/ exists i, owns l i <> None /\ aget vs i = Ok (BPtr p) }.

Lemma sinv_perm h vs k k' l : Permutation k k' -> sinv h vs k l -> sinv h vs k' l.
Proof.
  intros P [C1 C2 C3 C4 C5 C6 C7]. assert (forall p, In p k' -> In p k) by (intros p; apply Permutation_in; now symmetry).
  split; auto; [now apply (Permutation_NoDup P)|]. intros p c H1. destruct (C7 p c H1); [left; now apply (Permutation_in _ P)|auto].
Qed.
Lemma sinv_ext h vs k l l' : zlen l' = zlen l -> (forall i, owns l' i = owns l i) -> sinv h vs k l -> sinv h vs k l'.
Proof.
  intros Z E [C1 C2 C3 C4 C5 C6 C7]. split; auto; try lia.
  - intros i a. rewrite E. apply C2.
  - intros i j p. rewrite !E. apply C3.
  - intros p i. rewrite E. apply C6.
  - intros p c H. destruct (C7 p c H) as [|(i & ? & ?)]; auto. right. exists i. now rewrite E.
Qed.
Lemma detach h vs k l i a v : sinv h vs k l -> owns l i = Some a -> aget vs i = Ok v ->
  sinv h vs (ptrs v ++ k) (give l i None) /\ good h v a.
Proof.
  intros [C1 C2 C3 C4 C5 C6 C7] O V. pose proof (owns_some _ _ _ O) as Hi. destruct (C2 i a O) as (v0 & V0 & G). rewrite V in V0. injection V0 as <-.
  assert (N : forall j, owns (give l i None) j <> None -> j <> i /\ owns l j <> None).
  { intros j. rewrite owns_give by exact Hi. destruct (Z.eqb_spec j i); [congruence|auto]. }
  assert (P : forall p, In p (ptrs v) -> v = BPtr p) by (intros p; destruct v; cbn; [tauto|tauto|intros [->|[]]; reflexivity]).
  split; [|exact G]. split.
  - rewrite zlen_give; auto.
  - intros j b. rewrite owns_give by exact Hi. destruct (j =? i); [discriminate|apply C2].
  - intros j1 j2 p H1 H2. apply N in H1, H2. apply C3; tauto.
  - destruct v; cbn [ptrs app]; auto. constructor; auto. intro H. apply (C6 _ i H); congruence.
  - intros p H. apply in_app_or in H as [H|H]; [|auto]. apply P in H. subst v. destruct G as (_ & c & E & _). eauto.
  - intros p j H Hj E. apply N in Hj as [NE Hj]. apply in_app_or in H as [H|H]; [|eapply C6; eauto]. apply P in H. subst v. apply NE. apply (C3 j i p); auto. congruence.
  - intros p c H. destruct (C7 p c H) as [|(j & O1 & V1)]; [left; apply in_or_app; auto|]. destruct (Z.eq_dec j i) as [->|NE].
    + left. apply in_or_app. left. rewrite V in V1. injection V1 as ->. now left.
    + right. exists j. split; auto. rewrite owns_give by exact Hi. destruct (Z.eqb_spec j i); [lia|auto].
Qed.
Lemma attach h vs k l i a v : sinv h vs (ptrs v ++ k) l -> is_var l i -> owns l i = None -> good h v a ->
  exists vs', aset vs i v = Ok vs' /\ sinv h vs' k (give l i (Some a)).
Proof.
  intros [C1 C2 C3 C4 C5 C6 C7] Hi O G. destruct (aset_some vs i v) as (vs' & S); [unfold is_var in Hi; lia|]. exists vs'. split; [exact S|].
  assert (Q : forall j x, aget vs' j = Ok x -> (j = i /\ x = v) \/ (j <> i /\ aget vs j = Ok x)).
  { intros j x. rewrite (aget_aset _ _ _ _ j S). destruct (Z.eqb_spec j i); [intros [= <-]; auto|auto]. }
  assert (N : forall j, owns (give l i (Some a)) j <> None -> j <> i -> owns l j <> None).
  { intros j. rewrite owns_give by exact Hi. destruct (Z.eqb_spec j i); [tauto|auto]. }
  assert (F : forall p j, v = BPtr p -> owns l j <> None -> aget vs j <> Ok (BPtr p)).
  { intros p j -> ?. apply C6; auto. now left. }
  split.
  - rewrite zlen_give by auto. now rewrite (aset_zlen _ _ _ _ S).
  - intros j b. rewrite owns_give by exact Hi. rewrite (aget_aset _ _ _ _ j S). destruct (Z.eqb_spec j i); [intros [= <-]; eauto|apply C2].
  - intros j1 j2 p H1 H2 E1 E2. apply Q in E1, E2. destruct E1 as [[-> E1]|[N1 E1]], E2 as [[-> E2]|[N2 E2]]; auto.
    + exfalso. eapply (F p j2); eauto.
    + exfalso. eapply (F p j1); eauto.
    + eapply C3; eauto.
  - clear -C4. destruct v; cbn [ptrs app] in C4; auto. now inversion C4.
  - intros p H. apply C5, in_or_app. auto.
  - intros p j H Hj E. apply Q in E as [[-> E]|[NE E]].
    + subst v. cbn [ptrs app] in C4. inversion C4; auto.
    + apply (C6 p j); auto. apply in_or_app; auto.
  - intros p c H. destruct (C7 p c H) as [X|(j & O1 & V1)].
    + apply in_app_or in X as [X|X]; auto. right. exists i. rewrite owns_give, Z.eqb_refl by exact Hi. split; [discriminate|]. rewrite (aget_aset_same _ _ _ _ S). destruct v; cbn in X; try tauto. destruct X as [->|[]]. reflexivity.
    + assert (j <> i) by congruence. right. exists j. rewrite owns_give by exact Hi. rewrite (aget_aset_other _ _ _ _ j S) by auto. destruct (Z.eqb_spec j i); [lia|auto].
Qed.
Lemma good_set h h' p c v a : aset h p c = Ok h' -> v <> BPtr p -> good h v a -> good h' v a.
Proof.
  intros S N [T G]. split; auto. destruct v; auto. destruct G as (c0 & E & G). exists c0. split; auto. rewrite (aget_aset_other _ _ _ _ p0 S); auto. congruence.
Qed.
Lemma free_ok h vs k l p : sinv h vs (p :: k) l -> exists h', bfree h p = Ok h' /\ aset h p None = Ok h' /\ sinv h' vs k l.
Proof.
  intros [C1 C2 C3 C4 C5 C6 C7]. destruct (C5 p) as (c & E); [now left|]. unfold bfree, bblock. rewrite E. cbn [bind].
  destruct (aset_some h p None (aget_ok_range _ _ _ E)) as (h' & S). exists h'. do 2 (split; [exact S|]).
  pose proof (NoDup_cons_iff p k) as ND. apply ND in C4 as [C4a C4b]. split; auto.
  - intros i a O. destruct (C2 i a O) as (v & V & G). exists v. split; auto. eapply good_set; eauto. intros ->. apply (C6 p i); [now left|congruence|auto].
  - intros q H. destruct (C5 q) as (c' & E'); [now right|]. exists c'. rewrite (aget_aset_other _ _ _ _ q S); auto. intros ->. auto.
  - intros q i H. apply C6. now right.
  - intros q c' H. rewrite (aget_aset _ _ _ _ q S) in H. destruct (Z.eqb_spec q p); [discriminate|]. destruct (C7 q c' H) as [[X|X]|X]; auto. congruence.
Qed.
Lemma alloc_ok h vs k l c : sinv h vs k l -> sinv (h ++ [Some c]) vs (zlen h :: k) l.
Proof.
  intros [C1 C2 C3 C4 C5 C6 C7].
  assert (OLD : forall p c0, aget h p = Ok (Some c0) -> aget (h ++ [Some c]) p = Ok (Some c0)).
  { intros p c0 E. rewrite aget_app1; auto. apply aget_ok_range in E. lia. }
  assert (NEW : forall p c0, aget h p = Ok (Some c0) -> p <> zlen h) by (intros p c0 E; apply aget_ok_range in E; lia).
  split; auto.
  - intros i a O. destruct (C2 i a O) as (v & V & T & G). exists v. split; auto. split; auto. destruct v; auto. destruct G as (c0 & E & G). exists c0. auto.
  - constructor; auto. intro H. destruct (C5 _ H) as (c0 & E). now apply (NEW _ _ E).
  - intros p [<-|H]; [exists c; rewrite aget_app2, Z.sub_diag by lia; reflexivity|]. destruct (C5 p H) as (c0 & E). eauto.
  - intros p i [<-|H] Hi E; [|eapply C6; eauto]. destruct (owns l i) as [a|] eqn:O; [|congruence]. destruct (C2 i a O) as (v & V & T & G). rewrite E in V. injection V as <-. destruct G as (c0 & E0 & _). now apply (NEW _ _ E0).
  - intros p c0 H. destruct (Z.eq_dec p (zlen h)) as [->|NE]; [left; now left|]. pose proof (aget_ok_range _ _ _ H) as R. rewrite zlen_app in R. change (zlen [Some c]) with 1 in R. rewrite aget_app1 in H by lia. destruct (C7 p c0 H) as [X|X]; [left; now right|auto].
Qed.
Lemma good_app h v a c : good h v a -> good (h ++ [c]) v a.
Proof.
  intros [T G]. split; auto. destruct v; auto. destruct G as (c0 & E & G). exists c0. split; auto. rewrite aget_app1; auto. apply aget_ok_range in E. lia.
Qed.

Lemma new_ok h vs k l c a : sinv h vs k l -> repr c a ->
  sinv (fst (bnew h c)) vs (ptrs (snd (bnew h c)) ++ k) l /\ good (fst (bnew h c)) (snd (bnew h c)) a.
Proof.
  intros I R. unfold bnew. destruct (buf c) eqn:B; cbn [fst snd ptrs app].
  all: first [split; [exact I|]; split; [exact Logic.I|]; exact (null_inj lg Hlg c a R B)
    | split; [now apply alloc_ok|]; split; [exact Logic.I|]; exists c; split; [rewrite aget_app2, Z.sub_diag by lia; reflexivity|]; split; [exact Logic.I|exact R]].
Qed.
Lemma write_ok h vs k l p c' : sinv h vs (p :: k) l -> exists h', aset h p (Some c') = Ok h' /\ sinv h' vs (p :: k) l.
Proof.
  intros [C1 C2 C3 C4 C5 C6 C7]. destruct (C5 p) as (c & E); [now left|].
  destruct (aset_some h p (Some c') (aget_ok_range _ _ _ E)) as (h' & S). exists h'. split; [exact S|]. split; auto.
  - intros i a O. destruct (C2 i a O) as (v & V & G). exists v. split; auto. eapply good_set; eauto. intros ->. apply (C6 p i); [now left|congruence|auto].
  - intros q H. rewrite (aget_aset _ _ _ _ q S). destruct (q =? p); eauto.
  - intros q c0 H. rewrite (aget_aset _ _ _ _ q S) in H. destruct (Z.eqb_spec q p); [subst; left; now left|]. eapply C7; eauto.
Qed.
Lemma load_ok h v a : good h v a -> exists c, bload h v = Ok c /\ repr c a.
Proof.
  intros [_ G]. destruct v; cbn [bload]; [tauto|subst; exists null_bits; split; [reflexivity|now apply null_repr]|]. destruct G as (c & E & _ & R). unfold bblock. rewrite E. cbn [bind]. eauto.
Qed.
Lemma drop_ok h vs k l v a : sinv h vs (ptrs v ++ k) l -> good h v a -> exists h', bdrop h v = Ok h' /\ sinv h' vs k l.
Proof.
  intros I [_ G]. destruct v; cbn [bdrop ptrs app] in *; [tauto|eauto|]. destruct (free_ok _ _ _ _ _ I) as (h' & E & _ & I'). eauto.
Qed.
Lemma is_var_g l i o j : is_var l i -> is_var l j -> is_var (give l i o) j.
Proof. intros Hi Hj. unfold is_var. now rewrite zlen_give. Qed.

Definition inv s l : Prop := sinv (bheap s) (bvars s) [] l.
Lemma none_give l i o : is_var l i -> owns (give l i (A:=list bool) o) i = o.
Proof. intro H. now rewrite owns_give, Z.eqb_refl. Qed.
Lemma var_of s l i a : inv s l -> owns l i = Some a -> exists v, aget (bvars s) i = Ok v /\ good (bheap s) v a.
Proof. intros I O. exact (c_own _ _ _ _ I i a O). Qed.
(** A new set in a variable that owns nothing. *)
Lemma store_new h vs l i c a : sinv h vs [] l -> is_var l i -> owns l i = None -> repr c a ->
  exists s', bset (mkb (fst (bnew h c)) vs) i (snd (bnew h c)) = Ok s' /\ inv s' (give l i (Some a)).
Proof.
  intros I Hi O R. destruct (new_ok _ _ _ _ c a I R) as [I1 G1]. destruct (attach _ _ _ _ _ _ _ I1 Hi O G1) as (vs' & S & I2).
  unfold bset. cbn [bvars bheap]. rewrite S. cbn [bind]. eexists. split; [reflexivity|exact I2].
Qed.
Lemma write_in s l i a p c' a' : inv s l -> owns l i = Some a -> aget (bvars s) i = Ok (BPtr p) -> repr c' a' ->
  exists h, aset (bheap s) p (Some c') = Ok h /\ inv (mkb h (bvars s)) (give l i (Some a')).
Proof.
  intros I O V R. pose proof (owns_some _ _ _ O) as Hi. destruct (detach _ _ _ _ _ _ _ I O V) as [I1 _].
  destruct (write_ok _ _ _ _ p c' I1) as (h & S & I2). exists h. split; [exact S|].
  destruct (attach _ _ [] _ i a' (BPtr p) I2 (is_var_g _ _ _ _ Hi Hi) (none_give l i None Hi)) as (vs & S2 & I3).
  { split; [exact Logic.I|]. exists c'. split; [exact (aget_aset_same _ _ _ _ S)|]. split; [exact Logic.I|exact R]. }
  rewrite give_give in I3. rewrite aset_ok in S2 by exact (aget_ok_range _ _ _ V). apply aget_nth in V as [_ V]. rewrite (upd_same _ _ _ V) in S2. injection S2 as <-. exact I3.
Qed.
Lemma update_ok s l i a v c' a' : inv s l -> owns l i = Some a -> aget (bvars s) i = Ok v -> repr c' a' ->
  exists s', bupdate stays s i v c' = Ok s' /\ inv s' (give l i (Some a')).
Proof.
  intros I O V R. pose proof (owns_some _ _ _ O) as Hi. destruct (detach _ _ _ _ _ _ _ I O V) as [I1 G].
  assert (H1 : is_var (give l i None) i) by now apply is_var_g. pose proof (none_give l i None Hi) as O1.
  unfold bupdate. destruct v as [| |p]; [destruct G as [_ []]| |].
  - destruct (store_new _ _ _ i c' a' I1 H1 O1 R) as (s' & S & I2). rewrite give_give in I2. eauto.
  - pose proof G as (_ & c & E & _). unfold bblock. rewrite E. cbn [bind]. destruct (stays c c').
    + destruct (write_in s l i a p c' a' I O V R) as (h & S & I2). rewrite S. cbn [bind]. eauto.
    + destruct (free_ok _ _ _ _ _ I1) as (h & F & _ & I2). rewrite F. cbn [bind].
      destruct (store_new _ _ _ i c' a' I2 H1 O1 R) as (s' & S & I3). rewrite give_give in I3. eauto.
Qed.
Lemma move_ok s l i a v : inv s l -> owns l i = Some a -> aget (bvars s) i = Ok v ->
  exists s', bmove s i = Ok (s', v) /\ bheap s' = bheap s /\ aset (bvars s) i BNull = Ok (bvars s') /\
    sinv (bheap s) (bvars s') (ptrs v ++ []) (give l i (Some [])) /\ good (bheap s) v a.
Proof.
  intros I O V. pose proof (owns_some _ _ _ O) as Hi. destruct (detach _ _ _ _ _ _ _ I O V) as [I1 G].
  destruct (attach _ _ _ _ i [] BNull I1 (is_var_g _ _ _ _ Hi Hi) (none_give l i None Hi) (conj Logic.I eq_refl)) as (vs & S & I2). rewrite give_give in I2.
  unfold bmove. rewrite V. cbn [bind]. exists (mkb (bheap s) vs). cbn [bheap bvars]. split; [|auto].
  destruct v; [destruct G as [_ []]| |]; unfold bset; rewrite S; reflexivity.
Qed.
Lemma take_ok s l i a v m b : sinv (bheap s) (bvars s) (ptrs m ++ []) l -> owns l i = Some a -> aget (bvars s) i = Ok v -> good (bheap s) m b ->
  exists s', btake s i m = Ok s' /\ inv s' (give l i (Some b)).
Proof.
  intros I O V Gm. pose proof (owns_some _ _ _ O) as Hi. destruct (detach _ _ _ _ _ _ _ I O V) as [I1 G].
  pose proof (is_var_g _ i None _ Hi Hi) as H1. pose proof (none_give l i None Hi) as O1.
  unfold btake. rewrite V. cbn [bind]. destruct (bsame v m) eqn:SM.
  - destruct v as [| |p], m as [| |q]; try discriminate.
    + destruct G as [_ ->], Gm as [_ ->]. exists s. split; [reflexivity|]. rewrite <- O, give_owns by exact Hi. exact I.
    + apply Z.eqb_eq in SM as ->. exfalso. pose proof (c_kfree _ _ _ _ I q i) as F. apply F; [now left|congruence|exact V].
  - destruct (drop_ok _ _ _ _ _ _ I1 G) as (h & D & I2). rewrite D. cbn [bind].
    assert (Gm' : good h m b).
    { destruct v as [| |p]; cbn [bdrop] in D; [discriminate|injection D as <-; exact Gm|]. destruct (free_ok _ _ _ _ _ I1) as (h' & F & S & _). rewrite D in F. injection F as <-.
      apply (good_set _ _ _ _ _ _ S); [|exact Gm]. intros ->. cbn [bsame] in SM. rewrite Z.eqb_refl in SM. discriminate. }
    destruct (attach _ _ _ _ i b m I2 H1 O1 Gm') as (vs & S2 & I3). unfold bset. cbn [bvars bheap]. rewrite S2. cbn [bind]. eexists. split; [reflexivity|]. rewrite give_give in I3. exact I3.
Qed.
Lemma take_new s l i a v c b : inv s l -> owns l i = Some a -> aget (bvars s) i = Ok v -> repr c b ->
  exists s', btake (mkb (fst (bnew (bheap s) c)) (bvars s)) i (snd (bnew (bheap s) c)) = Ok s' /\ inv s' (give l i (Some b)).
Proof.
  intros I O V R. destruct (new_ok _ _ _ _ c b I R) as [I1 G1]. exact (take_ok (mkb (fst (bnew (bheap s) c)) (bvars s)) l i a v _ b I1 O V G1).
Qed.
Lemma after_ok S st o b : Forall2 (bits_repr lg) st S -> after lg rz S o = Some b -> exists r c, step lg rz st o = Ok r /\ aget (fst r) 0 = Ok c /\ repr c b.
Proof.
  intros F A. unfold after in A. destruct (sstep lg rz S o) as [[[|b0 S'] x]|] eqn:E; try discriminate. injection A as ->.
  destruct (step_ok lg rz Hlg st S o _ x F E) as (st' & ST & F'). inversion F' as [|c b1 t t' R _]; subst. exists (c :: t, x), c. auto.
Qed.
Lemma bits_owned l i a : owns l i = Some a -> bits_of l i = a.
Proof. intro O. unfold bits_of. now rewrite O. Qed.

Lemma bstep_ok s l o : inv s l -> blegal lg rz l o -> exists s', bstep lg rz stays s o = Ok s' /\ inv s' (bspec lg rz l o).
Proof.
  intros I L. destruct o as [i|i n b|i o|i j o|i|i j|i j|i|i n b|i j|i j]; cbn [blegal bspec bstep] in *.
  - destruct L as [Hi O]. destruct (attach (bheap s) (bvars s) [] l i [] BNull I Hi O (conj Logic.I eq_refl)) as (vs & S & I2).
    unfold bset. rewrite S. cbn [bind]. eexists. split; [reflexivity|exact I2].
  - destruct L as (Hi & O & N). destruct (with_size_ok lg Hlg n b N) as (c & E & R). rewrite E. cbn [bind]. exact (store_new _ _ l i c _ I Hi O R).
  - destruct L as (O & _ & A). apply owns_ne in O as (a & O). rewrite (bits_owned _ _ _ O) in *. destruct (after lg rz [a] o) as [b|] eqn:EA; [|congruence].
    destruct (var_of _ _ _ _ I O) as (v & V & G). destruct (load_ok _ _ _ G) as (c & LD & R). rewrite V. cbn [bind]. rewrite LD. cbn [bind].
    destruct (after_ok [a] [c] o b) as (r & c' & ST & A0 & R'); [repeat constructor; exact R|exact EA|]. rewrite ST. cbn [bind]. rewrite A0. cbn [bind]. exact (update_ok s l i a v c' b I O V R').
  - destruct L as (O & OJ & _ & _ & A). apply owns_ne in O as (a & O). apply owns_ne in OJ as (d & OJ). rewrite (bits_owned _ _ _ O), (bits_owned _ _ _ OJ) in *. destruct (after lg rz [a; d] o) as [b|] eqn:EA; [|congruence].
    destruct (var_of _ _ _ _ I O) as (v & V & G). destruct (load_ok _ _ _ G) as (c & LD & R). destruct (var_of _ _ _ _ I OJ) as (w & W & GW). destruct (load_ok _ _ _ GW) as (e & LW & RW).
    rewrite V, W. cbn [bind]. rewrite LD, LW. cbn [bind].
    destruct (after_ok [a; d] [c; e] o b) as (r & c' & ST & A0 & R'); [repeat constructor; [exact R|exact RW]|exact EA|]. rewrite ST. cbn [bind]. rewrite A0. cbn [bind]. exact (update_ok s l i a v c' b I O V R').
  - apply owns_ne in L as (a & O). destruct (var_of _ _ _ _ I O) as (v & V & G). rewrite V. cbn [bind].
    destruct (detach _ _ _ _ _ _ _ I O V) as [I1 _]. destruct (drop_ok _ _ _ _ _ _ I1 G) as (h' & E & I2). rewrite E. cbn [bind]. eexists. split; [reflexivity|exact I2].
  - destruct L as (Hj & O & OJ). apply owns_ne in O as (a & O). pose proof (owns_some _ _ _ O) as Hi. destruct (var_of _ _ _ _ I O) as (v & V & G).
    destruct (move_ok s l i a v I O V) as (s1 & M & EH & ES & I1 & _). rewrite M. cbn [bind fst snd]. unfold bset. rewrite EH, O. destruct (Z.eq_dec i j) as [<-|NE].
    + rewrite (aset_back _ _ _ _ _ V ES). cbn [bind]. eexists. split; [reflexivity|]. rewrite give_give, <- O, give_owns by exact Hi. exact I.
    + destruct OJ as [OJ|OJ]; [|contradiction]. destruct (attach _ _ _ _ j a v I1 (is_var_g _ _ _ _ Hi Hj)) as (vs & S & I2); [|exact G|].
      { rewrite owns_give by exact Hi. destruct (Z.eqb_spec j i); [lia|exact OJ]. }
      rewrite S. cbn [bind]. eexists. split; [reflexivity|exact I2].
  - destruct L as (O & OJ). apply owns_ne in OJ as (b & OJ). pose proof (owns_some _ _ _ OJ) as Hj. destruct (var_of _ _ _ _ I OJ) as (w & W & G).
    destruct (move_ok s l j b w I OJ W) as (s1 & M & EH & ES & I1 & _). rewrite M. cbn [bind fst snd]. rewrite OJ. rewrite <- EH in I1, G.
    assert (exists a, owns (give l j (Some [])) i = Some a) as (a & O1).
    { apply owns_ne. rewrite owns_give by exact Hj. destruct (i =? j); [discriminate|exact O]. }
    destruct (c_own _ _ _ _ I1 i a O1) as (v & V & _). exact (take_ok s1 _ i a v w b I1 O1 V G).
  - apply owns_ne in L as (a & O). destruct (var_of _ _ _ _ I O) as (v & V & G). rewrite V. cbn [bind]. exists s. split; [|exact I].
    destruct v as [| |p]; [destruct G as [_ []]| |]; unfold btake; rewrite V; cbn [bind bsame]; [reflexivity|now rewrite Z.eqb_refl].
  - destruct L as (O & N). apply owns_ne in O as (a & O). destruct (var_of _ _ _ _ I O) as (v & V & _). destruct (with_size_ok lg Hlg n b N) as (c & E & R). rewrite E. cbn [bind]. exact (take_new s l i a v c _ I O V R).
  - destruct L as (Hj & O & OJ). apply owns_ne in O as (a & O). destruct (var_of _ _ _ _ I O) as (v & V & G). destruct (load_ok _ _ _ G) as (c & LD & R). rewrite V. cbn [bind]. rewrite LD. cbn [bind].
    destruct (clone_ok lg Hlg c a R) as (c' & E & R'). rewrite E, O. cbn [bind]. exact (store_new _ _ l j c' a I Hj OJ R').
  - destruct L as (O & OJ). apply owns_ne in O as (a & O). apply owns_ne in OJ as (b & OJ). pose proof (owns_some _ _ _ O) as Hi.
    destruct (var_of _ _ _ _ I O) as (v & V & G). destruct (load_ok _ _ _ G) as (c & LD & R). destruct (var_of _ _ _ _ I OJ) as (w & W & GW). destruct (load_ok _ _ _ GW) as (o & LW & RW).
    unfold bcopy. rewrite V, W. cbn [bind]. rewrite LD, LW, OJ. cbn [bind]. destruct (bsame v w) eqn:SM.
    + exists s. split; [reflexivity|]. assert (a = b) as ->; [|rewrite <- O, give_owns by exact Hi; exact I].
      destruct v as [| |p], w as [| |q]; try discriminate; [destruct G as [_ ->], GW as [_ ->]; reflexivity|]. apply Z.eqb_eq in SM as ->.
      assert (i = j) as <- by (apply (c_sep _ _ _ _ I i j q); congruence). congruence.
    + destruct (Z.eqb_spec (size c) (size o)) as [ES|ES]; cbn [negb].
      * destruct (copy_ok lg Hlg false c o a b R RW ltac:(discriminate)) as (c' & E & R'). rewrite E. cbn [bind]. destruct v as [| |p]; [destruct G as [_ []]| |].
        -- exists s. split; [reflexivity|]. assert (b = a) as ->; [|rewrite <- O, give_owns by exact Hi; exact I].
           destruct G as [_ ->]. pose proof (repr_size _ _ _ R) as Z1. pose proof (repr_size _ _ _ RW) as Z2. rewrite ES, Z2 in Z1. destruct b; [reflexivity|]. rewrite zlen_cons in Z1. pose proof (zlen_nonneg b0). change (zlen (@nil bool)) with 0 in Z1. lia.
        -- destruct (write_in s l i a p c' b I O V R') as (h & S & I2). rewrite S. cbn [bind]. eauto.
      * destruct (clone_ok lg Hlg o b RW) as (c' & E & R'). rewrite E. cbn [bind]. exact (take_new s l i a v c' b I O V R').
Qed.
Lemma brun_ok ops : forall s l, inv s l -> blegal_all lg rz l ops -> exists s', brun lg rz stays s ops = Ok s' /\ inv s' (bspec_all lg rz l ops).
Proof.
  induction ops as [|o r IH]; intros s l I L; cbn [blegal_all brun bspec_all] in *; [eauto|]. destruct L as [L1 L2].
  destruct (bstep_ok s l o I L1) as (s1 & E & I1). rewrite E. cbn [bind]. exact (IH s1 _ I1 L2).
Qed.
Lemma start_ok n : inv (bstart n) (repeat None n).
Proof.
  assert (N : forall i, owns (repeat (@None (list bool)) n) i = None) by apply owns_repeat.
  split; cbn [bstart bheap bvars].
  - unfold zlen. now rewrite !repeat_length.
  - intros i a. rewrite N. discriminate.
  - intros i j p. rewrite N. congruence.
  - constructor.
  - intros p [].
  - intros p i [].
  - intros p c H. apply aget_ok_range in H. unfold zlen in H. cbn in H. lia.
Qed.
Lemma program_ok n ops : blegal_all lg rz (repeat None n) ops ->
  exists s, brun lg rz stays (bstart n) ops = Ok s /\ bowned lg s (bspec_all lg rz (repeat None n) ops).
Proof.
  intro L. destruct (brun_ok ops _ _ (start_ok n) L) as (s & E & I). exists s. split; [exact E|]. split.
  - intros i a O. destruct (var_of _ _ _ _ I O) as (v & V & G). destruct (load_ok _ _ _ G) as (c & LD & R). eauto.
  - exact (c_sep _ _ _ _ I).
  - intros p c H. destruct (c_live _ _ _ _ I p c H) as [[]|X]. exact X.
Qed.
End BvarProofs.
