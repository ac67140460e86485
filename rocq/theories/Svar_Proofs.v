From Coq Require Import Permutation.
From Verif Require Import Base Slots Utf8_Spec View_Model View_Spec Cstr_Model Cstr_Spec Cstr_Proofs Cstr_Proofs2 Cstr_Proofs3 Var_Spec Var_Proofs Svar_Model Svar_Spec.

Implicit Types (h : list (option cstr)) (vs : list svar) (l : list (option (list Z))) (k : list Z).
Definition is_long (c : cstr) : Prop := match c with Long _ _ _ => True | Short _ => False end.
(** Variable [v] has the text [a]. *)
Definition good h (v : svar) (a : list Z) : Prop :=
  text a /\
  match v with
  | SUninit => False
  | SShort d => repr (Short d) a
  | SLong p => exists c, aget h p = Ok (Some c) /\ is_long c /\ repr c a
  end.
Definition ptrs (v : svar) : list Z := match v with SLong p => [p] | _ => [] end.
(** [k]: the live blocks that no variable owns. *)
Record sinv h vs k l : Prop := mkinv {
  c_len : zlen vs = zlen l;
  c_own : forall i a, owns l i = Some a -> exists v, aget vs i = Ok v /\ good h v a;
  c_sep : forall i j p, owns l i <> None -> owns l j <> None -> aget vs i = Ok (SLong p) -> aget vs j = Ok (SLong p) -> i = j;
  c_nodup : NoDup k;
  c_klive : forall p, In p k -> exists c, aget h p = Ok (Some c);
  c_kfree : forall p i, In p k -> owns l i <> None -> aget vs i <> Ok (SLong p);
  c_live : forall p c, aget h p = Ok (Some c) -> In p k \/ exists i, owns l i <> None /\ aget vs i = Ok (SLong p) }.

Lemma sinv_perm h vs k k' l : Permutation k k' -> sinv h vs k l -> sinv h vs k' l.
Proof.
  intros P [C1 C2 C3 C4 C5 C6 C7]. assert (forall p, In p k' -> In p k) by (intros p; apply Permutation_in; now symmetry).
  split; auto; [now apply (Permutation_NoDup P)|]. intros p c H1. destruct (C7 p c H1); [left; now apply (Permutation_in _ P)|auto].
Qed.
Lemma sinv_ext h vs k l l' : zlen l' = zlen l -> (forall i, owns l' i = owns l i) -> sinv h vs k l -> sinv h vs k l'.
Proof.
  intros Z E [C1 C2 C3 C4 C5 C6 C7]. split; auto; try lia.
  - intros i a. rewrite E. apply C2.
  - intros i j p. rewrite !E. apply C3.
  - intros p i. rewrite E. apply C6.
  - intros p c H. destruct (C7 p c H) as [|(i & ? & ?)]; auto. right. exists i. now rewrite E.
Qed.
Lemma detach h vs k l i a v : sinv h vs k l -> owns l i = Some a -> aget vs i = Ok v ->
  sinv h vs (ptrs v ++ k) (give l i None) /\ good h v a.
Proof.
  intros [C1 C2 C3 C4 C5 C6 C7] O V. pose proof (owns_some _ _ _ O) as Hi. destruct (C2 i a O) as (v0 & V0 & G). rewrite V in V0. injection V0 as <-.
  assert (N : forall j, owns (give l i None) j <> None -> j <> i /\ owns l j <> None).
  { intros j. rewrite owns_give by exact Hi. destruct (Z.eqb_spec j i); [congruence|auto]. }
  assert (P : forall p, In p (ptrs v) -> v = SLong p) by (intros p; destruct v; cbn; [tauto|tauto|intros [->|[]]; reflexivity]).
  split; [|exact G]. split.
  - rewrite zlen_give; auto.
  - intros j b. rewrite owns_give by exact Hi. destruct (j =? i); [discriminate|apply C2].
  - intros j1 j2 p H1 H2. apply N in H1, H2. apply C3; tauto.
  - destruct v; cbn [ptrs app]; auto. constructor; auto. intro H. apply (C6 _ i H); congruence.
  - intros p H. apply in_app_or in H as [H|H]; [|auto]. apply P in H. subst v. destruct G as (_ & c & E & _). eauto.
  - intros p j H Hj E. apply N in Hj as [NE Hj]. apply in_app_or in H as [H|H]; [|eapply C6; eauto]. apply P in H. subst v. apply NE. apply (C3 j i p); auto. congruence.
  - intros p c H. destruct (C7 p c H) as [|(j & O1 & V1)]; [left; apply in_or_app; auto|]. destruct (Z.eq_dec j i) as [->|NE].
    + left. apply in_or_app. left. rewrite V in V1. injection V1 as ->. now left.
    + right. exists j. split; auto. rewrite owns_give by exact Hi. destruct (Z.eqb_spec j i); [lia|auto].
Qed.
Lemma attach h vs k l i a v : sinv h vs (ptrs v ++ k) l -> is_var l i -> owns l i = None -> good h v a ->
  exists vs', aset vs i v = Ok vs' /\ sinv h vs' k (give l i (Some a)).
Proof.
  intros [C1 C2 C3 C4 C5 C6 C7] Hi O G. destruct (aset_some vs i v) as (vs' & S); [unfold is_var in Hi; lia|]. exists vs'. split; [exact S|].
  assert (Q : forall j x, aget vs' j = Ok x -> (j = i /\ x = v) \/ (j <> i /\ aget vs j = Ok x)).
  { intros j x. rewrite (aget_aset _ _ _ _ j S). destruct (Z.eqb_spec j i); [intros [= <-]; auto|auto]. }
  assert (N : forall j, owns (give l i (Some a)) j <> None -> j <> i -> owns l j <> None).
  { intros j. rewrite owns_give by exact Hi. destruct (Z.eqb_spec j i); [tauto|auto]. }
  assert (F : forall p j, v = SLong p -> owns l j <> None -> aget vs j <> Ok (SLong p)).
  { intros p j -> ?. apply C6; auto. now left. }
  split.
  - rewrite zlen_give by auto. now rewrite (aset_zlen _ _ _ _ S).
  - intros j b. rewrite owns_give by exact Hi. rewrite (aget_aset _ _ _ _ j S). destruct (Z.eqb_spec j i); [intros [= <-]; eauto|apply C2].
  - intros j1 j2 p H1 H2 E1 E2. apply Q in E1, E2. destruct E1 as [[-> E1]|[N1 E1]], E2 as [[-> E2]|[N2 E2]]; auto.
    + exfalso. eapply (F p j2); eauto.
    + exfalso. eapply (F p j1); eauto.
    + eapply C3; eauto.
  - clear -C4. destruct v; cbn [ptrs app] in C4; auto. now inversion C4.
  - intros p H. apply C5, in_or_app. auto.
  - intros p j H Hj E. apply Q in E as [[-> E]|[NE E]].
    + subst v. cbn [ptrs app] in C4. inversion C4; auto.
    + apply (C6 p j); auto. apply in_or_app; auto.
  - intros p c H. destruct (C7 p c H) as [X|(j & O1 & V1)].
    + apply in_app_or in X as [X|X]; auto. right. exists i. rewrite owns_give, Z.eqb_refl by exact Hi. split; [discriminate|]. rewrite (aget_aset_same _ _ _ _ S). destruct v; cbn in X; try tauto. destruct X as [->|[]]. reflexivity.
    + assert (j <> i) by congruence. right. exists j. rewrite owns_give by exact Hi. rewrite (aget_aset_other _ _ _ _ j S) by auto. destruct (Z.eqb_spec j i); [lia|auto].
Qed.
Lemma good_set h h' p c v a : aset h p c = Ok h' -> v <> SLong p -> good h v a -> good h' v a.
Proof.
  intros S N [T G]. split; auto. destruct v; auto. destruct G as (c0 & E & G). exists c0. split; auto. rewrite (aget_aset_other _ _ _ _ a0 S); auto. congruence.
Qed.
Lemma free_ok h vs k l p : sinv h vs (p :: k) l -> exists h', sfree h p = Ok h' /\ aset h p None = Ok h' /\ sinv h' vs k l.
Proof.
  intros [C1 C2 C3 C4 C5 C6 C7]. destruct (C5 p) as (c & E); [now left|]. unfold sfree, block. rewrite E. cbn [bind].
  destruct (aset_some h p None (aget_ok_range _ _ _ E)) as (h' & S). exists h'. do 2 (split; [exact S|]).
  pose proof (NoDup_cons_iff p k) as ND. apply ND in C4 as [C4a C4b]. split; auto.
  - intros i a O. destruct (C2 i a O) as (v & V & G). exists v. split; auto. eapply good_set; eauto. intros ->. apply (C6 p i); [now left|congruence|auto].
  - intros q H. destruct (C5 q) as (c' & E'); [now right|]. exists c'. rewrite (aget_aset_other _ _ _ _ q S); auto. intros ->. auto.
  - intros q i H. apply C6. now right.
  - intros q c' H. rewrite (aget_aset _ _ _ _ q S) in H. destruct (Z.eqb_spec q p); [discriminate|]. destruct (C7 q c' H) as [[X|X]|X]; auto. congruence.
Qed.
Lemma alloc_ok h vs k l c : sinv h vs k l -> sinv (h ++ [Some c]) vs (zlen h :: k) l.
Proof.
  intros [C1 C2 C3 C4 C5 C6 C7].
  assert (OLD : forall p c0, aget h p = Ok (Some c0) -> aget (h ++ [Some c]) p = Ok (Some c0)).
  { intros p c0 E. rewrite aget_app1; auto. apply aget_ok_range in E. lia. }
  assert (NEW : forall p c0, aget h p = Ok (Some c0) -> p <> zlen h) by (intros p c0 E; apply aget_ok_range in E; lia).
  split; auto.
  - intros i a O. destruct (C2 i a O) as (v & V & T & G). exists v. split; auto. split; auto. destruct v; auto. destruct G as (c0 & E & G). exists c0. auto.
  - constructor; auto. intro H. destruct (C5 _ H) as (c0 & E). now apply (NEW _ _ E).
  - intros p [<-|H]; [exists c; rewrite aget_app2, Z.sub_diag by lia; reflexivity|]. destruct (C5 p H) as (c0 & E). eauto.
  - intros p i [<-|H] Hi E; [|eapply C6; eauto]. destruct (owns l i) as [a|] eqn:O; [|congruence]. destruct (C2 i a O) as (v & V & T & G). rewrite E in V. injection V as <-. destruct G as (c0 & E0 & _). now apply (NEW _ _ E0).
  - intros p c0 H. destruct (Z.eq_dec p (zlen h)) as [->|NE]; [left; now left|]. pose proof (aget_ok_range _ _ _ H) as R. rewrite zlen_app in R. change (zlen [Some c]) with 1 in R. rewrite aget_app1 in H by lia. destruct (C7 p c0 H) as [X|X]; [left; now right|auto].
Qed.
Lemma good_app h v a c : good h v a -> good (h ++ [c]) v a.
Proof.
  intros [T G]. split; auto. destruct v; auto. destruct G as (c0 & E & G). exists c0. split; auto. rewrite aget_app1; auto. apply aget_ok_range in E. lia.
Qed.
Lemma snew_ok h vs k l c a : sinv h vs k l -> repr c a -> text a ->
  sinv (fst (snew h c)) vs (ptrs (snd (snew h c)) ++ k) l /\ good (fst (snew h c)) (snd (snew h c)) a.
Proof.
  intros I R T. destruct c as [d|d n m]; cbn [snew fst snd ptrs app].
  - split; auto. split; auto.
  - split; [now apply alloc_ok|]. split; auto. exists (Long d n m). split; [rewrite aget_app2, Z.sub_diag by lia; reflexivity|]. split; [exact Logic.I|exact R].
Qed.
Lemma good_new h c v a : good h v a -> good (fst (snew h c)) v a.
Proof. destruct c; cbn [snew fst]; auto. apply good_app. Qed.
Lemma write_ok h vs k l p c' : sinv h vs (p :: k) l -> exists h', aset h p (Some c') = Ok h' /\ sinv h' vs (p :: k) l.
Proof.
  intros [C1 C2 C3 C4 C5 C6 C7]. destruct (C5 p) as (c & E); [now left|].
  destruct (aset_some h p (Some c') (aget_ok_range _ _ _ E)) as (h' & S). exists h'. split; [exact S|]. split; auto.
  - intros i a O. destruct (C2 i a O) as (v & V & G). exists v. split; auto. eapply good_set; eauto. intros ->. apply (C6 p i); [now left|congruence|auto].
  - intros q H. rewrite (aget_aset _ _ _ _ q S). destruct (q =? p); eauto.
  - intros q c0 H. rewrite (aget_aset _ _ _ _ q S) in H. destruct (Z.eqb_spec q p); [subst; left; now left|]. eapply C7; eauto.
Qed.
Lemma sload_ok h v a : good h v a -> exists c, sload h v = Ok c /\ repr c a.
Proof.
  intros [T G]. destruct v; cbn [sload]; [tauto|eauto|]. destruct G as (c & E & _ & R). unfold block. rewrite E. cbn [bind]. eauto.
Qed.
Lemma drop_ok h vs k l v a : sinv h vs (ptrs v ++ k) l -> good h v a -> exists h', sdrop h v = Ok h' /\ sinv h' vs k l.
Proof.
  intros I [T G]. destruct v; cbn [sdrop ptrs app] in *; [tauto|eauto|]. destruct (free_ok _ _ _ _ _ I) as (h' & E & _ & I'). eauto.
Qed.
Lemma is_var_g l i o j : is_var l i -> is_var l j -> is_var (give l i o) j.
Proof. intros Hi Hj. unfold is_var. now rewrite zlen_give. Qed.
Lemma init_good h : good h (SShort (repeat (Some 0) 24)) [].
Proof.
  split; [split; [constructor|vm_compute; discriminate]|]. assert (R : repr init []) by exact init_ok. exact R.
Qed.

Section Steps.
Variable looks : Z -> slots Z -> bool.
Variable stays : cstr -> cstr -> bool.
Variable P : list Z -> Prop.
Hypothesis unlike : forall p d b, P b -> repr (Short d) b -> looks p d = false.
Implicit Types (s : sstate).
Definition inv s l : Prop := sinv (sheap s) (svars s) (sleaked s) l.

Lemma none_give l i o : is_var l i -> owns (give l i (A:=list Z) o) i = o.
Proof. intro H. now rewrite owns_give, Z.eqb_refl. Qed.
Lemma var_of s l i a : inv s l -> owns l i = Some a -> exists v, aget (svars s) i = Ok v /\ good (sheap s) v a.
Proof. intros I O. exact (c_own _ _ _ _ I i a O). Qed.
Lemma store_new s l i v c a k : sinv (sheap s) (svars s) k l -> is_var l i -> owns l i = None -> repr c a -> text a -> v = snd (snew (sheap s) c) ->
  exists vs, aset (svars s) i v = Ok vs /\ sinv (fst (snew (sheap s) c)) vs k (give l i (Some a)).
Proof.
  intros I Hi O R T ->. destruct (snew_ok _ _ _ _ c a I R T) as [I1 G1]. exact (attach _ _ _ _ _ _ _ I1 Hi O G1).
Qed.
Lemma update_ok s l i a v c' a' : inv s l -> owns l i = Some a -> aget (svars s) i = Ok v -> repr c' a' -> text a' ->
  exists s', supdate stays s i v c' = Ok s' /\ inv s' (give l i (Some a')) /\ sleaked s' = sleaked s.
Proof.
  intros I O V R T. pose proof (owns_some _ _ _ O) as Hi. destruct (detach _ _ _ _ _ _ _ I O V) as [I1 G].
  assert (H1 : is_var (give l i None) i) by now apply is_var_g. pose proof (none_give l i None Hi) as O1.
  assert (GEN : exists s', (let* q := (let* h := sdrop (sheap s) v in Ok (snew h c')) in let* vs := aset (svars s) i (snd q) in Ok (mks (fst q) vs (sleaked s))) = Ok s' /\ inv s' (give l i (Some a')) /\ sleaked s' = sleaked s).
  { destruct (drop_ok _ _ _ _ _ _ I1 G) as (h' & E & I2). rewrite E. cbn [bind].
    destruct (store_new (mks h' (svars s) (sleaked s)) _ i _ c' a' _ I2 H1 O1 R T eq_refl) as (vs & S & I3). cbn [sheap svars] in *. rewrite S. cbn [bind].
    eexists. split; [reflexivity|]. rewrite give_give in I3. split; [exact I3|reflexivity]. }
  unfold supdate. destruct v as [|d|p]; [exact GEN|exact GEN|]. destruct c' as [d|d n m]; [exact GEN|].
  destruct G as (_ & c & E & _). unfold block. rewrite E. cbn [bind]. destruct (stays c (Long d n m)); [|exact GEN].
  destruct (write_ok _ _ _ _ p (Long d n m) I1) as (h' & S & I2). rewrite S. cbn [bind fst snd].
  destruct (attach _ _ _ _ i a' (SLong p) I2 H1 O1) as (vs & S2 & I3).
  { split; [exact T|]. exists (Long d n m). split; [exact (aget_aset_same _ _ _ _ S)|]. split; [exact Logic.I|exact R]. }
  rewrite S2. cbn [bind]. eexists. split; [reflexivity|]. rewrite give_give in I3. split; [exact I3|reflexivity].
Qed.
Lemma move_ok s l i a v : inv s l -> owns l i = Some a -> aget (svars s) i = Ok v ->
  exists s', smove s i = Ok (s', v) /\ sheap s' = sheap s /\ sleaked s' = sleaked s /\ aset (svars s) i (SShort (repeat (Some 0) 24)) = Ok (svars s') /\
    sinv (sheap s) (svars s') (ptrs v ++ sleaked s) (give l i (Some [])) /\ good (sheap s) v a.
Proof.
  intros I O V. pose proof (owns_some _ _ _ O) as Hi. destruct (detach _ _ _ _ _ _ _ I O V) as [I1 G].
  destruct (attach _ _ _ _ i [] (SShort (repeat (Some 0) 24)) I1 (is_var_g _ _ _ _ Hi Hi) (none_give l i None Hi) (init_good _)) as (vs & S & I2). rewrite give_give in I2.
  unfold smove. rewrite V. cbn [bind]. exists (mks (sheap s) vs (sleaked s)). cbn [sheap svars sleaked]. split; [|auto].
  destruct v; [destruct G as [_ []]| |]; unfold init, sset; rewrite S; reflexivity.
Qed.
(** Of [stake]: the leaked blocks. *)
Definition forgotten (v m : svar) : list Z :=
  match v, m with SLong a, SShort d => if looks a d then [a] else [] | _, _ => [] end.
Lemma take_ok s l i a v m b : sinv (sheap s) (svars s) (ptrs m ++ sleaked s) l -> owns l i = Some a -> aget (svars s) i = Ok v -> good (sheap s) m b ->
  exists s', stake looks s i m = Ok s' /\ inv s' (give l i (Some b)) /\ sleaked s' = forgotten v m ++ sleaked s.
Proof.
  intros I O V Gm. pose proof (owns_some _ _ _ O) as Hi. destruct (detach _ _ _ _ _ _ _ I O V) as [I1 G].
  pose proof (is_var_g _ i None _ Hi Hi) as H1. pose proof (none_give l i None Hi) as O1.
  unfold stake. rewrite V. cbn [bind].
  assert (FREE : forall p, v = SLong p -> m <> SLong p -> exists s', (let* s1 := (let* h := sfree (sheap s) p in Ok (mks h (svars s) (sleaked s))) in sset s1 i m) = Ok s' /\ inv s' (give l i (Some b)) /\ sleaked s' = sleaked s).
  { intros p -> NE. cbn [ptrs app] in I1. destruct (free_ok _ _ _ _ _ I1) as (h' & E & S & I2). rewrite E. cbn [bind].
    destruct (attach _ _ _ _ i b m I2 H1 O1 (good_set _ _ _ _ _ _ S NE Gm)) as (vs & S2 & I3). unfold sset. cbn [svars sheap sleaked]. rewrite S2. cbn [bind].
    eexists. split; [reflexivity|]. rewrite give_give in I3. split; [exact I3|reflexivity]. }
  assert (KEEP : forall k, Permutation (ptrs v ++ ptrs m ++ sleaked s) (ptrs m ++ k) -> exists s', sset (mks (sheap s) (svars s) k) i m = Ok s' /\ inv s' (give l i (Some b)) /\ sleaked s' = k).
  { intros k PM. apply (sinv_perm _ _ _ _ _ PM) in I1. destruct (attach _ _ _ _ i b m I1 H1 O1 Gm) as (vs & S2 & I3). unfold sset. cbn [svars sheap sleaked]. rewrite S2. cbn [bind].
    eexists. split; [reflexivity|]. rewrite give_give in I3. split; [exact I3|reflexivity]. }
  destruct v as [|d|p]; [destruct G as [_ []]| |].
  - destruct m as [|d'|q]; [destruct Gm as [_ []]| |]; cbn [bind forgotten app]; destruct s as [h vs k]; apply KEEP; cbn [ptrs app]; reflexivity.
  - destruct m as [|d'|q]; [destruct Gm as [_ []]| |]; cbn [forgotten].
    + destruct (looks p d'); cbn [app]; [|apply FREE; [reflexivity|discriminate]]. cbn [bind]. apply KEEP. cbn [ptrs app]. reflexivity.
    + destruct (Z.eqb_spec p q) as [->|NE]; [|apply FREE; [reflexivity|congruence]].
      exfalso. pose proof (c_kfree _ _ _ _ I q i) as F. apply F; [now left|congruence|exact V].
Qed.
Lemma forgotten_none h v m b : P b -> good h m b -> forgotten v m = [].
Proof. intros PB [_ G]. unfold forgotten. destruct v; auto. destruct m; auto. now rewrite (unlike _ _ b). Qed.
Lemma short_init d : init = Short d -> d = repeat (Some 0) 24.
Proof. unfold init. now intros [= <-]. Qed.
Lemma text_lt b : text b -> zlen b < 2 ^ 63 - 1.
Proof. intros [_ H]. unfold max_len in H. lia. Qed.
Lemma take_new s l i a v c b : inv s l -> owns l i = Some a -> aget (svars s) i = Ok v -> repr c b -> text b ->
  exists s', stake looks (mks (fst (snew (sheap s) c)) (svars s) (sleaked s)) i (snd (snew (sheap s) c)) = Ok s' /\ inv s' (give l i (Some b)) /\
    ((forall b', Some b = Some b' -> P b') -> sleaked s' = sleaked s).
Proof.
  intros I O V R T. destruct (snew_ok _ _ _ _ c b I R T) as [I1 G1].
    destruct (take_ok (mks (fst (snew (sheap s) c)) (svars s) (sleaked s)) l i a v _ b I1 O V G1) as (s' & TK & I2 & K).
    exists s'. split; [exact TK|]. split; [exact I2|]. intros X. rewrite K, (forgotten_none _ _ _ _ (X b eq_refl) G1). reflexivity.
Qed.
Lemma shows_self b : shows (V b 0 (zlen b)) b.
Proof. split; [|reflexivity]. exists [], []. split; [cbn [app]; now rewrite app_nil_r|reflexivity]. Qed.
Lemma good_text h v a : good h v a -> text a.
Proof. now intros [T _]. Qed.

Lemma sstep_ok s l o : inv s l -> slegal l o ->
  exists s', sstep looks stays s o = Ok s' /\ inv s' (sspec l o) /\ ((forall b, taken l o = Some b -> P b) -> sleaked s' = sleaked s).
Proof.
  intros I L. destruct o as [i|i b|i o|i|i j|i j|i|i b|i sep rep n out|i k cs|i j|i j]; cbn [slegal sspec sstep taken] in *.
  - destruct L as [Hi O]. unfold init, sset. destruct (attach (sheap s) (svars s) (sleaked s) l i [] (SShort (repeat (Some 0) 24)) I Hi O (init_good _)) as (vs & S & I2).
    rewrite S. cbn [bind]. eexists. split; [reflexivity|]. split; [exact I2|reflexivity].
  - destruct L as (Hi & O & T). destruct (from_n_ok b (text_lt b T)) as (c & E & R). rewrite E. cbn [bind].
    destruct (store_new s l i _ c b _ I Hi O R T eq_refl) as (vs & S & I2). unfold sset. cbn [svars sheap sleaked]. rewrite S. cbn [bind]. eexists. split; [reflexivity|]. split; [exact I2|reflexivity].
  - destruct L as (Hi & HB & a & b & O & E & T). destruct (var_of _ _ _ _ I O) as (v & V & G). destruct (sload_ok _ _ _ G) as (c & LD & R). rewrite V. cbn [bind]. rewrite LD. cbn [bind].
    rewrite O, E. cbn [edits] in E. destruct (edit a o) as [b'|] eqn:E1; [|discriminate]. destruct (Z.leb_spec (zlen b') max_len); [|discriminate]. injection E as ->.
    destruct (good_text _ _ _ G) as [T1 T2]. destruct (step_ok c a o b R T1 HB T2 E1) as (c' & ST & R' & _); [assumption|]. rewrite ST. cbn [bind].
    destruct (update_ok s l i a v c' b I O V R' T) as (s' & U & I' & K). exists s'. auto.
  - destruct L as (Hi & O). apply owns_ne in O as (a & O). destruct (var_of _ _ _ _ I O) as (v & V & G). rewrite V. cbn [bind].
    destruct (detach _ _ _ _ _ _ _ I O V) as [I1 _]. destruct (drop_ok _ _ _ _ _ _ I1 G) as (h' & E & I2). rewrite E. cbn [bind]. eexists. split; [reflexivity|]. split; [exact I2|reflexivity].
  - destruct L as (Hi & Hj & O & OJ). apply owns_ne in O as (a & O). destruct (var_of _ _ _ _ I O) as (v & V & G).
    destruct (move_ok s l i a v I O V) as (s1 & M & EH & EK & ES & I1 & _). rewrite M. cbn [bind fst snd]. unfold sset. rewrite EH, EK, O. destruct (Z.eq_dec i j) as [<-|NE].
    + rewrite (aset_back _ _ _ _ _ V ES). cbn [bind]. eexists. split; [reflexivity|]. split; [|reflexivity]. rewrite give_give, <- O, give_owns by exact Hi. exact I.
    + destruct OJ as [OJ|OJ]; [|contradiction]. destruct (attach _ _ _ _ j a v I1 (is_var_g _ _ _ _ Hi Hj)) as (vs & S & I2); [|exact G|].
      { rewrite owns_give by exact Hi. destruct (Z.eqb_spec j i); [lia|exact OJ]. }
      rewrite S. cbn [bind]. eexists. split; [reflexivity|]. split; [exact I2|reflexivity].
  - destruct L as (Hi & Hj & O & OJ). apply owns_ne in OJ as (b & OJ). destruct (var_of _ _ _ _ I OJ) as (w & W & G).
    destruct (move_ok s l j b w I OJ W) as (s1 & M & EH & EK & ES & I1 & _). rewrite M. cbn [bind fst snd]. rewrite OJ. rewrite <- EH, <- EK in I1. rewrite <- EH in G.
    assert (exists a, owns (give l j (Some [])) i = Some a) as (a & O1).
    { apply owns_ne. rewrite owns_give by exact Hj. destruct (i =? j); [discriminate|exact O]. }
    destruct (c_own _ _ _ _ I1 i a O1) as (v & V & _). destruct (take_ok s1 _ i a v w b I1 O1 V G) as (s' & TK & I2 & K).
    exists s'. split; [exact TK|]. split; [exact I2|]. intros X. rewrite K, EK, (forgotten_none _ _ _ _ (X b eq_refl) G). reflexivity.
  - destruct L as (Hi & O). apply owns_ne in O as (a & O). destruct (var_of _ _ _ _ I O) as (v & V & G). rewrite V. cbn [bind].
    exists s. split; [|split; [exact I|reflexivity]]. unfold stake. rewrite V. cbn [bind].
    assert (S : sset s i v = Ok s).
    { unfold sset. rewrite aset_ok by exact (aget_ok_range _ _ _ V). cbn [bind]. apply aget_nth in V as [_ V]. rewrite (upd_same _ _ _ V). now destruct s. }
    destruct v as [|d|p]; [destruct G as [_ []]|exact S|]. rewrite Z.eqb_refl. exact S.
  - destruct L as (Hi & O & T). apply owns_ne in O as (a & O). destruct (var_of _ _ _ _ I O) as (v & V & _).
    destruct (from_n_ok b (text_lt b T)) as (c & E & R). rewrite E. cbn [bind]. exact (take_new s l i a v c b I O V R T).
  - destruct L as (a & O & NE & N0 & T & RP). destruct (var_of _ _ _ _ I O) as (v & V & G). destruct (sload_ok _ _ _ G) as (c & LD & R). rewrite V. cbn [bind]. rewrite LD. cbn [bind].
    destruct (view_ok c a R) as (m & VE & SH & _). unfold replace_sv. rewrite VE. cbn [bind].
    destruct (from_replace_ok _ _ _ a sep rep n out SH (shows_self sep) (shows_self rep) NE N0 RP (proj2 T)) as (c' & E & R'). rewrite E. cbn [bind]. exact (take_new s l i a v c' out I O V R' T).
  - destruct L as (O & SC & HK & T). destruct (var_of _ _ _ _ I O) as (v & V & G). destruct (sload_ok _ _ _ G) as (c & LD & R). rewrite V. cbn [bind]. rewrite LD. cbn [bind].
    destruct (view_ok c _ R) as (m & VE & SH & _). rewrite VE. cbn [bind].
    destruct (tocase_wf _ cs k ltac:(lia) SC SH (proj2 (good_text _ _ _ G))) as (c' & E & R'). rewrite E. cbn [bind]. exact (take_new s l i _ v c' _ I O V R' T).
  - destruct L as (Hi & Hj & O & OJ). apply owns_ne in O as (a & O). destruct (var_of _ _ _ _ I O) as (v & V & G). destruct (sload_ok _ _ _ G) as (c & LD & R). rewrite V. cbn [bind]. rewrite LD. cbn [bind].
    destruct (clone_ok c a R) as (c' & E & R'). rewrite E, O. cbn [bind]. destruct (store_new s l j _ c' a _ I Hj OJ R' (good_text _ _ _ G) eq_refl) as (vs & S & I2). unfold sset. cbn [svars sheap sleaked]. rewrite S. cbn [bind]. eexists. split; [reflexivity|]. split; [exact I2|reflexivity].
  - destruct L as (Hi & Hj & O & OJ). apply owns_ne in O as (a & O). apply owns_ne in OJ as (b & OJ).
    destruct (var_of _ _ _ _ I O) as (v & V & G). destruct (sload_ok _ _ _ G) as (c & LD & R). destruct (var_of _ _ _ _ I OJ) as (w & W & GW). destruct (sload_ok _ _ _ GW) as (o & LW & RW).
    unfold scopy. rewrite V, W. cbn [bind]. rewrite LD, LW. cbn [bind]. pose proof RW as (_ & _ & EN & _). rewrite EN. cbn [bind]. destruct (repr_read o b RW) as [RB _]. rewrite RB. cbn [bind].
    pose proof (good_text _ _ _ GW) as TB. rewrite OJ.
    assert (EXT : exists s', (let* c' := assign_n c (Ext b) in supdate stays s i v c') = Ok s' /\ inv s' (give l i (Some b)) /\ ((forall b0 : list Z, None = Some b0 -> P b0) -> sleaked s' = sleaked s)).
    { destruct (assign_ok c a b R (text_lt b TB)) as (c' & E & R'). rewrite E. cbn [bind]. destruct (update_ok s l i a v c' b I O V R' TB) as (s' & U & I' & K). exists s'. auto. }
    destruct v as [|d|p]; [exact EXT|exact EXT|]. destruct w as [|d|q]; [exact EXT|exact EXT|]. destruct (Z.eqb_spec p q) as [<-|NE]; [|exact EXT].
    assert (i = j) as <- by (apply (c_sep _ _ _ _ I i j p); congruence). assert (a = b) as -> by congruence.
    cbn [bind]. pose proof (zlen_nonneg b). destruct (assign_self c b 0 (zlen b) R) as (c' & E & R'); try lia. rewrite E. cbn [bind].
    assert (SB : View_Spec.sub b 0 (zlen b) = b) by (unfold View_Spec.sub; cbn [Z.to_nat skipn]; apply firstn_all2; unfold zlen; lia).
    rewrite SB in R'. destruct (update_ok s l i b _ c' b I O V R' TB) as (s' & U & I' & K). exists s'. auto.
Qed.

Lemma srun_ok ops : forall s l, inv s l -> slegal_all l ops ->
  exists s', srun looks stays s ops = Ok s' /\ inv s' (sspec_all l ops) /\
    (takes_all P l ops -> sleaked s' = sleaked s).
Proof.
  induction ops as [|o r IH]; intros s l I L; cbn [slegal_all srun sspec_all] in *; [exists s; auto|]. destruct L as [L1 L2].
  destruct (sstep_ok s l o I L1) as (s1 & E & I1 & K1). rewrite E. cbn [bind]. destruct (IH s1 _ I1 L2) as (s2 & E2 & I2 & K2). exists s2. split; [exact E2|]. split; [exact I2|].
  cbn [takes_all]. intros [H1 H2]. rewrite K2, K1; auto.
Qed.
End Steps.
Lemma sinv_start n : inv (sstart n) (repeat None n).
Proof.
  assert (N : forall i, owns (repeat (@None (list Z)) n) i = None) by apply owns_repeat.
  split; cbn [sstart sheap svars sleaked].
  - unfold zlen. now rewrite !repeat_length.
  - intros i a. rewrite N. discriminate.
  - intros i j p. rewrite N. congruence.
  - constructor.
  - intros p [].
  - intros p i [].
  - intros p c H. apply aget_ok_range in H. unfold zlen in H. cbn in H. lia.
Qed.
Lemma plain_unlike addr p d b : In 0 (addr p) -> plain b -> repr (Short d) b -> looks_at addr p d = false.
Proof.
  intros A PB R. pose proof R as (W & C & _ & L). cbn [scap wf sdata] in *. unfold s_cap in L. destruct PB as [PB|[L8 NZ]]; [lia|].
  apply cells_app in C as [C _]. destruct (cells_split d 0 b 8 ltac:(lia) C) as [C8 _]. unfold looks_at.
  rewrite (cells_rdn d 0 _ 8 C8); [|rewrite zlen_firstn by lia; lia|lia|lia]. destruct (list_eq_dec _ _ _) as [E|]; [|reflexivity].
  exfalso. apply NZ. rewrite <- E in A. rewrite <- (firstn_skipn (Z.to_nat 8) b). apply in_or_app. now left.
Qed.
