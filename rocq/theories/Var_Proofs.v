(** Proofs about several variables of one container type. *)
From Verif Require Import Base Var_Model Var_Spec.

(** Permutations of concatenations. *)
Lemma fr_here {X} (x r : list X) : Permutation (x ++ r) (x ++ r).
Proof. reflexivity. Qed.
Lemma fr_end {X} (x : list X) : Permutation x (x ++ []).
Proof. now rewrite app_nil_r. Qed.
Lemma fr_next {X} (y r x r' : list X) : Permutation r (x ++ r') -> Permutation (y ++ r) (x ++ y ++ r').
Proof. intros ->. apply Permutation_app_swap_app. Qed.
Lemma fr_step {X} (x r R R' : list X) : Permutation R (x ++ R') -> Permutation r R' -> Permutation (x ++ r) R.
Proof. now intros -> ->. Qed.
Ltac fr := first [apply fr_here | apply fr_end | apply fr_next; fr].
Ltac perm := repeat rewrite <- app_assoc; repeat rewrite app_nil_r; repeat (eapply fr_step; [solve [fr]|]);
  repeat rewrite app_nil_r; try apply Permutation_refl.

Section VarProofs.
Context {C A E Op : Type}.
Variable init : C.
Variable step : C -> Op -> res (C * list E * list E).
Variable clone : C -> res C.
Variable drop : C -> res (list E).
Variable isnull : C -> bool.
Variable stays : C -> C -> bool.
Variable sinit : A.
Variable sstep : A -> Op -> A.
Variable smade : A -> Op -> list E.
Variable slegal : A -> Op -> Prop.
Variable cloneable : A -> Prop.
Variable cloned : A -> A.
Variable objs : A -> list E.
Variable rep : C -> A -> Prop.
Hypothesis Hinit : rep init sinit.
Hypothesis Hstep : forall c a o, rep c a -> slegal a o ->
  exists c' d g, step c o = Ok (c', d, g) /\ rep c' (sstep a o) /\ Permutation (objs (sstep a o) ++ d ++ g) (smade a o ++ objs a).
Hypothesis Hclone : forall c a, rep c a -> cloneable a -> exists c', clone c = Ok c' /\ rep c' (cloned a).
Hypothesis Hcobjs : forall a, objs (cloned a) = objs a.
Hypothesis Hdrop : forall c a, rep c a -> exists d, drop c = Ok d /\ Permutation d (objs a).
Hypothesis Hnull : forall c a, rep c a -> isnull c = true -> c = init.
Hypothesis Hclone0 : clone init = Ok init.
Hypothesis Hdrop0 : drop init = Ok [].

Definition own_var (h : list (option C)) (v : var) (a : A) : Prop :=
  (v = VNull /\ rep init a) \/ exists p c, v = VPtr p /\ aget h p = Ok (Some c) /\ rep c a.
Record inv (h : list (option C)) (vs : list var) (l : list (option A)) : Prop := {
  i_len : zlen vs = zlen l;
  i_own : forall i a, owns l i = Some a -> exists v, aget vs i = Ok v /\ own_var h v a;
  i_one : forall i j p, owns l i <> None -> owns l j <> None -> aget vs i = Ok (VPtr p) -> aget vs j = Ok (VPtr p) -> i = j;
  i_live : forall p c, aget h p = Ok (Some c) -> exists i, owns l i <> None /\ aget vs i = Ok (VPtr p);
}.

Lemma null_objs a : rep init a -> objs a = [].
Proof.
  intro R. destruct (Hdrop _ _ R) as (d & D & P). rewrite Hdrop0 in D. injection D as <-. now apply Permutation_nil.
Qed.
Lemma owns_some l i (a : A) : owns l i = Some a -> is_var l i.
Proof. unfold owns, is_var. destruct (aget l i) eqn:F; [|discriminate]. intros _. eapply aget_ok_range; eauto. Qed.
Lemma owns_ne l i : owns (A:=A) l i <> None -> exists a, owns l i = Some a.
Proof. destruct (owns l i); [eauto|congruence]. Qed.
Lemma give_aset l i (o : option A) : is_var l i -> aset l i o = Ok (give l i o).
Proof. intro H. unfold give. now apply aset_ok. Qed.
Lemma owns_give l i (o : option A) j : is_var l i -> owns (give l i o) j = if j =? i then o else owns l j.
Proof.
  intro H. unfold owns. rewrite (aget_aset _ _ _ _ j (give_aset l i o H)). destruct (j =? i); reflexivity.
Qed.
Lemma zlen_give l i (o : option A) : is_var l i -> zlen (give l i o) = zlen l.
Proof. intro H. exact (aset_zlen _ _ _ _ (give_aset l i o H)). Qed.
Lemma upd_upd {X} (l : list X) i x y : upd (upd l i x) i y = upd l i y.
Proof. revert i. induction l as [|z l IH]; intros [|i]; cbn; auto. now rewrite IH. Qed.
Lemma upd_same {X} (l : list X) i x : nth_error l i = Some x -> upd l i x = l.
Proof. revert i. induction l as [|z l IH]; intros [|i]; cbn; try discriminate. - now intros [= ->]. - intro H. now rewrite IH. Qed.
Lemma upd_comm {X} (l : list X) i j x y : i <> j -> upd (upd l i x) j y = upd (upd l j y) i x.
Proof. revert i j. induction l as [|z l IH]; intros [|i] [|j] N; cbn; try congruence; auto. rewrite IH; congruence. Qed.
Lemma aset_back {X} (l : list X) i x y l' : aget l i = Ok x -> aset l i y = Ok l' -> aset l' i x = Ok l.
Proof.
  intros G F. pose proof (aget_ok_range _ _ _ G) as R. rewrite aset_ok in F by exact R. injection F as <-.
  rewrite aset_ok. { rewrite upd_upd. f_equal. apply upd_same. unfold aget in G. destruct (i <? 0) eqn:I; [discriminate|].
    destruct (nth_error l (Z.to_nat i)); [|discriminate]. congruence. }
  pose proof (aset_zlen l i y _ (aset_ok l i y R)). lia.
Qed.
Lemma give_give l i (x y : option A) : give (give l i x) i y = give l i y.
Proof. apply upd_upd. Qed.
Lemma give_owns l i : is_var (A:=A) l i -> give l i (owns l i) = l.
Proof.
  intro H. unfold owns, give. destruct (aget_some l i H) as (x & G). rewrite G. apply upd_same.
  unfold aget in G. destruct (i <? 0); [discriminate|]. destruct (nth_error l (Z.to_nat i)); congruence.
Qed.

Definition oobjs (o : option A) : list E := match o with Some a => objs a | None => [] end.
Lemma held_upd l n (o : option A) x : nth_error l n = Some x ->
  Permutation (oobjs x ++ held objs (upd l n o)) (oobjs o ++ held objs l).
Proof.
  revert n. induction l as [|y l IH]; intros [|n] H; try discriminate; cbn [nth_error upd held flat_map] in *.
  - injection H as ->. apply Permutation_app_swap_app.
  - rewrite Permutation_app_swap_app. fold (oobjs y). rewrite (IH n H). apply Permutation_app_swap_app.
Qed.
Lemma held_give l i (o : option A) : is_var l i ->
  Permutation (oobjs (owns l i) ++ held objs (give l i o)) (oobjs o ++ held objs l).
Proof.
  intro H. unfold owns, give. destruct (aget_some l i H) as (x & G). rewrite G. apply held_upd.
  unfold aget in G. destruct (i <? 0); [discriminate|]. destruct (nth_error l (Z.to_nat i)); congruence.
Qed.

(** Giving up a variable: its block is freed. *)
Lemma release_ok h vs l i a v : inv h vs l -> owns l i = Some a -> aget vs i = Ok v ->
  exists h', release h v = Ok h' /\ inv h' vs (give l i None) /\
    (forall p c, v <> VPtr p -> aget h p = Ok (Some c) -> aget h' p = Ok (Some c)).
Proof.
  intros I O G. pose proof (owns_some _ _ _ O) as Hi. destruct (i_own _ _ _ I i a O) as (v' & G' & W).
  rewrite G in G'. injection G' as <-. destruct W as [[-> R]|(p & c & -> & F & R)]; cbn [release].
  - exists h. split; [reflexivity|]. split; [|auto]. destruct I as [I1 I2 I3 I4]. split.
    + now rewrite zlen_give.
    + intros j b. rewrite owns_give by exact Hi. destruct (j =? i); [discriminate|apply I2].
    + intros j k q. rewrite !owns_give by exact Hi. destruct (j =? i); [congruence|]. destruct (k =? i); [congruence|]. apply I3.
    + intros p c F. destruct (I4 p c F) as (j & Oj & Gj). exists j. split; [|exact Gj]. rewrite owns_give by exact Hi.
      destruct (Z.eqb_spec j i) as [->|]; [congruence|exact Oj].
  - unfold block. rewrite F. cbn [bind]. destruct (aset_some h p (@None C) (aget_ok_range _ _ _ F)) as (h' & S). exists h'. split; [exact S|].
    assert (AG := fun q => aget_aset h p None h' q S). split.
    2: { intros q c' N F'. rewrite AG. destruct (Z.eqb_spec q p) as [->|]; [congruence|exact F']. }
    destruct I as [I1 I2 I3 I4]. split.
    + now rewrite zlen_give.
    + intros j b. rewrite owns_give by exact Hi. destruct (Z.eqb_spec j i) as [->|N]; [discriminate|]. intro Oj.
      destruct (I2 j b Oj) as (w & Gj & [W|(q & c' & -> & F' & R')]); exists w || exists (VPtr q); (split; [exact Gj|]); [now left|].
      right. exists q, c'. split; [reflexivity|]. split; [|exact R']. rewrite AG. destruct (Z.eqb_spec q p) as [->|]; [|exact F'].
      exfalso. apply N. apply (I3 j i p); congruence.
    + intros j k q. rewrite !owns_give by exact Hi. destruct (j =? i); [congruence|]. destruct (k =? i); [congruence|]. apply I3.
    + intros q c'. rewrite AG. destruct (Z.eqb_spec q p) as [->|N]; [discriminate|]. intro F'. destruct (I4 q c' F') as (j & Oj & Gj).
      exists j. split; [|exact Gj]. rewrite owns_give by exact Hi. destruct (Z.eqb_spec j i) as [->|]; [congruence|exact Oj].
Qed.
(** A variable that owns nothing gets a new container. *)
Lemma fresh_ok h vs l i c a : inv h vs l -> is_var l i -> owns l i = None -> rep c a ->
  exists vs', aset vs i (snd (fresh isnull h c)) = Ok vs' /\ inv (fst (fresh isnull h c)) vs' (give l i (Some a)).
Proof.
  intros I Hi O R. destruct I as [I1 I2 I3 I4]. destruct (aset_some vs i (snd (fresh isnull h c))) as (vs' & S); [unfold is_var in Hi; lia|].
  exists vs'. split; [exact S|]. assert (AG := fun q => aget_aset vs i _ vs' q S). unfold fresh in *.
  assert (NP : forall p c0, aget h p = Ok (Some c0) -> p < zlen h) by (intros p c0 F; apply aget_ok_range in F; lia).
  destruct (isnull c) eqn:N; cbn [fst snd] in *; split.
  1,5: rewrite zlen_give by exact Hi; rewrite (aset_zlen _ _ _ _ S); exact I1.
  - intros j b. rewrite owns_give by exact Hi. rewrite AG. destruct (Z.eqb_spec j i) as [->|]; [|apply I2].
    intros [= <-]. exists VNull. split; [reflexivity|]. left. split; [reflexivity|]. now rewrite <- (Hnull c a R N).
  - intros j k p. rewrite !owns_give, !AG by exact Hi. destruct (Z.eqb_spec j i) as [->|]; [discriminate|]. destruct (Z.eqb_spec k i) as [->|]; [discriminate|]. apply I3.
  - intros p c0 F. destruct (I4 p c0 F) as (j & Oj & Gj). exists j. rewrite owns_give, AG by exact Hi.
    destruct (Z.eqb_spec j i) as [->|]; [congruence|auto].
  - intros j b. rewrite owns_give by exact Hi. rewrite AG. destruct (Z.eqb_spec j i) as [->|].
    + intros [= <-]. eexists. split; [reflexivity|]. right. exists (zlen h), c. split; [reflexivity|]. split; [|exact R].
      pose proof (zlen_nonneg h). rewrite aget_app2 by lia. now rewrite Z.sub_diag.
    + intro Oj. destruct (I2 j b Oj) as (w & Gj & [W|(q & c' & -> & F' & R')]); eexists; (split; [exact Gj|]); [now left|].
      right. exists q, c'. split; [reflexivity|]. split; [|exact R']. apply aget_ok_range in F' as X. rewrite aget_app1 by lia. exact F'.
  - intros j k p. rewrite !owns_give, !AG by exact Hi. destruct (Z.eqb_spec j i) as [->|Nj]; destruct (Z.eqb_spec k i) as [->|Nk]; auto.
    + intros _ Ok [= <-] Gk. exfalso. destruct (owns_ne _ _ Ok) as (b & Ob). destruct (I2 k b Ob) as (w & Gw & [[-> _]|(q & c' & -> & F' & _)]); rewrite Gk in Gw; [discriminate|].
      injection Gw as <-. apply aget_ok_range in F'. lia.
    + intros Oj _ Gj [= <-]. exfalso. destruct (owns_ne _ _ Oj) as (b & Ob). destruct (I2 j b Ob) as (w & Gw & [[-> _]|(q & c' & -> & F' & _)]); rewrite Gj in Gw; [discriminate|].
      injection Gw as <-. apply aget_ok_range in F'. lia.
    + apply I3.
  - intros p c0 F. destruct (Z.eq_dec p (zlen h)) as [->|Np].
    + exists i. rewrite owns_give, AG, Z.eqb_refl by exact Hi. split; [discriminate|reflexivity].
    + pose proof (aget_ok_range _ _ _ F) as X. rewrite zlen_app in X. change (zlen [Some c]) with 1 in X. rewrite aget_app1 in F by lia.
      destruct (I4 p c0 F) as (j & Oj & Gj). exists j. rewrite owns_give, AG by exact Hi. destruct (Z.eqb_spec j i) as [->|]; [congruence|auto].
Qed.
(** A variable gives what it owns to one that owns nothing. *)
Lemma transfer_ok h vs l i j a v : inv h vs l -> owns l i = Some a -> aget vs i = Ok v -> is_var l j -> owns l j = None ->
  exists vs1 vs2, aset vs i VNull = Ok vs1 /\ aset vs1 j v = Ok vs2 /\ inv h vs2 (give (give l i (Some sinit)) j (Some a)).
Proof.
  intros I O G Hj Oj. pose proof (owns_some _ _ _ O) as Hi. assert (N : i <> j) by congruence.
  destruct I as [I1 I2 I3 I4]. destruct (aset_some vs i VNull) as (vs1 & S1); [unfold is_var in Hi; lia|].
  destruct (aset_some vs1 j v) as (vs2 & S2); [rewrite (aset_zlen _ _ _ _ S1); unfold is_var in Hj; lia|].
  exists vs1, vs2. split; [exact S1|]. split; [exact S2|].
  assert (Hj' : is_var (give l i (Some sinit)) j) by (unfold is_var; rewrite zlen_give; auto).
  assert (AG : forall q, aget vs2 q = if q =? j then Ok v else if q =? i then Ok VNull else aget vs q).
  { intro q. rewrite (aget_aset _ _ _ _ q S2), (aget_aset _ _ _ _ q S1). reflexivity. }
  assert (OG : forall q, owns (give (give l i (Some sinit)) j (Some a)) q = if q =? j then Some a else if q =? i then Some sinit else owns l q).
  { intro q. rewrite owns_give, owns_give by auto. reflexivity. }
  split.
  - rewrite !zlen_give by auto. rewrite (aset_zlen _ _ _ _ S2), (aset_zlen _ _ _ _ S1). exact I1.
  - intros q b. rewrite OG, AG. destruct (Z.eqb_spec q j) as [->|]; [|destruct (Z.eqb_spec q i) as [->|]; [|apply I2]].
    + intros [= <-]. exists v. split; [reflexivity|]. destruct (I2 i a O) as (v' & G' & W). congruence.
    + intros [= <-]. exists VNull. split; [reflexivity|]. now left.
  - intros q r p. rewrite !OG, !AG.
    destruct (Z.eqb_spec q j) as [->|]; destruct (Z.eqb_spec r j) as [->|]; auto.
    + destruct (Z.eqb_spec r i) as [->|]; [discriminate|]. intros _ Or [= ->] Gr. exfalso. assert (r = i) by (apply (I3 r i p); congruence). contradiction.
    + destruct (Z.eqb_spec q i) as [->|]; [discriminate|]. intros Oq _ Gq [= ->]. exfalso. assert (q = i) by (apply (I3 q i p); congruence). contradiction.
    + destruct (Z.eqb_spec q i) as [->|]; [discriminate|]. destruct (Z.eqb_spec r i) as [->|]; [discriminate|]. apply I3.
  - intros p c F. destruct (I4 p c F) as (q & Oq & Gq). destruct (Z.eq_dec q i) as [->|Nq].
    + exists j. rewrite OG, AG, Z.eqb_refl. split; [discriminate|congruence].
    + exists q. rewrite OG, AG. destruct (Z.eqb_spec q j) as [->|]; [congruence|]. destruct (Z.eqb_spec q i); [contradiction|auto].
Qed.
(** The container of a variable is changed in place. *)
Lemma inplace_ok h vs l i p c' a' : inv h vs l -> owns l i <> None -> aget vs i = Ok (VPtr p) -> rep c' a' ->
  exists h', aset h p (Some c') = Ok h' /\ inv h' vs (give l i (Some a')).
Proof.
  intros I O G R. destruct (owns_ne _ _ O) as (a & Oa). pose proof (owns_some _ _ _ Oa) as Hi. destruct I as [I1 I2 I3 I4].
  destruct (I2 i a Oa) as (v & G' & [[-> _]|(p' & c & -> & F & _)]); rewrite G in G'; [discriminate|]. injection G' as <-.
  destruct (aset_some h p (Some c') (aget_ok_range _ _ _ F)) as (h' & S). exists h'. split; [exact S|].
  assert (AG := fun q => aget_aset h p (Some c') h' q S). split.
  - now rewrite zlen_give.
  - intros j b. rewrite owns_give by exact Hi. destruct (Z.eqb_spec j i) as [->|N].
    + intros [= <-]. exists (VPtr p). split; [exact G|]. right. exists p, c'. split; [reflexivity|]. rewrite AG, Z.eqb_refl. auto.
    + intro Oj. destruct (I2 j b Oj) as (w & Gj & [W|(q & c0 & -> & F' & R')]); eexists; (split; [exact Gj|]); [now left|].
      right. exists q, c0. split; [reflexivity|]. split; [|exact R']. rewrite AG. destruct (Z.eqb_spec q p) as [->|]; [|exact F'].
      exfalso. apply N. apply (I3 j i p); congruence.
  - intros j k q. rewrite !owns_give by exact Hi. intros Oj Ok. apply I3; [destruct (Z.eqb_spec j i); congruence|destruct (Z.eqb_spec k i); congruence].
  - intros q c0. rewrite AG. destruct (Z.eqb_spec q p) as [->|].
    + intros _. exists i. rewrite owns_give, Z.eqb_refl by exact Hi. split; [discriminate|exact G].
    + intro F'. destruct (I4 q c0 F') as (j & Oj & Gj). exists j. rewrite owns_give by exact Hi. split; [|exact Gj]. destruct (j =? i); congruence.
Qed.
(** A null variable may be seen as any value that the null container represents. *)
Lemma revalue_ok h vs l i a' : inv h vs l -> owns l i <> None -> aget vs i = Ok VNull -> rep init a' -> inv h vs (give l i (Some a')).
Proof.
  intros I O G R. destruct (owns_ne _ _ O) as (a & Oa). pose proof (owns_some _ _ _ Oa) as Hi. destruct I as [I1 I2 I3 I4]. split.
  - now rewrite zlen_give.
  - intros j b. rewrite owns_give by exact Hi. destruct (Z.eqb_spec j i) as [->|N]; [|apply I2].
    intros [= <-]. exists VNull. split; [exact G|]. now left.
  - intros j k q. rewrite !owns_give by exact Hi. intros Oj Ok. apply I3; [destruct (Z.eqb_spec j i); congruence|destruct (Z.eqb_spec k i); congruence].
  - intros q c0 F. destruct (I4 q c0 F) as (j & Oj & Gj). exists j. rewrite owns_give by exact Hi. split; [|exact Gj]. destruct (j =? i); congruence.
Qed.
Lemma own_load (s : state C E) v a : own_var (heap s) v a -> exists c, load init s v = Ok c /\ rep c a.
Proof.
  intros [[-> R]|(p & c & -> & F & R)]; cbn [load]; [eauto|]. unfold block. rewrite F. cbn [bind]. eauto.
Qed.
Lemma drop_var_ok (s : state C E) l i a v : inv (heap s) (vars s) l -> owns l i = Some a -> aget (vars s) i = Ok v ->
  exists h d, drop_var init drop s v = Ok (mkst h (vars s) (gone s ++ d) (given s)) /\ Permutation d (objs a) /\
    (forall vs g1 g2, drop_var init drop (mkst (heap s) vs g1 g2) v = Ok (mkst h vs (g1 ++ d) g2)) /\
    inv h (vars s) (give l i None).
Proof.
  intros I O G. destruct (i_own _ _ _ I i a O) as (v' & G' & W). rewrite G in G'. injection G' as <-.
  destruct (own_load s v a W) as (c & L & R). destruct (Hdrop c a R) as (d & D & P).
  destruct (release_ok _ _ _ i a v I O G) as (h & RL & I' & _). exists h, d.
  assert (X : forall vs g1 g2, drop_var init drop (mkst (heap s) vs g1 g2) v = Ok (mkst h vs (g1 ++ d) g2)).
  { intros vs g1 g2. unfold drop_var. replace (load init (mkst (heap s) vs g1 g2) v) with (load init s v) by (destruct v; reflexivity).
    rewrite L. cbn [bind]. rewrite D. cbn [bind heap]. rewrite RL. reflexivity. }
  split; [|auto]. rewrite <- (X (vars s)). now destruct s.
Qed.

Lemma vstep_ok (s : state C E) l o : inv (heap s) (vars s) l -> vlegal slegal cloneable l o ->
  exists s', vstep init step clone drop isnull stays s o = Ok s' /\
    inv (heap s') (vars s') (fst (vspec sinit sstep smade cloned objs l o)) /\
    Permutation (held objs (fst (vspec sinit sstep smade cloned objs l o)) ++ gone s' ++ given s')
                (snd (vspec sinit sstep smade cloned objs l o) ++ held objs l ++ gone s ++ given s).
Proof.
  intros I L. destruct o as [i|i o|i|i j|i j|i j|i j]; cbn [vlegal vspec vstep] in *.
  - (* init *)
    destruct L as [Hi O]. unfold set_var. destruct (aset_some (vars s) i VNull) as (vs & S); [pose proof (i_len _ _ _ I); unfold is_var in Hi; lia|].
    rewrite S. cbn [bind]. eexists. split; [reflexivity|]. cbn [fst snd heap vars gone given app]. split.
    + destruct I as [I1 I2 I3 I4]. assert (AG := fun q => aget_aset _ _ _ _ q S). split.
      * rewrite zlen_give by exact Hi. rewrite (aset_zlen _ _ _ _ S). exact I1.
      * intros j b. rewrite owns_give, AG by exact Hi. destruct (Z.eqb_spec j i) as [->|]; [|apply I2]. intros [= <-]. exists VNull. split; [reflexivity|]. now left.
      * intros j k p. rewrite !owns_give, !AG by exact Hi. destruct (Z.eqb_spec j i) as [->|]; [discriminate|]. destruct (Z.eqb_spec k i) as [->|]; [discriminate|]. apply I3.
      * intros p c F. destruct (I4 p c F) as (j & Oj & Gj). exists j. rewrite owns_give, AG by exact Hi. destruct (Z.eqb_spec j i) as [->|]; [congruence|auto].
    + pose proof (held_give l i (Some sinit) Hi) as P. rewrite O in P. cbn [oobjs app] in P. rewrite (null_objs sinit Hinit) in P. cbn [app] in P. now rewrite P.
  - (* operation *)
    destruct L as (Hi & a & O & SL). rewrite O. cbn [fst snd]. destruct (i_own _ _ _ I i a O) as (v & G & W).
    destruct (own_load s v a W) as (c & LD & R). destruct (Hstep c a o R SL) as (c' & d & g & ST & R' & P).
    unfold op_var. rewrite G. cbn [bind]. rewrite LD. cbn [bind]. rewrite ST. cbn [bind].
    assert (HP : Permutation (held objs (give l i (Some (sstep a o))) ++ (gone s ++ d) ++ given s ++ g) (smade a o ++ held objs l ++ gone s ++ given s)).
    { pose proof (held_give l i (Some (sstep a o)) Hi) as Q. rewrite O in Q. cbn [oobjs] in Q.
      apply (Permutation_app_inv_l (objs a)). rewrite app_assoc, Q.
      transitivity ((objs (sstep a o) ++ d ++ g) ++ held objs l ++ gone s ++ given s); [perm|]. rewrite P. perm. }
    assert (FR : forall h, inv h (vars s) (give l i None) -> exists vs', aset (vars s) i (snd (fresh isnull h c')) = Ok vs' /\
        inv (fst (fresh isnull h c')) vs' (give l i (Some (sstep a o)))).
    { intros h Ih. destruct (fresh_ok h (vars s) (give l i None) i c' (sstep a o) Ih) as (vs' & S & I'); auto.
      - unfold is_var. rewrite zlen_give; auto.
      - rewrite owns_give, Z.eqb_refl; auto.
      - rewrite give_give in I'. eauto. }
    destruct (release_ok _ _ _ i a v I O G) as (h & RL & I' & _). destruct (FR h I') as (vs' & S & I2).
    destruct v as [| |p]; cbn [release] in RL; [discriminate| |].
    + injection RL as <-. cbn [bind]. rewrite S. cbn [bind]. eexists. split; [reflexivity|]. cbn [heap vars gone given]. split; [exact I2|exact HP].
    + destruct (stays c c' && negb (isnull c')).
      * destruct (inplace_ok _ _ _ i p c' (sstep a o) I ltac:(congruence) G R') as (h2 & S2 & I3). rewrite S2. cbn [bind fst snd].
        destruct (aset_some (vars s) i (VPtr p) (aget_ok_range _ _ _ G)) as (vs2 & S3).
        assert (vs2 = vars s). { pose proof (aset_back _ _ _ _ _ G S3) as B. rewrite aset_ok in S3 by exact (aget_ok_range _ _ _ G). rewrite aset_ok in B by (pose proof (aget_ok_range _ _ _ (aget_aset_same _ _ _ _ (aset_ok (vars s) i (VPtr p) (aget_ok_range _ _ _ G)))) as X; injection S3 as <-; exact X).
          injection S3 as <-. rewrite upd_upd in B. congruence. }
        rewrite S3. cbn [bind]. subst vs2. eexists. split; [reflexivity|]. cbn [heap vars gone given]. split; [exact I3|exact HP].
      * cbn [release] in *. rewrite RL. cbn [bind]. rewrite S. cbn [bind]. eexists. split; [reflexivity|]. cbn [heap vars gone given]. split; [exact I2|exact HP].
  - (* drop *)
    destruct L as [Hi O]. destruct (owns_ne _ _ O) as (a & Oa). destruct (i_own _ _ _ I i a Oa) as (v & G & _). rewrite G. cbn [bind].
    destruct (drop_var_ok s l i a v I Oa G) as (h & d & D & P & _ & I'). rewrite D. eexists. split; [reflexivity|]. cbn [heap vars gone given fst snd app].
    split; [exact I'|]. pose proof (held_give l i None Hi) as Q. rewrite Oa in Q. cbn [oobjs app] in Q. rewrite <- Q, P. perm.
  - (* move *)
    destruct L as (Hi & Hj & O & Oj). destruct (owns_ne _ _ O) as (a & Oa). destruct (i_own _ _ _ I i a Oa) as (v & G & W).
    unfold move_var. rewrite G. cbn [bind]. assert (NU : v <> VUninit) by (destruct W as [[-> _]|(? & ? & -> & _)]; discriminate).
    replace (match v with VUninit => Err Uninit | _ => set_var s i VNull end) with (set_var s i VNull) by (destruct v; congruence).
    unfold set_var. rewrite Oa.
    destruct (Z.eq_dec i j) as [<-|N].
    + destruct (aset_some (vars s) i VNull (aget_ok_range _ _ _ G)) as (vs1 & S1). rewrite S1. cbn [bind fst snd heap vars gone given].
      rewrite (aset_back _ _ _ _ _ G S1). cbn [bind]. eexists. split; [reflexivity|]. cbn [fst snd heap vars gone given app].
      rewrite give_give, <- Oa, give_owns by exact Hi. split; [exact I|reflexivity].
    + destruct Oj as [Oj|]; [|contradiction]. destruct (transfer_ok _ _ _ i j a v I Oa G Hj Oj) as (vs1 & vs2 & S1 & S2 & I').
      rewrite S1. cbn [bind fst snd heap vars gone given]. rewrite S2. cbn [bind]. eexists. split; [reflexivity|]. cbn [fst snd heap vars gone given app].
      split; [exact I'|]. pose proof (held_give l i (Some sinit) Hi) as Q. rewrite Oa in Q. cbn [oobjs] in Q. rewrite (null_objs sinit Hinit) in Q. cbn [app] in Q.
      pose proof (held_give (give l i (Some sinit)) j (Some a) ltac:(unfold is_var; rewrite zlen_give; auto)) as Q2.
      rewrite owns_give in Q2 by exact Hi. destruct (Z.eqb_spec j i); [congruence|]. rewrite Oj in Q2. cbn [oobjs app] in Q2. rewrite Q2, Q. reflexivity.
  - (* take *)
    destruct L as (Hi & Hj & O & Oj). destruct (owns_ne _ _ O) as (a & Oa). destruct (owns_ne _ _ Oj) as (b & Ob).
    destruct (i_own _ _ _ I i a Oa) as (v & G & W). destruct (i_own _ _ _ I j b Ob) as (w & Gj & Wj).
    unfold move_var. rewrite Gj. cbn [bind]. assert (NU : w <> VUninit) by (destruct Wj as [[-> _]|(? & ? & -> & _)]; discriminate).
    replace (match w with VUninit => Err Uninit | _ => set_var s j VNull end) with (set_var s j VNull) by (destruct w; congruence).
    unfold set_var at 1. rewrite Ob. destruct (aset_some (vars s) j VNull (aget_ok_range _ _ _ Gj)) as (vs1 & S1). rewrite S1. cbn [bind fst snd].
    unfold take_var. cbn [vars]. destruct (Z.eq_dec i j) as [<-|N].
    + rewrite (aget_aset_same _ _ _ _ S1). cbn [bind]. unfold drop_var. cbn [load bind]. rewrite Hdrop0. cbn [bind release heap vars gone given].
      unfold set_var. cbn [vars]. rewrite (aset_back _ _ _ _ _ Gj S1). cbn [bind]. eexists. split; [reflexivity|]. cbn [fst snd heap vars gone given app].
      rewrite app_nil_r, give_give, <- Ob, give_owns by exact Hi. split; [exact I|reflexivity].
    + rewrite (aget_aset_other _ _ _ _ i S1 N), G. cbn [bind]. destruct (drop_var_ok s l i a v I Oa G) as (h & d & _ & P & DX & I').
      rewrite DX. cbn [bind]. destruct (transfer_ok h (vars s) (give l i None) j i b w I') as (vs1' & vs2 & S1' & S2 & I2); auto.
      { rewrite owns_give by exact Hi. destruct (Z.eqb_spec j i); congruence. }
      { unfold is_var. rewrite zlen_give; auto. }
      { rewrite owns_give, Z.eqb_refl by exact Hi. reflexivity. }
      assert (vs1' = vs1) by congruence. subst vs1'. unfold set_var. cbn [vars]. rewrite S2. cbn [bind]. eexists. split; [reflexivity|]. cbn [fst snd heap vars gone given app].
      assert (SW : give (give (give l i None) j (Some sinit)) i (Some b) = give (give l j (Some sinit)) i (Some b)).
      { unfold give. rewrite (upd_comm l (Z.to_nat i) (Z.to_nat j)) by (unfold is_var in *; lia). apply upd_upd. }
      rewrite SW in I2. split; [exact I2|].
      pose proof (held_give l j (Some sinit) Hj) as Q. rewrite Ob in Q. cbn [oobjs] in Q. rewrite (null_objs sinit Hinit) in Q. cbn [app] in Q.
      pose proof (held_give (give l j (Some sinit)) i (Some b) ltac:(unfold is_var; rewrite zlen_give; auto)) as Q2.
      rewrite owns_give in Q2 by exact Hj. destruct (Z.eqb_spec i j); [congruence|]. rewrite Oa in Q2. cbn [oobjs] in Q2. rewrite Q in Q2. rewrite <- Q2, P. perm.
  - (* clone *)
    destruct L as (Hi & Hj & Oj & a & Oa & CL). destruct (i_own _ _ _ I i a Oa) as (v & G & W). rewrite G. cbn [bind]. rewrite Oa.
    destruct (own_load s v a W) as (c & LD & R). destruct (Hclone c a R CL) as (c' & CE & R'). unfold clone_var. rewrite LD. cbn [bind]. rewrite CE. cbn [bind fst snd].
    destruct (fresh_ok _ _ _ j c' (cloned a) I Hj Oj R') as (vs' & S & I'). unfold set_var. cbn [vars heap gone given]. rewrite S. cbn [bind]. eexists. split; [reflexivity|].
    cbn [fst snd heap vars gone given]. split; [exact I'|]. pose proof (held_give l j (Some (cloned a)) Hj) as Q. rewrite Oj in Q. cbn [oobjs app] in Q. rewrite Hcobjs in Q. rewrite Q. perm.
  - (* copy *)
    destruct L as (Hi & Hj & O & b & Ob & CL). destruct (owns_ne _ _ O) as (a & Oa).
    destruct (i_own _ _ _ I i a Oa) as (v & G & W). destruct (i_own _ _ _ I j b Ob) as (w & Gj & Wj).
    unfold copy_var. rewrite G. cbn [bind]. rewrite Gj. cbn [bind].
    assert (SP : exists q, same_ptr v w = Ok q /\ (q = true -> v = w) /\ (v = w -> q = true)).
    { destruct W as [[-> _]|(p & ? & -> & _)]; destruct Wj as [[-> _]|(p' & ? & -> & _)]; cbn; eexists; (split; [reflexivity|]); split; intro X; try congruence; try reflexivity.
      - apply Z.eqb_eq in X. congruence. - injection X as <-. apply Z.eqb_refl. }
    destruct SP as (q & SQ & Q1 & Q2). rewrite SQ. cbn [bind]. destruct (Z.eqb_spec i j) as [<-|N].
    { rewrite Q2 by congruence. exists s. split; [reflexivity|]. split; [exact I|reflexivity]. }
    rewrite Ob. destruct q.
    + specialize (Q1 eq_refl). subst w. exists s. split; [reflexivity|]. cbn [fst snd].
      assert (v = VNull) as ->. { destruct W as [[-> _]|(p & ? & -> & _)]; [reflexivity|]. exfalso. apply N. apply (i_one _ _ _ I i j p); congruence. }
      destruct W as [[_ Ra]|(? & ? & [=] & _)]. destruct Wj as [[_ Rb]|(? & ? & [=] & _)].
      destruct (Hclone init b Rb CL) as (c' & CE & Rc). rewrite Hclone0 in CE. injection CE as <-.
      split; [apply revalue_ok; auto|]. pose proof (held_give l i (Some (cloned b)) Hi) as Q. rewrite Oa in Q. cbn [oobjs] in Q. rewrite Hcobjs, (null_objs a Ra), (null_objs b Rb) in Q. cbn [app] in Q.
      rewrite (null_objs b Rb). cbn [app]. now rewrite Q.
    + destruct (drop_var_ok s l i a v I Oa G) as (h & d & D & P & _ & I'). rewrite D. cbn [bind].
      destruct (i_own _ _ _ I' j b) as (w' & Gj' & Wj'). { rewrite owns_give by exact Hi. destruct (Z.eqb_spec j i); congruence. }
      rewrite Gj in Gj'. injection Gj' as <-. destruct (own_load (mkst h (vars s) (gone s ++ d) (given s)) w b Wj') as (c & LD & R).
      destruct (Hclone c b R CL) as (c' & CE & R'). unfold clone_var. rewrite LD. cbn [bind]. rewrite CE. cbn [bind fst snd heap vars gone given].
      destruct (fresh_ok h (vars s) (give l i None) i c' (cloned b) I') as (vs' & S & I2); auto.
      { unfold is_var. rewrite zlen_give; auto. } { rewrite owns_give, Z.eqb_refl; auto. }
      unfold set_var. cbn [vars heap gone given]. rewrite S. cbn [bind]. eexists. split; [reflexivity|]. cbn [fst snd heap vars gone given]. rewrite give_give in I2. split; [exact I2|].
      pose proof (held_give l i (Some (cloned b)) Hi) as Q. rewrite Oa in Q. cbn [oobjs] in Q. rewrite Hcobjs in Q.
      transitivity ((objs a ++ held objs (give l i (Some (cloned b)))) ++ gone s ++ given s); [rewrite <- P; perm|]. rewrite Q. perm.
Qed.
Lemma vrun_ok ops : forall (s : state C E) l, inv (heap s) (vars s) l -> vlegal_all sinit sstep smade slegal cloneable cloned objs l ops ->
  exists s', vrun init step clone drop isnull stays s ops = Ok s' /\
    inv (heap s') (vars s') (fst (vspec_all sinit sstep smade cloned objs l ops)) /\
    Permutation (held objs (fst (vspec_all sinit sstep smade cloned objs l ops)) ++ gone s' ++ given s')
                (snd (vspec_all sinit sstep smade cloned objs l ops) ++ held objs l ++ gone s ++ given s).
Proof.
  induction ops as [|o ops IH]; intros s l I L; cbn [vrun vspec_all vlegal_all fst snd] in *.
  - exists s. split; [reflexivity|]. split; [exact I|reflexivity].
  - destruct L as [L1 L2]. destruct (vstep_ok s l o I L1) as (s1 & S & I1 & P1). rewrite S. cbn [bind].
    destruct (IH s1 _ I1 L2) as (s2 & S2 & I2 & P2). exists s2. split; [exact S2|]. split; [exact I2|]. rewrite P2, P1. perm.
Qed.
Lemma owns_repeat n i : owns (repeat (@None A) n) i = None.
Proof.
  unfold owns. destruct (aget (repeat None n) i) as [o|] eqn:G; [|reflexivity]. unfold aget in G. destruct (i <? 0); [discriminate|].
  destruct (nth_error (repeat None n) (Z.to_nat i)) eqn:F; [|discriminate]. apply nth_error_In in F. apply repeat_spec in F. congruence.
Qed.
Lemma inv_start n : inv (heap (start (C:=C) (E:=E) n)) (vars (start (C:=C) (E:=E) n)) (repeat None n).
Proof.
  split; cbn [heap vars start].
  - unfold zlen. now rewrite !repeat_length.
  - intros i a. rewrite owns_repeat. discriminate.
  - intros i j p. rewrite owns_repeat. congruence.
  - intros p c F. apply aget_ok_range in F. change (zlen (@nil (option C))) with 0 in F. lia.
Qed.
Lemma held_start n : held objs (repeat None n) = [].
Proof. unfold held. induction n; cbn; auto. Qed.
Lemma held_none l : (forall i, owns l i = None) -> held objs l = [].
Proof.
  intro H. assert (F : forall x, In x l -> x = None).
  { intros x X. apply In_nth_error in X as (n & X). specialize (H (Z.of_nat n)). unfold owns, aget in H.
    destruct (Z.of_nat n <? 0) eqn:Z0; [apply Z.ltb_lt in Z0; lia|]. rewrite Nat2Z.id, X in H. exact H. }
  clear H. induction l as [|y l IH]; [reflexivity|]. cbn. rewrite (F y) by (now left). cbn. apply IH. intros x X. apply F. now right.
Qed.

(** The objects returned. *)
Variable sgiven : A -> Op -> list E.
Hypothesis Hgiven : forall c a o r, rep c a -> slegal a o -> step c o = Ok r -> snd r = sgiven a o.
Lemma bind_ok {X Y} (m : res X) (k : X -> res Y) y : bind m k = Ok y -> exists x, m = Ok x /\ k x = Ok y.
Proof. destruct m as [x|]; [|discriminate]. eauto. Qed.
Ltac split_bind := repeat match goal with H : bind _ _ = Ok _ |- _ => apply bind_ok in H; destruct H as (? & ? & H) end.
Lemma drop_given (s : state C E) v s' : drop_var init drop s v = Ok s' -> given s' = given s.
Proof. unfold drop_var. intro S. split_bind. injection S as <-. reflexivity. Qed.
Lemma set_given (s : state C E) i v s' : set_var s i v = Ok s' -> given s' = given s.
Proof. unfold set_var. intro S. split_bind. injection S as <-. reflexivity. Qed.
Lemma move_given (s : state C E) i q : move_var s i = Ok q -> given (fst q) = given s.
Proof.
  unfold move_var. destruct (aget _ _) as [v|]; [|discriminate]. cbn [bind].
  destruct (match v with VUninit => Err Uninit | _ => set_var s i VNull end) as [s1|] eqn:S; [|discriminate]. intros [= <-].
  destruct v; [discriminate| |]; exact (set_given _ _ _ _ S).
Qed.
Lemma clone_given (s : state C E) v q : clone_var init clone isnull s v = Ok q -> given (fst q) = given s.
Proof. unfold clone_var. intro S. split_bind. injection S as <-. reflexivity. Qed.
Lemma vstep_given s l o s' : inv (heap s) (vars s) l -> vlegal slegal cloneable l o -> vstep init step clone drop isnull stays s o = Ok s' ->
  given s' = given s ++ match o with VOp i o => match owns l i with Some a => sgiven a o | None => [] end | _ => [] end.
Proof.
  intros I L S. destruct o as [i|i o|i|i j|i j|i j|i j]; cbn [vlegal vstep] in *; rewrite ?app_nil_r.
  - exact (set_given _ _ _ _ S).
  - destruct L as (Hi & a & O & SL). rewrite O. destruct (i_own _ _ _ I i a O) as (v & G & W). destruct (own_load s v a W) as (c & LD & R).
    unfold op_var in S. rewrite G in S. cbn [bind] in S. rewrite LD in S. cbn [bind] in S. apply bind_ok in S. destruct S as ([[c' d] g] & ST & S).
    pose proof (Hgiven c a o _ R SL ST) as HG. cbn [snd] in HG. split_bind. injection S as <-. cbn [given]. now rewrite HG.
  - split_bind. exact (drop_given _ _ _ S).
  - split_bind. rewrite (set_given _ _ _ _ S). eapply move_given; eauto.
  - split_bind. unfold take_var in S. split_bind. rewrite (set_given _ _ _ _ S). erewrite drop_given by eassumption. eapply move_given; eauto.
  - split_bind. rewrite (set_given _ _ _ _ S). eapply clone_given; eauto.
  - unfold copy_var in S. split_bind. destruct x1; [injection S as <-; reflexivity|]. split_bind.
    rewrite (set_given _ _ _ _ S). erewrite clone_given by eassumption. eapply drop_given; eauto.
Qed.
Lemma vrun_given ops : forall s l s', inv (heap s) (vars s) l -> vlegal_all sinit sstep smade slegal cloneable cloned objs l ops ->
  vrun init step clone drop isnull stays s ops = Ok s' -> given s' = given s ++ vgiven sinit sstep smade cloned objs sgiven l ops.
Proof.
  induction ops as [|o ops IH]; intros s l s' I L S; cbn [vrun vlegal_all vgiven] in *; [injection S as <-; now rewrite app_nil_r|].
  destruct L as [L1 L2]. apply bind_ok in S. destruct S as (s1 & S1 & S). destruct (vstep_ok s l o I L1) as (s1' & S1' & I1 & _).
  assert (s1' = s1) by congruence. subst s1'. rewrite (IH _ _ _ I1 L2 S), (vstep_given _ _ _ _ I L1 S1), app_assoc. reflexivity.
Qed.
Lemma program_ok n ops : vlegal_all sinit sstep smade slegal cloneable cloned objs (repeat None n) ops ->
  let l := fst (vspec_all sinit sstep smade cloned objs (repeat None n) ops) in
  let made := snd (vspec_all sinit sstep smade cloned objs (repeat None n) ops) in
  exists s, vrun init step clone drop isnull stays (start n) ops = Ok s /\ sound init rep s l /\
    Permutation (held objs l ++ gone s ++ given s) made /\
    given s = vgiven sinit sstep smade cloned objs sgiven (repeat None n) ops /\
    ((forall i, owns l i = None) -> Permutation (gone s ++ given s) made /\ forall p c, aget (heap s) p <> Ok (Some c)).
Proof.
  intros L l made. destruct (vrun_ok ops (start n) (repeat None n) (inv_start n) L) as (s & S & I & P). pose proof (vrun_given ops _ _ _ (inv_start n) L S) as GV. exists s. split; [exact S|].
  fold l made in I, P. rewrite held_start in P. cbn [app start gone given] in P. rewrite app_nil_r in P. split; [|split; [exact P|split; [exact GV|]]].
  - split; [|split; [apply I|apply I]]. intros i a O. destruct (i_own _ _ _ I i a O) as (v & G & W). destruct (own_load s v a W) as (c & LD & R). eauto.
  - intro N. rewrite (held_none l N) in P. split; [exact P|]. intros p c F. destruct (i_live _ _ _ I p c F) as (i & O & _). apply O, N.
Qed.
End VarProofs.
