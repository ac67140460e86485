(** The lists of Lown_Model.v follow the sequences of Lown_Spec.v. *)
From Coq Require Import Permutation.
From Verif Require Import Base List_Model List_Spec List_Proofs List_Proofs2 Lown_Model Lown_Spec Lown_Proofs.

Section Sim.
Context {A : Type}.
Variable eqb : A -> A -> bool.
Variable keyclone : A -> A.
Notation elem := (@elem A).
Notation state := (@state A).
Notation astate := (@astate A).
Implicit Types (f : Z -> list (Z * elem)) (h : heap elem).

Definition fupd f (i : Z) (cs : list (Z * elem)) : Z -> list (Z * elem) := fun k => if k =? i then cs else f k.
Definition vrel h (v : option Z) (cs : list (Z * elem)) (o : option (list elem)) : Prop :=
  match v, o with
  | None, None => cs = []
  | Some last, Some l => circular h last cs /\ map snd cs = l
  | _, _ => False
  end.
Record sim (s : state) (a : astate) f : Prop := mksim {
  s_ok : heap_ok (hp s);
  s_mem : mem (hp s) f;
  s_len : zlen (vars s) = zlen (aseqs a);
  s_var : forall i v o, aget (vars s) i = Ok v -> aget (aseqs a) i = Ok o -> vrel (hp s) v (f i) o;
  s_out : forall k, ~ (0 <= k < zlen (vars s)) -> k <> -1 -> f k = [];
  s_nodes : nodes s = addrs (f (-1)) /\ anodes a = map snd (f (-1));
  s_vals : forall p x, In (p, x) (f (-1)) -> exists q, node (hp s) p = Some (x, q);
  s_mine : mine s = amine a; s_made : made s = amade a; s_gone : gone s = agone a }.

Lemma vrel_nodup h v cs o : vrel h v cs o -> NoDup (addrs cs).
Proof. destruct v, o; cbn; try tauto; [intros ((N & _) & _); exact N|intros ->; constructor]. Qed.
Lemma vrel_live h v cs o p : vrel h v cs o -> In p (addrs cs) -> live h p.
Proof. destruct v, o; cbn; try tauto; [intros ((_ & L & _) & _); exact (linked_live h cs _ p L)|intros -> []]. Qed.
Lemma vrel_same h h' v cs o : (forall p, In p (addrs cs) -> node h' p = node h p) -> vrel h v cs o -> vrel h' v cs o.
Proof. destruct v, o; cbn; try tauto. intros H (C & E). split; [now apply (circular_same h)|exact E]. Qed.

(** The parts in [K] change. *)
Lemma sim_upd s a f s' a' f' K : sim s a f -> heap_ok (hp s') -> (forall k, ~ In k K -> f' k = f k) ->
  only (hp s) (parts f K) (hp s') (parts f' K) -> NoDup (parts f' K) ->
  zlen (vars s') = zlen (vars s) -> zlen (aseqs a') = zlen (aseqs a) ->
  (forall k, ~ In k K -> aget (vars s') k = aget (vars s) k /\ aget (aseqs a') k = aget (aseqs a) k) ->
  (forall k, In k K -> k <> -1 -> exists v o, aget (vars s') k = Ok v /\ aget (aseqs a') k = Ok o /\ vrel (hp s') v (f' k) o) ->
  nodes s' = addrs (f' (-1)) -> anodes a' = map snd (f' (-1)) ->
  (In (-1) K -> forall p x, In (p, x) (f' (-1)) -> exists q, node (hp s') p = Some (x, q)) ->
  mine s' = amine a' -> made s' = amade a' -> gone s' = agone a' -> sim s' a' f'.
Proof.
  intros [S1 S2 S3 S4 S5 [S6 S6'] S7 S8 S9 S10] Ho He Hon Hnd L1 L2 Hout Hin Hn1 Hn2 Hnv Hm Hd Hg.
  assert (Hlive : forall p, In p (parts f' K) -> live (hp s') p).
  { intros p Hp. apply in_parts in Hp as (k & Hk & Hp). destruct (Z.eq_dec k (-1)) as [->|Hk1].
    - unfold addrs in Hp. apply in_map_iff in Hp as ([p' x] & <- & Hp). destruct (Hnv Hk p' x Hp) as (q & E). unfold live. cbn. congruence.
    - destruct (Hin k Hk Hk1) as (v & o & _ & _ & R). eapply vrel_live; eauto. }
  destruct (mem_upd (hp s) f (hp s') f' K S2 He Hon Hnd Hlive) as (M & Fr).
  constructor; auto.
  - congruence.
  - intros i v o Ev Eo. destruct (in_dec Z.eq_dec i K) as [Hk|Hk].
    + destruct (Hin i Hk) as (v' & o' & E1 & E2 & R); [apply aget_ok_range in Ev; lia|]. rewrite E1 in Ev. rewrite E2 in Eo. injection Ev as <-. injection Eo as <-. exact R.
    + destruct (Hout i Hk) as [E1 E2]. rewrite E1 in Ev. rewrite E2 in Eo. rewrite (He i Hk). apply (vrel_same (hp s)); [apply (Fr i Hk)|]. eauto.
  - intros k Hk Hk1. rewrite L1 in Hk. destruct (in_dec Z.eq_dec k K) as [Hi|Hi]; [|rewrite He by exact Hi; auto].
    destruct (Hin k Hi Hk1) as (v & o & E & _). apply aget_ok_range in E. rewrite L1 in E. tauto.
  - intros p x Hp. destruct (in_dec Z.eq_dec (-1) K) as [Hi|Hi]; [now apply Hnv|]. rewrite (He _ Hi) in Hp. destruct (S7 p x Hp) as (q & E). exists q.
    rewrite (Fr _ Hi p); [exact E|]. unfold addrs. change p with (fst (p, x)). now apply in_map.
Qed.

Lemma fupd_same f i cs : fupd f i cs i = cs.
Proof. unfold fupd. now rewrite Z.eqb_refl. Qed.
Lemma fupd_other f i cs k : k <> i -> fupd f i cs k = f k.
Proof. intros H. unfold fupd. now rewrite (proj2 (Z.eqb_neq _ _) H). Qed.

Lemma sim_one s a f i h' v' cs' o' vs' qs' mi' ma' go' : sim s a f -> aset (vars s) i v' = Ok vs' -> aset (aseqs a) i o' = Ok qs' ->
  heap_ok h' -> only (hp s) (addrs (f i)) h' (addrs cs') -> vrel h' v' cs' o' ->
  sim (mks h' vs' mi' (nodes s) ma' go') (mka qs' mi' (anodes a) ma' go') (fupd f i cs').
Proof.
  intros S Ev Eq Ho Hon R. pose proof (proj1 (aset_inv _ _ _ _ Ev)) as Hi. assert (Hn : -1 <> i) by lia.
  apply (sim_upd s a f _ _ _ [i] S); cbn [hp vars aseqs nodes anodes mine amine made amade gone agone]; auto.
  - intros k Hk. apply fupd_other. intros ->. apply Hk. now left.
  - unfold parts. cbn [flat_map]. rewrite fupd_same, !app_nil_r. exact Hon.
  - unfold parts. cbn [flat_map]. rewrite fupd_same, !app_nil_r. eapply vrel_nodup; eauto.
  - eapply aset_zlen; eauto.
  - eapply aset_zlen; eauto.
  - intros k Hk. assert (k <> i) by (intros ->; apply Hk; now left). split; eapply aget_aset_other; eauto.
  - intros k [<-|[]] _. exists v', o'. rewrite fupd_same. repeat split; auto; eapply aget_aset_same; eauto.
  - rewrite fupd_other by exact Hn. apply (s_nodes _ _ _ S).
  - rewrite fupd_other by exact Hn. apply (s_nodes _ _ _ S).
  - intros [E|[]]. congruence.
Qed.

Lemma sim_two s a f i j h' vi ci oi vj cj oj vs' qs' ma' go' : sim s a f -> i <> j -> 0 <= i < zlen (vars s) -> 0 <= j < zlen (vars s) ->
  zlen vs' = zlen (vars s) -> zlen qs' = zlen (aseqs a) ->
  aget vs' i = Ok vi -> aget vs' j = Ok vj -> aget qs' i = Ok oi -> aget qs' j = Ok oj ->
  (forall k, k <> i -> k <> j -> aget vs' k = aget (vars s) k /\ aget qs' k = aget (aseqs a) k) ->
  heap_ok h' -> only (hp s) (addrs (f i) ++ addrs (f j)) h' (addrs ci ++ addrs cj) -> NoDup (addrs ci ++ addrs cj) -> vrel h' vi ci oi -> vrel h' vj cj oj ->
  sim (mks h' vs' (mine s) (nodes s) ma' go') (mka qs' (amine a) (anodes a) ma' go') (fupd (fupd f i ci) j cj).
Proof.
  intros S Hij Hi Hj L1 L2 Vi Vj Qi Qj Hk Ho Hon Hnd Ri Rj. assert (Hn : -1 <> i) by lia. assert (Hn' : -1 <> j) by lia.
  assert (Fi : fupd (fupd f i ci) j cj i = ci) by (rewrite fupd_other by exact Hij; apply fupd_same).
  assert (Fj : fupd (fupd f i ci) j cj j = cj) by apply fupd_same.
  apply (sim_upd s a f _ _ _ [i; j] S); cbn [hp vars aseqs nodes anodes mine amine made amade gone agone]; auto.
  - intros k Hk'. rewrite !fupd_other; [reflexivity|intros ->; apply Hk'; now left|intros ->; apply Hk'; right; now left].
  - unfold parts. cbn [flat_map]. rewrite Fi, Fj, !app_nil_r. exact Hon.
  - unfold parts. cbn [flat_map]. rewrite Fi, Fj, !app_nil_r. exact Hnd.
  - intros k Hk'. apply Hk; intros ->; apply Hk'; [now left|right; now left].
  - intros k [<-|[<-|[]]] _; [exists vi, oi; rewrite Fi|exists vj, oj; rewrite Fj]; auto.
  - rewrite !fupd_other by assumption. apply (s_nodes _ _ _ S).
  - rewrite !fupd_other by assumption. apply (s_nodes _ _ _ S).
  - intros [E|[E|[]]]; congruence.
  - apply (s_mine _ _ _ S).
Qed.

Lemma sim_node s a f i h' v' cs' o' ns vs' qs' ma' go' : sim s a f -> aset (vars s) i v' = Ok vs' -> aset (aseqs a) i o' = Ok qs' ->
  heap_ok h' -> only (hp s) (addrs (f i) ++ addrs (f (-1))) h' (addrs cs' ++ addrs ns) -> NoDup (addrs cs' ++ addrs ns) -> vrel h' v' cs' o' ->
  (forall p x, In (p, x) ns -> exists q, node h' p = Some (x, q)) ->
  sim (mks h' vs' (mine s) (addrs ns) ma' go') (mka qs' (amine a) (map snd ns) ma' go') (fupd (fupd f i cs') (-1) ns).
Proof.
  intros S Ev Eq Ho Hon Hnd R Hv. pose proof (proj1 (aset_inv _ _ _ _ Ev)) as Hi. assert (Hn : i <> -1) by lia.
  assert (Fi : fupd (fupd f i cs') (-1) ns i = cs') by (rewrite fupd_other by exact Hn; apply fupd_same).
  assert (Fj : fupd (fupd f i cs') (-1) ns (-1) = ns) by apply fupd_same.
  apply (sim_upd s a f _ _ _ [i; -1] S); cbn [hp vars aseqs nodes anodes mine amine made amade gone agone]; auto.
  - intros k Hk'. rewrite !fupd_other; [reflexivity|intros ->; apply Hk'; now left|intros ->; apply Hk'; right; now left].
  - unfold parts. cbn [flat_map]. rewrite Fi, Fj, !app_nil_r. exact Hon.
  - unfold parts. cbn [flat_map]. rewrite Fi, Fj, !app_nil_r. exact Hnd.
  - eapply aset_zlen; eauto.
  - eapply aset_zlen; eauto.
  - intros k Hk. assert (k <> i) by (intros ->; apply Hk; now left). split; eapply aget_aset_other; eauto.
  - intros k [<-|[<-|[]]] Hk; [|congruence]. exists v', o'. rewrite Fi. repeat split; auto; eapply aget_aset_same; eauto.
  - apply (s_mine _ _ _ S).
Qed.

(** reading variables *)
Lemma sim_live s a f i l : sim s a f -> aget_var a i = Some l ->
  exists last, aget (vars s) i = Ok (Some last) /\ get s i = Ok last /\ lst (hp s) last (f i) /\ map snd (f i) = l /\
    aget (aseqs a) i = Ok (Some l) /\ 0 <= i < zlen (vars s).
Proof.
  intros S E. unfold aget_var in E. destruct (aget (aseqs a) i) as [[l'|]|] eqn:Eq; try discriminate. injection E as ->.
  pose proof (aget_ok_range _ _ _ Eq) as Hi. rewrite <- (s_len _ _ _ S) in Hi. destruct (aget_some (vars s) i Hi) as [v Ev].
  pose proof (s_var _ _ _ S i v _ Ev Eq) as R. destruct v as [last|]; cbn in R; [|contradiction]. exists last.
  unfold get. rewrite Ev. cbn [bind]. split; [reflexivity|]. split; [reflexivity|]. split; [split; [apply (s_ok _ _ _ S)|apply R]|]. split; [apply R|]. auto.
Qed.
Lemma sim_dead s a f i : sim s a f -> adead a i = true -> aget (vars s) i = Ok None /\ dead s i = Ok tt /\ f i = [] /\ 0 <= i < zlen (vars s) /\ aget (aseqs a) i = Ok None.
Proof.
  intros S E. unfold adead in E. destruct (aget (aseqs a) i) as [[l'|]|] eqn:Eq; try discriminate.
  pose proof (aget_ok_range _ _ _ Eq) as Hi. rewrite <- (s_len _ _ _ S) in Hi. destruct (aget_some (vars s) i Hi) as [v Ev].
  pose proof (s_var _ _ _ S i v _ Ev Eq) as R. destruct v as [last|]; cbn in R; [contradiction|]. unfold dead. rewrite Ev. cbn [bind]. auto.
Qed.
Lemma achange_inv (a : astate) i v m n d x a' : achange a i v m n d x = Some a' ->
  exists q, aset (aseqs a) i v = Ok q /\ a' = mka q m n (amade a + d) (agone a ++ ids x).
Proof. unfold achange. destruct (aset _ _ _) as [q|]; [|discriminate]. intros [= <-]. eauto. Qed.

Lemma news_fresh xs : forall m, news (A := A) m xs = fresh m xs.
Proof. induction xs as [|x t IH]; intros m; cbn; [reflexivity|]. now rewrite IH. Qed.

(** a call on one list *)
Lemma call_ok s a f i l o m a' : sim s a f -> aget_var a i = Some l -> legal_op l o ->
  achange a i (Some (fst (seq_step (eeqb eqb) l o))) m (anodes a) 0 (snd (seq_step (eeqb eqb) l o)) = Some a' ->
  exists s' f', call eqb (with_mine s m) i o = Ok s' /\ sim s' a' f'.
Proof.
  intros S El Hl E. destruct (sim_live s a f i l S El) as (last & Ev & Eg & Hlst & Em & Eq & Hi).
  apply achange_inv in E as (q & Eqs & ->). subst l.
  destruct (step_spec (eeqb eqb) (hp s) last (f i) o Hlst Hl) as (h' & last' & cs' & E & Hlst' & Em' & Hon).
  unfold call. change (get (with_mine s m) i) with (get s i). rewrite Eg. cbn [bind with_mine hp]. rewrite E. cbn [bind].
  destruct (aset_some (vars s) i (Some last') Hi) as [vs' Evs]. unfold set. cbn [vars destroyed with_heap with_mine]. rewrite Evs. cbn [bind].
  eexists _, (fupd f i cs'). split; [reflexivity|]. cbn [hp vars mine nodes made gone destroyed with_heap with_mine].
  rewrite Z.add_0_r, <- (s_gone _ _ _ S), <- (s_made _ _ _ S). unfold ids.
  eapply (sim_one s a f i h' (Some last') cs'); eauto; [apply Hlst'|]. split; [apply Hlst'|exact Em'].
Qed.
Lemma call_with_ok s a f i l k y m o a' : sim s a f -> aget_var a i = Some l -> pick k (amine a) = Some (y, m) -> legal_op l (o y) ->
  achange a i (Some (fst (seq_step (eeqb eqb) l (o y)))) m (anodes a) 0 (snd (seq_step (eeqb eqb) l (o y))) = Some a' ->
  exists s' f', call_with eqb s i k o = Ok s' /\ sim s' a' f'.
Proof. intros S El P Hl E. unfold call_with. rewrite (s_mine _ _ _ S), P. eapply call_ok; eauto. Qed.
Lemma with_mine_id (s : state) : with_mine s (mine s) = s.
Proof. destruct s; reflexivity. Qed.
Lemma call_put_ok s a f i l o a' : sim s a f -> aget_var a i = Some l -> legal_op l o ->
  aput a i (fst (seq_step (eeqb eqb) l o)) (snd (seq_step (eeqb eqb) l o)) = Some a' ->
  exists s' f', call eqb s i o = Ok s' /\ sim s' a' f'.
Proof. intros S El Hl E. rewrite <- (with_mine_id s). rewrite (s_mine _ _ _ S). eapply call_ok; eauto. Qed.

(** building at the end of a list, or a new one *)
Lemma push_all_ok s a f i last cs xs l' a' d go : sim s a f -> 0 <= i < zlen (vars s) -> lst (hp s) last cs -> addrs cs = addrs (f i) ->
  map snd cs ++ xs = l' -> achange a i (Some l') (amine a) (anodes a) d go = Some a' -> go = [] ->
  exists r s' f', push_all (hp s) last xs = Ok r /\ set (making (with_heap s (fst r)) d) i (Some (snd r)) = Ok s' /\ sim s' a' f'.
Proof.
  intros S Hi Hlst Ha El E ->. apply achange_inv in E as (q & Eqs & ->).
  destruct (push_all_spec xs (hp s) last cs Hlst) as (h' & last' & new & E & Hlst' & En & Hon).
  destruct (aset_some (vars s) i (Some last') Hi) as [vs' Evs]. eexists (h', last'), _, (fupd f i (cs ++ new)). split; [exact E|].
  cbn [fst snd]. unfold set. cbn [vars making with_heap]. rewrite Evs. cbn [bind]. split; [reflexivity|].
  cbn [hp vars mine nodes made gone making with_heap]. rewrite (s_mine _ _ _ S), <- (s_gone _ _ _ S), <- (s_made _ _ _ S), app_nil_r.
  eapply (sim_one s a f i h' (Some last') (cs ++ new)); eauto; [apply Hlst'|now rewrite <- Ha|].
  split; [apply Hlst'|]. rewrite map_app, En. exact El.
Qed.
End Sim.
