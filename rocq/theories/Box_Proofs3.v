(** Proofs about the box model, continued: every operation. *)
From Verif Require Import Base Box_Model Box_Spec Box_Proofs Box_Proofs2.
From Coq Require Import Permutation.

Section P.
Context {A : Type}.
Variable keyclone : A -> A.

Lemma upd_comm {B} (l : list B) (i j : nat) x y : i <> j -> upd (upd l i x) j y = upd (upd l j y) i x.
Proof. revert i j; induction l as [|b l IH]; intros [|i] [|j] Hn; cbn; auto; try congruence. rewrite IH by congruence. reflexivity. Qed.
Lemma set_comm g i j v w gi gj : i <> j -> set_var g i v = Ok gi -> set_var g j w = Ok gj -> @set_var A gi j w = set_var gj i v.
Proof.
  intros Hn E1 E2. unfold set_var in *. apply bind_ok in E1 as (vi & E1 & H1). apply bind_ok in E2 as (vj & E2 & H2). injection H1 as <-. injection H2 as <-.
  cbn [vars heap made gone raws]. apply aset_inv in E1 as [R1 ->]. apply aset_inv in E2 as [R2 ->].
  rewrite !aset_ok by (unfold zlen in *; rewrite length_upd; assumption). cbn [bind]. rewrite upd_comm by lia. reflexivity.
Qed.
Lemma get_dead g a T i : sim g a T -> aget (vars g) i = Ok Dead -> @aget (avar A) (avars a) i = Ok ADead.
Proof.
  intros S Hg. destruct (var_split _ _ _ _ _ S Hg) as (l1 & l2 & m1 & m2 & av & E & Ea & Hz & Hza & Hv & _).
  rewrite Ea, aget_mid by assumption. destruct av; cbn in Hv; try contradiction. reflexivity.
Qed.
Lemma get_box g a T i p : sim g a T -> aget (vars g) i = Ok (Box p) -> exists av, @aget (avar A) (avars a) i = Ok av /\ av <> ADead /\ holds (heap g) (Box p) av.
Proof.
  intros S Hg. destruct (var_split _ _ _ _ _ S Hg) as (l1 & l2 & m1 & m2 & av & E & Ea & Hz & Hza & Hv & _).
  rewrite Ea, aget_mid by assumption. exists av. repeat split; [intros ->; exact Hv|exact Hv].
Qed.
Lemma aget_aset_var a i j (v : avar A) a' : aset_var a j v = Some a' -> aget (avars a') i = if i =? j then Ok v else aget (avars a) i.
Proof.
  unfold aset_var. destruct (aset (avars a) j v) eqn:E; [|discriminate]. intro H. injection H as <-. cbn [avars].
  rewrite (aget_aset _ _ _ _ i E). destruct (Z.eqb_spec i j); reflexivity.
Qed.
Lemma get_set g i j v g' : set_var g j v = Ok g' -> aget (@vars A g') i = if i =? j then Ok v else aget (vars g) i.
Proof.
  unfold set_var. intro E. apply bind_ok in E as (vs & E & H). injection H as <-. cbn [vars]. rewrite (aget_aset _ _ _ _ i E). destruct (Z.eqb_spec i j); reflexivity.
Qed.
Lemma aset_same a i (v : avar A) : aget (avars a) i = Ok v -> aset_var a i v = Some a.
Proof. intro Hg. destruct (aget_split _ _ _ Hg) as (l1 & l2 & E & _ & Hs). unfold aset_var. rewrite Hs, <- E. destruct a; reflexivity. Qed.
Lemma twice (g : state A) a T p av aw : sim g a ((p, av) :: (p, aw) :: T) -> (p : Z) <> 0 -> False.
Proof.
  intros [C _ _ _] Hp. pose proof (c_nodup _ _ _ _ C) as N.
  cbn [fly map flat_map fst owned] in N. destruct (Z.eqb_spec p 0); [contradiction|]. rewrite <- app_assoc in N. cbn [app] in N.
  apply NoDup_remove_2 in N. apply N. rewrite in_app_iff. right. left. reflexivity.
Qed.

Lemma step_ok (g : state A) a o r : sim g a [] -> step keyclone g o = Some r ->
  exists g' a', r = Ok g' /\ astep keyclone a o = Some a' /\ sim g' a' [].
Proof.
  intros S. destruct o; cbn [step astep].
  - (* Init *)
    destruct (aget (vars g) i) as [[|p]|] eqn:E; try discriminate. intro H. injection H as <-. rewrite (get_dead _ _ _ _ S E).
    destruct (S_in _ _ _ i 0 ANull Dead (S_null _ _ _ S) E eq_refl) as (g' & a' & E1 & E2 & S'). exists g', a'. auto.
  - (* Make *)
    destruct (aget (vars g) i) as [[|p]|] eqn:E; try discriminate. destruct (fresh g a0) eqn:F; [|discriminate]. intro H. injection H as <-.
    rewrite (get_dead _ _ _ _ S E).
    destruct (S_in _ _ _ i a0 (AVal x) Dead (S_new _ _ _ _ x S F) E eq_refl) as (g' & a' & E1 & E2 & S'). exists g', a'. auto.
  - (* FromPtr *)
    destruct (aget (vars g) i) as [[|p]|] eqn:E; try discriminate. destruct (pick k (raws g)) as [[p r']|] eqn:P; [|discriminate]. intro H. injection H as <-.
    rewrite (get_dead _ _ _ _ S E). destruct (S_raw_out _ _ _ _ _ _ S P) as (x & ar & -> & Hp & S1).
    destruct (S_in _ _ _ i p (AVal x) Dead S1 E eq_refl) as (g' & a' & E1 & E2 & S'). exists g', a'. auto.
  - (* Clone *)
    destruct (aget (vars g) i) as [[|p]|] eqn:E; try discriminate. destruct (aget (vars g) j) as [[|q]|] eqn:Ej; try discriminate.
    rewrite (get_dead _ _ _ _ S E). destruct (get_box _ _ _ _ _ S Ej) as (av & -> & Ha & Hh).
    destruct (Z.eqb_spec q 0) as [->|n].
    + intro H. injection H as <-. destruct av as [| |x]; [contradiction| |destruct Hh; contradiction].
      destruct (S_in _ _ _ i 0 ANull Dead (S_null _ _ _ S) E eq_refl) as (g' & a' & E1 & E2 & S'). exists g', a'. auto.
    + destruct (fresh g a0) eqn:F; [|discriminate]. intro H. injection H as <-. destruct av as [| |x]; [contradiction|contradiction|].
      destruct Hh as [_ (id & ->)].
      destruct (S_in _ _ _ i a0 (AVal (keyclone x)) Dead (S_new _ _ _ _ (keyclone x) S F) E eq_refl) as (g' & a' & E1 & E2 & S'). exists g', a'. auto.
  - (* Drop *)
    destruct (aget (vars g) i) as [[|p]|] eqn:E; try discriminate. intro H. injection H as <-.
    destruct (S_out _ _ _ i p Dead ADead S E) as (g0 & a0 & av & E1 & -> & E3 & E4 & E5 & S0); [reflexivity|intro; exact I|].
    destruct (S_kill _ _ _ _ _ S0) as (g1 & D & S1 & V & _). exists g1, a0. rewrite (set_drop _ _ _ _ p E1).
    split; [exact D|]. split; [destruct av; [contradiction|exact E5|exact E5]|exact S1].
  - (* Move *)
    destruct (aget (vars g) i) as [[|p]|] eqn:E; try discriminate. destruct (aget (vars g) j) as [[|q]|] eqn:Ej; try discriminate.
    intro H. injection H as <-. rewrite (get_dead _ _ _ _ S E).
    destruct (S_out _ _ _ j q (Box 0) ANull S Ej) as (g0 & a0 & av & E1 & -> & E3 & E4 & E5 & S0); [reflexivity|reflexivity|].
    rewrite E1. cbn [bind]. assert (En : aget (vars g0) i = Ok Dead).
    { rewrite (get_set _ i _ _ _ E1). destruct (Z.eqb_spec i j); [congruence|assumption]. }
    destruct (S_in _ _ _ i q av Dead S0 En eq_refl) as (g' & a' & F1 & F2 & S'). exists g', a'. split; [exact F1|].
    split; [|exact S']. rewrite E5. destruct av; [contradiction|exact F2|exact F2].
  - (* Release *)
    destruct (aget (vars g) j) as [[|q]|] eqn:Ej; try discriminate. intro H. injection H as <-.
    destruct (S_out _ _ _ j q (Box 0) ANull S Ej) as (g0 & a0 & av & E1 & E2 & E3 & E4 & E5 & S0); [reflexivity|reflexivity|].
    rewrite E1, E2. cbn [bind]. destruct (Z.eqb_spec q 0) as [->|n].
    + destruct av as [| |x]; [contradiction| |destruct E4; contradiction]. rewrite (aset_same _ _ _ E2) in E5. injection E5 as <-.
      exists g0, a. split; [reflexivity|]. split; [reflexivity|]. eapply S_unnull; eauto.
    + destruct av as [| |x]; [contradiction|contradiction|]. rewrite E5. do 2 eexists. split; [reflexivity|]. split; [reflexivity|].
      apply S_raw_in. exact S0.
  - (* ResetTo *)
    destruct (aget (vars g) i) as [[|p]|] eqn:E; try discriminate. destruct (pick k (raws g)) as [[q r']|] eqn:P; [|discriminate]. intro H. injection H as <-.
    destruct (get_box _ _ _ _ _ S E) as (av & -> & Ha & Hh). destruct (S_raw_out _ _ _ _ _ _ S P) as (x & ar & -> & Hp & S1).
    destruct (S_replace _ _ _ i p q (AVal x) S1 E) as (g' & a' & E1 & E2 & S'). exists g', a'. split; [exact E1|].
    split; [|exact S']. destruct av; [contradiction|exact E2|exact E2].
  - (* ResetNull *)
    destruct (aget (vars g) i) as [[|p]|] eqn:E; try discriminate. intro H. injection H as <-.
    destruct (get_box _ _ _ _ _ S E) as (av & -> & Ha & Hh).
    destruct (S_replace _ _ _ i p 0 ANull (S_null _ _ _ S) E) as (g' & a' & E1 & E2 & S'). exists g', a'. split; [exact E1|].
    split; [|exact S']. destruct av; [contradiction|exact E2|exact E2].
  - (* Take *)
    destruct (aget (vars g) j) as [[|q]|] eqn:Ej; try discriminate.
    destruct (S_out _ _ _ j q (Box 0) ANull S Ej) as (g0 & a0 & av & E1 & E2 & E3 & E4 & E5 & S0); [reflexivity|reflexivity|].
    rewrite E1. destruct (aget (vars g0) i) as [[|p]|] eqn:E; try discriminate. intro H. injection H as <-.
    destruct (S_replace _ _ _ i p q av S0 E) as (g' & a' & F1 & F2 & S'). exists g', a'. split; [exact F1|]. split; [|exact S'].
    assert (Hi : exists avi, aget (avars a) i = Ok avi /\ avi <> ADead).
    { rewrite (get_set _ i _ _ _ E1) in E. destruct (Z.eqb_spec i j) as [->|n]; [exists av; auto|].
      destruct (get_box _ _ _ _ _ S E) as (ai & ? & ? & _). exists ai. auto. }
    destruct Hi as (avi & -> & Hd). rewrite E2, E5. destruct avi; [contradiction| |]; (destruct av; [contradiction| |]); exact F2.
  - (* Assign *)
    destruct (aget (vars g) i) as [[|p]|] eqn:E; try discriminate. destruct (aget (vars g) j) as [[|q]|] eqn:Ej; try discriminate.
    destruct (get_box _ _ _ _ _ S E) as (avi & Hai & Hdi & Hhi).
    destruct (S_out _ _ _ j q (Box 0) ANull S Ej) as (g0 & a0 & av & E1 & E2 & E3 & E4 & E5 & S0); [reflexivity|reflexivity|].
    destruct (Z.eqb_spec q p) as [->|n]; intro H; injection H as <-.
    + exists g, a. split; [reflexivity|]. split; [|exact S]. rewrite Hai, E2, E5.
      assert (Q : aset_var a0 i av = Some a).
      { destruct (Z.eq_dec i j) as [->|nij].
        - unfold aset_var in *. destruct (aget_split _ _ _ E2) as (l1 & l2 & El & Hz & Hs). rewrite Hs in E5. injection E5 as <-. cbn [avars araws].
          rewrite aset_mid by assumption. rewrite <- El. destruct a; reflexivity.
        - assert (E' : aget (vars g0) i = Ok (Box p)) by (rewrite (get_set _ i _ _ _ E1); destruct (Z.eqb_spec i j); [contradiction|assumption]).
          destruct (S_out _ _ _ i p (Box 0) ANull S0 E') as (g1 & a1 & av1 & _ & F2 & _ & _ & _ & S1); [reflexivity|reflexivity|].
          destruct (Z.eq_dec p 0) as [->|np]; [|exfalso; eapply twice; eauto].
          destruct av as [| |x]; [contradiction| |destruct E4; contradiction]. destruct avi as [| |x]; [contradiction| |destruct Hhi; contradiction].
          rewrite (aset_same _ _ _ E2) in E5. injection E5 as <-. apply aset_same. exact Hai. }
      destruct avi; [contradiction| |]; (destruct av; [contradiction| |]); exact Q.
    + assert (nij : i <> j) by congruence.
      assert (E' : aget (vars g0) i = Ok (Box p)) by (rewrite (get_set _ i _ _ _ E1); destruct (Z.eqb_spec i j); [contradiction|assumption]).
      destruct (S_replace _ _ _ i p q av S0 E') as (g' & a' & F1 & F2 & S'). exists g', a'. split; [|split; [|exact S']].
      * (* the order of the writes *)
        pose proof (set_drop _ _ _ _ p E1) as C. apply bind_ok in F1 as (g2 & D & W).
        rewrite D in C. apply bind_ok in C as (g1 & D1 & D2). rewrite D1. cbn [bind].
        assert (exists g3, set_var g1 i (Box q) = Ok g3) as (g3 & W1).
        { unfold set_var in W |- *. apply bind_ok in W as (vs & W & _). unfold set_var in D2. apply bind_ok in D2 as (vs' & D2 & Hg). injection Hg as <-. cbn [vars] in W.
          apply aset_inv in W as [R _]. rewrite (aset_zlen _ _ _ _ D2) in R. rewrite aset_ok by exact R. cbn [bind]. eauto. }
        rewrite W1. cbn [bind]. rewrite (set_comm _ i j _ _ _ _ nij W1 D2). exact W.
      * rewrite Hai, E2, E5. destruct avi; [contradiction| |]; (destruct av; [contradiction| |]); exact F2.
  - (* New *)
    destruct (fresh g a0) eqn:F; [|discriminate]. intro H. injection H as <-. do 2 eexists. split; [reflexivity|]. split; [reflexivity|].
    exact (S_raw_in _ _ _ _ _ (S_new _ _ _ _ x S F)).
  - (* Free *)
    destruct (pick k (raws g)) as [[q r']|] eqn:P; [|discriminate]. intro H. injection H as <-.
    destruct (S_raw_out _ _ _ _ _ _ S P) as (x & ar & -> & Hp & S1). destruct (S_kill _ _ _ _ _ S1) as (g1 & D & S2 & _ & _).
    exists g1. eexists. split; [exact D|]. split; [reflexivity|exact S2].
Qed.
Lemma run_ok l : forall g a r, sim g a [] -> run keyclone g l = Some r ->
  exists g' a', r = Ok g' /\ arun keyclone a l = Some a' /\ sim g' a' [].
Proof.
  induction l as [|o l IH]; intros g a r S; cbn [run arun].
  - intro H. injection H as <-. exists g, a. auto.
  - destruct (step keyclone g o) as [[g1|e]|] eqn:E; try discriminate.
    + destruct (step_ok _ _ _ _ S E) as (g' & a' & H & Ea & S'). injection H as <-. rewrite Ea. intro Hr. exact (IH _ _ _ S' Hr).
    + destruct (step_ok _ _ _ _ S E) as (g' & a' & H & _). discriminate.
Qed.
Lemma sim_start n : sim (start n) (@astart A n) [].
Proof.
  assert (O : flat_map owned (repeat Dead n) = []) by (induction n; cbn; auto).
  constructor; cbn [start astart vars heap made gone raws avars araws fly map flat_map app].
  - rewrite O. constructor; try (constructor; fail); try discriminate; try reflexivity; try lia.
    + intros p. split; [contradiction|congruence].
    + intros id. split; [intros [[]|(p & x & ?)]; discriminate|lia].
  - induction n; cbn; constructor; [exact I|]. apply IHn. cbn in O. exact O.
  - constructor.
  - constructor.
Qed.
End P.
