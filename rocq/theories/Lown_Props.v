(** C98: ownership of elements and nodes over histories of many lists. *)
From Coq Require Import Permutation.
From Verif Require Import Base List_Model List_Spec List_Proofs Lown_Model Lown_Spec Lown_Proofs Lown_Proofs2 Lown_Proofs3 Lown_Proofs4.

(** Every history of calls on any number of list variables that the sequences allow runs without touching freed
    or foreign nodes, every variable then holds its sequence, and the client owns what the specification says. *)
Theorem C98_runs {A} (eqb : A -> A -> bool) (keyclone : A -> A) n ops a : arun eqb keyclone (astart n) ops = Some a ->
  exists s, lrun eqb keyclone (lstart n) ops = Ok s /\ zlen (vars s) = zlen (aseqs a) /\
    (forall i v o, aget (vars s) i = Ok v -> aget (aseqs a) i = Ok o ->
       match v, o with
       | None, None => True
       | Some last, Some l => each (hp s) last = Ok l /\ count (hp s) last = Ok (zlen l) /\ exists cs, circular (hp s) last cs /\ map snd cs = l
       | _, _ => False
       end) /\
    zlen (nodes s) = zlen (anodes a) /\ (forall i p x, aget (nodes s) i = Ok p -> aget (anodes a) i = Ok x -> val_of (hp s) p = Ok x) /\
    mine s = amine a /\ made s = amade a /\ gone s = agone a.
Proof.
  intros E. destruct (run_ok eqb keyclone ops _ _ _ a (sim_start n) E) as (s & f & Er & S). exists s. split; [exact Er|].
  split; [apply (s_len _ _ _ S)|]. split.
  - intros i v o Ev Eo. pose proof (s_var _ _ _ S i v o Ev Eo) as R. destruct v as [last|], o as [l|]; cbn in R; auto. destruct R as [C M].
    assert (L : lst (hp s) last (f i)) by (split; [apply (s_ok _ _ _ S)|exact C]). subst l. split; [apply (each_spec _ _ _ L)|].
    split; [rewrite (List_Proofs2.count_spec _ _ _ L); unfold zlen; now rewrite map_length|]. eauto.
  - destruct (s_nodes _ _ _ S) as [N1 N2]. split; [rewrite N1, N2; unfold zlen, addrs; now rewrite !map_length|]. split; [|split; [apply (s_mine _ _ _ S)|split; [apply (s_made _ _ _ S)|apply (s_gone _ _ _ S)]]].
    intros i p x Ep Ex. rewrite N1 in Ep. rewrite N2 in Ex. apply aget_nth in Ep as [Hi Ep]. apply aget_nth in Ex as [_ Ex]. unfold addrs in Ep. rewrite nth_error_map in Ep, Ex.
    destruct (nth_error (f (-1)) (Z.to_nat i)) as [[p' x']|] eqn:En; [|discriminate]. injection Ep as <-. injection Ex as <-. cbn [fst snd].
    destruct (s_vals _ _ _ S p' x' (nth_error_In _ _ En)) as (q & Hq). eapply val_of_some; [|exact Hq]. apply (heap_ok_brk _ _ (s_ok _ _ _ S)). unfold live. congruence.
Qed.

(** Different variables never share a node, no node of a variable is one the client holds, and every live node
    belongs to a variable or to the client. *)
Theorem C98_nodes {A} (eqb : A -> A -> bool) (keyclone : A -> A) n ops a : arun eqb keyclone (astart n) ops = Some a ->
  exists s cells, lrun eqb keyclone (lstart n) ops = Ok s /\
    (forall i last, aget (vars s) i = Ok (Some last) -> circular (hp s) last (cells i)) /\
    (forall i j p, i <> j -> In p (addrs (cells i)) -> ~ In p (addrs (cells j))) /\
    (forall i p, 0 <= i -> In p (addrs (cells i)) -> ~ In p (nodes s)) /\ NoDup (nodes s) /\
    (forall p, node (hp s) p <> None -> In p (nodes s) \/ exists i last, aget (vars s) i = Ok (Some last) /\ In p (addrs (cells i))).
Proof.
  intros E. destruct (run_ok eqb keyclone ops _ _ _ a (sim_start n) E) as (s & f & Er & S). exists s, f. split; [exact Er|].
  destruct (s_mem _ _ _ S) as (M1 & M2 & M3 & M4). destruct (s_nodes _ _ _ S) as [N1 _].
  assert (V : forall i v, aget (vars s) i = Ok v -> match v with Some last => circular (hp s) last (f i) | None => f i = [] end).
  { intros i v Ev. pose proof (aget_ok_range _ _ _ Ev) as Hi. rewrite (s_len _ _ _ S) in Hi. destruct (aget_some (aseqs a) i Hi) as [o Eo].
    pose proof (s_var _ _ _ S i v o Ev Eo) as R. destruct v, o; cbn in R; tauto. }
  split; [intros i last Ei; exact (V i _ Ei)|]. split; [exact M2|]. rewrite N1. split; [intros i p Hi; apply M2; lia|]. split; [apply M1|].
  intros p Hp. destruct (M4 p Hp) as (k & Hk). destruct (Z.eq_dec k (-1)) as [->|Hk1]; [auto|]. right.
  assert (Hr : 0 <= k < zlen (vars s)).
  { destruct (Z.le_gt_cases 0 k); [destruct (Z.lt_ge_cases k (zlen (vars s))); [lia|]|]; rewrite (s_out _ _ _ S k) in Hk by lia; contradiction. }
  destruct (aget_some (vars s) k Hr) as [v Ev]. pose proof (V k v Ev) as Vk. destruct v as [last|]; [eauto|]. rewrite Vk in Hk. contradiction.
Qed.

(** No element is in two places, none is destroyed twice and none is lost. *)
Theorem C98_once {A} (eqb : A -> A -> bool) (keyclone : A -> A) n ops a : arun eqb keyclone (astart n) ops = Some a ->
  NoDup (held a ++ agone a) /\ (forall i, In i (held a ++ agone a) <-> 0 <= i < amade a).
Proof.
  intros E. destruct (arun_idok eqb keyclone ops _ _ (idok_start n) E) as (Hm & P). split.
  - eapply Permutation_NoDup; [symmetry; exact P|]. apply upto_nodup.
  - intros i. rewrite <- upto_in. split; apply Permutation_in; [exact P|symmetry; exact P].
Qed.

(** When every list has been dropped and the client has destroyed what it holds, every node is freed and every
    element was destroyed exactly once. *)
Theorem C98_end {A} (eqb : A -> A -> bool) (keyclone : A -> A) n ops a s : arun eqb keyclone (astart n) ops = Some a ->
  lrun eqb keyclone (lstart n) ops = Ok s -> (forall v, In v (vars s) -> v = None) -> mine s = [] -> nodes s = [] ->
  (forall p, node (hp s) p = None) /\ NoDup (gone s) /\ (forall i, In i (gone s) <-> 0 <= i < made s).
Proof.
  intros E Er Hv Hm Hn. destruct (C98_nodes eqb keyclone n ops a E) as (s' & cells & Er' & _ & _ & _ & _ & Ho). rewrite Er in Er'. injection Er' as <-.
  destruct (C98_runs eqb keyclone n ops a E) as (s' & Er' & Hz & Hr & Hnz & _ & Em & Ed & Eg). rewrite Er in Er'. injection Er' as <-.
  destruct (C98_once eqb keyclone n ops a E) as [N I]. split.
  - intros p. destruct (node (hp s) p) eqn:Ep; [|reflexivity]. destruct (Ho p) as [Hi|(i & last & Ei & _)]; [congruence|rewrite Hn in Hi; contradiction|].
    apply aget_In, Hv in Ei. discriminate.
  - assert (H0 : held a = []).
    { unfold held. rewrite <- Em, Hm. rewrite Hn in Hnz. destruct (anodes a); [|discriminate]. cbn [ids map app]. rewrite app_nil_r.
      assert (Q : forall o, In o (aseqs a) -> o = None).
      { intros o Ho'. apply In_nth_error in Ho' as (j & Ej). assert (Ea : aget (aseqs a) (Z.of_nat j) = Ok o) by (apply aget_nth; rewrite Nat2Z.id; split; [lia|exact Ej]).
        pose proof (aget_ok_range _ _ _ Ea) as Hj. rewrite <- Hz in Hj. destruct (aget_some (vars s) _ Hj) as [v Ev]. pose proof (Hr _ v o Ev Ea) as R.
        apply aget_In, Hv in Ev as ->. destruct o; [contradiction|reflexivity]. }
      clear - Q. induction (aseqs a) as [|o t IH]; [reflexivity|]. cbn [flat_map]. rewrite (Q o (or_introl eq_refl)). apply IH. intros ? ?. apply Q. now right. }
    rewrite H0 in N, I. rewrite Eg, Ed. exact (conj N I).
Qed.

(** A history with every call. *)
Definition c98_ops : list (lop Z) :=
  [LInit 0; LPutN 0 [10; 11; 12; 13; 14]; LClone 1 0; LNew 100; LPush 1 0; LNew 101; LPushFront 1 0; LNew 102; LInsert 1 3 0; LEraseAt 1 0; LEraseRange 1 1 3;
   LPopFront 0; LRemove 0 12; LReverse 0; LMove 2 1; LTake 0 2; LTake 0 0; LCopy 1 0; LCopy 1 1; LFromN 3 [20; 21; 22]; LSplice 0 2 3; LSplit 4 0 1 3;
   LSpliceRange 4 1 0 0 2; LUnlink 4; LUnlink 4; LPushNode 2 1; LPushFrontNode 2 0; LUnlink 2; LFreeNode 0; LClear 2; LNew 5; LFree 0;
   LDrop 0; LDrop 1; LDrop 2; LDrop 3; LDrop 4].
Example C98_met :
  (exists a, arun Z.eqb (fun x => x) (astart 5) c98_ops = Some a /\ amade a = 22 /\ aseqs a = [None; None; None; None; None] /\ zlen (agone a) = 22) /\
  (exists s, lrun Z.eqb (fun x => x) (lstart 5) c98_ops = Ok s /\ vars s = [None; None; None; None; None] /\ mine s = [] /\ nodes s = []).
Proof. split; eexists; (split; [vm_compute; reflexivity|]); vm_compute; repeat split; reflexivity. Qed.

(** Splicing a list into itself is not excluded by any assertion: the variable loses every element. *)
Theorem C98_splice_self_refuted : exists s s', lrun Z.eqb (fun x => x) (lstart 1) [LInit 0; LPutN 0 [10; 11]] = Ok s /\
  lrun Z.eqb (fun x => x) s [LSplice 0 1 0; LDrop 0] = Ok s' /\ made s' = 2 /\ gone s' = [] /\ exists p, node (hp s') p <> None.
Proof. eexists _, _. split; [vm_compute; reflexivity|]. split; [vm_compute; reflexivity|]. split; [reflexivity|]. split; [reflexivity|]. exists 1. vm_compute. discriminate. Qed.
Print Assumptions C98_runs.
Print Assumptions C98_nodes.
Print Assumptions C98_once.
Print Assumptions C98_end.
Print Assumptions C98_splice_self_refuted.
