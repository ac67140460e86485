(** Parts of one heap: the nodes of each list variable and those the client holds. *)
From Coq Require Import Permutation.
From Verif Require Import Base List_Model List_Spec List_Proofs List_Proofs2 Lown_Model Lown_Spec.

Section Mem.
Context {B : Type}.
Implicit Types (h : heap B) (f : Z -> list (Z * B)).

(** The parts are disjoint, live, and cover the live nodes. *)
Definition mem h f : Prop :=
  (forall k, NoDup (addrs (f k))) /\ (forall k k' p, k <> k' -> In p (addrs (f k)) -> ~ In p (addrs (f k'))) /\
  (forall k p, In p (addrs (f k)) -> live h p) /\ (forall p, live h p -> exists k, In p (addrs (f k))).
Definition parts f (K : list Z) : list Z := flat_map (fun k => addrs (f k)) K.
Lemma in_parts f K p : In p (parts f K) <-> exists k, In k K /\ In p (addrs (f k)).
Proof. apply in_flat_map. Qed.

Lemma nodup_parts f K k : NoDup (parts f K) -> In k K -> NoDup (addrs (f k)).
Proof.
  induction K as [|a K IH]; [contradiction|]. cbn [parts flat_map]. intros N [->|H]; [now apply NoDup_app_l in N|]. apply NoDup_app_r in N. auto.
Qed.
Lemma disj_parts f K k k' p : NoDup (parts f K) -> In k K -> In k' K -> k <> k' -> In p (addrs (f k)) -> ~ In p (addrs (f k')).
Proof.
  induction K as [|a K IH]; [contradiction|]. cbn [parts flat_map]. fold (parts f K). intros N [->|H] [->|H'] Hk Hp Hp'.
  - congruence.
  - apply (NoDup_app_disj _ _ p N Hp). apply in_parts. eauto.
  - apply (NoDup_app_disj _ _ p N Hp'). apply in_parts. eauto.
  - apply NoDup_app_r in N. exact (IH N H H' Hk Hp Hp').
Qed.

(** Only the parts in [K] change. *)
Lemma mem_upd h f h' f' K : mem h f -> (forall k, ~ In k K -> f' k = f k) -> only h (parts f K) h' (parts f' K) ->
  NoDup (parts f' K) -> (forall p, In p (parts f' K) -> live h' p) ->
  mem h' f' /\ (forall k, ~ In k K -> forall p, In p (addrs (f k)) -> node h' p = node h p).
Proof.
  intros (M1 & M2 & M3 & M4) He (O1 & O2) N L.
  assert (Hout : forall k p, ~ In k K -> In p (addrs (f k)) -> ~ In p (parts f K)).
  { intros k p Hk Hp Hin. apply in_parts in Hin as (k' & Hk' & Hp'). revert Hp'. apply (M2 k k'); auto. intros ->. auto. }
  assert (Hfr : forall k, ~ In k K -> forall p, In p (addrs (f k)) -> node h' p = node h p /\ ~ In p (parts f' K)).
  { intros k Hk p Hp. apply O1; [eapply M3; eauto|eauto]. }
  split; [|intros k Hk p Hp; now apply (Hfr k Hk)]. split; [|split; [|split]].
  - intros k. destruct (in_dec Z.eq_dec k K) as [Hk|Hk]; [eapply nodup_parts; eauto|rewrite He by exact Hk; auto].
  - intros k k' p Hkk. destruct (in_dec Z.eq_dec k K) as [Hk|Hk]; destruct (in_dec Z.eq_dec k' K) as [Hk'|Hk'].
    + now apply (disj_parts f' K).
    + rewrite (He k' Hk'). intros Hp Hp'. apply (proj2 (Hfr k' Hk' p Hp')). apply in_parts. eauto.
    + rewrite (He k Hk). intros Hp Hp'. apply (proj2 (Hfr k Hk p Hp)). apply in_parts. eauto.
    + rewrite (He k Hk), (He k' Hk'). now apply M2.
  - intros k p Hp. destruct (in_dec Z.eq_dec k K) as [Hk|Hk]; [apply L, in_parts; eauto|]. rewrite He in Hp by exact Hk.
    unfold live. rewrite (proj1 (Hfr k Hk p Hp)). eapply M3; eauto.
  - intros p Hp. destruct (O2 p Hp) as [Hin|[Hl Hn]].
    + apply in_parts in Hin as (k & _ & Hk). eauto.
    + destruct (M4 p Hl) as (k & Hk). exists k. rewrite He; [exact Hk|]. intros Hin. apply Hn, in_parts. eauto.
Qed.

Lemma only_frame h as1 h' as2 bs : only h as1 h' as2 -> (forall a, In a bs -> live h a /\ ~ In a as1) -> only h (as1 ++ bs) h' (as2 ++ bs).
Proof.
  intros (O1 & O2) H. split.
  - intros a Ha Hn. rewrite in_app_iff in *. destruct (O1 a Ha) as [E N]; [tauto|]. split; [exact E|tauto].
  - intros a Ha. rewrite !in_app_iff. destruct (O2 a Ha) as [|[Hl Hn]]; [tauto|]. destruct (in_dec Z.eq_dec a bs); [tauto|]. right. split; [exact Hl|tauto].
Qed.
Lemma only_swap h as1 bs1 h' as2 bs2 : only h (as1 ++ bs1) h' (as2 ++ bs2) -> only h (bs1 ++ as1) h' (bs2 ++ as2).
Proof. apply only_perm; intros a; rewrite !in_app_iff; tauto. Qed.

Lemma circular_same h h' last cs : (forall p, In p (addrs cs) -> node h' p = node h p) -> circular h last cs -> circular h' last cs.
Proof. intros H (C1 & C2 & C3). split; [exact C1|]. split; [now apply (linked_ext h)|exact C3]. Qed.

Lemma unlink_front_spec h last n x cs : lst h last ((n, x) :: cs) ->
  exists h' last', unlink_after_node h last last = Ok (h', last', n) /\ lst h' last' cs /\ (exists q, node h' n = Some (x, q)) /\
    ~ In n (addrs cs) /\ (forall a, ~ In a (n :: addrs cs) -> node h' a = node h a) /\ (forall a, live h' a <-> live h a).
Proof.
  intros (Ho & Hnd & Hc & Hl). destruct cs as [|c0 cs].
  - cbn in Hl. subst last. destruct (unlink_single h n x n Ho Hc) as (h' & E & Ho' & (q & Hq) & Hn & Hfr & Hb). exists h', 0. split; [exact E|].
    split; [now apply lst_nil|]. split; [eauto|]. split; [auto|]. split; [intros a Ha; apply Hfr; intros ->; apply Ha; now left|].
    intros a. unfold live. destruct (Z.eq_dec a n) as [->|Ha]; [rewrite Hq|now rewrite Hfr]. split; [intros _|discriminate].
    pose proof (linked_live h [(n, x)] _ n Hc (or_introl eq_refl)) as L. exact L.
  - destruct (@exists_last _ (c0 :: cs) ltac:(discriminate)) as (r & [p y] & E0). rewrite E0 in *. clear E0 c0 cs.
    assert (El : last = p) by (rewrite Hl, app_comm_cons; apply last_addr_app). clear Hl. subst last.
    pose proof (linked_live _ _ _ p Hc) as Lp. assert (Hin : In p (addrs ((n, x) :: r ++ [(p, y)]))) by (right; rewrite addrs_app; apply in_or_app; right; now left).
    destruct (unlink_spec h n x r p y p Ho Hnd Hc) as (h' & E & Ho' & Hc' & Hnd' & (q & Hq) & Hn0 & Hnp & Hni & Hfr & Hlp & Hb).
    exists h', p. rewrite (proj2 (Z.eqb_neq n p) Hnp) in E. split; [exact E|].
    split; [split; [exact Ho'|]; split; [exact Hnd'|]; split; [exact Hc'|]; symmetry; apply last_addr_app|]. split; [eauto|]. split; [exact Hni|].
    split; [intros a Ha; apply Hfr; intros ->; apply Ha; right; rewrite addrs_app; apply in_or_app; right; now left|].
    intros a. unfold live. destruct (Z.eq_dec a p) as [->|Ha]; [|now rewrite Hfr]. split; [intros _; apply Lp; exact Hin|intros _; exact Hlp].
Qed.

(** _push_back_node links like _insert_after_node at the end, and the node becomes the last. *)
Lemma push_node_spec h last cs n x : lst h last cs -> (exists q, node h n = Some (x, q)) -> ~ In n (addrs cs) ->
  exists h', push_back_node h last n = Ok (h', n) /\ lst h' n (cs ++ [(n, x)]) /\
    (forall a, ~ In a (n :: addrs cs) -> node h' a = node h a) /\ (forall a, live h' a <-> live h a).
Proof.
  intros (Ho & Hc) Hq Hn. destruct (insert_node_spec h last cs n x Ho Hc Hq Hn) as (h' & l' & E & Ho' & Hc' & _ & Hfr & Hlv).
  unfold insert_after_node in E. unfold push_back_node. destruct (insert_after_node_ h last n) as [h1|]; cbn [bind] in *; [|discriminate].
  injection E as -> _. exists h'. split; [reflexivity|]. destruct Hc' as (N & C & _). split; [|auto]. split; [exact Ho'|]. split.
  - apply (nodup_rot [(n, x)] cs). exact N.
  - split; [apply (cyc_rot h' [(n, x)] cs); exact C|]. symmetry. apply last_addr_app.
Qed.
End Mem.

Lemma pick_map {X Y} (g : X -> Y) k : forall l, pick k (map g l) = match pick k l with Some (x, r) => Some (g x, map g r) | None => None end.
Proof.
  induction k as [|k IH]; intros [|y t]; cbn; try reflexivity. rewrite IH. destruct (pick k t) as [[z r]|]; reflexivity.
Qed.
Lemma pick_split {X} k : forall (l : list X) x r, pick k l = Some (x, r) -> exists l1 l2, l = l1 ++ x :: l2 /\ r = l1 ++ l2.
Proof.
  induction k as [|k IH]; intros [|y t] x r E; cbn in E; try discriminate.
  - injection E as <- <-. exists [], t. auto.
  - destruct (pick k t) as [[z t']|] eqn:P; [|discriminate]. injection E as <- <-. destruct (IH _ _ _ P) as (l1 & l2 & -> & ->). exists (y :: l1), l2. auto.
Qed.
