(** Proofs about the box model: every operation is a composition of moves of ownership between
    the variables, the client and the values in flight. *)
From Verif Require Import Base Box_Model Box_Spec.
From Coq Require Import Permutation.

Section P.
Context {A : Type}.
Implicit Types (h : Z -> option (Z * A)) (vs : list var) (avs : list (avar A)).

Record core h (m : Z) (gn : list Z) (O : list Z) : Prop := mkc {
  c_made : 0 <= m;
  c_nodup : NoDup O;
  c_iff : forall p, In p O <-> h p <> None;
  c_zero : h 0 = None;
  c_gone : NoDup gn;
  c_ids : forall id, (In id gn \/ exists p x, h p = Some (id, x)) <-> 0 <= id < m;
  c_uniq : forall p q id x y, h p = Some (id, x) -> h q = Some (id, y) -> p = q;
  c_live : forall p id x, h p = Some (id, x) -> ~ In id gn }.

Lemma core_perm h m gn O O' : core h m gn O -> Permutation O O' -> core h m gn O'.
Proof.
  intros [] HP. constructor; try assumption.
  - eapply Permutation_NoDup; eauto.
  - intros p. rewrite <- c_iff0. split; apply Permutation_in; [symmetry|]; assumption.
Qed.
Lemma setf_same {B} (f : Z -> option B) a x : setf f a x a = x.
Proof. unfold setf. rewrite Z.eqb_refl. reflexivity. Qed.
Lemma setf_other {B} (f : Z -> option B) a x b : b <> a -> setf f a x b = f b.
Proof. intro Hn. unfold setf. destruct (Z.eqb_spec b a); [contradiction|reflexivity]. Qed.

Lemma nodup_snoc (l : list Z) x : NoDup l -> ~ In x l -> NoDup (l ++ [x]).
Proof. intros Hl Hx. apply (Permutation_NoDup (l := x :: l)); [apply Permutation_cons_append|constructor; assumption]. Qed.

Lemma core_destroy h m gn p O : core h m gn (p :: O) ->
  exists id x, h p = Some (id, x) /\ core (setf h p None) m (gn ++ [id]) O.
Proof.
  intros []. inversion c_nodup0; subst.
  assert (Hp : h p <> None) by (apply c_iff0; left; reflexivity).
  destruct (h p) as [[id x]|] eqn:E; [|congruence]. exists id, x. split; [reflexivity|].
  constructor; try assumption.
  - intros q. unfold setf. destruct (Z.eqb_spec q p) as [->|n].
    + split; [contradiction|congruence].
    + rewrite <- c_iff0. cbn. split; [auto|intros [?|?]; [congruence|assumption]].
  - unfold setf. destruct (0 =? p); [reflexivity|assumption].
  - apply nodup_snoc; [assumption|]. eapply c_live0; eauto.
  - intros id'. rewrite <- c_ids0. rewrite in_app_iff. cbn. split.
    + intros [[?|[->|[]]]|(q & y & Hq)]; [auto|right; eauto|].
      unfold setf in Hq. destruct (q =? p); [discriminate|]. right; eauto.
    + intros [?|(q & y & Hq)]; [auto|]. destruct (Z.eq_dec q p) as [->|n].
      * left. right. left. congruence.
      * right. exists q, y. rewrite setf_other; assumption.
  - intros q1 q2 id' y1 y2. unfold setf. destruct (q1 =? p); [discriminate|]. destruct (q2 =? p); [discriminate|]. apply c_uniq0.
  - intros q id' y Hq. rewrite in_app_iff. cbn. unfold setf in Hq. destruct (Z.eqb_spec q p) as [|n]; [discriminate|].
    intros [Hi|[->|[]]]; [eapply c_live0; eauto|]. apply n. eapply c_uniq0; eauto.
Qed.

Lemma core_new h m gn O a x : core h m gn O -> 0 < a -> h a = None -> core (setf h a (Some (m, x))) (m + 1) gn (a :: O).
Proof.
  intros [] Ha Hn.
  assert (Hm : forall p y, h p <> Some (m, y)) by (intros p y E; assert (0 <= m < m) by (apply c_ids0; eauto); lia).
  assert (Hg : ~ In m gn) by (intro E; assert (0 <= m < m) by (apply c_ids0; eauto); lia).
  constructor; try assumption; [lia| | | | | |].
  - constructor; [|assumption]. rewrite c_iff0. congruence.
  - intros q. unfold setf. destruct (Z.eqb_spec q a) as [->|n]; cbn.
    + split; [congruence|auto].
    + rewrite <- c_iff0. split; [intros [?|?]; [congruence|assumption]|auto].
  - rewrite setf_other by lia. assumption.
  - intros id. specialize (c_ids0 id). split.
    + intros [Hi|(q & y & Hq)].
      * assert (0 <= id < m) by (apply c_ids0; auto). lia.
      * unfold setf in Hq. destruct (Z.eqb_spec q a) as [->|n].
        -- injection Hq as <- <-.
           lia.
        -- assert (0 <= id < m) by (apply c_ids0; eauto). lia.
    + intros Hr. destruct (Z.eq_dec id m) as [->|n].
      * right. exists a, x. apply setf_same.
      * destruct c_ids0 as [_ [?|(q & y & Hq)]]; [lia|auto|]. right. exists q, y. rewrite setf_other; [assumption|congruence].
  - intros p q id y1 y2. unfold setf. destruct (Z.eqb_spec p a), (Z.eqb_spec q a); subst; intros E1 E2; try congruence.
    + injection E1 as <- <-. exfalso. eapply Hm; eauto.
    + injection E2 as <- <-. exfalso. eapply Hm; eauto.
    + eapply c_uniq0; eauto.
  - intros p id y. unfold setf. destruct (p =? a); intros E.
    + injection E as <- <-. assumption.
    + eapply c_live0; eauto.
Qed.
End P.
