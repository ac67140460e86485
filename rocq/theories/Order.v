(** Specification vocabulary for orders, used by the sorting, heap and tree properties. *)
From Verif Require Import Base.
From Coq Require Import Sorted.

Section Order.
Context {A : Type}.

(** A strict weak order given as a boolean function: the usual requirement on a
    comparison passed to a sorting routine. *)
Record strict_weak_order (less : A -> A -> bool) : Prop := {
  swo_irrefl : forall x, less x x = false;
  swo_trans : forall x y z, less x y = true -> less y z = true -> less x z = true;
  swo_incomp : forall x y z,
    less x y = false -> less y x = false ->
    less y z = false -> less z y = false ->
    less x z = false /\ less z x = false;
}.

(** "not greater". *)
Definition leb_of (less : A -> A -> bool) (x y : A) : Prop := less y x = false.

Section L.
Variable less : A -> A -> bool.
Hypothesis H : strict_weak_order less.

Lemma swo_asym x y : less x y = true -> less y x = false.
Proof.
  intros H1. destruct (less y x) eqn:E; [|reflexivity].
  pose proof (swo_trans _ H _ _ _ H1 E). rewrite (swo_irrefl _ H) in *. discriminate.
Qed.

Lemma le_refl x : leb_of less x x.
Proof. apply (swo_irrefl _ H). Qed.

(** negative transitivity *)
Lemma le_trans x y z : leb_of less x y -> leb_of less y z -> leb_of less x z.
Proof.
  unfold leb_of. intros H1 H2.
  destruct (less z x) eqn:E; [|reflexivity]. exfalso.
  destruct (less x y) eqn:Exy.
  - pose proof (swo_trans _ H _ _ _ E Exy). congruence.
  - destruct (less y z) eqn:Eyz.
    + pose proof (swo_trans _ H _ _ _ Eyz E). congruence.
    + destruct (swo_incomp _ H x y z); congruence.
Qed.

Lemma le_total x y : leb_of less x y \/ leb_of less y x.
Proof.
  unfold leb_of. destruct (less y x) eqn:E; [|auto]. right. now apply swo_asym.
Qed.

Lemma less_le x y : less x y = true -> leb_of less x y.
Proof. apply swo_asym. Qed.

Lemma less_le_trans x y z : less x y = true -> leb_of less y z -> less x z = true.
Proof.
  unfold leb_of. intros H1 H2. destruct (less x z) eqn:E; [reflexivity|].
  assert (leb_of less y x) by (eapply le_trans; [exact H2|exact E]).
  unfold leb_of in *. congruence.
Qed.

Lemma le_less_trans x y z : leb_of less x y -> less y z = true -> less x z = true.
Proof.
  unfold leb_of. intros H1 H2. destruct (less x z) eqn:E; [reflexivity|].
  assert (leb_of less z y) by (eapply le_trans; [exact E|exact H1]).
  unfold leb_of in *. congruence.
Qed.
End L.

(** No later element is less than an earlier one. *)
Definition sorted_by (less : A -> A -> bool) (l : list A) : Prop :=
  StronglySorted (leb_of less) l.

Lemma sorted_by_aget less l : sorted_by less l <->
  (forall i j x y, i < j -> aget l i = Ok x -> aget l j = Ok y -> less y x = false).
Proof.
  split.
  - intros Hs. induction Hs as [|a l Hs IH Hf]; intros i j x y Hij Hi Hj.
    + apply aget_ok_range in Hi. cbn in Hi. lia.
    + rewrite aget_cons in Hi, Hj.
      pose proof Hi as Hi'. 
      destruct (Z.eqb_spec i 0) as [->|Hi0].
      * injection Hi as <-. destruct (Z.eqb_spec j 0); [lia|].
        rewrite Forall_forall in Hf. apply Hf. eapply aget_In; eauto.
      * destruct (Z.eqb_spec j 0) as [->|].
        { apply aget_ok_range in Hi. lia. }
        apply (IH (i - 1) (j - 1)); auto; lia.
  - induction l as [|a l IH]; intros Hl; [constructor|]. constructor.
    + apply IH. intros i j x y Hij Hi Hj. pose proof (aget_ok_range _ _ _ Hi). pose proof (aget_ok_range _ _ _ Hj).
      apply (Hl (i + 1) (j + 1)); [lia| |]; rewrite aget_cons.
      * destruct (Z.eqb_spec (i + 1) 0); [lia|]. now replace (i + 1 - 1) with i by lia.
      * destruct (Z.eqb_spec (j + 1) 0); [lia|]. now replace (j + 1 - 1) with j by lia.
    + apply Forall_forall. intros y Hy. apply In_aget in Hy as (j & Hr & Hj).
      apply (Hl 0 (j + 1)); [lia|reflexivity|]. rewrite aget_cons.
      destruct (Z.eqb_spec (j + 1) 0); [lia|]. now replace (j + 1 - 1) with j by lia.
Qed.
End Order.

(** Integer keys: a running example of a strict weak order, and one with ties. *)
Lemma Zlt_swo : strict_weak_order Z.ltb.
Proof. split; intros; rewrite ?Z.ltb_lt, ?Z.ltb_ge in *; try split; lia. Qed.

(** Order pairs by first component only: distinct elements may tie. *)
Definition fst_ltb (p q : Z * Z) : bool := fst p <? fst q.
Lemma fst_ltb_swo : strict_weak_order fst_ltb.
Proof. unfold fst_ltb. split; intros; rewrite ?Z.ltb_lt, ?Z.ltb_ge in *; try split; lia. Qed.
