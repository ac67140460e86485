(** Positions reached by iterating a vec. *)
From Verif Require Import Base Slots Vec_Model Vec_Spec Vec_Proofs.

Section VecIter.
Context {A : Type}.
Implicit Types (v : vec A) (l : list A).

Definition pos_at (n i : Z) : iter := mkiter (if i =? n then None else Some i) (Some n).

Lemma begin_pos v l : stored v l -> l <> [] -> begin v = pos_at (zlen l) 0.
Proof.
  intros Hst Hne. pose proof (stored_cap _ _ Hst). destruct Hst as [Hs _].
  assert (0 < zlen l) by (destruct l; [congruence|rewrite zlen_cons; pose proof (zlen_nonneg l); lia]).
  unfold begin, is_null, pos_at. destruct (Z.eqb_spec (capacity v) 0); [lia|].
  destruct (Z.eqb_spec 0 (zlen l)); [lia|]. now rewrite Hs.
Qed.

Lemma iter_pos v l (k : nat) : stored v l -> l <> [] -> Z.of_nat k <= zlen l ->
  Nat.iter k next (begin v) = pos_at (zlen l) (Z.of_nat k).
Proof.
  intros Hst Hne. induction k as [|k IH]; intros Hk; [now apply begin_pos|].
  cbn [Nat.iter nat_rect]. change (nat_rect _ (begin v) (fun _ => next) k) with (Nat.iter k next (begin v)).
  rewrite IH by lia. unfold pos_at, next. cbn [ref iend].
  destruct (Z.eqb_spec (Z.of_nat k) (zlen l)); [lia|]. unfold oeqb.
  replace (Z.of_nat (S k)) with (Z.of_nat k + 1) by lia.
  destruct (Z.eqb_spec (Z.of_nat k + 1) (zlen l)); reflexivity.
Qed.

Lemma vec_iterators v l x (i : nat) : stored v l -> l <> [] -> Z.of_nat i <= zlen l ->
  let it := Nat.iter i next (begin v) in
  advance (begin v) (Z.of_nat i) = Ok it /\
  ref it = (if Z.of_nat i =? zlen l then None else Some (Z.of_nat i)) /\
  (exists v', insert_at v it x = Ok (v', Some (Z.of_nat i)) /\ stored v' (firstn i l ++ x :: skipn i l)) /\
  (Z.of_nat i < zlen l ->
    (exists v', erase_at v it = Ok (v', firstn 1 (skipn i l), if Z.of_nat i + 1 =? zlen l then None else Some (Z.of_nat i)) /\
       stored v' (firstn i l ++ skipn (S i) l)) /\
    (forall j : nat, (i <= j)%nat -> Z.of_nat j <= zlen l -> exists v',
       erase_range v it (Nat.iter j next (begin v)) =
         Ok (v', firstn (j - i) (skipn i l), if Z.of_nat j =? zlen l then None else Some (Z.of_nat i)) /\
       stored v' (firstn i l ++ skipn j l)) /\
    (exists v', erase_range v it end_ = Ok (v', skipn i l, None) /\ stored v' (firstn i l))).
Proof.
  intros Hst Hne Hi it. unfold it. rewrite (iter_pos v l i Hst Hne Hi). rewrite (begin_pos v l Hst Hne).
  assert (0 < zlen l) by (destruct l; [congruence|rewrite zlen_cons; pose proof (zlen_nonneg l); lia]).
  split.
  { unfold advance, pos_at. cbn [ref iend]. destruct (Z.eqb_spec 0 (zlen l)); [lia|].
    rewrite Z.geb_leb. destruct (Z.leb_spec (zlen l) (0 + Z.of_nat i)); destruct (Z.eqb_spec (Z.of_nat i) (zlen l)); try lia; reflexivity. }
  split; [reflexivity|]. split.
  { unfold insert_at, it_ptr, pos_at. cbn [ref iend].
    assert (E : match (if Z.of_nat i =? zlen l then None else Some (Z.of_nat i)) with Some r => Some r | None => Some (zlen l) end = Some (Z.of_nat i)).
    { destruct (Z.eqb_spec (Z.of_nat i) (zlen l)); congruence. }
    rewrite E. destruct (insert_n_spec v l (Z.of_nat i) [x] Hst ltac:(lia)) as (v' & o & E1 & S1 & Ho).
    exists v'. rewrite E1. rewrite Nat2Z.id in S1. split; [|exact S1]. destruct Ho as [-> | [_ Hx]]; [reflexivity|discriminate]. }
  intros Hlt. split; [|split].
  - unfold erase_at, pos_at. cbn [ref]. destruct (Z.eqb_spec (Z.of_nat i) (zlen l)); [lia|].
    destruct (erase_n_spec v l (Z.of_nat i) 1 Hst ltac:(lia) ltac:(lia) ltac:(lia)) as (v' & E1 & S1 & _).
    exists v'. rewrite E1. rewrite Nat2Z.id in *. split; [reflexivity|].
    now replace (Z.to_nat (Z.of_nat i + 1)) with (S i) in S1 by lia.
  - intros j Hij Hj. pose proof (iter_pos v l j Hst Hne Hj) as EJ. rewrite (begin_pos v l Hst Hne) in EJ. rewrite EJ.
    unfold erase_range, pos_at, it2_ptr. cbn [ref iend]. destruct (Z.eqb_spec (Z.of_nat i) (zlen l)); [lia|].
    assert (E : match (if Z.of_nat j =? zlen l then None else Some (Z.of_nat j)) with None => Some (zlen l) | Some r => Some r end = Some (Z.of_nat j)).
    { destruct (Z.eqb_spec (Z.of_nat j) (zlen l)); congruence. }
    destruct (erase_n_spec v l (Z.of_nat i) (Z.of_nat j - Z.of_nat i) Hst ltac:(lia) ltac:(lia) ltac:(lia)) as (v' & E1 & S1 & _).
    exists v'. replace (Z.of_nat i + (Z.of_nat j - Z.of_nat i)) with (Z.of_nat j) in * by lia.
    rewrite !Nat2Z.id in *. split; [|exact S1].
    replace (Z.to_nat (Z.of_nat j - Z.of_nat i)) with (j - i)%nat in E1 by lia. rewrite <- E1.
    destruct (Z.eqb_spec (Z.of_nat j) (zlen l)) as [Ej|]; [now rewrite Ej|reflexivity].
  - unfold erase_range, pos_at, it2_ptr, end_. cbn [ref iend]. destruct (Z.eqb_spec (Z.of_nat i) (zlen l)); [lia|].
    destruct (erase_n_spec v l (Z.of_nat i) (zlen l - Z.of_nat i) Hst ltac:(lia) ltac:(lia) ltac:(lia)) as (v' & E1 & S1 & _).
    exists v'. rewrite E1. replace (Z.of_nat i + (zlen l - Z.of_nat i)) with (zlen l) in * by lia. rewrite Z.eqb_refl.
    rewrite Nat2Z.id in *. rewrite firstn_all2 by (rewrite skipn_length; unfold zlen; lia). split; [reflexivity|].
    rewrite skipn_all2 in S1 by (unfold zlen; lia). now rewrite app_nil_r in S1.
Qed.
End VecIter.
