(** Shared vocabulary of the model: outcomes, and arrays with checked accesses.

    Nothing here transcribes a particular C function; it fixes how C memory
    accesses are represented.  A C array is a [list] of slots, an index is a [Z],
    and every access outside of the array yields [Err OOB] rather than a default. *)
From Coq Require Export ZArith List Lia Bool Permutation.
Export ListNotations.
Global Open Scope Z_scope.

(** What can go wrong.  Each constructor is an outcome that the C standard leaves
    undefined (or, for [AssertFail], a failed [c_assert]); [OutOfFuel] is an artefact of
    modelling loops by bounded recursion and is always excluded by theorems. *)
Inductive err : Type :=
| OOB            (* access outside the buffer *)
| NullDeref      (* dereference of NULL *)
| Uninit         (* use of a slot that holds no live object *)
| UseAfterFree   (* access to, or second release of, freed memory *)
| AssertFail     (* c_assert failed *)
| DivZero        (* integer division by zero *)
| Overflow       (* signed integer overflow *)
| Overlap        (* memcpy between overlapping regions *)
| OutOfFuel.     (* model artefact *)

Inductive res (A : Type) : Type :=
| Ok (a : A)
| Err (e : err).
Arguments Ok {A} a.
Arguments Err {A} e.

Definition bind {A B} (m : res A) (k : A -> res B) : res B :=
  match m with Ok a => k a | Err e => Err e end.
Notation "'let*' x := m 'in' k" := (bind m (fun x => k))
  (at level 200, x pattern, m at level 100, k at level 200, right associativity).

Definition is_ok {A} (m : res A) : Prop := exists a, m = Ok a.

Lemma bind_ok {A B} (m : res A) (k : A -> res B) b :
  bind m k = Ok b <-> exists a, m = Ok a /\ k a = Ok b.
Proof.
  destruct m as [a|e]; cbn; split.
  - eauto.
  - intros (x & [= ->] & H). exact H.
  - discriminate.
  - intros (x & H & _). discriminate.
Qed.

Definition zlen {A} (l : list A) : Z := Z.of_nat (length l).

(** Checked read of slot [i]. *)
Definition aget {A} (l : list A) (i : Z) : res A :=
  if i <? 0 then Err OOB
  else match nth_error l (Z.to_nat i) with Some x => Ok x | None => Err OOB end.

Fixpoint upd {A} (l : list A) (i : nat) (x : A) : list A :=
  match l, i with
  | [], _ => []
  | _ :: t, O => x :: t
  | h :: t, S i' => h :: upd t i' x
  end.

(** Checked write of slot [i]. *)
Definition aset {A} (l : list A) (i : Z) (x : A) : res (list A) :=
  if (0 <=? i) && (i <? zlen l) then Ok (upd l (Z.to_nat i) x) else Err OOB.

(** Checked read of [n] consecutive slots. *)
Definition aslice {A} (l : list A) (i n : Z) : res (list A) :=
  if (0 <=? i) && (0 <=? n) && (i + n <=? zlen l)
  then Ok (firstn (Z.to_nat n) (skipn (Z.to_nat i) l)) else Err OOB.

(** Checked write of consecutive slots (memcpy into the array). *)
Definition ablit {A} (l : list A) (i : Z) (vs : list A) : res (list A) :=
  if (0 <=? i) && (i + zlen vs <=? zlen l)
  then Ok (firstn (Z.to_nat i) l ++ vs ++ skipn (Z.to_nat i + length vs) l) else Err OOB.

(** memmove within one array: [n] slots from [src] to [dst] (overlap allowed). *)
Definition amove {A} (l : list A) (src dst n : Z) : res (list A) :=
  let* vs := aslice l src n in ablit l dst vs.

(** c_swap of two slots. *)
Definition aswap {A} (l : list A) (i j : Z) : res (list A) :=
  let* x := aget l i in
  let* y := aget l j in
  let* l1 := aset l i y in
  aset l1 j x.

(** * Basic facts *)

Section Facts.
Context {A : Type}.
Implicit Types (l : list A) (i j n : Z) (x y : A).

Lemma zlen_nonneg l : 0 <= zlen l.
Proof. unfold zlen. lia. Qed.

Lemma zlen_nil : zlen (@nil A) = 0.
Proof. reflexivity. Qed.

Lemma zlen_cons x l : zlen (x :: l) = 1 + zlen l.
Proof. unfold zlen. cbn [length]. lia. Qed.

Lemma zlen_app l1 l2 : zlen (l1 ++ l2) = zlen l1 + zlen l2.
Proof. unfold zlen. rewrite app_length. lia. Qed.

Lemma zlen_length l : length l = Z.to_nat (zlen l).
Proof. unfold zlen. lia. Qed.

Lemma zlen_repeat x n : 0 <= n -> zlen (repeat x (Z.to_nat n)) = n.
Proof. intros H. unfold zlen. rewrite repeat_length. lia. Qed.

Lemma zlen_firstn k l : 0 <= k -> zlen (firstn (Z.to_nat k) l) = Z.min k (zlen l).
Proof. intros H. unfold zlen. rewrite firstn_length. lia. Qed.

Lemma zlen_skipn k l : 0 <= k -> zlen (skipn (Z.to_nat k) l) = Z.max 0 (zlen l - k).
Proof. intros H. unfold zlen. rewrite skipn_length. lia. Qed.

Lemma length_upd l (i : nat) x : length (upd l i x) = length l.
Proof. revert i; induction l as [|h t IH]; intros [|i]; cbn; auto. Qed.

Lemma nth_error_upd_same l (i : nat) x : (i < length l)%nat -> nth_error (upd l i x) i = Some x.
Proof.
  revert i; induction l as [|h t IH]; intros [|i] H; cbn in *; try lia; auto.
  apply IH. lia.
Qed.

Lemma nth_error_upd_other l (i k : nat) x : i <> k -> nth_error (upd l i x) k = nth_error l k.
Proof.
  revert i k; induction l as [|h t IH]; intros [|i] [|k] H; cbn; auto; try lia.
Qed.

Lemma aget_ok_range l i x : aget l i = Ok x -> 0 <= i < zlen l.
Proof.
  unfold aget, zlen. destruct (Z.ltb_spec i 0); [discriminate|].
  destruct (nth_error l (Z.to_nat i)) eqn:E; [|discriminate]. intros _.
  assert (Z.to_nat i < length l)%nat by (apply nth_error_Some; congruence). lia.
Qed.

Lemma aget_some l i : 0 <= i < zlen l -> exists x, aget l i = Ok x.
Proof.
  unfold aget, zlen. intros H. destruct (Z.ltb_spec i 0); [lia|].
  destruct (nth_error l (Z.to_nat i)) eqn:E; [eauto|].
  apply nth_error_None in E. lia.
Qed.

Lemma aget_nth l i x : aget l i = Ok x <-> 0 <= i /\ nth_error l (Z.to_nat i) = Some x.
Proof.
  unfold aget. destruct (Z.ltb_spec i 0).
  - split; [discriminate|lia].
  - destruct (nth_error l (Z.to_nat i)); split.
    + intros [= ->]. auto with zarith.
    + intros [_ [= ->]]. reflexivity.
    + discriminate.
    + intros [_ ?]; discriminate.
Qed.

Lemma aget_oob l i : ~ (0 <= i < zlen l) -> aget l i = Err OOB.
Proof.
  unfold aget, zlen. intros H. destruct (Z.ltb_spec i 0); [reflexivity|].
  destruct (nth_error l (Z.to_nat i)) eqn:E; [|reflexivity].
  assert (Z.to_nat i < length l)%nat by (apply nth_error_Some; congruence). lia.
Qed.

Lemma aget_In l i x : aget l i = Ok x -> In x l.
Proof. rewrite aget_nth. intros [_ H]. eapply nth_error_In; eauto. Qed.

Lemma In_aget l x : In x l -> exists i, 0 <= i < zlen l /\ aget l i = Ok x.
Proof.
  intros H. apply In_nth_error in H as [k Hk].
  assert (k < length l)%nat by (apply nth_error_Some; congruence).
  exists (Z.of_nat k). split; [unfold zlen; lia|].
  apply aget_nth. rewrite Nat2Z.id. split; [lia|exact Hk].
Qed.

Lemma aset_ok l i x : 0 <= i < zlen l -> aset l i x = Ok (upd l (Z.to_nat i) x).
Proof.
  unfold aset. intros H.
  destruct (Z.leb_spec 0 i); [|lia]. destruct (Z.ltb_spec i (zlen l)); [|lia]. reflexivity.
Qed.

Lemma aset_inv l i x l' : aset l i x = Ok l' ->
  0 <= i < zlen l /\ l' = upd l (Z.to_nat i) x.
Proof.
  unfold aset. destruct (Z.leb_spec 0 i); [|discriminate].
  destruct (Z.ltb_spec i (zlen l)); [|discriminate]. cbn. intros [= <-]. auto.
Qed.

Lemma aset_some l i x : 0 <= i < zlen l -> exists l', aset l i x = Ok l'.
Proof. intros H. rewrite aset_ok by exact H. eauto. Qed.

Lemma aset_zlen l i x l' : aset l i x = Ok l' -> zlen l' = zlen l.
Proof. intros [_ ->]%aset_inv. unfold zlen. now rewrite length_upd. Qed.

Lemma aget_aset_same l i x l' : aset l i x = Ok l' -> aget l' i = Ok x.
Proof.
  intros [H ->]%aset_inv. apply aget_nth. split; [lia|].
  apply nth_error_upd_same. unfold zlen in H. lia.
Qed.

Lemma aget_aset_other l i x l' j : aset l i x = Ok l' -> j <> i -> aget l' j = aget l j.
Proof.
  intros [H ->]%aset_inv Hne. unfold aget. destruct (Z.ltb_spec j 0); [reflexivity|].
  rewrite nth_error_upd_other by lia. reflexivity.
Qed.

Lemma aget_aset l i x l' j : aset l i x = Ok l' ->
  aget l' j = if Z.eqb j i then Ok x else aget l j.
Proof.
  intros H. destruct (Z.eqb_spec j i) as [->|Hne].
  - eapply aget_aset_same; eauto.
  - eapply aget_aset_other; eauto.
Qed.

(** Extensionality. *)
Lemma aget_ext l1 l2 : zlen l1 = zlen l2 ->
  (forall i, 0 <= i < zlen l1 -> aget l1 i = aget l2 i) -> l1 = l2.
Proof.
  revert l2; induction l1 as [|x l1 IH]; intros [|y l2] Hl H.
  - reflexivity.
  - unfold zlen in Hl; cbn in Hl; lia.
  - unfold zlen in Hl; cbn in Hl; lia.
  - rewrite !zlen_cons in Hl. f_equal.
    + specialize (H 0). rewrite zlen_cons in H. pose proof (zlen_nonneg l1).
      specialize (H ltac:(lia)). cbn in H. congruence.
    + apply IH; [lia|]. intros i Hi. specialize (H (i + 1)). rewrite zlen_cons in H.
      specialize (H ltac:(lia)). unfold aget in *.
      destruct (Z.ltb_spec i 0); [lia|]. destruct (Z.ltb_spec (i + 1) 0); [lia|].
      replace (Z.to_nat (i + 1)) with (S (Z.to_nat i)) in H by lia. exact H.
Qed.

Lemma aget_app l1 l2 i : 0 <= i ->
  aget (l1 ++ l2) i = if i <? zlen l1 then aget l1 i else aget l2 (i - zlen l1).
Proof.
  intros H. unfold aget, zlen. destruct (Z.ltb_spec i 0); [lia|].
  destruct (Z.ltb_spec i (Z.of_nat (length l1))).
  - rewrite nth_error_app1 by lia. reflexivity.
  - destruct (Z.ltb_spec (i - Z.of_nat (length l1)) 0); [lia|].
    rewrite nth_error_app2 by lia.
    replace (Z.to_nat (i - Z.of_nat (length l1))) with (Z.to_nat i - length l1)%nat by lia.
    reflexivity.
Qed.

Lemma aget_app1 l1 l2 i : i < zlen l1 -> aget (l1 ++ l2) i = aget l1 i.
Proof.
  intros H. destruct (Z.ltb_spec i 0).
  - rewrite !aget_oob; auto; lia.
  - rewrite aget_app by lia. destruct (Z.ltb_spec i (zlen l1)); [reflexivity|lia].
Qed.

Lemma aget_app2 l1 l2 i : zlen l1 <= i -> aget (l1 ++ l2) i = aget l2 (i - zlen l1).
Proof.
  intros H. pose proof (zlen_nonneg l1). rewrite aget_app by lia.
  destruct (Z.ltb_spec i (zlen l1)); [lia|reflexivity].
Qed.

Lemma aget_cons x l i : aget (x :: l) i = if i =? 0 then Ok x else aget l (i - 1).
Proof.
  destruct (Z.eqb_spec i 0) as [->|]; [reflexivity|].
  unfold aget. destruct (Z.ltb_spec i 0); destruct (Z.ltb_spec (i - 1) 0); try lia; auto.
  replace (Z.to_nat i) with (S (Z.to_nat (i - 1))) by lia. reflexivity.
Qed.

Lemma aget_map {B} (f : A -> B) l i :
  aget (map f l) i = match aget l i with Ok x => Ok (f x) | Err e => Err e end.
Proof.
  unfold aget. destruct (Z.ltb_spec i 0); [reflexivity|].
  rewrite nth_error_map. destruct (nth_error l (Z.to_nat i)); reflexivity.
Qed.

Lemma aget_repeat x n i : 0 <= i < n -> aget (repeat x (Z.to_nat n)) i = Ok x.
Proof.
  intros H. destruct (aget_some (repeat x (Z.to_nat n)) i) as [y Hy].
  - rewrite zlen_repeat; lia.
  - rewrite Hy. apply aget_In, repeat_spec in Hy. now subst.
Qed.

Lemma nth_error_firstn_lt (l : list A) (n k : nat) : (k < n)%nat ->
  nth_error (firstn n l) k = nth_error l k.
Proof.
  revert n k; induction l as [|h t IH]; intros [|n] [|k] H; cbn; auto; try lia.
  apply IH. lia.
Qed.

Lemma nth_error_skipn_add (l : list A) (n k : nat) :
  nth_error (skipn n l) k = nth_error l (n + k).
Proof.
  revert n; induction l as [|h t IH]; intros [|n]; cbn; auto.
  destruct k; reflexivity.
Qed.

Lemma aget_firstn l n i : i < n -> aget (firstn (Z.to_nat n) l) i = aget l i.
Proof.
  intros H. unfold aget. destruct (Z.ltb_spec i 0); [reflexivity|].
  rewrite nth_error_firstn_lt by lia. reflexivity.
Qed.

Lemma aget_skipn l n i : 0 <= n -> 0 <= i -> aget (skipn (Z.to_nat n) l) i = aget l (n + i).
Proof.
  intros H Hi. unfold aget. destruct (Z.ltb_spec i 0); destruct (Z.ltb_spec (n + i) 0); try lia.
  rewrite nth_error_skipn_add. replace (Z.to_nat (n + i)) with (Z.to_nat n + Z.to_nat i)%nat by lia.
  reflexivity.
Qed.

Lemma skipn_skipn (a b : nat) l : skipn a (skipn b l) = skipn (a + b) l.
Proof.
  revert b; induction l as [|h t IH]; intros b.
  - now rewrite !skipn_nil.
  - destruct b as [|b]; cbn [skipn].
    + now rewrite Nat.add_0_r.
    + rewrite IH. now replace (a + S b)%nat with (S (a + b)) by lia.
Qed.

(** slices and blits *)
Lemma aslice_ok l i n : 0 <= i -> 0 <= n -> i + n <= zlen l ->
  aslice l i n = Ok (firstn (Z.to_nat n) (skipn (Z.to_nat i) l)).
Proof.
  intros Hi Hn H. unfold aslice.
  destruct (Z.leb_spec 0 i), (Z.leb_spec 0 n), (Z.leb_spec (i + n) (zlen l)); try lia.
  reflexivity.
Qed.

Lemma aslice_inv l i n vs : aslice l i n = Ok vs ->
  0 <= i /\ 0 <= n /\ i + n <= zlen l /\ zlen vs = n /\
  (forall k, 0 <= k < n -> aget vs k = aget l (i + k)).
Proof.
  unfold aslice.
  destruct (Z.leb_spec 0 i); [|discriminate]. destruct (Z.leb_spec 0 n); [|discriminate].
  destruct (Z.leb_spec (i + n) (zlen l)); [|discriminate]. cbn. intros [= <-].
  repeat split; try lia.
  - rewrite zlen_firstn by lia. rewrite zlen_skipn by lia. lia.
  - intros k Hk. rewrite aget_firstn by lia. rewrite aget_skipn by lia. reflexivity.
Qed.

Lemma ablit_some l i vs : 0 <= i -> i + zlen vs <= zlen l -> exists l', ablit l i vs = Ok l'.
Proof.
  intros Hi H. unfold ablit.
  destruct (Z.leb_spec 0 i), (Z.leb_spec (i + zlen vs) (zlen l)); try lia. cbn. eauto.
Qed.

Lemma ablit_inv l i vs l' : ablit l i vs = Ok l' ->
  0 <= i /\ i + zlen vs <= zlen l /\ zlen l' = zlen l /\
  (forall k, aget l' k = if (i <=? k) && (k <? i + zlen vs) then aget vs (k - i) else aget l k).
Proof.
  unfold ablit.
  destruct (Z.leb_spec 0 i) as [Hi|]; [|discriminate].
  destruct (Z.leb_spec (i + zlen vs) (zlen l)) as [Hl|]; [|discriminate].
  cbn. intros [= <-].
  assert (HL : zlen (firstn (Z.to_nat i) l) = i).
  { pose proof (zlen_nonneg vs). rewrite zlen_firstn by lia. lia. }
  replace (Z.to_nat i + length vs)%nat with (Z.to_nat (i + zlen vs)) by (unfold zlen; lia).
  pose proof (zlen_nonneg vs).
  repeat split; try lia.
  - rewrite !zlen_app, HL, zlen_skipn by lia. lia.
  - intros k. destruct (Z.ltb_spec k 0).
    { rewrite aget_oob by lia. destruct (Z.leb_spec i k); [lia|]. cbn. rewrite aget_oob by lia. reflexivity. }
    rewrite aget_app by lia. rewrite HL. destruct (Z.ltb_spec k i).
    + destruct (Z.leb_spec i k); [lia|]. cbn. apply aget_firstn. lia.
    + destruct (Z.leb_spec i k); [|lia]. cbn. rewrite aget_app by lia.
      destruct (Z.ltb_spec (k - i) (zlen vs)), (Z.ltb_spec k (i + zlen vs)); try lia; auto.
      rewrite aget_skipn by lia. f_equal. lia.
Qed.

Lemma amove_some l src dst n : 0 <= src -> 0 <= dst -> 0 <= n ->
  src + n <= zlen l -> dst + n <= zlen l -> exists l', amove l src dst n = Ok l'.
Proof.
  intros. unfold amove. rewrite aslice_ok by lia. cbn [bind]. apply ablit_some; [lia|].
  rewrite zlen_firstn, zlen_skipn by lia. lia.
Qed.

Lemma amove_inv l src dst n l' : amove l src dst n = Ok l' ->
  0 <= src /\ 0 <= dst /\ 0 <= n /\ src + n <= zlen l /\ dst + n <= zlen l /\ zlen l' = zlen l /\
  (forall k, aget l' k = if (dst <=? k) && (k <? dst + n) then aget l (k - dst + src) else aget l k).
Proof.
  unfold amove. intros (vs & Hs & Hb)%bind_ok.
  apply aslice_inv in Hs as (H1 & H2 & H3 & H4 & H5).
  apply ablit_inv in Hb as (H6 & H7 & H8 & H9).
  repeat split; try lia. intros k. rewrite H9, H4.
  destruct (Z.leb_spec dst k); cbn; [|reflexivity].
  destruct (Z.ltb_spec k (dst + n)); cbn; [|reflexivity].
  rewrite H5 by lia. f_equal. lia.
Qed.

(** swaps *)
Lemma aswap_some l i j : 0 <= i < zlen l -> 0 <= j < zlen l -> exists l', aswap l i j = Ok l'.
Proof.
  intros Hi Hj. unfold aswap.
  destruct (aget_some l i Hi) as [x ->]. destruct (aget_some l j Hj) as [y ->]. cbn [bind].
  destruct (aset_some l i y Hi) as [l1 H1]. rewrite H1. cbn [bind].
  apply aset_some. rewrite (aset_zlen _ _ _ _ H1). exact Hj.
Qed.

Lemma aswap_inv l i j l' : aswap l i j = Ok l' ->
  exists x y, aget l i = Ok x /\ aget l j = Ok y /\ zlen l' = zlen l /\
  (forall k, aget l' k = if k =? j then Ok x else if k =? i then Ok y else aget l k).
Proof.
  unfold aswap. intros (x & Hx & H)%bind_ok. apply bind_ok in H as (y & Hy & H).
  apply bind_ok in H as (l1 & H1 & H2).
  exists x, y. repeat split; auto.
  - rewrite (aset_zlen _ _ _ _ H2). apply (aset_zlen _ _ _ _ H1).
  - intros k. rewrite (aget_aset _ _ _ _ k H2). destruct (k =? j); [reflexivity|].
    apply (aget_aset _ _ _ _ k H1).
Qed.

Lemma upd_split l (i : nat) x : (i < length l)%nat ->
  upd l i x = firstn i l ++ x :: skipn (S i) l.
Proof.
  revert i; induction l as [|h t IH]; intros [|i] H; cbn in *; try lia; auto.
  rewrite IH by lia. reflexivity.
Qed.

Lemma nth_split_eq l (i : nat) x : nth_error l i = Some x ->
  l = firstn i l ++ x :: skipn (S i) l.
Proof.
  revert i; induction l as [|h t IH]; intros [|i] H; cbn in *; try discriminate.
  - congruence.
  - f_equal. apply IH. exact H.
Qed.

(** Replacing slot i by y exchanges one occurrence: x::l' ~ y::l. *)
Lemma aset_Permutation l i x y l' : aget l i = Ok x -> aset l i y = Ok l' ->
  Permutation (x :: l') (y :: l).
Proof.
  intros Hg [Hr ->]%aset_inv. apply aget_nth in Hg as [_ Hg].
  rewrite upd_split by (unfold zlen in Hr; lia).
  rewrite (nth_split_eq _ _ _ Hg) at 3.
  rewrite <- !Permutation_middle. apply perm_swap.
Qed.

Lemma aswap_Permutation l i j l' : aswap l i j = Ok l' -> Permutation l l'.
Proof.
  unfold aswap. intros (x & Hx & H)%bind_ok. apply bind_ok in H as (y & Hy & H).
  apply bind_ok in H as (l1 & H1 & H2).
  assert (P1 := aset_Permutation _ _ _ _ _ Hx H1).
  assert (Hy1 : aget l1 j = Ok y).
  { rewrite (aget_aset _ _ _ _ j H1). destruct (j =? i); auto. }
  assert (P2 := aset_Permutation _ _ _ _ _ Hy1 H2).
  apply Permutation_cons_inv with (a := y).
  rewrite <- P1. symmetry. exact P2.
Qed.

End Facts.

(** [rlen]: rewrite lengths of results of array operations into lengths of the inputs. *)
Ltac inv_ok :=
  repeat match goal with
  | H : bind _ _ = Ok _ |- _ => apply bind_ok in H; destruct H as (? & ? & ?)
  | H : Ok _ = Ok _ |- _ => injection H as H; try subst
  | H : Err _ = Ok _ |- _ => discriminate H
  end.
