(** Proofs about the stack model. *)
From Verif Require Import Base Slots Stack_Model.
Ltac Zify.zify_post_hook ::= Z.div_mod_to_equations.

Section P.
Context {A : Type}.
Implicit Types (s : stack A) (l : list A).

Definition stored s l : Prop := size s = zlen l /\ exists unused, buf s = map Some l ++ unused.

Lemma stored_cap s l : stored s l -> zlen l <= capacity s.
Proof. intros [_ H]. apply (holds_zlen (buf s) l H). Qed.

Lemma init_fixed_stored n : stored (@init_fixed A n) [].
Proof. split; [reflexivity|]. eexists. reflexivity. Qed.

Lemma init_dyn_stored : stored (@init_dyn A) [].
Proof. split; [reflexivity|]. exists []. reflexivity. Qed.

Lemma reserve_dyn s l n : fixed s = false -> stored s l -> 0 <= n ->
  stored (fst (reserve s n)) l /\ capacity (fst (reserve s n)) >= n /\ fixed (fst (reserve s n)) = false /\
  snd (reserve s n) = negb (capacity (fst (reserve s n)) =? 0).
Proof.
  intros Hf [Hs Hh] Hc. unfold reserve. rewrite Hf. cbn [fst snd].
  assert (HH : stored (mkst false (realloc (buf s) n) (size s)) l \/ n < zlen l).
  { destruct (Z.le_gt_cases (zlen l) n); [left|now right]. split; [exact Hs|]. now apply holds_realloc. }
  pose proof (holds_zlen (buf s) l Hh). unfold capacity in *.
  destruct (Z.gtb_spec n (zlen (buf s))); cbn [orb].
  - destruct HH as [HH|]; [|lia]. split; [exact HH|]. cbn [buf fixed]. rewrite zlen_realloc by lia. repeat split; auto; lia.
  - destruct (Z.eqb_spec n 0), (Z.eqb_spec n (size s)); cbn [negb andb]; repeat split; auto; try lia.
    + destruct HH as [HH|]; [|lia]. apply HH.
    + cbn [buf]. rewrite zlen_realloc by lia. lia.
Qed.

Lemma wr_top s l x : stored s l -> zlen l < capacity s ->
  exists b, wr (buf s) (size s) x = Ok b /\ stored (mkst (fixed s) b (size s + 1)) (l ++ [x]) /\ zlen b = capacity s.
Proof.
  intros [Hs Hh] Hc. rewrite Hs. destruct (holds_wr_end (buf s) l x Hh Hc) as (b & W & Hh' & Z').
  exists b. split; [exact W|]. split; [|exact Z']. split; [|exact Hh']. cbn [size]. rewrite zlen_app. reflexivity.
Qed.

(** push *)
Lemma push_fixed s l x : fixed s = true -> stored s l ->
  exists s', push s x = Ok (s', zlen l <? capacity s) /\ fixed s' = true /\ capacity s' = capacity s /\
    stored s' (if zlen l <? capacity s then l ++ [x] else l).
Proof.
  intros Hf Hst. pose proof (stored_cap _ _ Hst). pose proof Hst as [Hs Hh]. pose proof (zlen_nonneg l).
  unfold push, reserve. rewrite Hf, Hs.
  destruct (Z.ltb_spec (zlen l) (capacity s)).
  - destruct (Z.eqb_spec (zlen l) (capacity s)); [lia|].
    destruct (wr_top s l x Hst) as (b & W & Hst' & Z'); [lia|].
    rewrite W. cbn [bind]. eexists. split; [reflexivity|]. split; [exact Hf|]. split; [exact Z'|exact Hst'].
  - destruct (Z.eqb_spec (zlen l) (capacity s)); [|lia].
    destruct (Z.leb_spec (zlen l * 3 / 2 + 4) (capacity s)); [lia|]. eexists. split; [reflexivity|]. auto.
Qed.

Lemma push_dyn s l x : fixed s = false -> stored s l ->
  exists s', push s x = Ok (s', true) /\ fixed s' = false /\ stored s' (l ++ [x]).
Proof.
  intros Hf Hst. pose proof (stored_cap _ _ Hst). pose proof Hst as [Hs Hh]. pose proof (zlen_nonneg l).
  unfold push.
  set (p := if size s =? capacity s then reserve s (size s * 3 / 2 + 4) else (s, true)).
  assert (stored (fst p) l /\ zlen l < capacity (fst p) /\ fixed (fst p) = false /\ snd p = true) as (H1 & H2 & H3 & H4).
  { unfold p. destruct (Z.eqb_spec (size s) (capacity s)).
    - destruct (reserve_dyn s l (size s * 3 / 2 + 4) Hf Hst ltac:(lia)) as (Q1 & Q2 & Q3 & Q4).
      split; [exact Q1|]. split; [lia|]. split; [exact Q3|]. rewrite Q4.
      destruct (Z.eqb_spec (capacity (fst (reserve s (size s * 3 / 2 + 4)))) 0); [lia|reflexivity].
    - cbn [fst snd]. repeat split; auto. lia. }
  destruct p as [s1 ok]. cbn [fst snd] in *. subst ok.
  destruct (wr_top s1 l x H1 H2) as (b & W & Hst' & Z'). rewrite W. cbn [bind].
  eexists. split; [reflexivity|]. split; [exact H3|exact Hst'].
Qed.

Lemma holds_append (b : slots A) l xs : holds b l -> zlen l + zlen xs <= zlen b ->
  exists b', wrs b (zlen l) xs = Ok b' /\ holds b' (l ++ xs) /\ zlen b' = zlen b.
Proof.
  intros Hh Hc. destruct (holds_insert b l (zlen l) xs Hh) as (b1 & b2 & M & W & Hh2 & Z1 & Z2); auto.
  { pose proof (zlen_nonneg l). lia. }
  assert (b1 = b) as ->.
  { apply aget_ext; [exact Z1|]. intros i Hi. apply amove_inv in M as (_ & _ & _ & _ & _ & _ & G). rewrite G.
    destruct (Z.leb_spec (zlen l + zlen xs) i), (Z.ltb_spec i (zlen l + zlen xs + (zlen l - zlen l))); cbn [andb]; auto; lia. }
  exists b2. split; [exact W|]. split; [|exact Z2].
  rewrite firstn_all2, skipn_all2 in Hh2 by (unfold zlen; lia). now rewrite app_nil_r in Hh2.
Qed.

(** append on a fixed stack: exact behaviour of the code *)
Definition append_ok (n len k : Z) : bool := (len + k <? n) || ((len + k =? n) && (len <=? 1)).

Lemma append_fixed s l xs : fixed s = true -> stored s l ->
  exists s', append s xs = Ok (s', append_ok (capacity s) (zlen l) (zlen xs)) /\ fixed s' = true /\
    capacity s' = capacity s /\
    stored s' (if append_ok (capacity s) (zlen l) (zlen xs) then l ++ xs else l).
Proof.
  intros Hf Hst. pose proof (stored_cap _ _ Hst). pose proof Hst as [Hs Hh].
  pose proof (zlen_nonneg l). pose proof (zlen_nonneg xs).
  unfold append, append_uninit, reserve, append_ok. rewrite Hf, Hs.
  assert (Hok : zlen l + zlen xs <= capacity s -> 
     exists s', (let* b := wrs (buf s) (zlen l) xs in Ok (mkst (fixed s) b (size s + zlen xs), true)) = Ok (s', true)
       /\ fixed s' = true /\ capacity s' = capacity s /\ stored s' (l ++ xs)).
  { intros Hle. destruct (holds_append (buf s) l xs Hh Hle) as (b & W & Hh' & Z').
    rewrite W. cbn [bind]. eexists. split; [reflexivity|]. split; [exact Hf|]. split; [exact Z'|].
    split; [|exact Hh']. cbn [size]. rewrite zlen_app. lia. }
  destruct (Z.geb_spec (zlen l + zlen xs) (capacity s)).
  - destruct (Z.ltb_spec (zlen l + zlen xs) (capacity s)); [lia|]. cbn [orb].
    destruct (Z.leb_spec (zlen l * 3 / 2 + zlen xs) (capacity s)).
    + destruct (Z.eqb_spec (zlen l + zlen xs) (capacity s)); [|lia].
      destruct (Z.leb_spec (zlen l) 1); [|lia]. cbn [andb]. rewrite Hf in *. cbn [buf size fixed]. rewrite Hs in *.
      apply Hok. lia.
    + destruct (Z.eqb_spec (zlen l + zlen xs) (capacity s)), (Z.leb_spec (zlen l) 1); cbn [andb]; try lia;
      eexists; (split; [reflexivity|]); auto.
  - destruct (Z.ltb_spec (zlen l + zlen xs) (capacity s)); [|lia]. cbn [orb]. rewrite Hf in *. cbn [buf size fixed].
    rewrite Hs in *. apply Hok. lia.
Qed.

Lemma append_dyn s l xs : fixed s = false -> stored s l -> xs <> [] ->
  exists s', append s xs = Ok (s', true) /\ fixed s' = false /\ stored s' (l ++ xs).
Proof.
  intros Hf Hst Hne. pose proof (stored_cap _ _ Hst). pose proof Hst as [Hs Hh]. pose proof (zlen_nonneg l).
  assert (0 < zlen xs) by (destruct xs; [congruence|rewrite zlen_cons; pose proof (zlen_nonneg xs); lia]).
  unfold append, append_uninit.
  set (p := if size s + zlen xs >=? capacity s then reserve s (size s * 3 / 2 + zlen xs) else (s, true)).
  assert (stored (fst p) l /\ zlen l + zlen xs <= capacity (fst p) /\ fixed (fst p) = false /\ snd p = true) as (H1' & H2 & H3 & H4).
  { unfold p. destruct (Z.geb_spec (size s + zlen xs) (capacity s)).
    - destruct (reserve_dyn s l (size s * 3 / 2 + zlen xs) Hf Hst ltac:(lia)) as (Q1 & Q2 & Q3 & Q4).
      split; [exact Q1|]. split; [lia|]. split; [exact Q3|]. rewrite Q4.
      destruct (Z.eqb_spec (capacity (fst (reserve s (size s * 3 / 2 + zlen xs)))) 0); [lia|reflexivity].
    - cbn [fst snd]. repeat split; auto. lia. }
  destruct p as [s1 ok]. cbn [fst snd] in *. subst ok. destruct H1' as [Hs1 Hh1].
  destruct (holds_append (buf s1) l xs Hh1 H2) as (b & W & Hh' & Z'). cbn [buf size fixed].
  rewrite Hs. rewrite W. cbn [bind]. eexists. split; [reflexivity|]. split; [exact H3|].
  split; [|exact Hh']. cbn [size]. rewrite zlen_app. lia.
Qed.

Lemma pop_spec s l x : stored s (l ++ [x]) ->
  pop s = Ok (mkst (fixed s) (buf s) (zlen l), x) /\ top s = Ok x /\
  stored (mkst (fixed s) (buf s) (zlen l)) l.
Proof.
  intros Hst. pose proof Hst as [Hs Hh]. pose proof (zlen_nonneg l).
  rewrite zlen_app in Hs. change (zlen [x]) with 1 in Hs.
  assert (rd (buf s) (size s - 1) = Ok x) as Hr.
  { rewrite (holds_rd _ (l ++ [x])) by (auto; rewrite zlen_app; change (zlen [x]) with 1; lia).
    rewrite aget_app2 by lia. replace (size s - 1 - zlen l) with 0 by lia. reflexivity. }
  unfold pop, top. destruct (Z.eqb_spec (size s) 0); [lia|]. rewrite Hr. cbn [bind].
  replace (size s - 1) with (zlen l) by lia. split; [reflexivity|]. split; [reflexivity|].
  split; [reflexivity|]. cbn [buf]. apply (holds_app _ l [x]). exact Hh.
Qed.

Lemma firstn_S_aget l (k : nat) x : aget l (Z.of_nat k) = Ok x -> firstn (S k) l = firstn k l ++ [x].
Proof.
  intros [_ Hx]%aget_nth. rewrite Nat2Z.id in Hx.
  revert l Hx. induction k as [|k IH]; intros [|h t] Hx; cbn in Hx; try discriminate.
  - injection Hx as ->. reflexivity.
  - change (h :: firstn (S k) t = h :: (firstn k t ++ [x])). now rewrite (IH t Hx).
Qed.

Lemma clear_loop_spec k b l : holds b l -> Z.of_nat k <= zlen l -> clear_loop k b = Ok (rev (firstn k l)).
Proof.
  intros Hs. induction k as [|k IH]; intros Hk; [reflexivity|]. cbn [clear_loop].
  rewrite (holds_rd b l) by (auto; lia).
  destruct (aget_some l (Z.of_nat k)) as [x Hx]; [lia|]. rewrite Hx. cbn [bind].
  rewrite IH by lia. cbn [bind]. rewrite (firstn_S_aget _ _ _ Hx), rev_app_distr. reflexivity.
Qed.

Lemma clear_spec s l : stored s l ->
  clear s = Ok (mkst (fixed s) (buf s) 0, rev l) /\ stored (mkst (fixed s) (buf s) 0) [].
Proof.
  intros [Hs Hh]. pose proof (zlen_nonneg l). unfold clear.
  rewrite (clear_loop_spec _ _ l Hh) by lia. rewrite Hs. rewrite firstn_all2 by (unfold zlen; lia). cbn [bind].
  split; [reflexivity|]. split; [reflexivity|]. apply holds_nil.
Qed.

Lemma each_loop_spec k fuel b l : holds b l -> (k < length l)%nat -> (length l - k < fuel)%nat ->
  each_loop fuel b (zlen l) (Some (Z.of_nat k)) = Ok (skipn k l).
Proof.
  intros Hh. revert k. induction fuel as [|fuel IH]; intros k Hk Hf; [lia|].
  cbn [each_loop]. rewrite (holds_rd b l) by (auto; unfold zlen; lia).
  destruct (aget_some l (Z.of_nat k)) as [x Hx]; [unfold zlen; lia|]. rewrite Hx. cbn [bind].
  assert (Hsk : skipn k l = x :: skipn (S k) l).
  { apply aget_nth in Hx as [_ Hx]. rewrite Nat2Z.id in Hx. clear - Hx. revert l Hx.
    induction k as [|k IH]; intros [|h t] Hx; cbn in Hx; try discriminate.
    - injection Hx as ->. reflexivity.
    - change (skipn k t = x :: skipn (S k) t). now apply IH. }
  destruct (Z.eqb_spec (Z.of_nat k + 1) (zlen l)) as [E|E].
  - destruct fuel; [lia|]. cbn [each_loop bind]. rewrite Hsk. rewrite (skipn_all2 l); [reflexivity|unfold zlen in E; lia].
  - replace (Z.of_nat k + 1) with (Z.of_nat (S k)) by lia. rewrite (IH (S k)); cbn [bind]; try (unfold zlen in E; lia).
    now rewrite Hsk.
Qed.

Lemma each_spec s l : stored s l -> l <> [] \/ (fixed s = false /\ capacity s = 0) -> each s = Ok l.
Proof.
  intros Hst Hor. pose proof (stored_cap _ _ Hst). destruct Hst as [Hs Hh]. pose proof (zlen_nonneg l).
  unfold each, begin. destruct Hor as [Hne|[Hf H2]].
  - assert (0 < length l)%nat by (destruct l; [congruence|cbn; lia]).
    assert ((if fixed s then Some 0 else if capacity s =? 0 then None else Some 0) = Some 0) as ->.
    { destruct (fixed s); auto. destruct (Z.eqb_spec (capacity s) 0); auto. unfold zlen in *. lia. }
    rewrite Hs. rewrite (each_loop_spec 0 _ _ l); auto. unfold zlen in *. lia.
  - rewrite Hf, H2. cbn. destruct l; [reflexivity|rewrite zlen_cons in *; pose proof (zlen_nonneg l); lia].
Qed.
End P.
