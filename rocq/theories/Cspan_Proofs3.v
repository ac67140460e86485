(** Iteration over a span. *)
From Coq Require Import Sorted.
From Verif Require Import Base Cspan_Model Cspan_Spec Cspan_Proofs Cspan_Proofs2.

Lemma row_offset_app sa a sz z : length a = length sa -> row_offset (sa ++ sz) (a ++ z) = row_offset sa a * prod sz + row_offset sz z.
Proof.
  revert a; induction sa as [|n sa IH]; intros [|i a] H; cbn in H; try discriminate; cbn [app row_offset]; [lia|].
  rewrite IH by congruence. rewrite prod_app. lia.
Qed.
Lemma row_offset_zeros sz k : row_offset sz (repeat 0 k) = 0.
Proof. revert k; induction sz as [|n sz IH]; intros [|k]; cbn [repeat row_offset]; auto. rewrite IH. lia. Qed.
Lemma dot_zeros st k : dot (repeat 0 k) st = 0.
Proof. revert st; induction k as [|k IH]; intros [|t st]; cbn [repeat dot]; auto. rewrite IH. lia. Qed.
Lemma in_range_zeros sh : Forall (fun n => 0 < n) sh -> in_range (repeat 0 (length sh)) sh.
Proof. induction 1; cbn [length repeat]; constructor; auto; lia. Qed.

Lemma aset_nat {A} (a : list A) x b v (r : nat) : length a = r -> aset (a ++ x :: b) (Z.of_nat r) v = Ok (a ++ v :: b).
Proof. intros <-. apply aset_mid. Qed.
Lemma aget_nat_mid {A} (a : list A) x b (r : nat) : length a = r -> aget (a ++ x :: b) (Z.of_nat r) = Ok x.
Proof. intros <-. apply aget_mid. Qed.

Lemma next_loop_ok a : forall p k sa n sz ta t tz r off, length a = r -> length sa = r -> length ta = r -> length sz = k -> length tz = k ->
  Forall (fun n => 0 < n) (sa ++ n :: sz) -> in_range a sa -> 0 <= p <= n ->
  exists b q m, let ps' := b ++ q :: repeat 0 m in exists off', next_loop (sa ++ n :: sz) (ta ++ t :: tz) (a ++ p :: repeat 0 k) r off = Ok (ps', length b, off') /\
    length ps' = length (a ++ p :: repeat 0 k) /\
    off' - dot ps' (ta ++ t :: tz) = off - dot (a ++ p :: repeat 0 k) (ta ++ t :: tz) /\
    row_offset (sa ++ n :: sz) ps' = row_offset (sa ++ n :: sz) (a ++ p :: repeat 0 k) /\
    exists sb sn sm, sa ++ n :: sz = sb ++ sn :: sm /\ length sb = length b /\ length sm = m /\ in_range b sb /\ 0 <= q <= sn /\ (b = [] \/ q < sn).
Proof.
  induction a as [|q a IH] using rev_ind; intros p k sa n sz ta t tz r off Hr Hsa Hta Hsz Htz HP HR Hp.
  - cbn in Hr. subst r. destruct sa; [|discriminate]. destruct ta; [|discriminate]. exists [], p, k. cbn [next_loop app length]. eexists. split; [reflexivity|].
    split; [reflexivity|]. split; [reflexivity|]. split; [reflexivity|]. exists [], n, sz. cbn [app length]. do 3 (split; [auto|]). split; [constructor|]. split; [lia|auto].
  - rewrite app_length in Hr. cbn in Hr. destruct r as [|r']; [lia|].
    destruct sa as [|n' sa] using rev_ind; [cbn in Hsa; lia|]. clear IHsa. destruct ta as [|t' ta] using rev_ind; [cbn in Hta; lia|]. clear IHta.
    rewrite app_length in Hsa, Hta. cbn in Hsa, Hta. rewrite <- !app_assoc in *. cbn [app] in *.
    apply in_range_app in HR as [HR HR']; [|lia]. assert (Hq : 0 <= q < n') by (inversion HR'; auto).
    cbn [next_loop].
    assert (HG : forall (u : list Z) x y v, length u = r' -> aget (u ++ x :: y :: v) (Z.of_nat (S r')) = Ok y).
    { intros u x y v Hu. replace (u ++ x :: y :: v) with ((u ++ [x]) ++ y :: v) by (rewrite <- app_assoc; reflexivity). apply aget_nat_mid. rewrite app_length. cbn. lia. }
    assert (HS : forall (u : list Z) x y v w, length u = r' -> aset (u ++ x :: y :: v) (Z.of_nat (S r')) w = Ok (u ++ x :: w :: v)).
    { intros u x y v w Hu. replace (u ++ x :: y :: v) with ((u ++ [x]) ++ y :: v) by (rewrite <- app_assoc; reflexivity). rewrite aset_nat by (rewrite app_length; cbn; lia). now rewrite <- app_assoc. }
    rewrite !HG by lia. cbn [bind].
    destruct (Z.eqb_spec p n) as [Epn|Hpn].
    + subst p. rewrite HS by lia. cbn [bind]. rewrite (aget_nat_mid a) by lia. cbn [bind]. rewrite (aset_nat a) by lia. cbn [bind]. rewrite (aget_nat_mid ta) by lia. cbn [bind].
      destruct (IH (q + 1) (S k) sa n' (n :: sz) ta t' (t :: tz) r' (off + (t' - n * t))) as (b & q2 & m & off' & E & L & D & R & S); auto; try lia; try (cbn; lia).
      exists b, q2, m, off'. cbn [repeat] in *. split; [exact E|].
      split; [rewrite L, !app_length; cbn [length]; lia|].
      assert (HL : length a = length ta) by lia. assert (HL2 : length a = length sa) by lia. rewrite !(dot_app a _ ta) in * by exact HL. cbn [dot] in *. rewrite !dot_zeros in *.
      split; [lia|].
      rewrite !(row_offset_app sa a) in * by exact HL2. cbn [row_offset prod] in *. rewrite !row_offset_zeros in *. split; [rewrite R; lia|]. exact S.
    + exists (a ++ [q]), p, k, off. rewrite <- !app_assoc. cbn [app]. split; [f_equal; f_equal; f_equal; rewrite app_length; cbn; lia|].
      split; [reflexivity|]. split; [reflexivity|]. split; [reflexivity|].
      exists (sa ++ [n']), n, sz. rewrite <- app_assoc. cbn [app]. split; [reflexivity|]. split; [rewrite !app_length; cbn; lia|]. split; [lia|].
      split; [apply in_range_app; [lia|]; split; [exact HR|]; repeat constructor; lia|]. split; [lia|]. right. lia.
Qed.

Lemma next_pos sh st ps : sh <> [] -> Forall (fun n => 0 < n) sh -> length st = length sh -> in_range ps sh ->
  exists ps' off done, (if (length sh =? 1)%nat then next1 else next2) sh st ps = Ok (ps', off, done) /\
    dot ps' st = dot ps st + off /\ row_offset sh ps' = row_offset sh ps + 1 /\
    (done = false -> in_range ps' sh) /\ (done = true -> row_offset sh ps + 1 = prod sh).
Proof.
  intros Hne HP HL HR. pose proof (in_range_length _ _ HR) as HLp.
  destruct (exists_last Hne) as (sa & n & ->). destruct (@exists_last _ ps) as (a & p & ->); [intros ->; rewrite app_length in HLp; cbn in HLp; lia|].
  destruct (@exists_last _ st) as (ta & t & ->); [intros ->; rewrite app_length in HL; cbn in HL; lia|].
  rewrite !app_length in *. cbn [length] in *. assert (La : length a = length sa) by lia. assert (Lt : length ta = length sa) by lia.
  apply in_range_app in HR as [HRa HRp]; [|exact La]. inversion HRp as [|? ? ? ? Hp _]; subst.
  assert (HN2 : exists ps' off done, next2 (sa ++ [n]) (ta ++ [t]) (a ++ [p]) = Ok (ps', off, done) /\
    dot ps' (ta ++ [t]) = dot (a ++ [p]) (ta ++ [t]) + off /\ row_offset (sa ++ [n]) ps' = row_offset (sa ++ [n]) (a ++ [p]) + 1 /\
    (done = false -> in_range ps' (sa ++ [n])) /\ (done = true -> row_offset (sa ++ [n]) (a ++ [p]) + 1 = prod (sa ++ [n]))).
  { unfold next2. rewrite app_length. cbn [length]. replace (length sa + 1 - 1)%nat with (length sa) by lia.
    rewrite aget_nat_mid by lia. cbn [bind]. rewrite aget_nat_mid by lia. cbn [bind]. rewrite aset_nat by lia. cbn [bind].
    destruct (next_loop_ok a (p + 1) 0 sa n [] ta t [] (length sa) t) as (b & q & m & off' & E & L & D & R & sb & sn & sm & E2 & L2 & L3 & IR & Q1 & Q2); auto; [lia|].
    cbn [repeat] in *. rewrite E. cbn [bind]. rewrite aget_nat_mid by lia. cbn [bind]. rewrite E2. rewrite aget_nat_mid by lia. cbn [bind].
    exists (b ++ q :: repeat 0 m), off', (q =? sn). split; [reflexivity|].
    assert (Hro : row_offset (sb ++ sn :: sm) (a ++ [p + 1]) = row_offset (sb ++ sn :: sm) (a ++ [p]) + 1).
    { rewrite <- E2. rewrite !row_offset_app by exact La. cbn [row_offset prod]. lia. }
    assert (Hdo : dot (a ++ [p + 1]) (ta ++ [t]) = dot (a ++ [p]) (ta ++ [t]) + t) by (rewrite !dot_app by lia; cbn [dot]; lia).
    split; [lia|].
    split; [rewrite <- E2, R, E2; exact Hro|].
    assert (HPm : Forall (fun n => 0 < n) sm). { rewrite E2 in HP. apply Forall_app in HP as [_ HP]. inversion HP; auto. }
    split.
    - intros Hd. apply Z.eqb_neq in Hd. apply in_range_app; [lia|]. split; [exact IR|]. constructor; [lia|]. rewrite <- L3. now apply in_range_zeros.
    - intros Hd. apply Z.eqb_eq in Hd. subst q. destruct Q2 as [->|]; [|lia]. destruct sb; [|discriminate]. cbn [app] in *.
      rewrite <- Hro, <- E2, <- R, E2. cbn [row_offset prod]. rewrite row_offset_zeros. lia. }
  destruct (Nat.eqb_spec (length sa + 1) 1) as [E1|]; [|exact HN2].
  destruct sa; [|cbn in E1; lia]. destruct a; [|discriminate]. destruct ta; [|discriminate]. exact HN2.
Qed.

Lemma next_ok s p ps : shape s <> [] -> Forall (fun n => 0 < n) (shape s) -> length (stride s) = length (shape s) -> in_range ps (shape s) ->
  p = data s + dot ps (stride s) ->
  exists it', next s (It (Some p) ps) = Ok it' /\
    match ref it' with
    | None => row_offset (shape s) ps + 1 = prod (shape s)
    | Some p' => in_range (pos it') (shape s) /\ p' = data s + dot (pos it') (stride s) /\ row_offset (shape s) (pos it') = row_offset (shape s) ps + 1
    end.
Proof.
  intros Hne HP HL HR Hp. destruct (next_pos _ _ _ Hne HP HL HR) as (ps' & off & done & E & H1 & H2 & H3 & H4).
  unfold next, rank. cbn [ref pos]. rewrite E. cbn [bind]. eexists. split; [reflexivity|]. cbn [ref pos]. destruct done; [auto|]. split; [auto|]. split; [lia|exact H2].
Qed.

(** The positions from [k] to the end. *)
Fixpoint zup (k : Z) (n : nat) : list Z := match n with O => [] | S n' => k :: zup (k + 1) n' end.
Lemma zup_in k n x : In x (zup k n) <-> k <= x < k + Z.of_nat n.
Proof.
  revert k; induction n as [|n IH]; intros k; cbn [zup In]; [lia|]. rewrite IH. lia.
Qed.

Section Each.
Context {A : Type}.
Variable mem : list A.
Definition elem_at (s : span) (q : list Z * A) : Prop := in_range (fst q) (shape s) /\ aget mem (data s + dot (fst q) (stride s)) = Ok (snd q).

Definition in_mem (s : span) : Prop :=
  length (stride s) = length (shape s) /\ shape s <> [] /\ Forall (fun n => 0 < n) (shape s) /\
  (forall idx, in_range idx (shape s) -> 0 <= data s + dot idx (stride s) < zlen mem).

Lemma each_loop_ok s fuel : in_mem s -> forall p ps, in_range ps (shape s) -> p = data s + dot ps (stride s) ->
  (Z.to_nat (prod (shape s) - row_offset (shape s) ps) < fuel)%nat ->
  exists l, each_loop fuel mem s (It (Some p) ps) = Ok l /\ Forall (elem_at s) l /\
    map (fun q => row_offset (shape s) (fst q)) l = zup (row_offset (shape s) ps) (Z.to_nat (prod (shape s) - row_offset (shape s) ps)).
Proof.
  intros (H1 & H2 & H3 & H4). induction fuel as [|f IH]; intros p ps HR Hp HF; [lia|]. cbn [each_loop ref pos].
  destruct (aget_some mem p) as [x Hx]; [subst p; auto|]. rewrite Hx. cbn [bind].
  destruct (next_ok s p ps H2 H3 H1 HR Hp) as ([[p'|] ps'] & E & HM); rewrite E; cbn [bind ref pos] in *; pose proof (row_offset_range _ _ HR) as RR.
  - destruct HM as (M1 & M2 & M3). pose proof (row_offset_range _ _ M1) as RR'.
    destruct (IH p' ps' M1 M2) as (l & El & Fl & Ml); [lia|]. rewrite El. cbn [bind]. eexists. split; [reflexivity|]. split.
    + constructor; [|exact Fl]. split; [exact HR|]. cbn [fst snd]. rewrite <- Hp. exact Hx.
    + cbn [map fst]. rewrite Ml, M3. replace (Z.to_nat (prod (shape s) - row_offset (shape s) ps)) with (S (Z.to_nat (prod (shape s) - (row_offset (shape s) ps + 1)))) by lia. reflexivity.
  - destruct f as [|f]; [lia|]. cbn [each_loop ref bind]. eexists. split; [reflexivity|]. split.
    + constructor; [|constructor]. split; [exact HR|]. cbn [fst snd]. rewrite <- Hp. exact Hx.
    + cbn [map fst]. replace (Z.to_nat (prod (shape s) - row_offset (shape s) ps)) with 1%nat by lia. reflexivity.
Qed.

Lemma each_ok s : in_mem s -> exists l, each (S (Z.to_nat (prod (shape s)))) mem s = Ok l /\ Forall (elem_at s) l /\
  map (fun q => row_offset (shape s) (fst q)) l = zup 0 (Z.to_nat (prod (shape s))).
Proof.
  intros HM. pose proof HM as (H1 & H2 & H3 & H4). unfold each, begin_, rank.
  destruct (each_loop_ok s (S (Z.to_nat (prod (shape s)))) HM (data s) (repeat 0 (length (shape s)))) as (l & E & F & M).
  - now apply in_range_zeros.
  - rewrite dot_zeros. lia.
  - rewrite row_offset_zeros. rewrite Z.sub_0_r. lia.
  - rewrite row_offset_zeros, Z.sub_0_r in M. eauto.
Qed.
End Each.

Lemma row_offset_lex sh a b : in_range a sh -> in_range b sh -> row_offset sh a < row_offset sh b -> lex a b.
Proof.
  intros H. revert b; induction H as [|i n a sh H1 H2 IH]; intros b H'; inversion H' as [|j ? b' ? H3 H4]; subst; cbn [row_offset]; [lia|].
  intros HL. pose proof (row_offset_range _ _ H2). pose proof (row_offset_range _ _ H4).
  destruct (Z.lt_total i j) as [H5|[->|H5]]; [now constructor|constructor; apply IH; auto; lia|exfalso; nia].
Qed.

Lemma zup_sorted k n : StronglySorted Z.lt (zup k n).
Proof.
  revert k; induction n as [|n IH]; intros k; cbn [zup]; constructor; [apply IH|]. apply Forall_forall. intros x Hx. apply zup_in in Hx. lia.
Qed.
Lemma sorted_lex sh (l : list (list Z)) : Forall (fun q => in_range q sh) l -> StronglySorted Z.lt (map (row_offset sh) l) -> StronglySorted lex l.
Proof.
  induction l as [|a l IH]; intros HF HS; [constructor|]. cbn [map] in HS. inversion HS as [|? ? HS1 HS2]; subst. inversion HF as [|? ? HF1 HF2]; subst.
  constructor; [auto|]. rewrite Forall_forall in *. intros b Hb. apply row_offset_lex with (sh := sh); auto. apply HS2. apply in_map. exact Hb.
Qed.

Lemma each_spec {A} (mem : list A) s : in_mem mem s -> exists l, each (S (Z.to_nat (prod (shape s)))) mem s = Ok l /\
  StronglySorted lex (map fst l) /\
  (forall idx, In idx (map fst l) <-> in_range idx (shape s)) /\
  (forall idx x, In (idx, x) l -> aget mem (data s + dot idx (stride s)) = Ok x).
Proof.
  intros HM. destruct (each_ok mem s HM) as (l & E & F & M). exists l. split; [exact E|].
  assert (HF : Forall (fun q => in_range q (shape s)) (map fst l)).
  { rewrite Forall_map. revert F. apply Forall_impl. intros q [Hq _]. exact Hq. }
  rewrite <- map_map in M.
  split; [apply sorted_lex with (sh := shape s); [exact HF|]; rewrite M; apply zup_sorted|]. split.
  - intros idx. split; [intros Hi; rewrite Forall_forall in HF; auto|]. intros Hi. pose proof (row_offset_range _ _ Hi) as Hr.
    assert (Hin : In (row_offset (shape s) idx) (map (row_offset (shape s)) (map fst l))) by (rewrite M; apply zup_in; lia).
    apply in_map_iff in Hin as (idx' & Eo & Hin). rewrite Forall_forall in HF. rewrite (row_offset_inj (shape s) idx idx'); auto.
  - intros idx x Hi. rewrite Forall_forall in F. apply F in Hi as [_ Hi]. exact Hi.
Qed.

Section SetEq.
Context {A : Type}.
Definition fits_mem (m : Z) (s : span) : Prop :=
  length (stride s) = length (shape s) /\ shape s <> [] /\ Forall (fun n => 0 < n) (shape s) /\
  (forall idx, in_range idx (shape s) -> 0 <= data s + dot idx (stride s) < m).
(** After the loop from position [k]: the elements with row offset >= k hold v, others are unchanged. *)
Lemma set_loop_ok s v fuel : forall (mem : list A) p ps, fits_mem (zlen mem) s -> in_range ps (shape s) -> p = data s + dot ps (stride s) ->
  (Z.to_nat (prod (shape s) - row_offset (shape s) ps) < fuel)%nat ->
  exists mem', set_loop fuel mem s v (It (Some p) ps) = Ok mem' /\ zlen mem' = zlen mem /\
    (forall idx, in_range idx (shape s) -> row_offset (shape s) ps <= row_offset (shape s) idx -> aget mem' (data s + dot idx (stride s)) = Ok v) /\
    (forall a, aget mem' a = aget mem a \/ aget mem' a = Ok v) /\
    (forall a, (forall idx, in_range idx (shape s) -> a <> data s + dot idx (stride s)) -> aget mem' a = aget mem a).
Proof.
  induction fuel as [|f IH]; intros mem p ps HM HR Hp HF; [lia|]. pose proof HM as (H1 & H2 & H3 & H4). cbn [set_loop ref pos].
  destruct (aset_some mem p v) as [m1 Em]; [subst p; auto|]. rewrite Em. cbn [bind]. pose proof (aset_zlen _ _ _ _ Em) as Lm.
  destruct (next_ok s p ps H2 H3 H1 HR Hp) as ([[p'|] ps'] & E & HX); rewrite E; cbn [bind ref pos] in *; pose proof (row_offset_range _ _ HR) as RR.
  - destruct HX as (M1 & M2 & M3). pose proof (row_offset_range _ _ M1) as RR'.
    destruct (IH m1 p' ps') as (m' & El & Ll & Fl & Gl & Kl); auto; [unfold fits_mem; rewrite Lm; exact HM|lia|].
    exists m'. split; [exact El|]. split; [lia|]. split; [|split].
    + intros idx Hi Hle. destruct (Z.eq_dec (row_offset (shape s) ps) (row_offset (shape s) idx)) as [Eo|Ne]; [|apply Fl; auto; lia].
      apply row_offset_inj in Eo; auto. subst idx. rewrite <- Hp. destruct (Gl p) as [->| ->]; [eapply aget_aset_same; eauto|reflexivity].
    + intros a. destruct (Gl a) as [->| ->]; [|auto]. rewrite (aget_aset _ _ _ _ a Em). destruct (a =? p); auto.
    + intros a Ha. rewrite Kl by exact Ha. eapply aget_aset_other; [exact Em|]. subst p. apply Ha. exact HR.
  - destruct f as [|f]; [lia|]. cbn [set_loop ref]. exists m1. split; [reflexivity|]. split; [exact Lm|]. split; [|split].
    + intros idx Hi Hle. pose proof (row_offset_range _ _ Hi). assert (Eo : row_offset (shape s) ps = row_offset (shape s) idx) by lia.
      apply row_offset_inj in Eo; auto. subst idx. rewrite <- Hp. eapply aget_aset_same; eauto.
    + intros a. rewrite (aget_aset _ _ _ _ a Em). destruct (a =? p); auto.
    + intros a Ha. eapply aget_aset_other; [exact Em|]. subst p. apply Ha. exact HR.
Qed.
Lemma set_all_ok s v (mem : list A) : fits_mem (zlen mem) s ->
  exists mem', set_all (S (Z.to_nat (prod (shape s)))) mem s v = Ok mem' /\ zlen mem' = zlen mem /\
    (forall idx, in_range idx (shape s) -> aget mem' (data s + dot idx (stride s)) = Ok v) /\
    (forall a, (forall idx, in_range idx (shape s) -> a <> data s + dot idx (stride s)) -> aget mem' a = aget mem a).
Proof.
  intros HM. pose proof HM as (H1 & H2 & H3 & H4). unfold set_all, begin_, rank.
  destruct (set_loop_ok s v (S (Z.to_nat (prod (shape s)))) mem (data s) (repeat 0 (length (shape s)))) as (m' & E & L & F & _ & G); auto.
  - now apply in_range_zeros.
  - rewrite dot_zeros. lia.
  - rewrite row_offset_zeros. rewrite Z.sub_0_r. lia.
  - exists m'. repeat split; auto. intros idx Hi. apply F; auto. rewrite row_offset_zeros. pose proof (row_offset_range _ _ Hi). lia.
Qed.

(** equality *)
Variable eqb : A -> A -> bool.
Lemma eq_loop_ok s1 s2 m1 m2 fuel : shape s1 = shape s2 -> fits_mem (zlen m1) s1 -> fits_mem (zlen m2) s2 -> forall p q ps, in_range ps (shape s1) ->
  p = data s1 + dot ps (stride s1) -> q = data s2 + dot ps (stride s2) -> (Z.to_nat (prod (shape s1) - row_offset (shape s1) ps) < fuel)%nat ->
  exists b, eq_loop fuel eqb m1 m2 s1 s2 (It (Some p) ps) (It (Some q) ps) = Ok b /\
    (b = true <-> forall idx x y, in_range idx (shape s1) -> row_offset (shape s1) ps <= row_offset (shape s1) idx ->
        aget m1 (data s1 + dot idx (stride s1)) = Ok x -> aget m2 (data s2 + dot idx (stride s2)) = Ok y -> eqb x y = true).
Proof.
  intros ES HM1 HM2. pose proof HM1 as (H1 & H2 & H3 & H4). pose proof HM2 as (G1 & G2 & G3 & G4). rewrite <- ES in G1, G2, G3, G4.
  induction fuel as [|f IH]; intros p q ps HR Hp Hq HF; [lia|]. cbn [eq_loop ref].
  destruct (aget_some m1 p) as [x Hx]; [subst p; auto|]. destruct (aget_some m2 q) as [y Hy]; [subst q; auto|]. rewrite Hx, Hy. cbn [bind].
  destruct (eqb x y) eqn:Exy.
  - destruct (next_pos _ _ _ H2 H3 H1 HR) as (ps1 & off1 & d1 & E1 & A1 & A2 & A3 & A4).
    destruct (next_pos _ _ _ G2 G3 G1 HR) as (ps2 & off2 & d2 & E2 & B1 & B2 & B3 & B4).
    assert (HE : ps1 = ps2 /\ d1 = d2).
    { clear - E1 E2 H1 G1. destruct (length (shape s1) =? 1)%nat.
      - unfold next1 in *. repeat (match goal with H : bind ?m _ = Ok _ |- _ => apply bind_ok in H as (? & ? & H) end). injection E1 as <- <- <-. injection E2 as <- <- <-.
        assert (Hg : x = x3) by congruence. assert (Hn : x5 = x1) by congruence. subst. split; congruence.
      - assert (HN : forall sh st st' ps r off off' a b c a' b' c', next_loop sh st ps r off = Ok (a, b, c) -> next_loop sh st' ps r off' = Ok (a', b', c') -> a = a' /\ b = b').
        { clear. intros sh st st' ps r. revert ps; induction r as [|r IH]; intros ps off off' a b c a' b' c' E1 E2; cbn [next_loop] in *; [split; congruence|].
          apply bind_ok in E1 as (p & P1 & E1). apply bind_ok in E2 as (p' & P2 & E2). apply bind_ok in E1 as (n & P3 & E1). apply bind_ok in E2 as (n' & P4 & E2).
          assert (p = p') by congruence. assert (n = n') by congruence. subst p' n'. destruct (p =? n); [|split; congruence].
          apply bind_ok in E1 as (u & U1 & E1). apply bind_ok in E2 as (u' & U2 & E2). assert (u = u') by congruence. subst u'.
          apply bind_ok in E1 as (w & W1 & E1). apply bind_ok in E2 as (w' & W2 & E2). assert (w = w') by congruence. subst w'.
          apply bind_ok in E1 as (z & Z1 & E1). apply bind_ok in E2 as (z' & Z2 & E2). assert (z = z') by congruence. subst z'.
          apply bind_ok in E1 as (? & _ & E1). apply bind_ok in E2 as (? & _ & E2). apply bind_ok in E1 as (? & _ & E1). apply bind_ok in E2 as (? & _ & E2).
          eapply IH; eauto. }
        unfold next2 in *. apply bind_ok in E1 as (? & _ & E1). apply bind_ok in E2 as (? & _ & E2).
        apply bind_ok in E1 as (u & U1 & E1). apply bind_ok in E2 as (u' & U2 & E2). assert (u = u') by congruence. subst u'.
        apply bind_ok in E1 as (w & W1 & E1). apply bind_ok in E2 as (w' & W2 & E2). assert (w = w') by congruence. subst w'.
        apply bind_ok in E1 as ([[a b] c] & X1 & E1). apply bind_ok in E2 as ([[a' b'] c'] & X2 & E2). destruct (HN _ _ _ _ _ _ _ _ _ _ _ _ _ X1 X2) as [-> ->].
        apply bind_ok in E1 as (k & K1 & E1). apply bind_ok in E2 as (k' & K2 & E2). assert (k = k') by congruence. subst k'.
        apply bind_ok in E1 as (n & N1 & E1). apply bind_ok in E2 as (n' & N2 & E2). assert (n = n') by congruence. subst n'. split; congruence. }
    destruct HE as [<- <-].
    unfold next, rank. cbn [ref pos]. rewrite E1. cbn [bind]. rewrite <- ES, E2. cbn [bind]. pose proof (row_offset_range _ _ HR) as RR.
    destruct d1.
    + destruct f as [|f]; [lia|]. cbn [eq_loop ref]. exists true. split; [reflexivity|]. split; [|auto]. intros _ idx x' y' Hi Hle Hx' Hy'.
      pose proof (row_offset_range _ _ Hi). specialize (A4 eq_refl). assert (Eo : row_offset (shape s1) ps = row_offset (shape s1) idx) by lia.
      apply row_offset_inj in Eo; auto. subst idx. rewrite <- Hp in Hx'. rewrite <- Hq in Hy'. congruence.
    + pose proof (row_offset_range _ _ (A3 eq_refl)) as RR'. destruct (IH (p + off1) (q + off2) ps1) as (b & Eb & Hb); auto; try lia. rewrite Eb. exists b. split; [reflexivity|].
      rewrite Hb. split; intros HA idx x' y' Hi Hle Hx' Hy'.
      * destruct (Z.eq_dec (row_offset (shape s1) ps) (row_offset (shape s1) idx)) as [Eo|Ne]; [|apply (HA idx); auto; lia].
        apply row_offset_inj in Eo; auto. subst idx. rewrite <- Hp in Hx'. rewrite <- Hq in Hy'. congruence.
      * apply (HA idx); auto. lia.
  - exists false. split; [reflexivity|]. split; [discriminate|]. intros HA. rewrite <- Exy. apply (HA ps); auto; [lia|now rewrite <- Hp|now rewrite <- Hq].
Qed.
Lemma eq_ok s1 s2 m1 m2 : fits_mem (zlen m1) s1 -> fits_mem (zlen m2) s2 ->
  exists b, eq (S (Z.to_nat (prod (shape s1)))) eqb m1 m2 s1 s2 = Ok b /\
    (b = true <-> shape s1 = shape s2 /\ forall idx x y, in_range idx (shape s1) ->
        aget m1 (data s1 + dot idx (stride s1)) = Ok x -> aget m2 (data s2 + dot idx (stride s2)) = Ok y -> eqb x y = true).
Proof.
  intros HM1 HM2. unfold eq. destruct (list_eq_dec Z.eq_dec (shape s1) (shape s2)) as [ES|NS].
  - pose proof HM1 as (H1 & H2 & H3 & H4). unfold begin_, rank. rewrite <- ES.
    destruct (eq_loop_ok s1 s2 m1 m2 (S (Z.to_nat (prod (shape s1)))) ES HM1 HM2 (data s1) (data s2) (repeat 0 (length (shape s1)))) as (b & Eb & Hb).
    + now apply in_range_zeros.
    + rewrite dot_zeros. lia.
    + rewrite dot_zeros. lia.
    + rewrite row_offset_zeros. rewrite Z.sub_0_r. lia.
    + exists b. split; [exact Eb|]. rewrite Hb. rewrite row_offset_zeros. split; [intros HA; split; [reflexivity|]|intros [_ HA]]; intros idx x y Hi.
      * pose proof (row_offset_range _ _ Hi). apply HA; auto. lia.
      * intros _. apply HA; auto.
  - exists false. split; [reflexivity|]. split; [discriminate|]. intros [? _]. congruence.
Qed.
End SetEq.
