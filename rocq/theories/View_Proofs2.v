From Verif Require Import Base Utf8_Model Utf8_Spec Utf8_Proofs Utf8_Proofs2 Utf8_Proofs3 Utf8_Proofs4 Utf8_Proofs5 Utf8_Proofs6 View_Model View_Spec View_Proofs.

(** ** Hashing *)
Lemma at_slice m p l a b : holds_at m p l -> l = a ++ b -> aslice m p (zlen a) = Ok a.
Proof.
  intros (pre & post & -> & ->) ->. pose proof (zlen_nonneg pre). pose proof (zlen_nonneg a). pose proof (zlen_nonneg b). pose proof (zlen_nonneg post).
  rewrite aslice_ok by (rewrite ?zlen_app; lia). f_equal.
  rewrite skipn_app, skipn_all2 by (unfold zlen in *; lia). replace (Z.to_nat (zlen pre) - length pre)%nat with O by (unfold zlen; lia). cbn [skipn app].
  rewrite <- app_assoc, firstn_app, firstn_all2 by (unfold zlen; lia). replace (Z.to_nat (zlen a) - length a)%nat with O by (unfold zlen; lia). cbn [firstn]. now rewrite app_nil_r.
Qed.
Lemma W64_range x : 0 <= x mod W64 < W64.
Proof. apply Z.mod_pos_bound. reflexivity. Qed.
Lemma lxor_range n a b : 0 <= n -> 0 <= a < 2 ^ n -> 0 <= b < 2 ^ n -> 0 <= Z.lxor a b < 2 ^ n.
Proof.
  intros Hn Ha Hb. split; [apply Z.lxor_nonneg; lia|]. destruct (Z.eq_dec (Z.lxor a b) 0) as [->|N]; [lia|].
  assert (0 <= Z.lxor a b) by (apply Z.lxor_nonneg; lia). apply Z.log2_lt_pow2; [lia|]. destruct (Z.eq_dec n 0) as [->|]; [replace a with 0 in N by (cbn in *; lia); replace b with 0 in N by (cbn in *; lia); now destruct N|].
  assert (HL : forall x, 0 <= x < 2 ^ n -> Z.log2 x < n).
  { intros x Hx. destruct (Z.eq_dec x 0) as [->|]; [cbn; lia|]. apply Z.log2_lt_pow2; lia. }
  eapply Z.le_lt_trans; [apply Z.log2_lxor; lia|]. apply Z.max_lub_lt; apply HL; auto.
Qed.
Lemma hash_loop_ok : forall f1 f2 l m1 p1 m2 p2 blk h, holds_at m1 p1 l -> holds_at m2 p2 l -> (length l < 8 * f1)%nat -> (length l < 8 * f2)%nat ->
  exists v, basehash_loop f1 m1 p1 (zlen l) blk h = Ok v /\ basehash_loop f2 m2 p2 (zlen l) blk h = Ok v /\ 0 <= v < 2 ^ 64.
Proof.
  induction f1 as [|f1 IH]; intros f2 l m1 p1 m2 p2 blk h H1 H2 L1 L2; [lia|]. destruct f2 as [|f2]; [lia|]. cbn [basehash_loop]. destruct (Z.ltb_spec 8 (zlen l)) as [G|G].
  - destruct (list_split_at l 8 ltac:(lia)) as (a & b & E & La). rewrite <- La. rewrite (at_slice m1 p1 l a b H1 E), (at_slice m2 p2 l a b H2 E). cbn [bind].
    subst l. rewrite zlen_app, La in *. replace (8 + zlen b - 8) with (zlen b) by lia. apply at_app in H1 as [_ H1], H2 as [_ H2]. rewrite La in *.
    apply IH; auto; rewrite app_length in *; unfold zlen in *; lia.
  - assert (E : l = l ++ []) by now rewrite app_nil_r. rewrite (at_slice m1 p1 l l [] H1 E), (at_slice m2 p2 l l [] H2 E). cbn [bind]. eexists. split; [reflexivity|]. split; [reflexivity|].
    pose proof (W64_range (Z.lxor h (over blk l) * 0xb0340f4501000193)) as R. unfold W64 in *. remember ((Z.lxor h (over blk l) * 0xb0340f4501000193) mod 2 ^ 64) as x eqn:Ex. clear Ex. apply lxor_range; [lia|exact R|].
    rewrite Z.shiftr_div_pow2 by lia. split; [apply Z.div_pos; lia|]. apply Z.div_lt_upper_bound; lia.
Qed.
Definition hash_of (l : list Z) : Z := match basehash l 0 (zlen l) with Ok h => h | Err _ => 0 end.
Lemma at_self l : holds_at l 0 l.
Proof. exists [], []. split; [now rewrite app_nil_r|reflexivity]. Qed.
Lemma basehash_ok m p l : holds_at m p l -> basehash m p (zlen l) = Ok (hash_of l) /\ 0 <= hash_of l < 2 ^ 64.
Proof.
  intros H. unfold hash_of, basehash. pose proof (fuel_len _ _ _ H).
  destruct (hash_loop_ok (S (length m)) (S (length l)) l m p l 0 0 0x811c9dc5 H (at_self l)) as (v & E1 & E2 & R); [lia|lia|].
  rewrite E1, E2. auto.
Qed.
Definition hash_n_of (l : list Z) : Z :=
  if zlen l =? 8 then le_val l * 0xc6a4a7935bd1e99d mod W64 else if zlen l =? 4 then le_val l * 0xa2ffeb2f01000193 mod W64 else hash_of l.
Lemma hash_n_ok m p l : holds_at m p l -> hash_n m p (zlen l) = Ok (hash_n_of l) /\ 0 <= hash_n_of l < 2 ^ 64.
Proof.
  intros H. unfold hash_n, hash_n_of. assert (E : l = l ++ []) by now rewrite app_nil_r. pose proof (at_slice m p l l [] H E) as S.
  destruct (Z.eqb_spec (zlen l) 8) as [E8|N8]; [rewrite E8 in S; rewrite S; split; [reflexivity|apply W64_range]|].
  destruct (Z.eqb_spec (zlen l) 4) as [E4|N4]; [rewrite E4 in S; rewrite S; split; [reflexivity|apply W64_range]|]. now apply basehash_ok.
Qed.

(** ** UTF-8 functions of views *)
Lemma back_S k m b p u : back_loop (S k) m b p u =
  (if (u =? 0) || (p =? b) then Ok p else let* c := aget m (p - 1) in back_loop k m b (p - 1) (if is_cont c then u else u - 1)).
Proof. reflexivity. Qed.
Lemma fwd_S k m s e u : fwd_loop (S k) m s e u =
  (if (0 <? u) && negb (s =? e) then let* c := aget m (s + 1) in fwd_loop k m (s + 1) e (if is_cont c then u else u - 1) else Ok s).
Proof. reflexivity. Qed.
Lemma back_char m f b0 base : is_cont b0 = false -> forall r s u, conts r -> holds_at m s (b0 :: r) -> 0 < u -> base <= s ->
  back_loop (S (length r) + f) m base (s + 1 + zlen r) u = back_loop f m base s (u - 1).
Proof.
  intros Hb r. induction r as [|y r IH] using rev_ind; intros s u HC HA Hu Hs; cbn [length Nat.add].
  - rewrite back_S. change (zlen []) with 0. destruct (Z.eqb_spec u 0); [lia|]. destruct (Z.eqb_spec (s + 1 + 0) base); [lia|]. cbn [orb].
    replace (s + 1 + 0 - 1) with s by lia. rewrite (at_head _ _ _ _ HA). cbn [bind]. now rewrite Hb.
  - rewrite app_length, Nat.add_comm. cbn [length Nat.add]. rewrite back_S. rewrite zlen_app. change (zlen [y]) with 1. pose proof (zlen_nonneg r).
    destruct (Z.eqb_spec u 0); [lia|]. destruct (Z.eqb_spec (s + 1 + (zlen r + 1)) base); [lia|]. cbn [orb].
    replace (s + 1 + (zlen r + 1) - 1) with (s + 1 + zlen r) by lia. apply Forall_app in HC as [HC HY]. inversion HY as [|? ? Hy _]; subst.
    rewrite app_comm_cons in HA. apply at_app in HA as [HA HA2]. rewrite zlen_cons in HA2. replace (s + (1 + zlen r)) with (s + 1 + zlen r) in HA2 by lia.
    rewrite (at_head _ _ _ _ HA2). cbn [bind]. rewrite Hy. rewrite <- (IH s u); auto. f_equal. cbn [Nat.add]. lia.
Qed.
Lemma enc_parts c : scalar c -> exists b r, enc c = b :: r /\ conts r /\ is_cont b = false.
Proof. intros Hc. destruct (enc_inj_head c Hc) as (b & r & E & Hr & Hb & _). exists b, r. auto. Qed.
Lemma back_all m base : forall cs k f, Forall scalar cs -> holds_at m base (enc_all cs) -> (length (enc_all cs) < f)%nat ->
  back_loop f m base (base + zlen (enc_all cs)) (Z.of_nat k) = Ok (base + zlen (enc_all (firstn (length cs - k) cs))).
Proof.
  induction cs as [|c cs IH] using rev_ind; intros k f Hs HA Hf.
  - destruct f; [cbn in Hf; lia|]. rewrite back_S. cbn [enc_all flat_map]. change (zlen []) with 0. rewrite Z.add_0_r, Z.eqb_refl, orb_true_r. rewrite firstn_nil. cbn. now rewrite Z.add_0_r.
  - destruct k as [|k].
    + rewrite Nat.sub_0_r, firstn_all. destruct f; [lia|]. rewrite back_S. reflexivity.
    + apply Forall_app in Hs as [Hs Hc]. inversion Hc as [|? ? Hc1 _]; subst. rewrite enc_all_app in *. change (enc_all [c]) with (enc c ++ []) in *. rewrite app_nil_r in *.
      apply at_app in HA as [HA HC]. destruct (enc_parts c Hc1) as (b & r & E & Cr & Cb). rewrite E in *. rewrite zlen_app, zlen_cons.
      rewrite app_length in Hf. cbn [length] in Hf. replace f with (S (length r) + (f - S (length r)))%nat by lia. pose proof (zlen_nonneg (enc_all cs)).
      replace (base + (zlen (enc_all cs) + (1 + zlen r))) with (base + zlen (enc_all cs) + 1 + zlen r) by lia. rewrite (back_char m _ b base Cb r); auto; [|lia|lia].
      replace (Z.of_nat (S k) - 1) with (Z.of_nat k) by lia. rewrite IH; auto; [|lia]. rewrite app_length. cbn [length]. replace (length cs + 1 - S k)%nat with (length cs - k)%nat by lia.
      rewrite firstn_app. replace (length cs - k - length cs)%nat with O by lia. cbn [firstn]. now rewrite app_nil_r.
Qed.
Lemma shows_suffix a cs j : shows a (enc_all cs) -> shows (V (mem a) (buf a + zlen (enc_all (firstn j cs))) (size a - zlen (enc_all (firstn j cs)))) (enc_all (skipn j cs)).
Proof.
  intros [HA EA]. assert (E : enc_all cs = enc_all (firstn j cs) ++ enc_all (skipn j cs)) by (now rewrite <- enc_all_app, firstn_skipn). split; cbn [mem buf size].
  - rewrite E in HA. now apply at_app in HA.
  - rewrite EA, E, zlen_app. lia.
Qed.
Lemma u8_tail_ok a cs k : shows a (enc_all cs) -> Forall scalar cs -> exists v, u8_tail a (Z.of_nat k) = Ok v /\ shows v (enc_all (skipn (length cs - k) cs)).
Proof.
  intros HS Hs. unfold u8_tail. pose proof HS as [HA EA]. rewrite EA. rewrite back_all; auto; [|unfold zlen; lia]. cbn [bind]. eexists. split; [reflexivity|].
  pose proof (shows_suffix a cs (length cs - k) HS) as R. rewrite EA in R.
  replace (buf a + zlen (enc_all (firstn (length cs - k) cs)) - buf a) with (zlen (enc_all (firstn (length cs - k) cs))) by lia. exact R.
Qed.
Lemma fwd_char m f e x t : is_cont x = false -> forall r b s u, conts r -> holds_at m s (b :: r ++ x :: t) -> 0 < u -> s + 1 + zlen r <= e ->
  fwd_loop (S (length r) + f) m s e u = fwd_loop f m (s + 1 + zlen r) e (u - 1).
Proof.
  intros Hx. induction r as [|y r IH]; intros b s u HC HA Hu He; cbn [length Nat.add]; rewrite fwd_S.
  - change (zlen []) with 0 in *. destruct (Z.ltb_spec 0 u); [|lia]. destruct (Z.eqb_spec s e); [lia|]. cbn [negb andb]. apply at_tail in HA. cbn [app] in HA. rewrite (at_head _ _ _ _ HA). cbn [bind]. rewrite Hx. now rewrite Z.add_0_r.
  - rewrite zlen_cons in *. pose proof (zlen_nonneg r). destruct (Z.ltb_spec 0 u); [|lia]. destruct (Z.eqb_spec s e); [lia|]. cbn [negb andb]. apply at_tail in HA. cbn [app] in HA. rewrite (at_head _ _ _ _ HA). cbn [bind].
    inversion HC as [|? ? Hy HC']; subst. rewrite Hy. cbn [Nat.add] in IH. rewrite (IH y (s + 1) u); auto; [|lia]. f_equal. lia.
Qed.
Lemma fwd_all m e x t : is_cont x = false -> forall cs f s k, Forall scalar cs -> holds_at m s (enc_all cs ++ x :: t) -> (length (enc_all cs) < f)%nat ->
  k = Z.of_nat (length cs) /\ s + zlen (enc_all cs) <= e \/ Z.of_nat (length cs) <= k /\ s + zlen (enc_all cs) = e ->
  fwd_loop f m s e k = Ok (s + zlen (enc_all cs)).
Proof.
  intros Hx. induction cs as [|c cs IH]; intros f s k Hs HA Hf D.
  - destruct f; [cbn in Hf; lia|]. rewrite fwd_S. cbn [enc_all flat_map length] in *. change (zlen []) with 0 in *. rewrite Z.add_0_r in *.
    destruct (Z.ltb_spec 0 k); [|reflexivity]. destruct D as [[D _]|[_ D]]; [lia|]. rewrite D, Z.eqb_refl. reflexivity.
  - inversion Hs as [|? ? Hc Hs']; subst. rewrite enc_all_cons in *. destruct (enc_parts c Hc) as (b & r & E & Cr & Cb). rewrite E in *. rewrite zlen_app, zlen_cons in *. cbn [length] in D.
    rewrite app_length in Hf. cbn [length] in Hf. pose proof (zlen_nonneg (enc_all cs)). replace f with (S (length r) + (f - S (length r)))%nat by lia.
    cbn [app] in HA. rewrite <- app_assoc in HA. destruct (rest_head cs x t Hs' Hx) as (x' & t' & E' & Hx'). rewrite E' in HA. rewrite (fwd_char m _ e x' t' Hx' r b); auto; [|lia|lia].
    rewrite IH; auto; [f_equal; lia| |lia|lia]. rewrite <- E' in HA. change (b :: r ++ enc_all cs ++ x :: t) with ((b :: r) ++ enc_all cs ++ x :: t) in HA. apply at_app in HA as [_ HA]. rewrite zlen_cons in HA.
    replace (s + 1 + zlen r) with (s + (1 + zlen r)) by lia. exact HA.
Qed.
(** Going [k] characters forward in a view whose next byte may be read, or staying inside. *)
Lemma fwd_view m e x t cs s k f : is_cont x = false -> Forall scalar cs -> holds_at m s (enc_all cs ++ x :: t) -> e = s + zlen (enc_all cs) -> (length (enc_all cs) < f)%nat ->
  fwd_loop f m s e (Z.of_nat k) = Ok (s + cp_offset cs k).
Proof.
  intros Hx Hs HA He Hf. unfold cp_offset. destruct (Nat.le_gt_cases (length cs) k) as [L|L].
  - rewrite firstn_all2 by lia. apply (fwd_all m e x t); auto. right. lia.
  - pose proof (firstn_skipn k cs) as E. assert (LF : length (firstn k cs) = k) by (rewrite firstn_length; lia). assert (E2 : enc_all cs = enc_all (firstn k cs) ++ enc_all (skipn k cs)) by (now rewrite <- enc_all_app, E).
    rewrite E2 in HA, He, Hf. rewrite app_length in Hf. rewrite zlen_app in He. pose proof (zlen_nonneg (enc_all (skipn k cs))).
    assert (H1 : Forall scalar (firstn k cs)) by (rewrite <- E in Hs; now apply Forall_app in Hs). assert (H2 : Forall scalar (skipn k cs)) by (rewrite <- E in Hs; now apply Forall_app in Hs).
    rewrite <- app_assoc in HA. destruct (rest_head (skipn k cs) x t H2 Hx) as (x' & t' & E' & Hx'). rewrite E' in HA.
    apply (fwd_all m e x' t'); auto; [lia|]. left. lia.
Qed.
Lemma u8_subview_ok a cs x i k : shows a (enc_all cs) -> Forall scalar cs -> holds_at (mem a) (buf a) (enc_all cs ++ [x]) -> is_cont x = false ->
  exists v, u8_subview a (Z.of_nat i) (Z.of_nat k) = Ok v /\ shows v (enc_all (firstn k (skipn i cs))).
Proof.
  intros [HA EA] Hs HX Hx. unfold u8_subview. rewrite EA. assert (HF : (length (enc_all cs) < S (Z.to_nat (zlen (enc_all cs))))%nat) by (unfold zlen; lia).
  rewrite (fwd_view _ _ x [] cs (buf a) i); auto. cbn [bind]. assert (E : enc_all cs = enc_all (firstn i cs) ++ enc_all (skipn i cs)) by (now rewrite <- enc_all_app, firstn_skipn).
  rewrite E in HX. rewrite <- app_assoc in HX. apply at_app in HX as [_ HX]. assert (H2 : Forall scalar (skipn i cs)) by (rewrite <- (firstn_skipn i cs) in Hs; now apply Forall_app in Hs).
  unfold cp_offset at 1. rewrite (fwd_view _ _ x [] (skipn i cs) (buf a + zlen (enc_all (firstn i cs))) k); auto; [|rewrite E at 1; rewrite zlen_app; lia|rewrite E in HF at 1; rewrite app_length in HF; lia].
  cbn [bind]. eexists. split; [reflexivity|]. unfold cp_offset. split; cbn [mem buf size]; [|lia].
  rewrite <- (firstn_skipn k (skipn i cs)), enc_all_app, <- app_assoc in HX. now apply at_app in HX.
Qed.
Lemma u8_at_ok a cs x i c : shows a (enc_all cs) -> Forall scalar cs -> holds_at (mem a) (buf a) (enc_all cs ++ [x]) -> is_cont x = false -> nth_error cs i = Some c ->
  exists v, u8_at a (Z.of_nat i) = Ok v /\ shows v (enc c).
Proof.
  intros [HA EA] Hs HX Hx Hn. unfold u8_at. rewrite EA. assert (HF : (length (enc_all cs) < S (Z.to_nat (zlen (enc_all cs))))%nat) by (unfold zlen; lia).
  rewrite (fwd_view _ _ x [] cs (buf a) i); auto. cbn [bind]. apply nth_error_split in Hn as (l1 & l2 & -> & L1). apply Forall_app in Hs as [Hs1 Hs2]. inversion Hs2 as [|? ? Hc Hs3]; subst.
  unfold cp_offset. rewrite firstn_app, Nat.sub_diag, firstn_all. cbn [firstn]. rewrite app_nil_r.
  rewrite enc_all_app, enc_all_cons in HA, HX |- *. apply at_app in HA as [_ HA]. rewrite (chr_size_ok _ c (enc_all l2)); auto. cbn [bind]. rewrite !zlen_app. pose proof (enc_zlen c Hc). pose proof (zlen_nonneg (enc_all l2)).
  destruct (Z.eqb_spec (buf a + zlen (enc_all l1)) (buf a + (zlen (enc_all l1) + (zlen (enc c) + zlen (enc_all l2))))); [lia|]. eexists. split; [reflexivity|]. split; cbn [mem buf size]; auto. now apply at_app in HA.
Qed.

(** ** c_each over characters *)
Fixpoint char_spans (p : Z) (cs : list Z) : list (Z * Z) :=
  match cs with [] => [] | c :: r => (p, zlen (enc c)) :: char_spans (p + zlen (enc c)) r end.
Lemma each_n_S k m ref n e : each_n (S k) m ref n e =
  (let* n' := chr_size m (ref + n) in if ref + n =? e then Ok [(ref, n)] else let* l := each_n k m (ref + n) n' e in Ok ((ref, n) :: l)).
Proof. reflexivity. Qed.
Lemma each_n_ok m x t e : forall cs c f s, Forall scalar (c :: cs) -> holds_at m s (enc_all (c :: cs) ++ x :: t) -> e = s + zlen (enc_all (c :: cs)) -> (length cs < f)%nat ->
  each_n f m s (zlen (enc c)) e = Ok (char_spans s (c :: cs)).
Proof.
  induction cs as [|d cs IH]; intros c f s Hs HA He Hf; (destruct f; [cbn in Hf; lia|]); rewrite each_n_S; inversion Hs as [|? ? Hc Hs'].
  - change (enc_all [c]) with (enc c ++ []) in *. rewrite app_nil_r in *. apply at_app in HA as [_ HA]. unfold chr_size. rewrite (at_head _ _ _ _ HA). cbn [bind]. rewrite He, Z.eqb_refl. reflexivity.
  - rewrite enc_all_cons in HA. rewrite <- app_assoc in HA. apply at_app in HA as [_ HA]. inversion Hs' as [|? ? Hd _]. pose proof HA as HA'. rewrite enc_all_cons, <- app_assoc in HA. rewrite (chr_size_ok m d (enc_all cs ++ x :: t)); auto. cbn [bind].
    rewrite !enc_all_cons, !zlen_app in He. pose proof (enc_zlen c Hc). pose proof (enc_zlen d Hd). pose proof (zlen_nonneg (enc_all cs)). destruct (Z.eqb_spec (s + zlen (enc c)) e); [lia|].
    cbn [length] in Hf. rewrite (IH d f); [reflexivity|exact Hs'|exact HA'|rewrite enc_all_cons, zlen_app; lia|lia].
Qed.
Lemma enc_all_len cs : Forall scalar cs -> (length cs <= length (enc_all cs))%nat.
Proof.
  induction 1 as [|c cs Hc H IH]; [cbn; lia|]. rewrite enc_all_cons, app_length. pose proof (enc_zlen c Hc). unfold zlen in *. cbn [length]. lia.
Qed.
Lemma each_ok a cs x : Forall scalar cs -> cs <> [] -> holds_at (mem a) (buf a) (enc_all cs ++ [x]) -> size a = zlen (enc_all cs) -> each a = Ok (char_spans (buf a) cs).
Proof.
  intros Hs Hn HA HE. destruct cs as [|c cs]; [contradiction|]. unfold each. inversion Hs as [|? ? Hc Hs']; subst. pose proof HA as HA'. rewrite enc_all_cons, <- app_assoc in HA'. rewrite (chr_size_ok _ c (enc_all cs ++ [x])); auto. cbn [bind].
  apply (each_n_ok _ x []); auto; [lia|]. apply fuel_len in HA'. rewrite !app_length in HA'. pose proof (enc_all_len cs Hs'). lia.
Qed.
Lemma z_each_n_S k m ref n : z_each_n (S k) m ref n =
  (let* n' := chr_size m (ref + n) in let* b := aget m (ref + n) in if b =? 0 then Ok [(ref, n)] else let* l := z_each_n k m (ref + n) n' in Ok ((ref, n) :: l)).
Proof. reflexivity. Qed.
Lemma z_each_n_ok m : forall cs c f s, Forall scalar (c :: cs) -> zstring m s (enc_all (c :: cs)) -> (length cs < f)%nat ->
  z_each_n f m s (zlen (enc c)) = Ok (char_spans s (c :: cs)).
Proof.
  induction cs as [|d cs IH]; intros c f s Hs [HZ HA] Hf; (destruct f; [cbn in Hf; lia|]); rewrite z_each_n_S; inversion Hs as [|? ? Hc Hs']; subst.
  - change (enc_all [c]) with (enc c ++ []) in *. rewrite app_nil_r in *. apply at_app in HA as [_ HA]. unfold chr_size. rewrite (at_head _ _ _ _ HA). reflexivity.
  - rewrite enc_all_cons in HA, HZ. rewrite <- app_assoc in HA. apply at_app in HA as [_ HA]. inversion Hs' as [|? ? Hd _]; subst. pose proof HA as HA'. rewrite enc_all_cons, <- app_assoc in HA. rewrite (chr_size_ok m d (enc_all cs ++ [0])); auto. cbn [bind].
    assert (Hdz : d <> 0). { intros ->. apply HZ. apply in_or_app. right. rewrite enc_all_cons. apply in_or_app. left. now left. }
    destruct (enc_split d Hd Hdz) as (b & r & E & _ & Hb & _). rewrite E in HA. rewrite (at_head _ _ _ _ HA). cbn [bind]. destruct (Z.eqb_spec b 0); [contradiction|].
    cbn [length] in Hf. rewrite (IH d f); [reflexivity|exact Hs'|split; auto; intros H; apply HZ; apply in_or_app; now right|lia].
Qed.
Lemma z_each_ok m p cs : Forall scalar cs -> cs <> [] -> zstring m p (enc_all cs) -> z_each m p = Ok (char_spans p cs).
Proof.
  intros Hs Hn HZ. destruct cs as [|c cs]; [contradiction|]. unfold z_each. inversion Hs as [|? ? Hc Hs']; subst. pose proof HZ as [_ HA]. rewrite enc_all_cons, <- app_assoc in HA. rewrite (chr_size_ok _ c (enc_all cs ++ [0])); auto. cbn [bind].
  apply z_each_n_ok; auto. apply fuel_len in HA. rewrite !app_length in HA. pose proof (enc_all_len cs Hs'). lia.
Qed.

(** ** Case-insensitive equality and suffix test *)
Lemma iequals_ok schar a b cs1 cs2 : shows a (enc_all cs1) -> shows b (enc_all cs2) -> zlen (enc_all cs1) < 2 ^ 31 -> zlen (enc_all cs2) < 2 ^ 31 ->
  Forall scalar cs1 -> Forall scalar cs2 -> ~ In 0 cs2 -> keeps cs1 -> keeps cs2 ->
  exists v, iequals_sv schar a b = Ok v /\ (v = true <-> zlen (enc_all cs1) = zlen (enc_all cs2) /\ map casefold cs1 = map casefold cs2).
Proof.
  intros [HA EA] [HB EB] L1 L2 S1 S2 N2 K1 K2. unfold iequals_sv. rewrite EA, EB. destruct (Z.eqb_spec (zlen (enc_all cs1)) (zlen (enc_all cs2))) as [E|E].
  - destruct (icompare_view schar _ _ cs1 _ _ cs2 HA HB L1 L2 S1 S2 N2 K1 K2) as (r & -> & R). cbn [bind]. eexists. split; [reflexivity|].
    rewrite <- lex_eq, <- R, Z.eqb_eq, Z.compare_eq_iff. tauto.
  - exists false. split; [reflexivity|]. split; [discriminate|tauto].
Qed.
Lemma lex_trans a : forall b c, lex a b = Lt -> lex b c = Lt -> lex a c = Lt.
Proof.
  induction a as [|x a IH]; intros [|y b] [|z c]; cbn; try discriminate; auto.
  destruct (Z.compare_spec x y), (Z.compare_spec y z); try discriminate; intros H1 H2; subst.
  - rewrite Z.compare_refl. eauto.
  - destruct (Z.compare_spec y z); auto; lia.
  - destruct (Z.compare_spec x z); auto; lia.
  - destruct (Z.compare_spec x z); auto; lia.
Qed.
Lemma istarts_ok schar a m p cs1 cs2 : shows a (enc_all cs1) -> zstring m p (enc_all cs2) -> zlen (enc_all cs1) < 2 ^ 31 ->
  Forall scalar cs1 -> Forall scalar cs2 -> keeps cs1 -> keeps cs2 ->
  exists v, istarts_with schar a m p = Ok v /\ (v = true <-> zlen (enc_all cs2) <= zlen (enc_all cs1) /\ map casefold cs1 = map casefold cs2).
Proof.
  intros [HA EA] HZ L1 S1 S2 K1 K2. unfold istarts_with. rewrite (strlen_ok _ _ _ HZ). cbn [bind]. rewrite EA. destruct (Z.leb_spec (zlen (enc_all cs2)) (zlen (enc_all cs1))) as [E|E].
  - destruct HZ as [HN HB]. apply at_app in HB as [HB _]. assert (N2 : ~ In 0 cs2) by (apply (nz_scalars cs2 S2) in HN; rewrite Forall_forall in HN; intros H; exact (HN 0 H eq_refl)).
    destruct (icompare_view schar _ _ cs1 _ _ cs2 HA HB L1 ltac:(lia) S1 S2 N2 K1 K2) as (r & -> & R). cbn [bind]. eexists. split; [reflexivity|].
    rewrite <- lex_eq, <- R, Z.eqb_eq, Z.compare_eq_iff. tauto.
  - exists false. split; [reflexivity|]. split; [discriminate|lia].
Qed.
Lemma iends_ok schar a m p b1 b2 cs : zstring (mem a) (buf a) (enc_all (b1 ++ b2)) -> size a = zlen (enc_all (b1 ++ b2)) -> zstring m p (enc_all cs) ->
  Forall scalar (b1 ++ b2) -> Forall scalar cs -> zlen (enc_all b2) = zlen (enc_all cs) -> zlen (mem a) < 2 ^ 63 - 1 -> zlen m < 2 ^ 63 - 1 ->
  exists v, iends_with schar a m p = Ok v /\ (v = true <-> map casefold b2 = map casefold cs).
Proof.
  intros HZ EA HP S1 S2 HL N1 N2. unfold iends_with. rewrite (strlen_ok _ _ _ HP). cbn [bind]. rewrite EA, enc_all_app, zlen_app in *. pose proof (zlen_nonneg (enc_all b1)).
  destruct (Z.leb_spec (zlen (enc_all cs)) (zlen (enc_all b1) + zlen (enc_all b2))); [|lia].
  assert (HY : zstring (mem a) (buf a + zlen (enc_all b1)) (enc_all b2)).
  { destruct HZ as [HN HA]. rewrite <- app_assoc in HA. apply at_app in HA as [_ HA]. split; auto. intros H'. apply HN. apply in_or_app. now right. }
  replace (buf a + (zlen (enc_all b1) + zlen (enc_all b2)) - zlen (enc_all cs)) with (buf a + zlen (enc_all b1)) by lia. apply Forall_app in S1 as [_ S1].
  destruct (icmp_ok schar _ _ _ _ _ _ HY HP (wf_bytes _ S1) (wf_bytes _ S2) N1 N2) as (r & ds1 & ds2 & -> & D1 & D2 & R & _). cbn [bind]. eexists. split; [reflexivity|]. rewrite Z.eqb_eq, R.
  apply (decodes_wf _ S1) in D1. apply (decodes_wf _ S2) in D2. now subst.
Qed.
