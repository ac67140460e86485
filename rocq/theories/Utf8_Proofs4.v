From Verif Require Import Base Utf8_Tab Utf8_Model Utf8_Spec Utf8_Proofs Utf8_Proofs2 Utf8_Proofs3.
Ltac Zify.zify_post_hook ::= Z.to_euclidean_division_equations.

(** ** Stepping over one code point: a byte [b] <> 0, continuation bytes [r], then [x]. *)
Definition conts (r : list Z) : Prop := Forall (fun x => is_cont x = true) r.
Lemma count_S k m s size : count_loop (S k) m s size =
  (let* b := aget m s in if b =? 0 then Ok size else let* c := aget m (s + 1) in count_loop k m (s + 1) (if is_cont c then size else size + 1)).
Proof. reflexivity. Qed.
Lemma count_n_S k m s n size : count_n_loop (S k) m s n size =
  (let* b := aget m s in if negb (n =? 0) && negb (b =? 0) then let* c := aget m (s + 1) in count_n_loop k m (s + 1) (n - 1) (if is_cont c then size else size + 1) else Ok size).
Proof. reflexivity. Qed.
Lemma at_S k m s u : at_loop (S k) m s u =
  (let* b := aget m s in if (0 <? u) && negb (b =? 0) then let* c := aget m (s + 1) in at_loop k m (s + 1) (if is_cont c then u else u - 1) else Ok s).
Proof. reflexivity. Qed.
Lemma offset_S k m inc s u : offset_loop (S k) m inc s u =
  (if u =? 0 then Ok s else let* b := aget m s in if b =? 0 then Ok s else let* c := aget m (s + inc) in offset_loop k m inc (s + inc) (if is_cont c then u else u - 1)).
Proof. reflexivity. Qed.
Lemma cont_nz x : is_cont x = true -> x <> 0.
Proof. intros H ->. discriminate H. Qed.
Lemma count_step m f x t : is_cont x = false -> forall r b s n, conts r -> b <> 0 -> holds_at m s (b :: r ++ x :: t) ->
  count_loop (S (length r) + f) m s n = count_loop f m (s + 1 + zlen r) (n + 1).
Proof.
  intros Hx. induction r as [|y r IH]; intros b s n HC Hb HA; cbn [length Nat.add]; rewrite count_S; rewrite (at_head _ _ _ _ HA); cbn [bind];
    (destruct (Z.eqb_spec b 0); [contradiction|]); apply at_tail in HA; cbn [app] in HA; rewrite (at_head _ _ _ _ HA); cbn [bind].
  - rewrite Hx. change (zlen []) with 0. f_equal. lia.
  - inversion HC as [|? ? Hy HC']; subst. rewrite Hy. change (S (length r + f)) with (S (length r) + f)%nat. rewrite (IH y); auto using cont_nz.
    rewrite zlen_cons. f_equal. lia.
Qed.
Lemma count_n_step m f x t : is_cont x = false -> forall r b s k n, conts r -> b <> 0 -> holds_at m s (b :: r ++ x :: t) -> 1 + zlen r <= k ->
  count_n_loop (S (length r) + f) m s k n = count_n_loop f m (s + 1 + zlen r) (k - 1 - zlen r) (n + 1).
Proof.
  intros Hx. induction r as [|y r IH]; intros b s k n HC Hb HA Hk; cbn [length Nat.add]; rewrite count_n_S; rewrite (at_head _ _ _ _ HA); cbn [bind];
    (destruct (Z.eqb_spec b 0); [contradiction|]); apply at_tail in HA; cbn [app] in HA; rewrite (at_head _ _ _ _ HA); cbn [bind].
  - change (zlen []) with 0 in *. destruct (Z.eqb_spec k 0); [lia|]. cbn [negb andb]. rewrite Hx. f_equal; lia.
  - inversion HC as [|? ? Hy HC']; subst. rewrite Hy. rewrite zlen_cons in *. pose proof (zlen_nonneg r). destruct (Z.eqb_spec k 0); [lia|]. cbn [negb andb].
    change (S (length r + f)) with (S (length r) + f)%nat. rewrite (IH y); auto using cont_nz; [|lia]. f_equal; lia.
Qed.
Lemma at_step m f x t : is_cont x = false -> forall r b s u, conts r -> b <> 0 -> holds_at m s (b :: r ++ x :: t) -> 0 < u ->
  at_loop (S (length r) + f) m s u = at_loop f m (s + 1 + zlen r) (u - 1).
Proof.
  intros Hx. induction r as [|y r IH]; intros b s u HC Hb HA Hu; cbn [length Nat.add]; rewrite at_S; rewrite (at_head _ _ _ _ HA); cbn [bind];
    (destruct (Z.eqb_spec b 0); [contradiction|]); (destruct (Z.ltb_spec 0 u); [|lia]); cbn [negb andb]; apply at_tail in HA; cbn [app] in HA; rewrite (at_head _ _ _ _ HA); cbn [bind].
  - rewrite Hx. change (zlen []) with 0. f_equal; lia.
  - inversion HC as [|? ? Hy HC']; subst. rewrite Hy. change (S (length r + f)) with (S (length r) + f)%nat. rewrite (IH y); auto using cont_nz.
    rewrite zlen_cons. f_equal. lia.
Qed.
Lemma offset_step m f x t : is_cont x = false -> forall r b s u, conts r -> b <> 0 -> holds_at m s (b :: r ++ x :: t) -> 0 < u ->
  offset_loop (S (length r) + f) m 1 s u = offset_loop f m 1 (s + 1 + zlen r) (u - 1).
Proof.
  intros Hx. induction r as [|y r IH]; intros b s u HC Hb HA Hu; cbn [length Nat.add]; rewrite offset_S; (destruct (Z.eqb_spec u 0); [lia|]); rewrite (at_head _ _ _ _ HA); cbn [bind];
    (destruct (Z.eqb_spec b 0); [contradiction|]); apply at_tail in HA; cbn [app] in HA; rewrite (at_head _ _ _ _ HA); cbn [bind].
  - rewrite Hx. change (zlen []) with 0. f_equal; lia.
  - inversion HC as [|? ? Hy HC']; subst. rewrite Hy. change (S (length r + f)) with (S (length r) + f)%nat. rewrite (IH y); auto using cont_nz.
    rewrite zlen_cons. f_equal. lia.
Qed.
(** backwards: the code point b0 :: r ends just before [s], where x <> 0 *)
Lemma back_step m f b0 : is_cont b0 = false -> forall r s x t u, conts r -> x <> 0 -> holds_at m (s - 1 - zlen r) (b0 :: r ++ x :: t) -> 0 < u ->
  offset_loop (S (length r) + f) m (-1) s u = offset_loop f m (-1) (s - 1 - zlen r) (u - 1).
Proof.
  intros Hx r. induction r as [|y r IH] using rev_ind; intros s x t u HC Hb HA Hu.
  - cbn [length Nat.add app] in *. rewrite offset_S. change (zlen []) with 0 in *. rewrite Z.sub_0_r in *. destruct (Z.eqb_spec u 0); [lia|].
    pose proof (at_tail _ _ _ _ HA) as HT. replace (s - 1 + 1) with s in HT by lia. rewrite (at_head _ _ _ _ HT). cbn [bind].
    destruct (Z.eqb_spec x 0); [contradiction|]. change (s + -1) with (s - 1). rewrite (at_head _ _ _ _ HA). cbn [bind]. now rewrite Hx.
  - rewrite app_length. cbn [length]. replace (S (length r + 1) + f)%nat with (S (S (length r) + f)) by lia. rewrite offset_S. destruct (Z.eqb_spec u 0); [lia|].
    assert (L : zlen (r ++ [y]) = zlen r + 1) by (rewrite zlen_app; reflexivity). rewrite L in *.
    apply Forall_app in HC as [HC Hy]. inversion Hy as [|? ? Hy1 _]; subst.
    rewrite <- app_assoc in HA. cbn [app] in HA.
    pose proof (at_app _ _ (b0 :: r) (y :: x :: t) HA) as [_ HT]. rewrite zlen_cons in HT. replace (s - 1 - (zlen r + 1) + (1 + zlen r)) with (s - 1) in HT by lia.
    pose proof (at_tail _ _ _ _ HT) as HT2. replace (s - 1 + 1) with s in HT2 by lia. rewrite (at_head _ _ _ _ HT2). cbn [bind].
    destruct (Z.eqb_spec x 0); [contradiction|]. change (s + -1) with (s - 1). rewrite (at_head _ _ _ _ HT). cbn [bind]. rewrite Hy1.
    rewrite (IH (s - 1) y (x :: t)); auto using cont_nz; [f_equal; lia|]. replace (s - 1 - 1 - zlen r) with (s - 1 - (zlen r + 1)) by lia. exact HA.
Qed.

(** ** Well-formed strings *)
Lemma rest_head cs y t : Forall scalar cs -> is_cont y = false -> exists x t', enc_all cs ++ y :: t = x :: t' /\ is_cont x = false.
Proof.
  intros H Hy. destruct H as [|c cs Hc H]; [exists y, t; auto|]. unfold enc_all. cbn [flat_map]. destruct (enc_inj_head c Hc) as (b & r & -> & _ & Hb & _).
  cbn [app]. eauto.
Qed.
Lemma enc_split c : scalar c -> c <> 0 -> exists b r, enc c = b :: r /\ conts r /\ b <> 0 /\ is_cont b = false.
Proof.
  intros Hc Hn. destruct (enc_inj_head c Hc) as (b & r & E & Hr & Hb & Hi). exists b, r. repeat split; auto.
  intros ->. unfold enc in E. revert E. unfold scalar in *. cases; intros E; apply (f_equal (hd 1)) in E; cbn [hd] in E; lia.
Qed.
Lemma enc_zero : enc 0 = [0]. Proof. reflexivity. Qed.
Lemma nz_scalars cs : Forall scalar cs -> ~ In 0 (enc_all cs) <-> Forall (fun c => c <> 0) cs.
Proof.
  intros H. split.
  - intros HN. apply Forall_forall. intros c Hc ->. apply HN. unfold enc_all. apply in_flat_map. exists 0. split; auto. rewrite enc_zero. now left.
  - intros HF HI. unfold enc_all in HI. apply in_flat_map in HI as (c & Hc & Hi). rewrite Forall_forall in H, HF.
    destruct (enc_split c (H c Hc) (HF c Hc)) as (b & r & E & Hr & Hb & _). rewrite E in Hi. destruct Hi as [->|Hi]; [contradiction|].
    unfold conts in Hr. rewrite Forall_forall in Hr. specialize (Hr 0 Hi). discriminate Hr.
Qed.
Lemma enc_all_cons c cs : enc_all (c :: cs) = enc c ++ enc_all cs. Proof. reflexivity. Qed.
Lemma enc_all_app a b : enc_all (a ++ b) = enc_all a ++ enc_all b.
Proof. unfold enc_all. apply flat_map_app. Qed.

Lemma count_all m y t : is_cont y = false -> y = 0 -> forall cs f s n, Forall scalar cs -> Forall (fun c => c <> 0) cs -> holds_at m s (enc_all cs ++ y :: t) -> (length (enc_all cs) < f)%nat ->
  count_loop f m s n = Ok (n + zlen cs).
Proof.
  intros Hy Hy0. induction cs as [|c cs IH]; intros f s n Hs Hz HA Hf.
  - cbn in HA. destruct f; [cbn in Hf; lia|]. cbn [count_loop]. rewrite (at_head _ _ _ _ HA). cbn [bind]. rewrite Hy0. cbn. now rewrite Z.add_0_r.
  - inversion Hs as [|? ? Hc Hs']; inversion Hz as [|? ? Hn Hz']; subst. rewrite enc_all_cons in *. rewrite app_length in Hf.
    destruct (enc_split c Hc Hn) as (b & r & E & Hr & Hb & _). rewrite E in *. rewrite <- app_assoc in HA. cbn [app length] in *.
    destruct (rest_head cs 0 t Hs' Hy) as (x & t' & Ex & Hx).
    replace f with (S (length r) + (f - S (length r)))%nat by lia.
    rewrite (count_step m _ x t' Hx r b) by (auto; now rewrite <- Ex).
    rewrite IH; auto; [rewrite zlen_cons; f_equal; lia| |lia].
    pose proof (at_app _ _ (b :: r) _ HA) as [_ HT]. rewrite zlen_cons in HT. now replace (s + 1 + zlen r) with (s + (1 + zlen r)) by lia.
Qed.
Lemma count_ok m s cs : Forall scalar cs -> zstring m s (enc_all cs) -> count m s = Ok (zlen cs).
Proof.
  intros Hs [Hz HA]. unfold count. rewrite (count_all m 0 [] eq_refl eq_refl cs); auto; [now apply nz_scalars|apply fuel_len in HA; rewrite app_length in HA; lia].
Qed.
(** A view: the byte after it is read too. *)
Lemma count_n_all m y t : is_cont y = false -> forall cs f s n, Forall scalar cs -> Forall (fun c => c <> 0) cs -> holds_at m s (enc_all cs ++ y :: t) -> (length (enc_all cs) < f)%nat ->
  count_n_loop f m s (zlen (enc_all cs)) n = Ok (n + zlen cs).
Proof.
  intros Hy. induction cs as [|c cs IH]; intros f s n Hs Hz HA Hf.
  - cbn in HA. destruct f; [cbn in Hf; lia|]. cbn [count_n_loop]. rewrite (at_head _ _ _ _ HA). cbn. now rewrite Z.add_0_r.
  - inversion Hs as [|? ? Hc Hs']; inversion Hz as [|? ? Hn Hz']; subst. rewrite enc_all_cons in *. rewrite app_length in Hf.
    destruct (enc_split c Hc Hn) as (b & r & E & Hr & Hb & _). rewrite E in *. rewrite <- app_assoc in HA. cbn [app length] in *.
    destruct (rest_head cs y t Hs' Hy) as (x & t' & Ex & Hx). rewrite zlen_cons, zlen_app. pose proof (zlen_nonneg (enc_all cs)).
    replace f with (S (length r) + (f - S (length r)))%nat by lia.
    rewrite (count_n_step m _ x t' Hx r b) by (auto; try lia; now rewrite <- Ex).
    replace (1 + (zlen r + zlen (enc_all cs)) - 1 - zlen r) with (zlen (enc_all cs)) by lia.
    rewrite IH; auto; [rewrite zlen_cons; f_equal; lia| |lia].
    pose proof (at_app _ _ (b :: r) _ HA) as [_ HT]. rewrite zlen_cons in HT. now replace (s + 1 + zlen r) with (s + (1 + zlen r)) by lia.
Qed.
Lemma count_n_ok m s cs y : Forall scalar cs -> ~ In 0 (enc_all cs) -> holds_at m s (enc_all cs ++ [y]) -> is_cont y = false -> count_n m s (zlen (enc_all cs)) = Ok (zlen cs).
Proof.
  intros Hs Hz HA Hy. unfold count_n. rewrite (count_n_all m y [] Hy cs); auto; [now apply nz_scalars|apply fuel_len in HA; rewrite app_length in HA; lia].
Qed.

(** Addressing: the position of the k-th code point, or of the terminator. *)
Lemma at_all m t : forall cs f s k, Forall scalar cs -> Forall (fun c => c <> 0) cs -> holds_at m s (enc_all cs ++ 0 :: t) -> (length (enc_all cs) < f)%nat ->
  at_loop f m s (Z.of_nat k) = Ok (s + cp_offset cs k) /\ offset_loop f m 1 s (Z.of_nat k) = Ok (s + cp_offset cs k).
Proof.
  unfold cp_offset. induction cs as [|c cs IH]; intros f s k Hs Hz HA Hf.
  - cbn in HA. destruct f; [cbn in Hf; lia|]. cbn [at_loop offset_loop]. rewrite (at_head _ _ _ _ HA). cbn [bind Z.eqb negb]. rewrite andb_false_r.
    rewrite firstn_nil. change (zlen (enc_all [])) with 0. rewrite Z.add_0_r. split; [reflexivity|]. now destruct (Z.of_nat k =? 0).
  - inversion Hs as [|? ? Hc Hs']; inversion Hz as [|? ? Hn Hz']; subst. rewrite enc_all_cons in *. rewrite app_length in Hf.
    destruct (enc_split c Hc Hn) as (b & r & E & Hr & Hb & _). rewrite E in *. rewrite <- app_assoc in HA. cbn [app length] in *.
    destruct k as [|k].
    + destruct f; [lia|]. cbn [at_loop offset_loop firstn]. rewrite (at_head _ _ _ _ HA). cbn [bind]. change (zlen (enc_all [])) with 0. rewrite Z.add_0_r. split; reflexivity.
    + destruct (rest_head cs 0 t Hs' eq_refl) as (x & t' & Ex & Hx).
      replace f with (S (length r) + (f - S (length r)))%nat by lia.
      rewrite (at_step m _ x t' Hx r b), (offset_step m _ x t' Hx r b) by (auto; try lia; now rewrite <- Ex).
      replace (Z.of_nat (S k) - 1) with (Z.of_nat k) by lia. cbn [firstn]. rewrite enc_all_cons, E, zlen_app, zlen_cons.
      destruct (IH (f - S (length r))%nat (s + 1 + zlen r) k) as [-> ->]; auto; [|lia|split; f_equal; lia].
      pose proof (at_app _ _ (b :: r) _ HA) as [_ HT]. rewrite zlen_cons in HT. now replace (s + 1 + zlen r) with (s + (1 + zlen r)) by lia.
Qed.
Lemma u8at_ok m s cs k : Forall scalar cs -> zstring m s (enc_all cs) -> u8at m s (Z.of_nat k) = Ok (s + cp_offset cs k) /\ offset m s (Z.of_nat k) = Ok (s + cp_offset cs k).
Proof.
  intros Hs [Hz HA]. unfold u8at, offset. destruct (Z.ltb_spec (Z.of_nat k) 0); [lia|]. apply (at_all m []); auto; [now apply nz_scalars|apply fuel_len in HA; rewrite app_length in HA; lia].
Qed.
Lemma cp_offset_all cs k : (length cs <= k)%nat -> cp_offset cs k = zlen (enc_all cs).
Proof. intros H. unfold cp_offset. now rewrite firstn_all2. Qed.
Lemma cp_offset_mono cs k : Forall scalar cs -> (k < length cs)%nat -> cp_offset cs k < cp_offset cs (S k).
Proof.
  unfold cp_offset. revert k. induction cs as [|c cs IH]; intros k H Hk; cbn [length] in Hk; [lia|]. inversion H; subst. destruct k as [|k].
  - cbn [firstn]. rewrite enc_all_cons, zlen_app. pose proof (enc_zlen c H2). change (zlen (enc_all [])) with 0. lia.
  - cbn [firstn] in *. rewrite !enc_all_cons, !zlen_app. specialize (IH k H3 ltac:(lia)). cbn [firstn] in IH. lia.
Qed.
Lemma at_sub m s cs k : zstring m s (enc_all cs) -> zstring m (s + cp_offset cs k) (enc_all (skipn k cs)).
Proof.
  intros [Hz HA]. unfold cp_offset. rewrite <- (firstn_skipn k cs), enc_all_app in Hz, HA. split.
  - intros H. apply Hz. apply in_or_app. now right.
  - rewrite <- app_assoc in HA. now apply at_app in HA as [_ HA].
Qed.
Lemma peek_loop_enc m c l s : scalar c -> holds_at m s (enc c ++ l) -> peek m s = Ok c.
Proof.
  intros Hc HA. unfold peek.
  assert (G : forall fuel l st cp s n k c, In st states -> Forall is_byte l -> holds_at m s l -> dl st cp n l = (true, c, k) -> (length l <= fuel)%nat ->
     peek_loop fuel m s (st, cp) = Ok (0, c)).
  { clear. induction fuel as [|fuel IH]; intros l st cp s n k c Hs HB HA E Hf; (destruct l as [|b l]; [cbn in E; try discriminate E|]); cbn [length] in Hf; try lia.
    inversion HB as [|? ? Hb HB']; subst. cbn [peek_loop dl] in *. rewrite (at_head _ _ _ _ HA). cbn [bind]. rewrite decode_eq by auto. cbn [bind fst].
    destruct (Z.eqb_spec (nx st b) 0) as [E0|E0].
    - rewrite E0. cbn [Z.ltb]. injection E as <- <-. reflexivity.
    - destruct (Z.eqb_spec (nx st b) 12) as [E1|E1]; [discriminate E|]. pose proof (nx_state st b Hs) as Hs'.
      destruct (Z.ltb_spec 12 (nx st b)).
      + destruct l as [|b1 l]; [discriminate E|]. cbn [negb andb] in E; apply at_tail in HA; eapply (IH (b1 :: l)); eauto; lia.
      + exfalso. unfold states in Hs'. cbn [In] in Hs'. lia. }
  apply at_app in HA as [HA _]. pose proof (dl_enc c 0 [] Hc) as D. rewrite app_nil_r in D.
  rewrite (G (S (length m)) (enc c) 0 0 s 0 (zlen (enc c)) c); auto; [left; reflexivity|now apply enc_bytes|apply fuel_len in HA; lia].
Qed.
Lemma chr_size_ok m c l s : scalar c -> holds_at m s (enc c ++ l) -> chr_size m s = Ok (zlen (enc c)).
Proof.
  intros Hc HA. unfold chr_size. destruct (enc c) as [|b r] eqn:E; [pose proof (enc_zlen c Hc) as H; rewrite E in H; cbn in H; lia|].
  cbn [app] in HA. rewrite (at_head _ _ _ _ HA). cbn [bind]. f_equal. revert E. unfold enc, scalar in *. cases; intros E; pose proof (f_equal (@zlen Z) E) as L; apply (f_equal (hd 1)) in E; cbn [hd] in E; rewrite <- L; unfold zlen; cbn [length]; subst b; cases.
Qed.
(** Where no well-formed sequence starts, peek gives U+FFFD. *)
Lemma nx_zero st : In st states -> nx st 0 = 0 \/ nx st 0 = 12.
Proof.
  intros H. cbn [states In] in H.
  destruct H as [H|[H|[H|[H|[H|[H|[H|[H|[H|[]]]]]]]]]]; subst st; unfold nx; cbn; auto.
Qed.
Lemma peek_loop_bad m : forall l fuel s st cp n c k, (length l < fuel)%nat -> holds_at m s (l ++ [0]) -> Forall is_byte l -> In st states ->
  dl st cp n (l ++ [0]) = (false, c, k) -> exists cp', peek_loop fuel m s (st, cp) = Ok (12, cp').
Proof.
  induction l as [|b l IH]; intros fuel s st cp n c k HF HA HB HS H; (destruct fuel as [|fuel]; [cbn in HF; lia|]).
  - cbn [app dl peek_loop] in *. rewrite (at_head _ _ _ _ HA). cbn [bind]. rewrite decode_eq by (auto; unfold is_byte; lia). cbn [bind fst].
    destruct (nx_zero st HS) as [E|E]; rewrite E in *; [discriminate H|]. cbn. eauto.
  - inversion HB as [|? ? Hb HB']; subst. cbn [app dl peek_loop] in *. rewrite (at_head _ _ _ _ HA). cbn [bind]. rewrite decode_eq by auto. cbn [bind fst].
    destruct (Z.eqb_spec (nx st b) 0) as [E0|E0]; [discriminate H|].
    destruct (Z.eqb_spec (nx st b) 12) as [E1|E1]; [rewrite E1; cbn; eauto|].
    assert (12 <? nx st b = true) as ->.
    { pose proof (nx_state st b HS) as HN. apply Z.ltb_lt. cbn [states In] in HN. lia. }
    assert (NE : match l ++ [0] with [] => false | _ => true end = true) by (destruct l; reflexivity). rewrite NE in H. cbn [negb andb] in H.
    eapply IH in H; eauto; [cbn in HF; lia|eapply at_tail; eauto|apply nx_state; auto].
Qed.
Lemma peek_bad m s l : zstring m s l -> Forall is_byte l -> (forall c r, scalar c -> l ++ [0] <> enc c ++ r) -> peek m s = Ok 0xFFFD.
Proof.
  intros [_ HA] HB HN. unfold peek.
  assert (HB0 : Forall is_byte (l ++ [0])) by (apply Forall_app; split; auto; constructor; auto; unfold is_byte; lia).
  destruct (dl 0 0 0 (l ++ [0])) as [[ok c] k] eqn:E. destruct ok.
  - exfalso. apply dl_inv in E; auto. destruct E as (Hc & (r & Er) & _). exact (HN c r Hc Er).
  - eapply (peek_loop_bad m l (S (length m)) s 0 0) in E; auto.
    + destruct E as (cp' & ->). reflexivity.
    + apply at_len in HA. rewrite zlen_app in HA. unfold zlen in HA. cbn [length] in HA. lia.
    + cbn. auto.
Qed.

(** The k-th code point, with peek_at. *)
Lemma peek_at_ok m s cs k c : Forall scalar cs -> zstring m s (enc_all cs) -> nth_error cs k = Some c -> peek_at m s (Z.of_nat k) = Ok c.
Proof.
  intros Hs HZ Hc. unfold peek_at. destruct (u8at_ok m s cs k Hs HZ) as [_ ->]. cbn [bind].
  destruct (at_sub m s cs k HZ) as [_ HA]. apply nth_error_split in Hc as (l1 & l2 & -> & <-). rewrite skipn_app, skipn_all, Nat.sub_diag in HA. cbn [skipn app] in HA.
  rewrite enc_all_cons, <- app_assoc in HA. apply (peek_loop_enc m c (enc_all l2 ++ [0])); auto. apply Forall_app in Hs as [_ Hs]. now inversion Hs.
Qed.
(** Backwards from the j-th code point (not the terminator). *)
Lemma back_all m t : forall k pre c post f s, Forall scalar (pre ++ c :: post) -> Forall (fun c => c <> 0) (pre ++ c :: post) ->
  holds_at m s (enc_all (pre ++ c :: post) ++ 0 :: t) -> (length (enc_all pre) < f)%nat -> (k <= length pre)%nat ->
  offset_loop f m (-1) (s + zlen (enc_all pre)) (Z.of_nat k) = Ok (s + cp_offset pre (length pre - k)).
Proof.
  unfold cp_offset. intros k pre. revert k. induction pre as [|d pre IH] using rev_ind; intros k c post f s Hs Hz HA Hf Hk.
  - cbn [length] in *. replace k with O by lia. destruct f; [lia|]. reflexivity.
  - rewrite app_length in Hk. cbn [length] in Hk. destruct k as [|k].
    + destruct f; [lia|]. cbn [offset_loop]. cbn [Z.of_nat Z.eqb]. rewrite Nat.sub_0_r, firstn_all. reflexivity.
    + rewrite <- app_assoc in *. cbn [app] in *. pose proof Hs as Hs2. pose proof Hz as Hz2. apply Forall_app in Hs2 as [_ Hs2]. apply Forall_app in Hz2 as [_ Hz2].
      inversion Hs2 as [|? ? Hd Hs3]; inversion Hz2 as [|? ? Hdz Hz3]; subst. inversion Hs3 as [|? ? Hc _]; inversion Hz3 as [|? ? Hcz _]; subst.
      destruct (enc_split d Hd Hdz) as (b & r & E & Hr & Hb & Hbc). destruct (enc_split c Hc Hcz) as (x & r' & E' & _ & Hx & _).
      rewrite enc_all_app, app_length in Hf. rewrite enc_all_app, zlen_app. change (enc_all [d]) with (enc d ++ []) in *. rewrite app_nil_r in *. rewrite E in *. cbn [length] in Hf.
      replace f with (S (length r) + (f - S (length r)))%nat by lia. rewrite zlen_cons.
      rewrite (back_step m _ b Hbc r _ x (r' ++ enc_all post ++ 0 :: t)); auto; try lia.
      * replace (s + (zlen (enc_all pre) + (1 + zlen r)) - 1 - zlen r) with (s + zlen (enc_all pre)) by lia. replace (Z.of_nat (S k) - 1) with (Z.of_nat k) by lia.
        rewrite (IH k d (c :: post)); auto; try lia. rewrite app_length. cbn [length]. replace (length pre + 1 - S k)%nat with (length pre - k)%nat by lia.
        rewrite firstn_app. replace (length pre - k - length pre)%nat with O by lia. cbn [firstn]. now rewrite app_nil_r.
      * replace (s + (zlen (enc_all pre) + (1 + zlen r)) - 1 - zlen r) with (s + zlen (enc_all pre)) by lia.
        rewrite enc_all_app, <- app_assoc in HA. apply at_app in HA as [_ HA]. rewrite !enc_all_cons, E, E', <- !app_assoc in HA. cbn [app] in HA. exact HA.
Qed.
Lemma offset_back m s cs j k : Forall scalar cs -> zstring m s (enc_all cs) -> (k <= j < length cs)%nat -> (0 < k)%nat ->
  offset m (s + cp_offset cs j) (- Z.of_nat k) = Ok (s + cp_offset cs (j - k)).
Proof.
  intros Hs [Hz HA] Hj Hk. unfold offset. destruct (Z.ltb_spec (- Z.of_nat k) 0); [|lia]. rewrite Z.opp_involutive.
  pose proof (firstn_skipn j cs) as E. destruct (skipn j cs) as [|c post] eqn:Es.
  { apply (f_equal (@length Z)) in E. rewrite app_length, firstn_length in E. cbn in E. lia. }
  assert (L : length (firstn j cs) = j) by (rewrite firstn_length; lia).
  pose proof (back_all m [] k (firstn j cs) c post (S (length m)) s) as B. rewrite E in B. rewrite L in B. unfold cp_offset at 1. rewrite B; auto; try lia.
  - unfold cp_offset. rewrite firstn_firstn. now replace (Nat.min (j - k) j) with (j - k)%nat by lia.
  - now apply nz_scalars.
  - apply fuel_len in HA. rewrite app_length, <- E, enc_all_app, app_length in HA. lia.
Qed.
