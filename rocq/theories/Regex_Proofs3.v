(** The whole search: the fast start, the two list sizes, and the entry points of cregex.h. *)
From Verif Require Import Base Utf8_Tab Utf8_Model Utf8_Spec Utf8_Proofs Utf8_Proofs2 Utf8_Proofs3 Utf8_Proofs4 Regex_Model Regex_Spec Regex_Proofs Regex_Proofs2.

Lemma rune_match_char up c r : c < 0x8100002 -> rune_match up c r = Ok (c =? r).
Proof.
  intros H. unfold rune_match, between, ASC_an, UTF_al, UTF_GRP. cbv zeta.
  destruct (Z.leb_spec 0x8100002 c); [lia|]. destruct (Z.leb_spec 0x810001e c); [lia|]. destruct (Z.leb_spec 0x8150000 c); [lia|]. reflexivity.
Qed.

Lemma skip_off cs i k : cp_offset (skipn i cs) k = cp_offset cs (i + k) - cp_offset cs i.
Proof.
  unfold cp_offset. assert (E : firstn (i + k) cs = firstn i cs ++ firstn k (skipn i cs)).
  { revert cs k. induction i as [|i IH]; intros cs k; [reflexivity|]. destruct cs; cbn [Nat.add firstn skipn app]; [now rewrite firstn_nil|]. now rewrite IH. }
  rewrite E. unfold enc_all. rewrite flat_map_app, zlen_app. lia.
Qed.
Lemma nth_skip (cs : list Z) i k : nth_error (skipn i cs) k = nth_error cs (i + k).
Proof. revert cs. induction i as [|i IH]; intros cs; [reflexivity|]. destruct cs; cbn; [now destruct k|apply IH]. Qed.

Lemma pinj bol cs i j : Forall scalar cs -> (i <= length cs)%nat -> (j <= length cs)%nat -> posn bol cs i = posn bol cs j -> i = j.
Proof. intros Hs. apply (pos_inj (fun _ _ => Ok true) (fun _ => true) bol 0 cs Hs). Qed.
Lemma steps_up rm pr cs x y : steps rm pr cs x y -> (snd x <= snd y)%nat.
Proof. induction 1 as [|x y z _ IH H]; [auto|]. destruct H; cbn [snd] in *; lia. Qed.

Section Start.
Variable up : Z -> Z -> bool.
Variable pr : prog.
Variable m : list Z.
Variable bol : Z.
Variable cs : list Z.
Let L := length cs.
Notation pos := (posn bol cs).
Notation dead := (dead (rune_match up) pr cs).
Hypothesis HA : holds_at m bol (enc_all cs ++ [0]).
Hypothesis Hs : Forall scalar cs.
Hypothesis Hz : Forall (fun c => c <> 0) cs.

Lemma HA' : holds_at m bol (enc_all cs).
Proof. apply at_app in HA. apply HA. Qed.
Lemma at_skip i : (i <= L)%nat -> holds_at m (pos i) (enc_all (skipn i cs) ++ [0]).
Proof.
  intros Hi. unfold posn. rewrite <- (firstn_skipn i cs) in HA at 1. unfold enc_all in HA. rewrite flat_map_app in HA. fold (enc_all (firstn i cs)) in HA. fold (enc_all (skipn i cs)) in HA. rewrite <- app_assoc in HA.
  apply at_app in HA. unfold cp_offset. exact (proj2 HA).
Qed.
Lemma Fskip (P : Z -> Prop) i : Forall P cs -> Forall P (skipn i cs).
Proof. intros H. rewrite <- (firstn_skipn i cs) in H. now apply Forall_app in H. Qed.
Lemma skip_len i : (length (enc_all (skipn i cs)) < S (length m))%nat \/ (L < i)%nat.
Proof.
  destruct (le_lt_dec i L) as [Hi|]; [left|auto]. pose proof (at_skip i Hi) as H. apply at_len in H. rewrite zlen_app in H. unfold zlen in H. cbn [length] in H. lia.
Qed.

Lemma good_none eol comp : good_start (rune_match up) pr m bol eol cs SNone comp.
Proof. intros i q Hi. cbn [start_check]. intros [= <-]. exists i. split; [lia|]. split; auto. intros; lia. Qed.
Lemma dead_rune c n k : nth_error (code pr) (startpc pr) = Some (I (RUNE c) n) -> c < 128 -> nth_error cs k <> Some c -> dead k.
Proof.
  intros Hp Hc Hk. split; [|intros (n' & E); congruence]. intros y H. inversion H as [pc i o n1 x Ep Ex Et|pc i o n1 Ep Eh|pc i q n1 Ep]; subst; rewrite Hp in Ep; try discriminate Ep; injection Ep as <- _.
  - cbn [takes] in Et. rewrite rune_match_char in Et by lia. injection Et as Et. apply Z.eqb_eq in Et. congruence.
  - exact Eh.
Qed.
Lemma good_rune c n : nth_error (code pr) (startpc pr) = Some (I (RUNE c) n) -> 0 <= c < 128 -> good_start (rune_match up) pr m bol None cs (SRune c) True.
Proof.
  intros Hp Hc i q Hi. cbn [start_check]. unfold utfrune. unfold at_eol.
  destruct (skip_len i) as [HF|]; [|unfold L in *; lia].
  destruct (strchr_ok m c Hc (skipn i cs) (pos i) (S (length m)) (Fskip _ i Hs) (Fskip _ i Hz) (at_skip i Hi) HF) as [(k & E & Hk & Hn & Hall)|(E & H0 & Hall)];
    rewrite E; cbn [bind]; intros [= <-].
  - rewrite skipn_length in Hk. exists (i + k)%nat. fold L. split; [unfold L in *; lia|]. split; [unfold posn; rewrite skip_off; lia|].
    intros _ k' Hk'. eapply dead_rune; eauto; [lia|]. intros Ek. apply (Hall (k' - i)%nat ltac:(lia)). rewrite (nth_error_nth _ _ 0 (x := c)); auto. rewrite nth_skip. replace (i + (k' - i))%nat with k' by lia. exact Ek.
  - intros _ k' Hk'. eapply dead_rune; eauto; [lia|]. intros Ek. apply Hall. apply nth_error_In with (n := (k' - i)%nat). rewrite nth_skip. replace (i + (k' - i))%nat with k' by lia. exact Ek.
Qed.
Lemma dead_irune c n k : nth_error (code pr) (startpc pr) = Some (I (IRUNE c) n) -> c < 128 -> (forall x, nth_error cs k = Some x -> casefold x <> c) -> dead k.
Proof.
  intros Hp Hc Hk. split; [|intros (n' & E); congruence]. intros y H. inversion H as [pc i o n1 x Ep Ex Et|pc i o n1 Ep Eh|pc i q n1 Ep]; subst; rewrite Hp in Ep; try discriminate Ep; injection Ep as <- _.
  - cbn [takes] in Et. rewrite rune_match_char in Et by lia. injection Et as Et. apply Z.eqb_eq in Et. apply (Hk x); auto.
  - exact Eh.
Qed.
Lemma good_irune (comp : Prop) c n : nth_error (code pr) (startpc pr) = Some (I (IRUNE c) n) -> 0 <= c < 128 -> (comp -> casefold c = c /\ forall x, In x cs -> 128 <= x -> casefold x <> c) ->
  good_start (rune_match up) pr m bol None cs (SIRune c) comp.
Proof.
  intros Hp Hc HN i q Hi. cbn [start_check]. unfold utfruneicase. unfold at_eol.
  assert (Hlc : 0 <= lower c < 128) by (unfold lower; destruct (Z.leb_spec 65 c); destruct (Z.leb_spec c 90); cbn [andb]; lia).
  assert (HL : comp -> lower c = c) by (intros H; rewrite lower_fold by auto; now apply HN).
  destruct (skip_len i) as [HF|]; [|unfold L in *; lia].
  assert (HD : comp -> forall k y, nth_error cs k = Some y -> (y < 128 -> casefold y <> lower c) -> casefold y <> c).
  { intros H k y Hy Hn. rewrite HL in Hn by auto. destruct (Z_lt_dec y 128); auto. apply HN; [auto|eapply nth_error_In; eauto|lia]. }
  destruct (icase_ok m (lower c) Hlc (skipn i cs) (pos i) (S (length m)) (Fskip _ i Hs) (Fskip _ i Hz) (at_skip i Hi) HF) as [(k & x & E & Hk & Hall)|(E & Hall)];
    rewrite E; cbn [bind]; intros [= <-].
  - rewrite nth_skip in Hk. pose proof (nth_lt cs _ _ Hk). exists (i + k)%nat. split; [lia|]. split; [unfold posn; rewrite skip_off; lia|].
    intros H' k' Hk'. eapply dead_irune; eauto; [lia|]. intros y Ek. apply (HD H' k'); auto. apply (Hall (k' - i)%nat); [lia|]. rewrite nth_skip. replace (i + (k' - i))%nat with k' by lia. exact Ek.
  - intros H' k' Hk'. eapply dead_irune; eauto; [lia|]. intros y Ek. apply (HD H' k'); auto. apply Hall. apply nth_error_In with (n := (k' - i)%nat). rewrite nth_skip. replace (i + (k' - i))%nat with k' by lia. exact Ek.
Qed.
Lemma good_bol : good_start (rune_match up) pr m bol None cs SBol False.
Proof.
  intros i q Hi. cbn [start_check]. unfold utfrune, at_eol. destruct (Z.eqb_spec (pos i) bol) as [E|_].
  - intros [= <-]. exists i. split; [lia|]. split; auto. tauto.
  - destruct (skip_len i) as [HF|]; [|unfold L in *; lia].
    destruct (strchr_ok m 10 ltac:(lia) (skipn i cs) (pos i) (S (length m)) (Fskip _ i Hs) (Fskip _ i Hz) (at_skip i Hi) HF) as [(k & E & Hk & Hn & Hall)|(E & H0 & Hall)];
      rewrite E; cbn [bind]; intros [= <-]; [|tauto].
    assert (k < length (skipn i cs))%nat as Hlt. { destruct (Nat.eq_dec k (length (skipn i cs))) as [->|]; [|lia]. rewrite nth_overflow in Hn by lia. discriminate. }
    pose proof (nth_error_nth' (skipn i cs) 0 Hlt) as En. rewrite Hn in En. rewrite nth_skip in En. rewrite skipn_length in Hlt.
    exists (S (i + k)). split; [lia|]. split; [|tauto]. unfold posn. rewrite skip_off. rewrite (cp_offset_nth cs (i + k) 10 En). cbn. lia.
Qed.
End Start.

(** ** One pass *)
Lemma clear_ok mp ms e : clear_mp mp ms = Some e -> (1 <= ms)%nat -> (forall e0, mp = Some e0 -> (ms <= length e0)%nat) -> (ms <= length e)%nat /\ fst (m0 e) = None.
Proof.
  intros H Hms Hl. destruct mp as [e0|]; [|discriminate H]. cbn [clear_mp] in H. injection H as <-. specialize (Hl e0 eq_refl). rewrite app_length, repeat_length, skipn_length. split; [lia|].
  replace (Nat.min ms (length e0)) with (S (ms - 1)) by lia. reflexivity.
Qed.
Definition outcome (up : Z -> Z -> bool) (pr : prog) (bol : Z) (cs : list Z) (i0 : nat) (full_ok : Prop) (x : Z * option se) : Prop :=
  (fst x = 0 /\ (full_ok -> forall i j, (i0 <= i)%nat -> ~ accepts (rune_match up) pr cs i j)) \/
  (fst x = 1 /\ (exists i j, (i0 <= i)%nat /\ accepts (rune_match up) pr cs i j) /\ forall e, snd x = Some e -> found (rune_match up) pr bol cs i0 full_ok e).
Section Pass.
Variable up : Z -> Z -> bool.
Variable isword : Z -> bool.
Variable pr : prog.
Variable m : list Z.
Variable bol : Z.
Variable eol : option Z.
Variable cs : list Z.
Variable is0 : nat.
Variable styp : starttype.
Variable comp : Prop.
Let L := length cs.
Notation pos := (posn bol cs).
Notation ms := (S (nsub pr)).
Hypothesis HA : holds_at m bol (enc_all cs).
Hypothesis Hs : Forall scalar cs.
Hypothesis Hz : Forall (fun c => c <> 0) cs.
Hypothesis Hcore : core pr.
Hypothesis Htail : forall e, eol = Some e -> e = pos L.
Hypothesis Htail0 : eol = None -> forall r n, rune_at m (pos L) = Ok (r, n) -> r = 0.
Hypothesis Heoz : (exists pc n, nth_error (code pr) pc = Some (I EOZ n)) -> aget m (pos L) = Ok 0.
Hypothesis GS : good_start (rune_match up) pr m bol eol cs styp comp.
Hypothesis Hsub : (is0 <= L)%nat.
Lemma pass_ok mp cap x : (forall e, mp = Some e -> (ms <= length e)%nat) ->
  regexec1 (rune_match up) isword pr m bol (pos is0) eol false mp ms styp cap = Ok x ->
  (fst x = -1 /\ forall e, snd x = Some e -> (ms <= length e)%nat) \/ outcome up pr bol cs is0 comp x.
Proof.
  intros Hl H. unfold regexec1 in H.
  apply (loop_ok (rune_match up) isword pr m bol eol ms cap cs HA Hs Hz Hcore Htail Htail0 Heoz ltac:(lia) is0 styp comp GS) in H; auto.
  - destruct H as [H|(mat & E & (M1 & M2) & C)]; [now left|right]. unfold outcome. destruct mat; cbn [b2z] in E.
    + right. split; auto. split. { destruct (M1 eq_refl) as (a & b & H1 & _ & H2). exists a, b. split; [lia|auto]. }
      intros e He. destruct (M2 e He) as [Hle (a & b & e' & H1 & H2 & H3 & H4 & H5 & H6)]. exists a, b, e'. split; [lia|].
      assert (HAcc : accepts (rune_match up) pr cs a b) by (eapply cap_accepts; eauto; lia).
      split; auto. split; [|split; [exact H4|split; [|exact H6]]]. 2:{ replace (Nat.min ms ms) with ms in H5 by lia. exact H5. }
      intros HC. split; [lia|]. split; auto. intros i' j' Hi' Hacc. destruct (C HC i' j' Hi' Hacc) as [_ Cb]. destruct (Cb e He) as (a' & b' & E' & Hab & Hcmp).
      rewrite H6 in E'. injection E' as E1 E2. apply (pinj bol cs _ _ Hs) in E1; [|fold L; lia|fold L; lia]. subst a'.
      assert (pos b = pos b') as E3 by lia. apply (pinj bol cs _ _ Hs) in E3; [|fold L; lia|fold L; lia]. subst b'. destruct Hcmp as [Hlt|[-> Hle']]; [now left|right; split; auto].
    + left. split; auto. intros HC i j Hi Hacc. destruct (C HC i j Hi Hacc) as [Hf _]. discriminate Hf.
  - unfold L. split.
    + intros t Ht. destruct Ht.
    + split; [discriminate|]. cbn [l_match l_mp stof]. intros e He. apply clear_ok in He; auto. lia.
    + intros _ i0 pc Hi0. lia.
    + intros _ i0 j Hi0 Hj [HL (pc & HS & _)]. apply steps_up in HS. cbn [snd] in HS. lia.
Qed.
Lemma two_pass mp x : (forall e, mp = Some e -> (ms <= length e)%nat) ->
  (let* x := regexec1 (rune_match up) isword pr m bol (pos is0) eol false mp ms styp 10 in
   if 0 <=? fst x then Ok x else regexec1 (rune_match up) isword pr m bol (pos is0) eol false (snd x) ms styp 100) = Ok x ->
  fst x = -1 \/ outcome up pr bol cs is0 comp x.
Proof.
  intros Hl H. destruct (regexec1 (rune_match up) isword pr m bol (pos is0) eol false mp ms styp 10) as [y|] eqn:E; [|discriminate H]. cbn [bind] in H.
  apply pass_ok in E; auto. destruct (Z.leb_spec 0 (fst y)) as [Hy|Hy].
  - injection H as <-. destruct E as [[E _]|E]; auto.
  - destruct E as [[_ E]|[[E _]|[E _]]]; [|lia|lia]. apply pass_ok in H; auto. destruct H as [[H _]|H]; auto.
Qed.
End Pass.

(** ** Entry points *)
Section Entry.
Variable up : Z -> Z -> bool.
Variable isword : Z -> bool.
Variable pr : prog.
Variable m : list Z.
Variable bol : Z.
Variable cs : list Z.
Let L := length cs.
Notation pos := (posn bol cs).
Notation ms := (S (nsub pr)).
Hypothesis HT : text m bol cs.
Hypothesis Hcore : core pr.
Lemma end_zero : aget m (pos L) = Ok 0.
Proof. destruct HT as (HA & Hs & Hz). pose proof (at_skip m bol cs HA L ltac:(unfold L; lia)) as H. unfold L in *. rewrite skipn_all in H. cbn [enc_all flat_map app] in H. apply at_head in H. exact H. Qed.
Lemma tail_zero r n : rune_at m (pos L) = Ok (r, n) -> r = 0.
Proof. unfold rune_at. rewrite end_zero. cbn [bind]. intros [= <- _]. reflexivity. Qed.
Hypothesis Hfirst : first_ok pr.
Lemma start_good (comp : Prop) styp : (comp -> start_ok pr cs) -> start_of pr = Ok styp -> good_start (rune_match up) pr m bol None cs styp comp.
Proof.
  intros HC H. destruct HT as (HA & Hs & Hz). unfold start_of in H. destruct (nth_error (code pr) (startpc pr)) as [[o n]|] eqn:E; [|discriminate H]. cbn [iop] in H. injection H as <-.
  pose proof (Hfirst _ _ E) as Hf. destruct o; try apply good_none.
  - destruct (negb (picase pr) && (c <? 128)) eqn:Eb; [|apply good_none]. apply andb_true_iff in Eb as [_ Eb]. apply Z.ltb_lt in Eb.
    intros i q Hi Hq. apply (good_rune up pr m bol cs HA Hs Hz c n E ltac:(lia)) in Hq; auto. destruct q as [s'|]; [|auto]. destruct Hq as (k & G1 & G2 & G3). exists k. auto.
  - destruct (picase pr && (c <? 128)) eqn:Eb; [|apply good_none]. apply andb_true_iff in Eb as [_ Eb]. apply Z.ltb_lt in Eb.
    apply (good_irune up pr m bol cs HA Hs Hz comp c n); auto; [lia|]. intros Hcc. split; [apply Hf|]. intros x Hx H128. exact (HC Hcc _ _ E Eb x Hx H128).
  - intros i q Hi Hq. apply (good_bol up pr m bol cs HA Hs Hz) in Hq; auto. assert (comp -> False) as N by (intros Hcc; exact (HC Hcc _ _ E)).
    destruct q as [s'|]; [|tauto]. destruct Hq as (k & G1 & G2 & G3). exists k. tauto.
Qed.
Lemma regexec_default mp x : (forall e, mp = Some e -> (ms <= length e)%nat) -> regexec (rune_match up) isword pr m bol ms mp FDefault = Ok x ->
  fst x = -1 \/ outcome up pr bol cs 0 (start_ok pr cs) x.
Proof.
  intros Hl H. assert (E0 : regexec (rune_match up) isword pr m bol ms mp FDefault =
    let* styp := start_of pr in
    let* x := regexec1 (rune_match up) isword pr m bol bol None false mp ms styp 10 in
    if 0 <=? fst x then Ok x else regexec1 (rune_match up) isword pr m bol bol None false (snd x) ms styp 100).
  { unfold regexec. destruct mp as [e|]; [destruct (fst (m0 e))|]; reflexivity. }
  rewrite E0 in H. destruct (start_of pr) as [styp|] eqn:E; [|discriminate H]. cbn [bind] in H.
  assert (HP : pos 0 = bol) by (unfold posn; rewrite cp_offset_0; lia).
  pose proof (two_pass up isword pr m bol None cs 0 styp (start_ok pr cs)) as G. rewrite HP in G.
  eapply G; [..|exact H]; try apply HT; auto; try discriminate.
  - eapply HA'. apply HT.
  - intros _ r n. apply tail_zero.
  - intros _. exact end_zero.
  - now apply start_good.
  - lia.
Qed.
Lemma regexec_next e i0 j0 x : (ms <= length e)%nat -> m0 e = (Some (pos i0), pos j0 - pos i0) -> (j0 <= L)%nat -> regexec (rune_match up) isword pr m bol ms (Some e) FNext = Ok x ->
  fst x = -1 \/ outcome up pr bol cs j0 (start_ok pr cs) x.
Proof.
  intros Hl He Hj H. unfold regexec in H. rewrite He in H. cbn [fst snd] in H. cbv zeta iota in H. destruct (start_of pr) as [styp|] eqn:E; [|discriminate H]. cbn [bind] in H.
  replace (pos i0 + (pos j0 - pos i0)) with (pos j0) in H by lia.
  eapply two_pass; [..|exact H]; try apply HT; auto; try discriminate.
  - eapply HA'. apply HT.
  - intros _ r n. apply tail_zero.
  - intros _. exact end_zero.
  - now apply start_good.
  - intros ? [= <-]. exact Hl.
Qed.
End Entry.

(** A view, for programs with no fast start. *)
Lemma regexec_view up isword pr m bol cs e x : viewed m bol cs -> core pr -> start_of pr = Ok SNone ->
  (forall pc n, nth_error (code pr) pc <> Some (I EOZ n)) -> (S (nsub pr) <= length e)%nat -> m0 e = (Some bol, cp_offset cs (length cs)) ->
  regexec (rune_match up) isword pr m bol (S (nsub pr)) (Some e) FStartEnd = Ok x ->
  fst x = -1 \/ outcome up pr bol cs 0 True x.
Proof.
  intros (HA & Hs & Hz) Hcore Hst Hez Hl He H. unfold regexec in H. rewrite He in H. cbn [fst snd] in H. cbv zeta iota in H. rewrite Hst in H. cbn [bind] in H.
  assert (HP : posn bol cs 0 = bol) by (unfold posn; rewrite cp_offset_0; lia).
  pose proof (two_pass up isword pr m bol (Some (bol + cp_offset cs (length cs))) cs 0 SNone True) as G. rewrite HP in G.
  eapply G; [..|exact H]; auto; try discriminate.
  - intros ? [= <-]. reflexivity.
  - intros (pc & n & E). now apply Hez in E.
  - apply good_none.
  - lia.
  - intros ? [= <-]. exact Hl.
Qed.

(** ** The match array stays where it is *)
Definition isS {A} (o : option A) : bool := match o with Some _ => true | None => false end.
Lemma renewmatch_some mp ms e n : isS (renewmatch mp ms e n) = isS mp.
Proof. destruct mp as [x|]; [|reflexivity]. unfold renewmatch. destruct (Nat.eqb ms 0); [reflexivity|]. destruct (_ || _ || _); reflexivity. Qed.
Section Mp.
Variable rm : Z -> Z -> res bool.
Variable isword : Z -> bool.
Variable pr : prog.
Variable m : list Z.
Variable bol : Z.
Variable eol : option Z.
Variable full : bool.
Variable ms : nat.
Variable cap : Z.
Lemma op_some s base t0 rest o cur st a : exec_op rm isword pr m bol eol full ms cap s base t0 rest o cur st = Ok a ->
  match a with Go _ _ st' | Brk _ _ st' => isS (l_mp st') = isS (l_mp st) | Over => True end.
Proof.
  destruct o; cbn [exec_op]; intros H;
    repeat (match type of H with
            | bind ?u _ = _ => let E := fresh "E" in destruct u eqn:E; cbn [bind] in H; [|discriminate H]
            | (match ?u with _ => _ end) = _ => let E := fresh "E" in destruct u eqn:E; try discriminate H
            end); try (injection H as <-); unfold go_if; cbn [l_mp set_r set_icase]; auto;
    repeat match goal with |- context [if ?b then _ else _] => destruct b end; cbn [l_mp]; auto.
  apply renewmatch_some.
Qed.
Lemma chain_some : forall fuel s base t0 rest pc cur st r, chain rm isword pr m bol eol full ms cap fuel s base t0 rest pc cur st = Ok (Some r) -> isS (l_mp (snd r)) = isS (l_mp st).
Proof.
  induction fuel as [|fuel IH]; intros s base t0 rest pc cur st r H; [discriminate H|]. cbn [chain] in H. destruct (nth_error (code pr) pc) as [i|]; [|discriminate H].
  destruct (exec_op rm isword pr m bol eol full ms cap s base t0 rest (iop i) cur st) as [a|] eqn:E; [|discriminate H]. cbn [bind] in H. apply op_some in E. destruct a as [cur' rest' st'|ok cur' st'|].
  - destruct (inext i); [|discriminate H]. apply IH in H. congruence.
  - destruct ok; [|injection H as <-; exact E]. destruct (inext i); [|discriminate H]. destruct (renewthread cap 0 (l_nl st') n cur') as [y|]; [|discriminate H]. cbn [bind] in H.
    destruct (match snd y with Some e => e =? cap - 2 | None => false end); [discriminate H|]. injection H as <-. exact E.
  - discriminate H.
Qed.
Lemma run_some : forall fuel s base pend st st', run_list rm isword pr m bol eol full ms cap fuel s base pend st = Ok (Some st') -> isS (l_mp st') = isS (l_mp st).
Proof.
  induction fuel as [|fuel IH]; intros s base [|t pend] st st' H; cbn [run_list] in H; try discriminate H; try (injection H as <-; reflexivity).
  destruct (chain rm isword pr m bol eol full ms cap (S (length (code pr))) s base (tpc t) pend (tpc t) (tse t) st) as [o|] eqn:E; [|discriminate H]. cbn [bind] in H.
  destruct o as [[rest' st1]|]; [|discriminate H]. apply chain_some in E. apply IH in H. cbn [snd] in E. congruence.
Qed.
Lemma loop_some styp : forall fuel s ck tl ic mat mp x, loop rm isword pr m bol eol full ms styp cap fuel s ck tl ic mat mp = Ok x -> isS (snd x) = isS mp.
Proof.
  induction fuel as [|fuel IH]; intros s ck tl ic mat mp x H; [discriminate H|]. cbn [loop] in H.
  destruct (if ck then start_check m bol eol styp s else Ok (Some s)) as [q|]; [|discriminate H]. cbn [bind] in H. destruct q as [q|]; [|injection H as <-; reflexivity].
  destruct (rune_at m q) as [[r n]|]; [|discriminate H]. cbn [bind] in H.
  destruct (if mat then Ok tl else let* x := renewthread cap 0 tl (startpc pr) (empty_se ms q) in Ok (fst x)) as [tl1|]; [|discriminate H]. cbn [bind] in H.
  destruct (run_list rm isword pr m bol eol full ms cap (Z.to_nat cap) q 0 tl1 (Loc r ic mat mp [])) as [o|] eqn:E; [|discriminate H]. cbn [bind] in H.
  destruct o as [st|]; [|injection H as <-; reflexivity]. apply run_some in E. cbn [l_mp] in E.
  destruct (at_eol eol q || (l_r st =? 0)); [injection H as <-; exact E|]. apply IH in H. congruence.
Qed.
Lemma regexec1_some styp starts mp x : regexec1 rm isword pr m bol starts eol full mp ms styp cap = Ok x -> isS (snd x) = isS mp.
Proof. intros H. apply loop_some in H. rewrite H. destruct mp; reflexivity. Qed.
End Mp.
Lemma regexec_some rm isword pr m bol ms mp fl x : regexec rm isword pr m bol ms mp fl = Ok x -> isS (snd x) = isS mp.
Proof.
  unfold regexec. destruct (match fst match mp with Some e => m0 e | None => (None, 0) end with Some b => _ | None => _ end) as [starts eol]. destruct (start_of pr) as [styp|]; cbn [bind]; [|discriminate].
  destruct (regexec1 rm isword pr m bol starts eol _ mp ms styp 10) as [y|] eqn:E; cbn [bind]; [|discriminate]. apply regexec1_some in E. destruct (0 <=? fst y); [intros [= <-]; exact E|].
  intros H. apply regexec1_some in H. congruence.
Qed.
