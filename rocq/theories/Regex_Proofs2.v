(** One instruction of the matcher does what its meaning says. *)
From Verif Require Import Base Utf8_Tab Utf8_Model Utf8_Spec Utf8_Proofs Utf8_Proofs2 Utf8_Proofs3 Utf8_Proofs4 Utf8_Proofs5 Utf8_Proofs6 Regex_Model Regex_Spec Regex_Proofs.

Lemma fold_with_above es b c : forallb (fun e => let '(c1, c2, m2) := e in (b <? c1) && (b <? c1 + (m2 - c2))) es = true ->
  b < c -> b < fold_with es c.
Proof.
  induction es as [|[[c1 c2] m2] es IH]; cbn [forallb fold_with]; [auto|]. intros H Hc. apply andb_true_iff in H as [H H'].
  apply andb_true_iff in H as [H1 H2]. apply Z.ltb_lt in H1, H2. destruct (Z.leb_spec c c2); [|auto]. destruct (Z.ltb_spec c c1); [auto|].
  cbv zeta. destruct (m2 - c2 =? 1); [destruct (_ =? _); lia|lia].
Qed.
Lemma casefold_10 c : scalar c -> casefold c = 10 <-> c = 10.
Proof.
  intros Hc. split; [|intros ->; reflexivity]. intros E. destruct (Z.ltb_spec 10 c) as [H|H].
  - pose proof (fold_with_above fold_entries 10 c eq_refl H) as H'. change (fold_with fold_entries c) with (casefold c) in H'. lia.
  - destruct (ascii_lower c) as (E1 & E2 & _); [unfold scalar in Hc; lia|]. rewrite E2, E1 in E. destruct (Z.leb_spec 65 c); [lia|]. cbn in E. exact E.
Qed.

Section Run.
Variable runematch : Z -> Z -> res bool.
Variable isword : Z -> bool.
Variable pr : prog.
Variable m : list Z.
Variable bol : Z.
Variable eol : option Z.
Variable ms : nat.
Variable cap : Z.
Variable cs : list Z.
Let L := length cs.
Notation pos := (posn bol cs).
Hypothesis HA : holds_at m bol (enc_all cs).
Hypothesis Hs : Forall scalar cs.
Hypothesis Hz : Forall (fun c => c <> 0) cs.

Lemma pos_lt i j : (i < j <= L)%nat -> pos i < pos j.
Proof. intros H. unfold posn. pose proof (cp_offset_lt cs i j Hs H). lia. Qed.
Lemma pos_le i j : (i <= j <= L)%nat -> pos i <= pos j.
Proof. intros H. destruct (Nat.eq_dec i j) as [->|]; [lia|]. pose proof (pos_lt i j ltac:(lia)). lia. Qed.
Lemma pos_inj i j : (i <= L)%nat -> (j <= L)%nat -> pos i = pos j -> i = j.
Proof. intros Hi Hj E. destruct (lt_eq_lt_dec i j) as [[H|H]|H]; auto; [pose proof (pos_lt i j ltac:(lia))|pose proof (pos_lt j i ltac:(lia))]; lia. Qed.
Lemma pos_lt_inv i j : (i <= L)%nat -> (j <= L)%nat -> pos i < pos j -> (i < j)%nat.
Proof. intros Hi Hj H. destruct (le_lt_dec j i) as [H'|H']; auto. pose proof (pos_le j i ltac:(lia)). lia. Qed.
Lemma pos_0 : pos 0 = bol. Proof. unfold posn. rewrite cp_offset_0. lia. Qed.
Lemma bol_ge : 0 <= bol. Proof. apply at_len in HA. lia. Qed.
Lemma pos_ge i : (i <= L)%nat -> 0 <= pos i.
Proof. intros H. pose proof (pos_le 0 i ltac:(lia)). rewrite pos_0 in *. pose proof bol_ge. lia. Qed.
Lemma nth_scalar i c : nth_error cs i = Some c -> scalar c /\ c <> 0.
Proof. intros H. apply nth_error_In in H. rewrite Forall_forall in Hs, Hz. auto. Qed.
Lemma nth_lt i c : nth_error cs i = Some c -> (i < L)%nat.
Proof. intros H. apply nth_error_Some. congruence. Qed.
Lemma nth_ex i : (i < L)%nat -> exists c, nth_error cs i = Some c.
Proof. intros H. destruct (nth_error cs i) eqn:E; [eauto|]. apply nth_error_None in E. unfold L in H. lia. Qed.
Lemma at_pos i c : nth_error cs i = Some c -> exists l, holds_at m (pos i) (enc c ++ l).
Proof. intros H. eapply at_nth_cp; [|exact H]. rewrite app_nil_r. exact HA. Qed.
Lemma pos_S i c : nth_error cs i = Some c -> pos (S i) = pos i + zlen (enc c).
Proof. intros H. unfold posn. rewrite (cp_offset_nth cs i c H). lia. Qed.
Lemma rune_lt i c : nth_error cs i = Some c -> rune_at m (pos i) = Ok (c, pos (S i) - pos i).
Proof.
  intros H. destruct (at_pos i c H) as (l & HP). destruct (nth_scalar i c H) as [Hc _]. rewrite (rune_at_enc _ _ _ _ Hc HP), (pos_S i c H). do 2 f_equal. lia.
Qed.
Hypothesis Hcore : core pr.
Hypothesis Htail : forall e, eol = Some e -> e = pos L.
Hypothesis Htail0 : eol = None -> forall r n, rune_at m (pos L) = Ok (r, n) -> r = 0.
Hypothesis Heoz : (exists pc n, nth_error (code pr) pc = Some (I EOZ n)) -> aget m (pos L) = Ok 0.
Hypothesis Hms : (1 <= ms)%nat.
Lemma at_eol_lt i : (i < L)%nat -> at_eol eol (pos i) = false.
Proof. intros H. unfold at_eol. destruct eol as [e|] eqn:Ee; auto. rewrite (Htail e eq_refl). apply Z.eqb_neq. pose proof (pos_lt i L ltac:(lia)). lia. Qed.

(** r holds the code point at index i, possibly folded. *)
Definition RE (i : nat) (r : Z) : Prop :=
  match nth_error cs i with
  | Some c => r = c \/ picase pr = true /\ r = casefold c
  | None => eol = None -> r = 0
  end.
Lemma RE_folded i c r : nth_error cs i = Some c -> RE i r -> picase pr = true -> casefold r = casefold c.
Proof. intros E. unfold RE. rewrite E. destruct (nth_scalar i c E) as [Hc _]. destruct (casefold_good c Hc) as (_ & _ & F & _). intros [->|[_ ->]]; auto. Qed.
Lemma RE_plain i c r : nth_error cs i = Some c -> RE i r -> picase pr = false -> r = c.
Proof. intros E. unfold RE. rewrite E. intros [->|[H ->]]; congruence. Qed.
Lemma RE_10 i c r : nth_error cs i = Some c -> RE i r -> r = 10 <-> c = 10.
Proof. intros E. unfold RE. rewrite E. destruct (nth_scalar i c E) as [Hc _]. intros [->|[_ ->]]; [reflexivity|now apply casefold_10]. Qed.
Lemma RE_0 i c r : nth_error cs i = Some c -> RE i r -> r <> 0.
Proof.
  intros E. unfold RE. rewrite E. destruct (nth_scalar i c E) as [Hc H0]. destruct (casefold_good c Hc) as (_ & _ & _ & F).
  intros [->|[_ ->]]; auto. unfold scalar in Hc. specialize (F ltac:(lia)). lia.
Qed.
Lemma RE_fold i r : RE i r -> picase pr = true -> RE i (casefold r).
Proof.
  unfold RE. destruct (nth_error cs i) as [c|] eqn:E.
  - intros H Hp. right. split; auto. eapply RE_folded; eauto. unfold RE. now rewrite E.
  - intros H Hp He. rewrite (H He). reflexivity.
Qed.
Lemma in_class_ok sp r : forall b, in_class runematch sp r = Ok b -> b = true <-> in_spans runematch sp r.
Proof.
  induction sp as [|[x y] sp IH]; intros b; cbn [in_class].
  - intros [= <-]. split; [discriminate|]. intros (? & ? & [] & _).
  - destruct (Z.leb_spec x r) as [H1|H1]; cbn [andb]; [destruct (Z.leb_spec r y) as [H2|H2]|].
    + intros [= <-]. split; auto. intros _. exists x, y. split; [now left|left; lia].
    + destruct (Z.eqb_spec x y) as [->|Hn].
      * destruct (runematch y r) as [v|] eqn:E; cbn [bind]; [|discriminate]. destruct v.
        -- intros [= <-]. split; auto. intros _. exists y, y. split; [now left|right; auto].
        -- intros H. rewrite (IH b H). split; intros (u & v & Hin & Hv).
           ++ exists u, v. split; auto. now right.
           ++ destruct Hin as [[= <- <-]|Hin]; [|exists u, v; auto]. destruct Hv as [|[_ Hv]]; [lia|congruence].
      * cbn [bind]. intros H. rewrite (IH b H). split; intros (u & v & Hin & Hv).
        -- exists u, v. split; auto. now right.
        -- destruct Hin as [[= <- <-]|Hin]; [|exists u, v; auto]. destruct Hv as [|[Hv _]]; lia.
    + destruct (Z.eqb_spec x y) as [->|Hn].
      * destruct (runematch y r) as [v|] eqn:E; cbn [bind]; [|discriminate]. destruct v.
        -- intros [= <-]. split; auto. intros _. exists y, y. split; [now left|right; auto].
        -- intros H. rewrite (IH b H). split; intros (u & v & Hin & Hv).
           ++ exists u, v. split; auto. now right.
           ++ destruct Hin as [[= <- <-]|Hin]; [|exists u, v; auto]. destruct Hv as [|[_ Hv]]; [lia|congruence].
      * cbn [bind]. intros H. rewrite (IH b H). split; intros (u & v & Hin & Hv).
        -- exists u, v. split; auto. now right.
        -- destruct Hin as [[= <- <-]|Hin]; [|exists u, v; auto]. destruct Hv as [|[Hv _]]; lia.
Qed.
Lemma aget_det {A} (l : list A) i x y : aget l i = Ok x -> aget l i = Ok y -> x = y. Proof. congruence. Qed.
Lemma last_byte c : scalar c -> exists l b, enc c = l ++ [b] /\ (b = 10 <-> c = 10) /\ (c < 128 -> l = []).
Proof.
  intros Hc. destruct (Z.ltb_spec c 128) as [H|H].
  - exists [], c. unfold enc. destruct (Z.ltb_spec c 128); [|lia]. repeat split; auto.
  - pose proof (enc_zlen c Hc). destruct (@exists_last _ (enc c)) as (l & b & E); [intros E; rewrite E in *; cbn in *; lia|].
    exists l, b. split; auto. split; [|lia]. split; [|lia]. intros ->. pose proof (enc_ge128 c 10 Hc H) as G. rewrite E in G. specialize (G ltac:(apply in_or_app; right; now left)). lia.
Qed.
Lemma prev_ok i b : (i <= L)%nat -> prev_nl m bol (pos i) = Ok b -> b = true <-> holds cs BOL i.
Proof.
  intros Hi. unfold prev_nl, holds. destruct i as [|i].
  - rewrite pos_0, Z.eqb_refl. intros [= <-]. tauto.
  - destruct (Z.eqb_spec (pos (S i)) bol) as [E|_]; [assert (pos (S i) = pos 0) as E0 by (rewrite pos_0; exact E); apply pos_inj in E0; lia|].
    destruct (nth_ex i ltac:(lia)) as (c & Ec). destruct (nth_scalar i c Ec) as [Hc _]. destruct (last_byte c Hc) as (l & x & E & Hx & _).
    destruct (at_pos i c Ec) as (r & HP). rewrite (pos_S i c Ec), E, zlen_app. change (zlen [x]) with 1. replace (pos i + (zlen l + 1) - 1) with (pos i + zlen l) by lia.
    rewrite E, <- app_assoc in HP. apply at_app in HP as [_ HP]. cbn [app] in HP. rewrite (at_head _ _ _ _ HP). cbn [bind]. intros [= <-].
    replace (S i - 1)%nat with i by lia. rewrite Ec. rewrite Z.eqb_eq, Hx. split; [intros ->; auto|]. intros [|[= H]]; [lia|exact H].
Qed.
Lemma next_zero i b : nth_error cs i = Some 10 -> (exists pc n, nth_error (code pr) pc = Some (I EOZ n)) -> aget m (pos i + 1) = Ok b -> b =? 0 = true <-> S i = L.
Proof.
  intros Ec HE Hb. pose proof (pos_S i 10 Ec) as E. change (zlen (enc 10)) with 1 in E. rewrite <- E in Hb. pose proof (nth_lt i 10 Ec) as HL.
  destruct (Nat.eq_dec (S i) L) as [E1|E1].
  - rewrite E1 in Hb. rewrite (Heoz HE) in Hb. injection Hb as <-. cbn. tauto.
  - destruct (nth_ex (S i) ltac:(lia)) as (c & Ec'). destruct (nth_scalar _ _ Ec') as [Hc H0]. destruct (at_pos _ _ Ec') as (l & HP).
    destruct (enc_split c Hc H0) as (x & r & Ex & _ & Hx & _). rewrite Ex in HP. cbn [app] in HP. rewrite (at_head _ _ _ _ HP) in Hb. injection Hb as <-.
    rewrite Z.eqb_eq. tauto.
Qed.

Notation exec_op := (exec_op runematch isword pr m bol eol false ms cap).
Definition other (o : op) : Prop := match o with OR _ | END => False | _ => True end.
Lemma set_r_same st : set_r st (l_r st) = st. Proof. destruct st; reflexivity. Qed.
Lemma aget_nth {A} (l : list A) k x d : aget l k = Ok x -> nth (Z.to_nat k) l d = x.
Proof.
  unfold aget. destruct (k <? 0); [discriminate|]. destruct (nth_error l (Z.to_nat k)) eqn:E; [|discriminate]. intros [= <-].
  now apply nth_error_nth.
Qed.
Lemma aset_upd {A} (l : list A) k x l' : aset l k x = Ok l' -> l' = upd l (Z.to_nat k) x.
Proof. unfold aset. destruct (_ && _); [|discriminate]. now intros [= <-]. Qed.

Lemma exec_inv i pc n base t0 rest o cur st a : (i <= L)%nat -> nth_error (code pr) pc = Some (I o n) -> RE i (l_r st) -> l_icase st = picase pr ->
  exec_op (pos i) base t0 rest o cur st = Ok a ->
  (exists q x, o = OR (Some q) /\ renewthread cap base (Thr t0 cur :: rest) q cur = Ok x /\ (a = Over \/ a = Go cur (tl (fst x)) st)) \/
  (o = END /\ 0 < zlen cur /\ let cur' := upd cur 0 (fst (m0 cur), pos i - m0buf cur) in
     a = Brk false cur' (Loc (l_r st) (l_icase st) true (renewmatch (l_mp st) ms cur' (nsub pr)) (l_nl st))) \/
  (other o /\ holds cs o i /\ a = Go (set_caps pos o i cur) rest st) \/
  (other o /\ ~ holds cs o i /\ exists ok r', RE i r' /\ a = Brk ok cur (set_r st r') /\
     (forall c, nth_error cs i = Some c -> ok = true <-> takes runematch pr o c)).
Proof.
  intros Hi Hpc HR HI. pose proof (Hcore pc _ Hpc) as HC. cbn [iop] in HC. unfold Regex_Model.exec_op.
  assert (EOLT : at_eol eol (pos i) || (l_r st =? 0) = true <-> i = L).
  { destruct (Nat.eq_dec i L) as [->|Hn].
    - split; auto. intros _. unfold at_eol. destruct eol as [e|] eqn:Ee.
      + rewrite (Htail e eq_refl). now rewrite Z.eqb_refl.
      + unfold RE in HR. assert (nth_error cs L = None) as EN by (apply nth_error_None; unfold L; lia). rewrite EN in HR. rewrite (HR Ee). reflexivity.
    - destruct (nth_ex i ltac:(lia)) as (c & Ec). rewrite at_eol_lt by lia. cbn [orb]. pose proof (RE_0 i c _ Ec HR) as H0. apply Z.eqb_neq in H0. rewrite H0. split; [discriminate|lia]. }
  destruct o as [c|c| | | | | | | | |sp|sp| | | | |k|k|q|]; cbn [core_op] in HC; try contradiction.
  - destruct (runematch c (l_r st)) as [b|] eqn:E; cbn [bind]; [|discriminate]. intros [= <-]. right; right; right. cbn [other holds takes]. split; [exact Logic.I|]. split; [tauto|].
    exists b, (l_r st). split; auto. rewrite set_r_same. split; auto. intros x Ex. rewrite <- (RE_plain i x _ Ex HR HC), E. split; [now intros ->|now intros [= ->]].
  - cbv zeta. destruct (runematch c (casefold (l_r st))) as [b|] eqn:E; cbn [bind]; [|discriminate]. intros [= <-]. right; right; right. cbn [other holds takes]. split; [exact Logic.I|]. split; [tauto|].
    exists b, (casefold (l_r st)). split; [now apply RE_fold|]. split; auto. intros x Ex. rewrite <- (RE_folded i x _ Ex HR HC), E. split; [now intros ->|now intros [= ->]].
  - intros [= <-]. right; right; right. cbn [other holds takes]. split; [exact Logic.I|]. split; [tauto|]. exists (negb (l_r st =? 10)), (l_r st). split; auto. rewrite set_r_same. split; auto.
    intros x Ex. rewrite negb_true_iff, Z.eqb_neq, (RE_10 i x _ Ex HR). tauto.
  - intros [= <-]. right; right; right. cbn [other holds takes]. split; [exact Logic.I|]. split; [tauto|]. exists true, (l_r st). split; auto. rewrite set_r_same. split; auto. tauto.
  - intros [= <-]. right; right; right. cbn [other holds takes]. split; [exact Logic.I|]. split; [tauto|]. exists false, (l_r st). split; auto. rewrite set_r_same. split; auto.
    intros. split; [discriminate|tauto].
  - destruct (prev_nl m bol (pos i)) as [b|] eqn:E; cbn [bind]; [|discriminate]. apply prev_ok in E; auto. intros [= <-]. right; right. unfold go_if. destruct b.
    + left. split; [exact Logic.I|]. split; [now apply E|]. reflexivity.
    + right. split; [exact Logic.I|]. split; [intros H; apply E in H; discriminate|]. exists false, (l_r st). rewrite set_r_same. split; [exact HR|split; [reflexivity|intros ? _; cbn [takes]; split; [discriminate|tauto]]].
  - intros [= <-]. right; right. unfold go_if. destruct (Z.eqb_spec (pos i) bol) as [E|E].
    + left. split; [exact Logic.I|]. split; [|reflexivity]. assert (pos i = pos 0) as E0 by (rewrite pos_0; exact E). apply pos_inj in E0; auto. lia.
    + right. split; [exact Logic.I|]. split; [intros ->; apply E, pos_0|]. exists false, (l_r st). rewrite set_r_same. split; [exact HR|split; [reflexivity|intros ? _; cbn [takes]; split; [discriminate|tauto]]].
  - intros [= <-]. right; right. unfold go_if. rewrite <- orb_assoc.
    assert (H : (l_r st =? 10) || (at_eol eol (pos i) || (l_r st =? 0)) = true <-> holds cs EOL i).
    { rewrite orb_true_iff, EOLT, Z.eqb_eq. cbn [holds]. fold L. destruct (Nat.eq_dec i L) as [->|Hn]; [tauto|]. destruct (nth_ex i ltac:(lia)) as (c & Ec).
      rewrite (RE_10 i c _ Ec HR), Ec. split; [intros [->|]; [auto|lia]|intros [|[= H]]; [lia|auto]]. }
    destruct ((l_r st =? 10) || (at_eol eol (pos i) || (l_r st =? 0))).
    + left. split; [exact Logic.I|]. split; [now apply H|reflexivity].
    + right. split; [exact Logic.I|]. split; [intros H'; apply H in H'; discriminate|]. exists false, (l_r st). rewrite set_r_same. split; [exact HR|split; [reflexivity|intros ? _; cbn [takes]; split; [discriminate|tauto]]].
  - intros [= <-]. right; right. unfold go_if. destruct (at_eol eol (pos i) || (l_r st =? 0)).
    + left. split; [exact Logic.I|]. split; [now apply EOLT|reflexivity].
    + right. split; [exact Logic.I|]. split; [intros H'; apply EOLT in H'; discriminate|]. exists false, (l_r st). rewrite set_r_same. split; [exact HR|split; [reflexivity|intros ? _; cbn [takes]; split; [discriminate|tauto]]].
  - right; right. destruct (at_eol eol (pos i) || (l_r st =? 0)).
    + injection H as <-. left. split; [exact Logic.I|]. split; [left; now apply EOLT|reflexivity].
    + assert (HL : (i < L)%nat) by (destruct (Nat.eq_dec i L) as [E|]; [apply EOLT in E; discriminate|lia]). destruct (nth_ex i HL) as (c & Ec).
      destruct (Z.eqb_spec (l_r st) 10) as [E10|E10].
      * apply (RE_10 i c _ Ec HR) in E10. subst c. destruct (aget m (pos i + 1)) as [b|] eqn:Eb; cbn [bind] in H; [|discriminate]. injection H as <-.
        apply next_zero in Eb; eauto. unfold go_if. destruct (b =? 0).
        -- left. split; [exact Logic.I|]. split; [right; split; auto; now apply Eb|reflexivity].
        -- right. split; [exact Logic.I|]. split; [intros [H'|[_ H']]; [unfold L in HL; lia|apply Eb in H'; discriminate]|]. exists false, (l_r st). rewrite set_r_same. split; [exact HR|split; [reflexivity|intros ? _; cbn [takes]; split; [discriminate|tauto]]].
      * injection H as <-. right. split; [exact Logic.I|]. split; [intros [H'|[H' _]]; [unfold L in HL; lia|]; rewrite Ec in H'; injection H' as ->; apply E10; now apply (RE_10 i 10 _ Ec HR)|].
        exists false, (l_r st). rewrite set_r_same. split; [exact HR|split; [reflexivity|intros ? _; cbn [takes]; split; [discriminate|tauto]]].
  - rewrite HI. cbv zeta. set (r' := if picase pr then casefold (l_r st) else l_r st). destruct (in_class runematch sp r') as [b|] eqn:E; cbn [bind]; [|discriminate]. intros [= <-].
    apply in_class_ok in E. right; right; right. split; [exact Logic.I|]. split; [cbn; tauto|]. exists b, r'. split; [unfold r'; destruct (picase pr) eqn:Ep; auto; now apply RE_fold|]. split; auto.
    intros c Ec. cbn [takes]. unfold folded. unfold r' in E. destruct (picase pr) eqn:Ep; [rewrite (RE_folded i c _ Ec HR Ep) in E|rewrite (RE_plain i c _ Ec HR Ep) in E]; exact E.
  - rewrite HI. cbv zeta. set (r' := if picase pr then casefold (l_r st) else l_r st). destruct (in_class runematch sp r') as [b|] eqn:E; cbn [bind]; [|discriminate]. intros [= <-].
    apply in_class_ok in E. right; right; right. split; [exact Logic.I|]. split; [cbn; tauto|]. exists (negb b), r'. split; [unfold r'; destruct (picase pr) eqn:Ep; auto; now apply RE_fold|]. split; auto.
    intros c Ec. cbn [takes]. unfold folded. unfold r' in E. destruct (picase pr) eqn:Ep; [rewrite (RE_folded i c _ Ec HR Ep) in E|rewrite (RE_plain i c _ Ec HR Ep) in E];
      rewrite negb_true_iff, <- E; destruct b; split; congruence.
  - destruct (aget cur k) as [e|] eqn:E; cbn [bind]; [|discriminate]. destruct (aset cur k (Some (pos i), snd e)) as [cur'|] eqn:E'; cbn [bind]; [|discriminate]. intros [= <-].
    right; right; left. split; [exact Logic.I|]. split; [exact Logic.I|]. apply aset_upd in E'. subst cur'. cbn [set_caps]. now rewrite (aget_nth _ _ _ (None, 0) E).
  - destruct (aget cur k) as [e|] eqn:E; cbn [bind]; [|discriminate]. destruct (aset cur k (fst e, pos i - ptr (fst e))) as [cur'|] eqn:E'; cbn [bind]; [|discriminate]. intros [= <-].
    right; right; left. split; [exact Logic.I|]. split; [exact Logic.I|]. apply aset_upd in E'. subst cur'. cbn [set_caps]. now rewrite (aget_nth _ _ _ (None, 0) E).
  - destruct q as [q|]; [|discriminate]. destruct (renewthread cap base (Thr t0 cur :: rest) q cur) as [x|] eqn:E; cbn [bind]; [|discriminate].
    intros H. left. exists q, x. split; auto. split; auto. destruct (match snd x with Some e => e =? cap - 2 | None => false end); injection H as <-; auto.
  - cbn [negb bind]. cbv zeta. destruct (aset cur 0 (fst (m0 cur), pos i - m0buf cur)) as [cur'|] eqn:E; cbn [bind]; [|discriminate]. intros [= <-]. right; left. split; auto.
    split; [apply aset_inv in E; lia|]. apply aset_upd in E. subst cur'. reflexivity.
Qed.

(** ** Threads *)
Variable is0 : nat.
Notation csteps := (csteps runematch pr cs pos).
Notation steps := (steps runematch pr cs).
Notation step := (step runematch pr cs).
Notation accepts := (accepts runematch pr cs).
Notation captured := (captured runematch pr cs pos ms).
Definition tsound (i : nat) (t : thr) : Prop :=
  exists i0, (is0 <= i0 <= i)%nat /\ csteps (startpc pr, i0, empty_se ms (pos i0)) (tpc t, i, tse t).
Definition cov (l : list thr) (pc : nat) (a : Z) : Prop := exists t, In t l /\ tpc t = pc /\ m0buf (tse t) <= a.
Definition covV (V : list (nat * Z)) (pc : nat) (a : Z) : Prop := exists b, In (pc, b) V /\ b <= a.

Lemma nth0_upd {A} (e : list A) k x d : (1 <= k)%nat -> nth 0 (upd e k x) d = nth 0 e d.
Proof. destruct e, k; cbn; auto; lia. Qed.
Lemma set_caps_m0 pc o n i e : nth_error (code pr) pc = Some (I o n) -> m0 (set_caps pos o i e) = m0 e.
Proof. intros H. pose proof (Hcore pc _ H) as HC. cbn [iop] in HC. destruct o; cbn [set_caps core_op] in *; auto; apply nth0_upd; lia. Qed.
Lemma set_caps_len o i e : length (set_caps pos o i e) = length e.
Proof. destruct o; cbn [set_caps]; auto; apply length_upd. Qed.
Lemma csteps_m0 x y : csteps x y -> m0 (snd y) = m0 (snd x) /\ length (snd y) = length (snd x).
Proof.
  induction 1 as [x|x y z _ IH H]; [auto|]. destruct IH as [IH1 IH2]. destruct H as [pc i e o n c Hp _ _|pc i e o n Hp _|pc i e q n Hp]; cbn [snd] in *; auto.
  rewrite (set_caps_m0 _ _ _ _ _ Hp), set_caps_len. auto.
Qed.
Lemma csteps_trans x y z : csteps x y -> csteps y z -> csteps x z.
Proof. intros H1 H2. induction H2; auto. eapply css_snoc; [|eassumption]; auto. Qed.
Lemma steps_trans x y z : steps x y -> steps y z -> steps x z.
Proof. intros H1 H2. induction H2; auto. eapply ss_snoc; [|eassumption]; auto. Qed.
Lemma erase x y : csteps x y -> steps (fst x) (fst y).
Proof.
  induction 1 as [x|x y z _ IH H]; [constructor|]. eapply ss_snoc; [exact IH|]. destruct H; cbn [fst]; [eapply st_take|eapply st_pass|eapply st_right]; eauto.
Qed.
Lemma step_le x y : step x y -> (snd x <= snd y <= S (snd x))%nat /\ ((snd x <= L)%nat -> (snd y <= L)%nat).
Proof. destruct 1 as [pc i o n c _ H _|pc i o n _ _|pc i q n _]; cbn; split; auto; try lia. intros _. apply nth_lt in H. lia. Qed.
Lemma steps_le x y : steps x y -> (snd x <= snd y)%nat /\ ((snd x <= L)%nat -> (snd y <= L)%nat).
Proof. induction 1 as [x|x y z _ IH H]; [auto|]. apply step_le in H. intuition lia. Qed.
Lemma tsound_start i t : tsound i t -> (i <= L)%nat -> exists i0, (is0 <= i0 <= i)%nat /\ m0 (tse t) = (Some (pos i0), 0) /\ m0buf (tse t) = pos i0 /\ length (tse t) = ms /\
  csteps (startpc pr, i0, empty_se ms (pos i0)) (tpc t, i, tse t).
Proof.
  intros (i0 & Hi & H) HL. exists i0. split; auto. pose proof (csteps_m0 _ _ H) as [E1 E2]. cbn [snd] in *. unfold m0buf. rewrite E1.
  split; [reflexivity|]. split; [reflexivity|]. split; [|exact H]. rewrite E2. unfold empty_se. cbn [length]. rewrite repeat_length. lia.
Qed.

Lemma cov_le l p a b : cov l p a -> a <= b -> cov l p b.
Proof. intros (t & H1 & H2 & H3) H. exists t. repeat split; auto. lia. Qed.
Lemma scan_some l pc sp : forall l', renew_scan l pc sp = Some l' ->
  cov l' pc (m0buf sp) /\ (forall p a, cov l p a -> cov l' p a) /\ (forall t, In t l' -> In t l \/ t = Thr pc sp).
Proof.
  induction l as [|t l IH]; intros l'; cbn [renew_scan]; [discriminate|]. destruct (Nat.eqb_spec (tpc t) pc) as [E|E].
  - intros [= <-]. destruct (Z.ltb_spec (m0buf sp) (m0buf (tse t))) as [H|H].
    + split; [exists (Thr pc sp); cbn; repeat split; auto; lia|]. split.
      * intros p a (u & [<-|Hu] & Hp & Ha); [exists (Thr pc sp); cbn; repeat split; auto; [congruence|lia]|exists u; cbn; auto].
      * intros u [<-|Hu]; auto. left; now right.
    + split; [exists t; cbn; repeat split; auto; lia|]. split; auto.
  - destruct (renew_scan l pc sp) as [r|]; [|discriminate]. intros [= <-]. destruct (IH r eq_refl) as (H1 & H2 & H3). split; [|split].
    + destruct H1 as (u & Hu & H1). exists u. split; auto. now right.
    + intros p a (u & [<-|Hu] & Hp & Ha); [exists t; cbn; auto|]. destruct (H2 p a) as (v & Hv & Hv'); [exists u; auto|]. exists v. split; auto. now right.
    + intros u [<-|Hu]; [left; now left|]. destruct (H3 u Hu); auto. left; now right.
Qed.
Lemma renew_ok base l pc sp x : renewthread cap base l pc sp = Ok x ->
  cov (fst x) pc (m0buf sp) /\ (forall p a, cov l p a -> cov (fst x) p a) /\ (forall t, In t (fst x) -> In t l \/ t = Thr pc sp).
Proof.
  unfold renewthread. destruct (renew_scan l pc sp) as [l'|] eqn:E.
  - intros [= <-]. now apply scan_some.
  - cbv zeta. destruct (_ <? cap); [|discriminate]. intros [= <-]. cbn [fst]. split; [|split].
    + exists (Thr pc sp). split; [apply in_or_app; right; now left|]. cbn. split; auto. lia.
    + intros p a (u & Hu & H). exists u. split; auto. apply in_or_app. auto.
    + intros t Ht. apply in_app_or in Ht as [Ht|Ht]; [|destruct Ht as [<-|Ht]; [|destruct Ht]]; auto.
Qed.
Lemma or_renew base t0 cur rest q x : renewthread cap base (Thr t0 cur :: rest) q cur = Ok x ->
  (q = t0 /\ tl (fst x) = rest) \/
  (cov (tl (fst x)) q (m0buf cur) /\ (forall p a, cov rest p a -> cov (tl (fst x)) p a) /\ (forall t, In t (tl (fst x)) -> In t rest \/ t = Thr q cur)).
Proof.
  unfold renewthread. cbn [renew_scan tpc tse]. destruct (Nat.eqb_spec t0 q) as [<-|E].
  - intros [= <-]. auto.
  - intros H. right. destruct (renew_scan rest q cur) as [r|] eqn:ES.
    + injection H as <-. cbn [fst tl]. now apply scan_some.
    + cbv zeta in H. destruct (_ <? cap); [|discriminate]. injection H as <-. cbn [fst app tl]. split; [|split].
      * exists (Thr q cur). split; [apply in_or_app; right; now left|]. cbn. split; auto. lia.
      * intros p a (u & Hu & H). exists u. split; auto. apply in_or_app. auto.
      * intros t Ht. apply in_app_or in Ht as [Ht|Ht]; [|destruct Ht as [<-|Ht]; [|destruct Ht]]; auto.
Qed.

(** ** The best match so far *)
Definition better (st : loc) (i0 j : nat) : Prop :=
  l_match st = true /\ forall e, l_mp st = Some e ->
    exists a b, m0 e = (Some (pos a), pos b - pos a) /\ (a <= b <= L)%nat /\ ((a < i0)%nat \/ a = i0 /\ (j <= b)%nat).
(** What mp holds is a match found before index k. *)
Let nc := Nat.min ms (S (nsub pr)).
Definition msound (k : nat) (st : loc) : Prop :=
  (l_match st = true -> exists a b, (is0 <= a <= b)%nat /\ (b < k)%nat /\ accepts a b) /\
  forall e, l_mp st = Some e -> (ms <= length e)%nat /\
    if l_match st then exists a b e', (is0 <= a <= b)%nat /\ (b < k)%nat /\ (b <= L)%nat /\ captured a b e' /\ firstn nc e = firstn nc e' /\ m0 e = (Some (pos a), pos b - pos a)
    else fst (m0 e) = None.
Definition better_mono (st st' : loc) : Prop := forall i0 j, better st i0 j -> better st' i0 j.

Lemma cap_accepts a b e : (a <= L)%nat -> captured a b e -> accepts a b.
Proof. intros Ha (pc & e' & H & He & _). split; auto. exists pc. split; auto. apply erase in H. exact H. Qed.
Lemma m0_firstn (n : nat) (e : se) : (1 <= n)%nat -> m0 (firstn n e) = m0 e.
Proof. destruct n; [lia|]. destruct e; reflexivity. Qed.
Lemma m0_app (a b : se) : a <> [] -> m0 (a ++ b) = m0 a.
Proof. destruct a; [congruence|reflexivity]. Qed.

Lemma renewmatch_ok st i i0 pc (cur : se) : (is0 <= i0 <= i)%nat -> (i <= L)%nat -> is_end pr pc ->
  csteps (startpc pr, i0, empty_se ms (pos i0)) (pc, i, cur) -> msound (S i) st ->
  let cur' := upd cur 0 (fst (m0 cur), pos i - m0buf cur) in
  let st' := Loc (l_r st) (l_icase st) true (renewmatch (l_mp st) ms cur' (nsub pr)) (l_nl st) in
  msound (S i) st' /\ better st' i0 i /\ better_mono st st'.
Proof.
  intros Hi HL HE HC [HM1 HM2] cur' st'. pose proof (csteps_m0 _ _ HC) as [Em El]. cbn [snd] in Em, El.
  unfold empty_se in Em, El. cbn [length] in El. rewrite repeat_length in El. change (m0 ((Some (pos i0), 0) :: repeat (None, 0) (ms - 1))) with (Some (pos i0), 0) in Em.
  assert (Eb : m0buf cur = pos i0) by (unfold m0buf; rewrite Em; reflexivity).
  assert (E0 : m0 cur' = (Some (pos i0), pos i - pos i0)). { unfold cur'. rewrite Em, Eb. cbn [fst]. destruct cur as [|x cur]; [cbn in El; lia|]. reflexivity. }
  assert (El' : length cur' = ms) by (unfold cur'; rewrite length_upd; lia).
  assert (HCap : captured i0 i cur'). { exists pc, cur. split; auto. split; auto. unfold cur'. rewrite Em, Eb. reflexivity. }
  assert (HAcc : accepts i0 i) by (eapply cap_accepts; eauto; lia).
  destruct (l_mp st) as [e|] eqn:Emp.
  2:{ unfold st'. cbn [renewmatch]. split; [split; cbn [l_match l_mp]|split].
      - intros _. exists i0, i. split; [lia|split; [lia|exact HAcc]].
      - discriminate.
      - split; [reflexivity|discriminate].
      - intros i1 j _. split; [reflexivity|discriminate]. }
  specialize (HM2 e eq_refl). destruct HM2 as [Hle HM2]. unfold st', renewmatch. destruct (Nat.eqb_spec ms 0); [lia|].
  set (test := match fst (m0 e) with None => true | Some _ => false end || (m0buf cur' <? m0buf e) || ((m0buf cur' =? m0buf e) && (snd (m0 e) <? snd (m0 cur')))).
  set (new := firstn (Nat.min ms (S (nsub pr))) cur' ++ skipn (Nat.min ms (S (nsub pr))) e).
  assert (Hn1 : (1 <= nc)%nat) by (unfold nc; lia).
  assert (En : m0 new = m0 cur'). { unfold new. rewrite m0_app, m0_firstn; auto. fold nc. intros E. apply (f_equal (@length _)) in E. rewrite firstn_length in E. cbn in E. lia. }
  assert (Ef : firstn nc new = firstn nc cur'). { unfold new. fold nc. rewrite firstn_app, firstn_firstn, firstn_length. replace (Nat.min nc nc) with nc by lia.
    replace (nc - Nat.min nc (length cur'))%nat with O by (unfold nc in *; lia). cbn [firstn]. now rewrite app_nil_r. }
  assert (Elen : length new = length e). { unfold new. fold nc. rewrite app_length, firstn_length, skipn_length. unfold nc in *. lia. }
  assert (Ecb : m0buf cur' = pos i0) by (unfold m0buf; rewrite E0; reflexivity).
  destruct test eqn:Et.
  - (* replaced *) split; [split; cbn [l_match l_mp]|split].
    + intros _. exists i0, i. split; [lia|split; [lia|exact HAcc]].
    + intros ? [= <-]. split; [lia|]. exists i0, i, cur'. rewrite En, E0. split; [lia|split; [lia|split; [lia|auto]]].
    + split; [reflexivity|]. cbn [l_mp]. intros ? [= <-]. exists i0, i. rewrite En, E0. repeat split; auto; try lia.
    + intros i1 j [Hm Hb]. split; [reflexivity|]. cbn [l_mp]. intros ? [= <-]. exists i0, i. rewrite En, E0. split; [reflexivity|]. split; [lia|].
      destruct (Hb e Emp) as (a & b & Ee & Hab & Hcmp). unfold test in Et. rewrite Ee, E0, Ecb in Et. unfold m0buf in Et. rewrite Ee in Et. cbn [fst snd ptr orb] in Et.
      apply orb_true_iff in Et as [Et|Et].
      * apply Z.ltb_lt in Et. apply pos_lt_inv in Et; try lia.
      * apply andb_true_iff in Et as [Et1 Et2]. apply Z.eqb_eq in Et1. apply Z.ltb_lt in Et2. apply pos_inj in Et1; try lia. subst a.
        assert (pos b < pos i) as Hbi by lia. apply pos_lt_inv in Hbi; try lia.
  - unfold test in Et. apply orb_false_iff in Et as [Et1 Et3]. apply orb_false_iff in Et1 as [Et1 Et2].
    destruct (l_match st) eqn:Em1; [|rewrite HM2 in Et1; discriminate]. destruct HM2 as (a & b & e' & Hab & Hb & HbL & Hcap & Hf & Ee).
    rewrite Ecb in Et2, Et3. unfold m0buf in Et2, Et3. rewrite Ee in Et2, Et3. rewrite E0 in Et3. cbn [fst snd ptr] in Et2, Et3. apply Z.ltb_ge in Et2.
    split; [split; cbn [l_match l_mp]|split].
    + intros _. exists i0, i. split; [lia|split; [lia|exact HAcc]].
    + intros ? [= <-]. split; [lia|]. exists a, b, e'. split; [lia|split; [lia|split; [lia|auto]]].
    + split; [reflexivity|]. cbn [l_mp]. intros ? [= <-]. exists a, b. split; auto. split; [lia|].
      destruct (Nat.eq_dec a i0) as [->|Hne].
      * right. split; auto. rewrite Z.eqb_refl in Et3. cbn [andb] in Et3. apply Z.ltb_ge in Et3. destruct (le_lt_dec i b); auto. pose proof (pos_lt b i ltac:(lia)). lia.
      * left. destruct (le_lt_dec i0 a); auto. pose proof (pos_lt i0 a ltac:(lia)). lia.
    + intros i1 j [_ Hbb]. split; [reflexivity|]. cbn [l_mp]. intros ? [= <-]. exact (Hbb e Emp).
Qed.

(** ** One thread *)
Definition eps (p i q : nat) : Prop :=
  (exists o, nth_error (code pr) p = Some (I o (Some q)) /\ holds cs o i) \/ (exists n, nth_error (code pr) p = Some (I (OR (Some q)) n)).
Definition closed (V : list (nat * Z)) (i : nat) (C : nat -> Z -> Prop) (st : loc) : Prop :=
  (forall p a q, In (p, a) V -> eps p i q -> C q a) /\
  (forall p a o n c, In (p, a) V -> nth_error (code pr) p = Some (I o (Some n)) -> nth_error cs i = Some c -> takes runematch pr o c -> cov (l_nl st) n a) /\
  (forall p a i0, In (p, a) V -> is_end pr p -> (i0 <= L)%nat -> a <= pos i0 -> better st i0 i).
Definition good (i : nat) (st : loc) : Prop :=
  RE i (l_r st) /\ l_icase st = picase pr /\ ((i < L)%nat -> forall t, In t (l_nl st) -> tsound (S i) t) /\ msound (S i) st.

Lemma holds_not_takes o i c : holds cs o i -> ~ takes runematch pr o c.
Proof. destruct o; cbn; tauto. Qed.
Lemma covV_le V p a b : covV V p a -> a <= b -> covV V p b.
Proof. intros (x & H & Hx) Hl. exists x. split; auto. lia. Qed.

Notation chain := (chain runematch isword pr m bol eol false ms cap).
Lemma chain_ok i base t0 : (i <= L)%nat -> forall fuel rest pc cur st V rest' st', chain fuel (pos i) base t0 rest pc cur st = Ok (Some (rest', st')) ->
  good i st -> tsound i (Thr pc cur) -> (forall t, In t rest -> tsound i t) ->
  (pc = t0 \/ In (t0, m0buf cur) V) -> closed V i (fun q a => covV ((pc, m0buf cur) :: V) q a \/ cov rest q a) st ->
  exists V', incl V V' /\ In (pc, m0buf cur) V' /\ closed V' i (fun q a => covV V' q a \/ cov rest' q a) st' /\ good i st' /\
    (forall p a, cov rest p a -> cov rest' p a) /\ (forall t, In t rest' -> tsound i t) /\ better_mono st st'.
Proof.
  intros Hi. induction fuel as [|fuel IH]; intros rest pc cur st V rest' st' H HG HT HR Ht0 HC; [discriminate H|].
  cbn [Regex_Model.chain] in H. destruct (nth_error (code pr) pc) as [[o nx]|] eqn:Epc; [|discriminate H]. cbn [iop inext] in H.
  destruct (exec_op (pos i) base t0 rest o cur st) as [a|] eqn:Ea; [|discriminate H]. cbn [bind] in H.
  destruct HG as (HRE & HIC & HNL & HMS). destruct HC as (C1 & C2 & C3).
  destruct (tsound_start _ _ HT Hi) as (i0 & Hi0 & Em0 & Eb & Elen & HCS). cbn [tse tpc] in *.
  apply (exec_inv i pc nx) in Ea; auto. destruct Ea as [(q & x & -> & Ex & Ha)|[(-> & Hz0 & ->)|[(Ho & Hh & ->)|(Ho & Hh & ok & r' & HRE' & -> & Hok)]]].
  - (* OR *) destruct Ha as [->| ->]; [discriminate H|]. destruct nx as [n|]; [|discriminate H].
    apply or_renew in Ex. assert (HTn : tsound i (Thr n cur)).
    { exists i0. split; auto. eapply css_snoc; [exact HCS|]. cbn [tpc tse]. eapply (cs_pass _ _ _ _ pc i cur (OR (Some q)) n); eauto. exact Logic.I. }
    assert (HTq : tsound i (Thr q cur)).
    { exists i0. split; auto. eapply css_snoc; [exact HCS|]. eapply cs_right; eauto. }
    assert (HR' : forall t, In t (tl (fst x)) -> tsound i t).
    { destruct Ex as [[_ ->]|(_ & _ & E3)]; auto. intros t Ht. destruct (E3 t Ht) as [Ht1| ->]; auto. }
    assert (HM : forall p a, cov rest p a -> cov (tl (fst x)) p a) by (destruct Ex as [[_ ->]|(_ & E2 & _)]; auto).
    apply (IH _ _ _ _ ((pc, m0buf cur) :: V)) in H; auto.
    + destruct H as (V' & Hi1 & Hi2 & Hc & Hg & Hm & Hs' & Hb). exists V'. split; [intros y Hy; apply Hi1; now right|]. split; [apply Hi1; now left|]. split; [exact Hc|]. split; [exact Hg|]. split; [auto|]. split; [exact Hs'|exact Hb].
    + split; [exact HRE|]. split; [exact HIC|]. split; [exact HNL|exact HMS].
    + right. destruct Ht0 as [<-|Ht0]; [now left|now right].
    + split; [|split].
      * intros p b q' [[= <- <-]|Hp] He.
        -- destruct He as [(o' & Eo & _)|(n' & Eo)]; rewrite Epc in Eo.
           ++ injection Eo as _ <-. left. exists (m0buf cur). split; [now left|lia].
           ++ injection Eo as <- _. destruct Ex as [[-> _]|(E1 & _)]; [|right; exact E1]. left. exists (m0buf cur). split; [|lia].
              destruct Ht0 as [->|Ht0]; [right; now left|right; now right].
        -- destruct (C1 p b q' Hp He) as [(y & Hy & Hy')|Hcov]; [left; exists y; split; auto; now right|right; auto].
      * intros p b o n' c [[= <- <-]|Hp]; [|eauto]. rewrite Epc. intros [= <- <-] _ Hf; destruct Hf. 
      * intros p b j [[= <- <-]|Hp]; [|eauto]. intros (n' & En). congruence.
  - (* END *) injection H as <- <-. destruct (renewmatch_ok st i i0 pc cur) as (M1 & M2 & M3); auto; [exists nx; exact Epc|].
    exists ((pc, m0buf cur) :: V). split; [intros y Hy; now right|]. split; [now left|]. split; [split; [|split]|].
    + intros p b q [[= <- <-]|Hp] He; [|exact (C1 p b q Hp He)]. exfalso. destruct He as [(o' & Eo & Hh)|(n' & Eo)]; rewrite Epc in Eo; [|discriminate]. injection Eo as <- _. exact Hh.
    + intros p b o n' c [[= <- <-]|Hp]; [rewrite Epc; intros [= <- _] _ Hf; destruct Hf|cbn [l_nl]; eauto].
    + intros p b j [[= <- <-]|Hp] He Hj Hb; [|apply M3; eauto]. rewrite Eb in Hb. destruct M2 as [M2 M2']. split; auto. intros e Ee. destruct (M2' e Ee) as (a & b & E1 & E2 & E3). exists a, b.
      split; auto. split; auto. destruct (Nat.eq_dec i0 j) as [<-|Hne]; [exact E3|]. left. assert (i0 < j)%nat; [|lia]. destruct (le_lt_dec j i0) as [Hle|]; auto. pose proof (pos_lt j i0 ltac:(lia)). lia.
    + split; [split; [exact HRE|split; [exact HIC|split; [exact HNL|exact M1]]]|]. auto.
  - (* pass *) destruct nx as [n|]; [|discriminate H].
    assert (Ecm : m0buf (set_caps pos o i cur) = m0buf cur) by (unfold m0buf; now rewrite (set_caps_m0 _ _ _ _ _ Epc)).
    apply (IH _ _ _ _ ((pc, m0buf cur) :: V)) in H; auto.
    + destruct H as (V' & Hi1 & Hi2 & Hc & Hg & Hm & Hs' & Hb). exists V'. split; [intros y Hy; apply Hi1; now right|]. split; [apply Hi1; now left|]. split; [exact Hc|]. split; [exact Hg|]. split; [auto|]. split; [exact Hs'|exact Hb].
    + split; [exact HRE|]. split; [exact HIC|]. split; [exact HNL|exact HMS].
    + exists i0. split; auto. eapply css_snoc; [exact HCS|]. eapply cs_pass; eauto.
    + right. rewrite Ecm. destruct Ht0 as [<-|Ht0]; [now left|now right].
    + rewrite Ecm. split; [|split].
      * intros p b q' [[= <- <-]|Hp] He.
        -- destruct He as [(o' & Eo & _)|(n' & Eo)]; rewrite Epc in Eo; [|injection Eo as -> _; contradiction Ho]. injection Eo as _ <-. left. exists (m0buf cur). split; [now left|lia].
        -- destruct (C1 p b q' Hp He) as [(y & Hy & Hy')|Hcov]; [left; exists y; split; auto; now right|right; auto].
      * intros p b o' n' c [[= <- <-]|Hp]; [|eauto]. rewrite Epc. intros [= <- <-] _ Htk. exfalso. eapply holds_not_takes; eauto.
      * intros p b j [[= <- <-]|Hp]; [|eauto]. intros (n' & En). rewrite Epc in En. injection En as -> _. contradiction Ho.
  - (* break *)
    assert (G : forall nl, (forall p b, cov (l_nl st) p b -> cov nl p b) -> (forall n c, nx = Some n -> nth_error cs i = Some c -> takes runematch pr o c -> cov nl n (m0buf cur)) ->
      ((i < L)%nat -> forall t, In t nl -> tsound (S i) t) -> rest' = rest -> st' = set_nl (set_r st r') nl ->
      exists V', incl V V' /\ In (pc, m0buf cur) V' /\ closed V' i (fun q a => covV V' q a \/ cov rest' q a) st' /\ good i st' /\
        (forall p a, cov rest p a -> cov rest' p a) /\ (forall t, In t rest' -> tsound i t) /\ better_mono st st').
    { intros nl N1 N2 N3 -> ->. exists ((pc, m0buf cur) :: V). split; [intros y Hy; now right|]. split; [now left|]. split; [split; [|split]|].
      - intros p b q [[= <- <-]|Hp] He; [|exact (C1 p b q Hp He)]. exfalso. destruct He as [(o' & Eo & Hh')|(n' & Eo)]; rewrite Epc in Eo; [injection Eo as <- _; auto|injection Eo as -> _; exact Ho].
      - intros p b o' n' c [[= <- <-]|Hp]; cbn [l_nl set_nl]; [|intros; apply N1; eauto]. rewrite Epc. intros [= <- ->] Hc Htk. eapply N2; eauto.
      - intros p b j [[= <- <-]|Hp] He Hj Hb; [destruct He as (n' & En); rewrite Epc in En; injection En as -> _; contradiction Ho|]. exact (C3 p b j Hp He Hj Hb).
      - split; [split; [exact HRE'|split; [exact HIC|split; [exact N3|exact HMS]]]|]. split; auto. split; auto. intros i1 j Hb. exact Hb. }
    destruct ok.
    + destruct nx as [n|]; [|discriminate H]. destruct (renewthread cap 0 (l_nl (set_r st r')) n cur) as [x|] eqn:Ex; [|discriminate H]. cbn [bind] in H.
      apply renew_ok in Ex as (E1 & E2 & E3). destruct (match snd x with Some e => e =? cap - 2 | None => false end); [discriminate H|]. injection H as <- <-.
      apply (G (fst x)); auto.
      * intros n' c [= <-] _ _. exact E1.
      * intros HiL t Ht. destruct (E3 t Ht) as [Ht1| ->]; [now apply HNL|]. destruct (nth_ex i HiL) as (c & Ec). exists i0. split; [lia|].
        eapply css_snoc; [exact HCS|]. eapply cs_take; eauto. now apply Hok.
    + injection H as <- <-. apply (G (l_nl st)); auto.
      intros n' c _ Ec Htk. apply Hok in Htk; auto. discriminate.
Qed.

Notation run_list := (run_list runematch isword pr m bol eol false ms cap).
Lemma run_list_ok i : (i <= L)%nat -> forall fuel pend base st V st', run_list fuel (pos i) base pend st = Ok (Some st') ->
  good i st -> (forall t, In t pend -> tsound i t) -> closed V i (fun q a => covV V q a \/ cov pend q a) st ->
  exists V', incl V V' /\ (forall p a, cov pend p a -> covV V' p a) /\ closed V' i (covV V') st' /\ good i st' /\ better_mono st st'.
Proof.
  intros Hi. induction fuel as [|fuel IH]; intros pend base st V st'; (destruct pend as [|t rest]; [cbn [Regex_Model.run_list]; intros [= <-] HG _ (C1 & C2 & C3)|]).
  1,3: exists V; split; [apply incl_refl|]; split; [intros p a (u & Hu & _); destruct Hu|]; split; [|split; [exact HG|intros ? ?; auto]];
    split; [|split; [exact C2|exact C3]]; intros p a q Hp He; destruct (C1 p a q Hp He) as [|(u & Hu & _)]; [auto|destruct Hu].
  - discriminate.
  - cbn [Regex_Model.run_list]. intros H HG HT HC. destruct (chain (S (length (code pr))) (pos i) base (tpc t) rest (tpc t) (tse t) st) as [o|] eqn:E; [|discriminate H]. cbn [bind] in H.
    destruct o as [[rest' st1]|]; [|discriminate H].
    apply (chain_ok i base (tpc t) Hi _ _ _ _ _ V) in E; auto.
    + destruct E as (V1 & I1 & I2 & C' & G' & M' & T' & B'). apply (IH _ _ _ V1) in H; auto. destruct H as (V2 & J1 & J2 & J3 & J4 & J5). exists V2. split; [intros x Hx; auto|]. split; [|split; [exact J3|split; [exact J4|intros i0 j Hb; auto]]].
      intros p a (u & [<-|Hu] & Hp & Ha).
      * exists (m0buf (tse t)). split; [|exact Ha]. rewrite <- Hp. auto.
      * apply J2, M'. exists u. auto.
    + destruct t. apply HT. now left.
    + intros u Hu. apply HT. now right.
    + destruct HC as (C1 & C2 & C3). split; [|split; [exact C2|exact C3]]. intros p a q Hp He. destruct (C1 p a q Hp He) as [(x & Hx & Hxa)|(u & [<-|Hu] & Hq & Ha)].
      * left. exists x. split; auto. now right.
      * left. exists (m0buf (tse t)). split; auto. left. now rewrite Hq.
      * right. exists u. auto.
Qed.

(** ** The main loop *)
Variable styp : starttype.
Variable comp : Prop.
Definition dead (k : nat) : Prop := (forall y, ~ step (startpc pr, k) y) /\ ~ is_end pr (startpc pr).
Definition good_start : Prop := forall i q, (i <= L)%nat -> start_check m bol eol styp (pos i) = Ok q ->
  match q with
  | Some s' => exists k, (i <= k <= L)%nat /\ s' = pos k /\ (comp -> forall k', (i <= k' < k)%nat -> dead k')
  | None => comp -> forall k', (i <= k' <= L)%nat -> dead k'
  end.
Hypothesis GS : good_start.
Hypothesis Hsub : (is0 <= L)%nat.

Definition eaten (i0 pc i : nat) : Prop :=
  exists pc' i' o c, i = S i' /\ steps (startpc pr, i0) (pc', i') /\ nth_error (code pr) pc' = Some (I o (Some pc)) /\ nth_error cs i' = Some c /\ takes runematch pr o c.
Lemma eaten_between i0 x j i : steps (startpc pr, i0) (x, j) -> (i0 < i <= j)%nat -> exists pc, eaten i0 pc i.
Proof.
  intros H. remember (startpc pr, i0) as u eqn:Eu. remember (x, j) as v eqn:Ev. revert x j Ev. induction H as [u|u y z H IH Hst]; intros x j Ev Hi.
  - rewrite Eu in Ev. injection Ev as <- <-. lia.
  - subst z. subst u. inversion Hst; subst.
    + destruct (Nat.eq_dec i (S i1)) as [->|Hne]; [exists x, pc, i1, o, c; auto|]. apply (IH eq_refl _ _ eq_refl). lia.
    + apply (IH eq_refl _ _ eq_refl). lia.
    + apply (IH eq_refl _ _ eq_refl). lia.
Qed.
Lemma dead_steps k x j : dead k -> steps (startpc pr, k) (x, j) -> x = startpc pr /\ j = k.
Proof.
  intros [H _] HS. assert (G : forall u v, steps u v -> u = (startpc pr, k) -> v = u). { induction 1 as [|u y z _ IH Hst]; auto. intros ->. rewrite (IH eq_refl) in Hst. now apply H in Hst. }
  apply G in HS; auto. injection HS as -> ->. auto.
Qed.
Definition stof (mat : bool) (mp : option se) : loc := Loc 0 (picase pr) mat mp [].
Lemma better_of st i0 j : better st i0 j <-> better (stof (l_match st) (l_mp st)) i0 j.
Proof. reflexivity. Qed.
Record LI (i : nat) (tl : list thr) (mat : bool) (mp : option se) : Prop := {
  LI_t : forall t, In t tl -> tsound i t;
  LI_m : msound i (stof mat mp);
  LI_A : comp -> forall i0 pc, (is0 <= i0 < i)%nat -> eaten i0 pc i -> cov tl pc (pos i0) \/ (forall j, better (stof mat mp) i0 j);
  LI_B : comp -> forall i0 j, (is0 <= i0)%nat -> (j < i)%nat -> accepts i0 j -> better (stof mat mp) i0 j }.
Lemma msound_mono k k' st : msound k st -> (k <= k')%nat -> msound k' st.
Proof.
  intros [H1 H2] Hk. split.
  - intros Hm. destruct (H1 Hm) as (a & b & E1 & E2 & E3). exists a, b. split; [lia|split; [lia|auto]].
  - intros e He. destruct (H2 e He) as [Hl H]. split; auto. destruct (l_match st); auto. destruct H as (a & b & e' & E1 & E2 & E3). exists a, b, e'. split; [lia|split; [lia|auto]].
Qed.
Lemma skip_LI i k mat mp : (i <= k <= L)%nat -> (comp -> forall k', (i <= k' < k)%nat -> dead k') -> LI i [] mat mp -> LI k [] mat mp.
Proof.
  intros Hk HD [T M A B].
  assert (G : comp -> forall i0, (is0 <= i0 < i)%nat -> forall x j, (i <= j)%nat -> steps (startpc pr, i0) (x, j) -> forall j', better (stof mat mp) i0 j').
  { intros HC i0 Hi0 x j Hj HS. destruct (eaten_between _ _ _ i HS ltac:(lia)) as (pc & He). destruct (A HC i0 pc Hi0 He) as [(u & Hu & _)|Hb]; [destruct Hu|exact Hb]. }
  split.
  - intros t Ht. destruct Ht.
  - eapply msound_mono; eauto. lia.
  - intros HC i0 pc Hi0 (pc' & i' & o & c & -> & HS & Hrest). right. destruct (le_lt_dec i i0) as [Hle|Hlt].
    + destruct Hrest as (Hpc & Hc & Htk). assert (steps (startpc pr, i0) (pc, S i')) as HS' by (eapply ss_snoc; [exact HS|eapply st_take; eauto]).
      apply (dead_steps i0) in HS'; [lia|]. apply HD; auto. lia.
    + destruct (le_lt_dec i i') as [Hle|Hlt'].
      * eapply G; eauto. lia.
      * assert (i = S i') as -> by lia. destruct (A HC i0 pc ltac:(lia)) as [(u & Hu & _)|Hb]; [|destruct Hu|exact Hb]. exists pc', i', o, c. auto.
  - intros HC i0 j Hi0 Hj Hacc. destruct (le_lt_dec i j) as [Hle|]; [|auto]. destruct Hacc as [HL (pc & HS & HE)]. destruct (le_lt_dec i i0) as [Hle'|Hlt].
    + pose proof (steps_le _ _ HS) as [Hle2 _]. cbn [snd] in Hle2. assert (dead i0) as HDD by (apply HD; auto; lia). destruct (dead_steps i0 _ _ HDD HS) as [-> ->]. exfalso. apply HDD. exact HE.
    + eapply G; eauto.
Qed.
Definition final (x : Z * option se) : Prop :=
  exists mat, fst x = b2z mat /\ msound (S L) (stof mat (snd x)) /\
    (comp -> forall i0 j, (is0 <= i0)%nat -> accepts i0 j -> better (stof mat (snd x)) i0 j).
Lemma loop_ok : forall fuel i ck tl mat mp x, loop runematch isword pr m bol eol false ms styp cap fuel (pos i) ck tl (picase pr) mat mp = Ok x ->
  (is0 <= i <= L)%nat -> (ck = true -> tl = []) -> LI i tl mat mp -> (fst x = -1 /\ forall e, snd x = Some e -> (ms <= length e)%nat) \/ final x.
Proof.
  induction fuel as [|fuel IH]; intros i ck tl mat mp x H Hi Hck HLI; [discriminate H|]. cbn [loop] in H.
  destruct (if ck then start_check m bol eol styp (pos i) else Ok (Some (pos i))) as [q|] eqn:Eq; [|discriminate H]. cbn [bind] in H.
  assert (Hq : match q with
    | Some s' => exists k, (i <= k <= L)%nat /\ s' = pos k /\ LI k tl mat mp
    | None => LI (S L) [] mat mp end).
  { destruct ck.
    - rewrite (Hck eq_refl) in *. apply GS in Eq; [|lia]. destruct q as [s'|].
      + destruct Eq as (k & Hk & -> & HD). exists k. split; auto. split; auto. eapply skip_LI; eauto.
      + assert (HLI' : LI L [] mat mp) by (apply (skip_LI i); auto; [lia|]; intros HC k' Hk'; apply Eq; auto; lia). destruct HLI' as [T M A B]. split.
        * intros t Ht. destruct Ht.
        * eapply msound_mono; eauto.
        * intros HC i0 pc _ (pc' & i' & o & c & [= <-] & _ & _ & Hc & _). apply nth_lt in Hc. lia.
        * intros HC i0 j Hi0 Hj Hacc. destruct (le_lt_dec L j) as [Hle|]; [|auto]. assert (j = L) as -> by lia. destruct Hacc as [HL (pc & HS & HE)]. fold L in HL.
          destruct (Nat.eq_dec i0 L) as [->|Hne].
          -- assert (dead L) as HDD by (apply Eq; auto; lia). destruct (dead_steps _ _ _ HDD HS) as [-> _]. exfalso. now apply HDD.
          -- destruct (eaten_between _ _ _ L HS ltac:(lia)) as (p & He). destruct (A HC i0 p ltac:(lia) He) as [(u & Hu & _)|Hb]; [destruct Hu|apply Hb].
    - injection Eq as <-. exists i. split; [lia|auto]. }
  destruct q as [s'|].
  2:{ injection H as <-. right. exists mat. split; auto. destruct Hq as [_ M _ B]. split; auto. cbn [snd]. intros HC i0 j Hi0 Hacc. apply B; auto.
      destruct Hacc as [HL (pc & HS & _)]. apply steps_le in HS. cbn [snd] in HS. fold L in HL. lia. }
  destruct Hq as (k & Hk & -> & [T M A B]). destruct (rune_at m (pos k)) as [[r n]|] eqn:Er; [|discriminate H]. cbn [bind] in H.
  destruct (if mat then Ok tl else let* x := renewthread cap 0 tl (startpc pr) (empty_se ms (pos k)) in Ok (fst x)) as [tl1|] eqn:Etl; [|discriminate H]. cbn [bind] in H.
  destruct (run_list (Z.to_nat cap) (pos k) 0 tl1 (Loc r (picase pr) mat mp [])) as [o|] eqn:Erun; [|discriminate H]. cbn [bind] in H.
  destruct o as [st|]; [|injection H as <-; left; split; [reflexivity|]; cbn [snd]; intros e He; now apply M].
  assert (HRE : RE k r).
  { unfold RE. destruct (nth_error cs k) as [c|] eqn:Ec.
    - rewrite (rune_lt k c Ec) in Er. injection Er as <- _. now left.
    - apply nth_error_None in Ec. assert (k = L) as -> by (unfold L in *; lia). intros He. exact (Htail0 He _ _ Er). }
  assert (T1 : (forall t, In t tl1 -> tsound k t) /\ (forall p a, cov tl p a -> cov tl1 p a) /\ (mat = true \/ cov tl1 (startpc pr) (pos k))).
  { destruct mat; [injection Etl as <-; auto|]. destruct (renewthread cap 0 tl (startpc pr) (empty_se ms (pos k))) as [y|] eqn:Ey; [|discriminate Etl]. injection Etl as <-.
    apply renew_ok in Ey as (E1 & E2 & E3). split; [|split; auto]. intros t Ht. destruct (E3 t Ht) as [Ht1| ->]; auto. exists k. split; [lia|]. constructor. }
  destruct T1 as (T1 & T2 & T3).
  apply (run_list_ok k ltac:(lia) _ _ _ _ []) in Erun; auto.
  2:{ split; [exact HRE|split; [reflexivity|split]]. - intros _ t Ht. destruct Ht. - eapply msound_mono; [exact M|lia]. }
  2:{ split; [|split]; intros p a; intros; contradiction. }
  destruct Erun as (V & _ & V1 & (C1 & C2 & C3) & (R1 & R2 & R3 & R4) & Bm).
  assert (Hreach : comp -> forall i0 pc, (is0 <= i0)%nat -> steps (startpc pr, i0) (pc, k) -> covV V pc (pos i0) \/ (forall j, better st i0 j)).
  { intros HC i0 pc Hi0 HS. assert (HI : forall u v, steps u v -> u = (startpc pr, i0) -> snd v = k -> covV V (fst v) (pos i0) \/ (forall j, better st i0 j)).
    { induction 1 as [u|u y z HS' IHS Hst]; intros Eu Ev.
      - subst u. cbn [fst snd] in *. subst i0. destruct T3 as [Hm|Hc]; [|left; now apply V1]. right. intros j. apply Bm. subst mat. destruct M as [_ M]. split; [reflexivity|]. cbn [l_mp]. intros e He.
        destruct (M e He) as [_ (a & b & e' & E1 & E2 & E3 & _ & _ & E4)]. exists a, b. split; auto. split; [lia|]. left. lia.
      - subst u. inversion Hst as [pc1 i1 o1 n1 c1 Ep Ec Etk|pc1 i1 o1 n1 Ep Eh|pc1 i1 q1 n1 Ep]; subst y z; cbn [fst snd] in *; subst.
        + destruct (A HC i0 n1) as [Hcv|Hb]; [..|left; apply V1, T2, Hcv|right; intros j; apply Bm, Hb].
          * pose proof (steps_le _ _ HS') as [Hle _]. cbn [snd] in Hle. lia.
          * exists pc1, i1, o1, c1. auto.
        + destruct (IHS eq_refl eq_refl) as [(b & Hb1 & Hb2)|Hb]; [left|now right]. eapply covV_le; [|exact Hb2]. eapply C1; [exact Hb1|]. left. eauto.
        + destruct (IHS eq_refl eq_refl) as [(b & Hb1 & Hb2)|Hb]; [left|now right]. eapply covV_le; [|exact Hb2]. eapply C1; [exact Hb1|]. right. eauto. }
    apply (HI _ _ HS eq_refl eq_refl). }
  assert (HB : comp -> forall i0 j, (is0 <= i0)%nat -> (j < S k)%nat -> accepts i0 j -> better st i0 j).
  { intros HC i0 j Hi0 Hj Hacc. destruct (Nat.eq_dec j k) as [->|Hne]; [|apply Bm; apply B; auto; lia]. destruct Hacc as [HL (pc & HS & HE)].
    destruct (Hreach HC i0 pc Hi0 HS) as [(b & Hb1 & Hb2)|Hb]; [|apply Hb]. eapply C3; eauto. }
  destruct (at_eol eol (pos k) || (l_r st =? 0)) eqn:Eend.
  - assert (k = L) as ->. { destruct (Nat.eq_dec k L) as [|Hne]; auto. destruct (nth_ex k ltac:(lia)) as (c & Ec). rewrite at_eol_lt in Eend by lia. cbn [orb] in Eend. apply Z.eqb_eq in Eend. now apply (RE_0 k c _ Ec) in Eend. }
    injection H as <-. right. exists (l_match st). split; auto. split; [exact R4|]. cbn [snd]. intros HC i0 j Hi0 Hacc. apply better_of. apply HB; auto.
    destruct Hacc as [HL (pc & HS & _)]. apply steps_le in HS. cbn [snd] in HS. fold L in HL. lia.
  - assert (HkL : (k < L)%nat). { destruct (Nat.eq_dec k L) as [->|Hne]; [|lia]. exfalso. apply orb_false_iff in Eend as [E1 E2]. unfold at_eol in E1. destruct eol as [e|] eqn:Ee.
      - rewrite (Htail e eq_refl), Z.eqb_refl in E1. discriminate.
      - unfold RE in R1. rewrite (proj2 (nth_error_None cs L)) in R1 by (unfold L; lia). rewrite R1 in E2 by auto. discriminate. }
    destruct (nth_ex k HkL) as (c & Ec). rewrite (rune_lt k c Ec) in Er. injection Er as <- <-. replace (pos k + (pos (S k) - pos k)) with (pos (S k)) in H by lia.
    rewrite R2 in H. apply IH in H; auto; [lia| |].
    + destruct (has_start styp); [|discriminate]. destruct (l_nl st); [auto|discriminate].
    + split; auto.
      intros HC i0 pc Hi0 (pc' & i' & o & c' & [= <-] & HS & Hpc & Hc & Htk). destruct (Hreach HC i0 pc' ltac:(lia) HS) as [(b & Hb1 & Hb2)|Hb]; [left|right; exact Hb].
      eapply cov_le; [|exact Hb2]. eapply C2; eauto.
Qed.
End Run.
