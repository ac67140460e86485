(** CREG_FULLMATCH: what is reported as a full match is one. *)
From Verif Require Import Base Utf8_Tab Utf8_Model Utf8_Spec Utf8_Proofs Utf8_Proofs2 Utf8_Proofs3 Utf8_Proofs4 Regex_Model Regex_Spec Regex_Proofs Regex_Proofs2 Regex_Proofs3.

(** Only END looks at the flag. *)
Lemma exec_full rm isword pr m bol eol full ms cap s base t0 rest o cur st : o <> END ->
  exec_op rm isword pr m bol eol full ms cap s base t0 rest o cur st = exec_op rm isword pr m bol eol false ms cap s base t0 rest o cur st.
Proof. destruct o; try reflexivity. congruence. Qed.
Lemma op_end o : {o = END} + {o <> END}.
Proof. destruct o; auto; right; discriminate. Qed.

Section Full.
Variable runematch : Z -> Z -> res bool.
Variable isword : Z -> bool.
Variable pr : prog.
Variable m : list Z.
Variable bol : Z.
Variable ms : nat.
Variable cap : Z.
Variable cs : list Z.
Let L := length cs.
Notation pos := (posn bol cs).
Hypothesis HA : holds_at m bol (enc_all cs).
Hypothesis Hs : Forall scalar cs.
Hypothesis Hz : Forall (fun c => c <> 0) cs.
Hypothesis Hcore : core pr.
Hypothesis Htail0 : forall r n, rune_at m (pos L) = Ok (r, n) -> r = 0.
Hypothesis Heoz : (exists pc n, nth_error (code pr) pc = Some (I EOZ n)) -> aget m (pos L) = Ok 0.
Hypothesis Hms : (1 <= ms)%nat.
Notation accepts := (accepts runematch pr cs).
Notation csteps := (csteps runematch pr cs pos).
Notation tsound := (tsound runematch pr bol ms cs 0).
Notation RE := (RE pr None cs).
Lemma Htail : forall e : Z, None = Some e -> e = pos L. Proof. discriminate. Qed.
Lemma Htail1 : @None Z = None -> forall r n, rune_at m (pos L) = Ok (r, n) -> r = 0. Proof. intros _. exact Htail0. Qed.
Notation exec_op := (exec_op runematch isword pr m bol None true ms cap).
Notation chain := (chain runematch isword pr m bol None true ms cap).
Notation run_list := (run_list runematch isword pr m bol None true ms cap).

(** A match of a whole line. *)
Definition line : Prop := exists a b, accepts a b /\ holds cs BOL a /\ holds cs EOL b.
Definition good (i : nat) (st : loc) : Prop :=
  RE i (l_r st) /\ l_icase st = picase pr /\ ((i < L)%nat -> forall t, In t (l_nl st) -> tsound (S i) t) /\ (l_match st = true -> line).

Lemma end_inv i pc n base t0 rest cur st a : (i <= L)%nat -> nth_error (code pr) pc = Some (I END n) -> RE i (l_r st) -> tsound i (Thr pc cur) ->
  exec_op (pos i) base t0 rest END cur st = Ok a ->
  exists cur' f mp, a = Brk false cur' (Loc (l_r st) (l_icase st) f mp (l_nl st)) /\ (f = true -> line).
Proof.
  intros Hi Hpc HR HT. destruct (tsound_start runematch isword pr m bol None ms cap cs Hcore Htail Htail1 Hms _ _ _ HT Hi) as (i0 & Hi0 & Em0 & Eb & Elen & HCS). cbn [tse tpc] in *.
  cbn [Regex_Model.exec_op negb at_eol orb]. cbv zeta. rewrite Eb.
  destruct (if (l_r st =? 0) || (l_r st =? 10) then prev_nl m bol (pos i0) else Ok false) as [f|] eqn:Ef; cbn [bind]; [|discriminate].
  destruct (aset cur 0 (fst (m0 cur), pos i - pos i0)) as [cur'|] eqn:E; cbn [bind]; [|discriminate]. intros [= <-]. eexists _, f, _. split; [reflexivity|].
  intros ->. destruct ((l_r st =? 0) || (l_r st =? 10)) eqn:Er; [|discriminate Ef].
  assert (HB : holds cs BOL i0) by (apply (prev_ok runematch isword m bol None ms cap cs HA Hs Hz Htail Htail1 Hms i0 true); auto; unfold L in *; lia).
  exists i0, i. split; [|split; [exact HB|]].
  - split; [unfold L in *; lia|]. exists pc. split; [|exists n; exact Hpc]. apply erase in HCS. exact HCS.
  - cbn [holds]. destruct (Nat.eq_dec i L) as [|Hn]; [now left|right]. destruct (nth_ex runematch isword cap cs i ltac:(unfold L in *; lia)) as (c & Ec). rewrite Ec.
    pose proof (RE_0 runematch isword pr m bol None ms cs Hs Hz Htail Htail1 Hms i c _ Ec HR) as H0. apply orb_true_iff in Er as [Er|Er]; apply Z.eqb_eq in Er; [contradiction|].
    apply (RE_10 pr None cs Hs Hz i c _ Ec HR) in Er. now subst c.
Qed.

Lemma chain_full i base t0 : (i <= L)%nat -> forall fuel rest pc cur st rest' st', chain fuel (pos i) base t0 rest pc cur st = Ok (Some (rest', st')) ->
  good i st -> tsound i (Thr pc cur) -> (forall t, In t rest -> tsound i t) -> good i st' /\ (forall t, In t rest' -> tsound i t).
Proof.
  intros Hi. induction fuel as [|fuel IH]; intros rest pc cur st rest' st' H HG HT HR; [discriminate H|].
  cbn [Regex_Model.chain] in H. destruct (nth_error (code pr) pc) as [[o nx]|] eqn:Epc; [|discriminate H]. cbn [iop inext] in H.
  destruct (exec_op (pos i) base t0 rest o cur st) as [a|] eqn:Ea; [|discriminate H]. cbn [bind] in H.
  destruct HG as (HRE & HIC & HNL & HMS).
  destruct (tsound_start runematch isword pr m bol None ms cap cs Hcore Htail Htail1 Hms _ _ _ HT Hi) as (i0 & Hi0 & Em0 & Eb & Elen & HCS). cbn [tse tpc] in *.
  destruct (op_end o) as [->|Ho].
  { apply (end_inv i pc nx) in Ea; auto. destruct Ea as (cur' & f & mp & -> & Hf). injection H as <- <-. split; [|exact HR]. split; [exact HRE|split; [exact HIC|split; [exact HNL|exact Hf]]]. }
  rewrite exec_full in Ea by exact Ho.
  apply (exec_inv runematch isword pr m bol None ms cap cs HA Hs Hz Hcore Htail Htail1 Heoz Hms i pc nx) in Ea; auto.
  destruct Ea as [(q & x & -> & Ex & Ha)|[(-> & _)|[(_ & Hh & ->)|(_ & Hh & ok & r' & HRE' & -> & Hok)]]]; [|congruence| |].
  - destruct Ha as [->| ->]; [discriminate H|]. destruct nx as [n|]; [|discriminate H].
    apply (or_renew runematch isword m bol None ms cap cs Htail Htail1 Hms) in Ex. apply IH in H; auto.
    + split; [exact HRE|split; [exact HIC|split; [exact HNL|exact HMS]]].
    + exists i0. split; auto. eapply css_snoc; [exact HCS|]. cbn [tpc tse]. eapply (cs_pass _ _ _ _ pc i cur (OR (Some q)) n); eauto. exact Logic.I.
    + destruct Ex as [[_ ->]|(_ & _ & E3)]; auto. intros t Ht. destruct (E3 t Ht) as [Ht1| ->]; auto. exists i0. split; auto. eapply css_snoc; [exact HCS|]. eapply cs_right; eauto.
  - destruct nx as [n|]; [|discriminate H]. apply IH in H; auto.
    + split; [exact HRE|split; [exact HIC|split; [exact HNL|exact HMS]]].
    + exists i0. split; auto. eapply css_snoc; [exact HCS|]. eapply cs_pass; eauto.
  - destruct ok.
    + destruct nx as [n|]; [|discriminate H]. destruct (renewthread cap 0 (l_nl (set_r st r')) n cur) as [x|] eqn:Ex; [|discriminate H]. cbn [bind] in H.
      apply (renew_ok runematch isword m bol None ms cap cs Htail Htail1 Hms) in Ex as (_ & _ & E3). destruct (match snd x with Some e => e =? cap - 2 | None => false end); [discriminate H|]. injection H as <- <-.
      split; [|exact HR]. split; [exact HRE'|split; [exact HIC|split; [|exact HMS]]]. cbn [l_nl set_nl]. intros HiL t Ht. destruct (E3 t Ht) as [Ht1| ->]; [now apply HNL|].
      destruct (nth_ex runematch isword cap cs i HiL) as (c & Ec). exists i0. split; [lia|]. eapply css_snoc; [exact HCS|]. eapply cs_take; eauto. now apply Hok.
    + injection H as <- <-. split; [|exact HR]. split; [exact HRE'|split; [exact HIC|split; [exact HNL|exact HMS]]].
Qed.
Lemma run_full i : (i <= L)%nat -> forall fuel pend base st st', run_list fuel (pos i) base pend st = Ok (Some st') ->
  good i st -> (forall t, In t pend -> tsound i t) -> good i st'.
Proof.
  intros Hi. induction fuel as [|fuel IH]; intros pend base st st'; (destruct pend as [|t rest]; [cbn [Regex_Model.run_list]; intros [= <-] HG _; exact HG|]); [discriminate|].
  cbn [Regex_Model.run_list]. intros H HG HT. destruct (chain (S (length (code pr))) (pos i) base (tpc t) rest (tpc t) (tse t) st) as [o|] eqn:E; [|discriminate H]. cbn [bind] in H.
  destruct o as [[rest' st1]|]; [|discriminate H]. apply (chain_full i base (tpc t) Hi) in E; auto.
  - destruct E as [G T]. now apply IH in H.
  - destruct t. apply HT. now left.
  - intros u Hu. apply HT. now right.
Qed.
Variable styp : starttype.
Hypothesis GS : good_start runematch pr m bol None cs styp False.
Lemma loop_full : forall fuel i ck tl mat mp x, loop runematch isword pr m bol None true ms styp cap fuel (pos i) ck tl (picase pr) mat mp = Ok x ->
  (i <= L)%nat -> (ck = true -> tl = []) -> (forall t, In t tl -> tsound i t) -> (mat = true -> line) -> fst x = 1 -> line.
Proof.
  induction fuel as [|fuel IH]; intros i ck tl mat mp x H Hi Hck HT HM Hx; [discriminate H|]. cbn [loop] in H.
  destruct (if ck then start_check m bol None styp (pos i) else Ok (Some (pos i))) as [q|] eqn:Eq; [|discriminate H]. cbn [bind] in H.
  assert (Hq : match q with Some s' => exists k, (i <= k <= L)%nat /\ s' = pos k /\ (forall t, In t tl -> tsound k t) | None => True end).
  { destruct ck.
    - apply GS in Eq; [|exact Hi]. destruct q as [s'|]; auto. destruct Eq as (k & Hk & -> & _). exists k. split; auto. split; auto. rewrite (Hck eq_refl). intros t Ht. destruct Ht.
    - injection Eq as <-. exists i. split; [unfold L in *; lia|auto]. }
  destruct q as [s'|].
  2:{ injection H as <-. cbn [fst] in Hx. destruct mat; [auto|discriminate Hx]. }
  destruct Hq as (k & Hk & -> & HT'). destruct (rune_at m (pos k)) as [[r n]|] eqn:Er; [|discriminate H]. cbn [bind] in H.
  destruct (if mat then Ok tl else let* x := renewthread cap 0 tl (startpc pr) (empty_se ms (pos k)) in Ok (fst x)) as [tl1|] eqn:Etl; [|discriminate H]. cbn [bind] in H.
  destruct (run_list (Z.to_nat cap) (pos k) 0 tl1 (Loc r (picase pr) mat mp [])) as [o|] eqn:Erun; [|discriminate H]. cbn [bind] in H.
  destruct o as [st|]; [|injection H as <-; discriminate Hx].
  assert (HRE : RE k r).
  { unfold Regex_Proofs2.RE. destruct (nth_error cs k) as [c|] eqn:Ec.
    - rewrite (rune_lt runematch isword m bol cs HA Hs Hz k c Ec) in Er. injection Er as <- _. now left.
    - apply nth_error_None in Ec. assert (k = L) as -> by (unfold L in *; lia). intros _. exact (Htail0 _ _ Er). }
  assert (T1 : forall t, In t tl1 -> tsound k t).
  { destruct mat; [injection Etl as <-; auto|]. destruct (renewthread cap 0 tl (startpc pr) (empty_se ms (pos k))) as [y|] eqn:Ey; [|discriminate Etl]. injection Etl as <-.
    apply (renew_ok runematch isword m bol None ms cap cs Htail Htail1 Hms) in Ey as (_ & _ & E3). intros t Ht. destruct (E3 t Ht) as [Ht1| ->]; auto. exists k. split; [lia|]. constructor. }
  apply (run_full k ltac:(lia)) in Erun; auto.
  2:{ split; [exact HRE|split; [reflexivity|split; [intros _ t Ht; destruct Ht|exact HM]]]. }
  destruct Erun as (R1 & R2 & R3 & R4). cbn [at_eol orb] in H. destruct (l_r st =? 0) eqn:Eend.
  - injection H as <-. cbn [fst] in Hx. destruct (l_match st); [auto|discriminate Hx].
  - assert (HkL : (k < L)%nat). { destruct (Nat.eq_dec k L) as [->|Hne]; [|lia]. exfalso. unfold Regex_Proofs2.RE in R1. rewrite (proj2 (nth_error_None cs L)) in R1 by (unfold L; lia). rewrite R1 in Eend by auto. discriminate. }
    destruct (nth_ex runematch isword cap cs k HkL) as (c & Ec). rewrite (rune_lt runematch isword m bol cs HA Hs Hz k c Ec) in Er. injection Er as <- <-. replace (pos k + (pos (S k) - pos k)) with (pos (S k)) in H by lia.
    rewrite R2 in H. apply IH in H; auto. destruct (has_start styp); [|discriminate]. destruct (l_nl st); [auto|discriminate].
Qed.
End Full.

Lemma regexec_full up isword pr m bol cs mp x : text m bol cs -> core pr -> first_ok pr ->
  regexec (rune_match up) isword pr m bol (S (nsub pr)) mp FFull = Ok x -> fst x = 1 -> line (rune_match up) pr cs.
Proof.
  intros HT HC HF H Hx. pose proof HT as (HA & Hs & Hz).
  assert (E0 : regexec (rune_match up) isword pr m bol (S (nsub pr)) mp FFull =
    let* styp := start_of pr in
    let* x := regexec1 (rune_match up) isword pr m bol bol None true mp (S (nsub pr)) styp 10 in
    if 0 <=? fst x then Ok x else regexec1 (rune_match up) isword pr m bol bol None true (snd x) (S (nsub pr)) styp 100).
  { unfold regexec. destruct mp as [e|]; [destruct (fst (m0 e))|]; reflexivity. }
  rewrite E0 in H. destruct (start_of pr) as [styp|] eqn:Es; [|discriminate H]. cbn [bind] in H.
  assert (HP : posn bol cs 0 = bol) by (unfold posn; rewrite cp_offset_0; lia).
  assert (G : forall mp cap x, regexec1 (rune_match up) isword pr m bol bol None true mp (S (nsub pr)) styp cap = Ok x -> fst x = 1 -> line (rune_match up) pr cs).
  { intros mp' cap y Hy Hy1. unfold regexec1 in Hy. rewrite <- HP in Hy at 2.
    apply (loop_full (rune_match up) isword pr m bol (S (nsub pr)) cap cs (HA' m bol cs HA) Hs Hz HC) with (styp := styp) in Hy; auto; try lia; try discriminate.
    - intros r n. now apply tail_zero with (cs := cs).
    - intros _. now apply end_zero.
    - apply start_good with (cs := cs); auto. tauto.
    - intros t Ht. destruct Ht. }
  destruct (regexec1 (rune_match up) isword pr m bol bol None true mp (S (nsub pr)) styp 10) as [y|] eqn:E; [|discriminate H]. cbn [bind] in H.
  destruct (0 <=? fst y); [injection H as <-|]; eauto.
Qed.
