(** The matcher never fails: no read outside of the text, no write outside of the lists. *)
From Verif Require Import Base Utf8_Tab Utf8_Model Utf8_Spec Utf8_Proofs Utf8_Proofs2 Utf8_Proofs3 Utf8_Proofs4 Utf8_Proofs5 Utf8_Proofs6 Regex_Model Regex_Spec Regex_Proofs Regex_Proofs2 Regex_Proofs3.
From Verif Require Import Recomp_Proofs16.

(** All runes and classes of an instruction can be tested on [r]. *)
Definition defined_on (rm : Z -> Z -> res bool) (o : op) (r : Z) : Prop :=
  match o with
  | RUNE c | IRUNE c => exists b, rm c r = Ok b
  | CCLASS sp | NCCLASS sp => forall a, In (a, a) sp -> exists b, rm a r = Ok b
  | _ => True
  end.
(** The code points the matcher tests on the text [cs]. *)
Definition tested (cs : list Z) (r : Z) : Prop := r = 0 \/ exists c, In c cs /\ (r = c \/ r = casefold c).
Record wired (pr : prog) : Prop := {
  w_start : (startpc pr < length (code pr))%nat;
  w_next : forall pc o n, nth_error (code pr) pc = Some (I o n) -> o <> END -> exists q, n = Some q /\ (q < length (code pr))%nat;
  w_right : forall pc r n, nth_error (code pr) pc = Some (I (OR r) n) -> exists q, r = Some q /\ (q < length (code pr))%nat;
  w_cap : forall pc k n, nth_error (code pr) pc = Some (I (LBRA k) n) \/ nth_error (code pr) pc = Some (I (RBRA k) n) -> 1 <= k <= Z.of_nat (nsub pr);
  w_ends : ending (code pr) }.
Definition no_fork (pr : prog) : Prop := forall pc r n, nth_error (code pr) pc <> Some (I (OR r) n).

Lemma nodup_app {A} (a b : list A) : NoDup a -> NoDup b -> (forall x, In x a -> ~ In x b) -> NoDup (a ++ b).
Proof.
  intros Ha Hb. induction Ha as [|x a Hx _ IH]; intros H; [exact Hb|]. cbn. constructor.
  - intros HI. apply in_app_or in HI as [HI|HI]; [auto|]. apply (H x); [now left|exact HI].
  - apply IH. intros y Hy. apply H. now right.
Qed.
Section Total.
Variable up : Z -> Z -> bool.
Notation rm := (rune_match up).
Variable isword : Z -> bool.
Variable pr : prog.
Variable m : list Z.
Variable bol : Z.
Variable cs : list Z.
Variable full : bool.
Variable cap : Z.
Let L := length cs.
Notation pos := (posn bol cs).
Notation ms := (S (nsub pr)).
Notation C := (code pr).
Hypothesis HT : text m bol cs.
Hypothesis HW : wired pr.
Hypothesis Hdef : forall pc i r, nth_error C pc = Some i -> tested cs r -> defined_on rm (iop i) r.
Hypothesis Hfirst : first_ok pr.
Hypothesis Hcap : 10 <= cap.
Hypothesis Hfew : no_fork pr \/ (ntakers C <= 6)%nat.

Let HA : holds_at m bol (enc_all cs ++ [0]). Proof. apply HT. Qed.
Let HS : Forall scalar cs. Proof. apply HT. Qed.
Let HZ : Forall (fun c => c <> 0) cs. Proof. apply HT. Qed.
Let HA1 : holds_at m bol (enc_all cs). Proof. apply (HA' m bol cs HA). Qed.

Lemma ple i j : (i <= j <= L)%nat -> pos i <= pos j. Proof. exact (pos_le rm isword bol 0 cs HS i j). Qed.
Lemma plt i j : (i < j <= L)%nat -> pos i < pos j. Proof. exact (pos_lt rm isword bol 0 cs HS i j). Qed.
Lemma p0 : pos 0 = bol. Proof. exact (pos_0 rm isword bol 0 cs). Qed.
Lemma pend : aget m (pos L) = Ok 0. Proof. exact (end_zero up isword m bol cs HT). Qed.
Definition RT (i : nat) (r : Z) : Prop := match nth_error cs i with Some c => r = c \/ r = casefold c | None => r = 0 end.
Lemma RT_tested i r : RT i r -> tested cs r.
Proof. unfold RT, tested. destruct (nth_error cs i) eqn:E; [|auto]. intros H. right. eexists. split; [eapply nth_error_In; eauto|exact H]. Qed.
Lemma RT_fold i r : RT i r -> RT i (casefold r).
Proof.
  unfold RT. destruct (nth_error cs i) as [c|] eqn:E; [|intros ->; reflexivity]. intros [->| ->]; [now right|right].
  apply nth_error_In in E. pose proof HS as H. rewrite Forall_forall in H. destruct (casefold_good c (H c E)) as (_ & _ & F & _). exact F.
Qed.
Lemma RT_10 i : (i <= L)%nat -> RT i 10 -> (i < L)%nat.
Proof. intros Hi H. unfold RT in H. destruct (nth_error cs i) eqn:E; [apply nth_error_Some; congruence|discriminate H]. Qed.
Lemma byte_at p : bol <= p <= pos L -> exists b, aget m p = Ok b.
Proof.
  intros H. apply aget_some. pose proof (at_len _ _ _ HA) as HL. rewrite zlen_app in HL. change (zlen [0]) with 1 in HL.
  assert (pos L = bol + zlen (enc_all cs)) as E by (unfold posn, cp_offset, L; now rewrite firstn_all). lia.
Qed.
Lemma prev_total i : (i <= L)%nat -> exists b, prev_nl m bol (pos i) = Ok b.
Proof.
  intros Hi. unfold prev_nl. destruct (Z.eqb_spec (pos i) bol); [eauto|]. pose proof (ple 0 i ltac:(unfold L in *; lia)). pose proof (ple i L ltac:(unfold L in *; lia)). rewrite p0 in *.
  destruct (byte_at (pos i - 1)) as [b ->]; [lia|]. cbn [bind]. eauto.
Qed.
Lemma peek_total i : (i <= L)%nat -> exists c, peek m (pos i) = Ok c.
Proof.
  intros Hi. destruct (Nat.eq_dec i L) as [->|Hn].
  - pose proof (at_skip m bol cs HA L ltac:(lia)) as H. unfold L in H at 2. rewrite skipn_all in H. cbn [enc_all flat_map app] in H. exists 0.
    apply (peek_loop_enc m 0 []); [unfold scalar; lia|exact H].
  - destruct (nth_error cs i) as [c|] eqn:E; [|apply nth_error_None in E; unfold L in *; lia]. destruct (at_pos m bol cs HA1 i c E) as [l H]. exists c. apply (peek_loop_enc m c l); auto.
    pose proof HS as X. rewrite Forall_forall in X. apply X. eapply nth_error_In; eauto.
Qed.
Lemma word_total i : (i <= L)%nat -> exists b, word_test isword m bol None (pos i) = Ok b.
Proof.
  intros Hi. unfold word_test. destruct (Z.eqb_spec (pos i) bol); [cbn; eauto|]. cbn [orb at_eol]. assert (ZS : zstring m bol (enc_all cs)) by (split; [now apply nz_scalars|exact HA]).
  assert (O : exists j, (j <= L)%nat /\ offset m (pos i) (-1) = Ok (pos j)).
  { destruct (Nat.eq_dec i L) as [->|Hn].
    - exists L. split; [lia|]. unfold offset. cbn [Z.ltb Z.compare offset_loop Z.opp]. change (1 =? 0) with false. cbn iota. rewrite pend. reflexivity.
    - destruct i as [|i]; [exfalso; apply n; apply p0|]. exists i. split; [lia|]. pose proof (offset_back m bol cs (S i) 1 HS ZS ltac:(unfold L in *; lia) ltac:(lia)) as O. replace (S i - 1)%nat with i in O by lia. exact O. }
  destruct O as (j & Hj & O). unfold peek_at. rewrite O. cbn [bind]. destruct (peek_total j Hj) as [a ->]. destruct (peek_total i Hi) as [b ->]. cbn [bind]. eauto.
Qed.
Lemma class_total sp r : (forall a, In (a, a) sp -> exists b, rm a r = Ok b) -> exists b, in_class rm sp r = Ok b.
Proof.
  induction sp as [|[a b] sp IH]; intros H; cbn [in_class]; [eauto|]. destruct ((a <=? r) && (r <=? b)); [eauto|]. destruct (Z.eqb_spec a b) as [->|].
  - destruct (H b (or_introl eq_refl)) as [x ->]. cbn [bind]. destruct x; [eauto|]. apply IH. intros; apply H; now right.
  - cbn [bind]. apply IH. intros; apply H; now right.
Qed.

(** ** Threads *)
Definition CI (e : se) : Prop := length e = ms /\ exists j, (j <= L)%nat /\ fst (m0 e) = Some (pos j).
Definition TI (t : thr) : Prop := (tpc t < length C)%nat /\ CI (tse t).
Definition NL (l : list thr) : Prop := Forall TI l /\ zlen l <= cap - 3 /\ exists tg, NoDup (map tpc l) /\ incl (map tpc l) tg /\ (length tg <= ntakers C)%nat /\
  forall pc o n, nth_error C pc = Some (I o (Some n)) -> taker o = true -> In n tg.
Lemma CI_upd e k x : CI e -> 1 <= k -> CI (upd e (Z.to_nat k) x).
Proof.
  intros [H1 (j & H2 & H3)] Hk. split; [now rewrite length_upd|]. exists j. split; auto. unfold m0 in *. destruct e as [|e0 e]; [discriminate H1|]. destruct (Z.to_nat k) eqn:E; [lia|]. exact H3.
Qed.
Lemma CI_end e s : CI e -> CI (upd e 0 (fst (m0 e), s)).
Proof. intros [H1 (j & H2 & H3)]. split; [now rewrite length_upd|]. exists j. split; auto. destruct e as [|e0 e]; [discriminate H1|]. exact H3. Qed.
Lemma scan_ok pc sp : forall l l', renew_scan l pc sp = Some l' -> (pc < length C)%nat -> CI sp -> Forall TI l -> Forall TI l' /\ map tpc l' = map tpc l.
Proof.
  intros l l' H Hp HC. revert l' H. induction l as [|t l IH]; intros l' H HF; cbn [renew_scan] in H; [discriminate H|]. inversion HF as [|? ? Ht HF']; subst.
  destruct (Nat.eqb_spec (tpc t) pc) as [E|E].
  - injection H as <-. destruct (_ <? _); cbn [map tpc]; [|auto]. split; [constructor; [split; auto|auto]|congruence].
  - destruct (renew_scan l pc sp) as [l1|] eqn:E1; [|discriminate H]. injection H as <-. destruct (IH _ eq_refl HF') as [A B]. split; [constructor; auto|cbn; congruence].
Qed.
Lemma scan_none pc sp : forall l, renew_scan l pc sp = None -> ~ In pc (map tpc l).
Proof.
  induction l as [|t l IH]; cbn [renew_scan]; [auto|]. destruct (Nat.eqb_spec (tpc t) pc) as [E|E]; [discriminate|]. destruct (renew_scan l pc sp); [discriminate|]. intros _ [H|H]; [auto|]. now apply IH.
Qed.
Lemma zlen_map {A B} (f : A -> B) l : zlen (map f l) = zlen l. Proof. unfold zlen. now rewrite map_length. Qed.
Lemma scan_len pc sp : forall l l', renew_scan l pc sp = Some l' -> zlen l' = zlen l.
Proof.
  induction l as [|t l IH]; intros l' H; cbn [renew_scan] in H; [discriminate H|]. destruct (Nat.eqb_spec (tpc t) pc); [injection H as <-; now rewrite !zlen_cons|].
  destruct (renew_scan l pc sp); [|discriminate H]. injection H as <-. rewrite !zlen_cons. now rewrite (IH _ eq_refl).
Qed.
(** A target is put on the next list. *)
Lemma renew_nl l n cur pc o : NL l -> CI cur -> nth_error C pc = Some (I o (Some n)) -> taker o = true -> (n < length C)%nat ->
  exists x, renewthread cap 0 l n cur = Ok x /\ ((exists e, snd x = Some e /\ (e =? cap - 2) = true /\ cap - 2 <= Z.of_nat (ntakers C)) \/
    (match snd x with Some e => e =? cap - 2 | None => false end = false /\ NL (fst x))).
Proof.
  intros (HF & HL & tg & HN & HI & Htg & Hall) HC Hp Ho Hn. unfold renewthread. destruct (renew_scan l n cur) as [l'|] eqn:E.
  - eexists. split; [reflexivity|]. right. cbn [fst snd]. split; [reflexivity|]. destruct (scan_ok _ _ _ _ E Hn HC HF) as [A B]. split; [exact A|]. rewrite (scan_len _ _ _ _ E). split; [exact HL|]. exists tg. rewrite B. auto.
  - apply scan_none in E. cbv zeta. rewrite (Z.add_0_l (zlen l)). destruct (Z.ltb_spec (zlen l + 1) cap) as [Hlt|Hge]; [|lia]. eexists. split; [reflexivity|]. cbn [fst snd].
    assert (HN' : NoDup (map tpc (l ++ [Thr n cur]))).
    { rewrite map_app. cbn [map tpc]. apply nodup_app; auto; [repeat constructor; auto|]. intros x Hx [<-|[]]. auto. }
    assert (HI' : incl (map tpc (l ++ [Thr n cur])) tg).
    { rewrite map_app. apply incl_app; auto. intros x [<-|[]]. eapply Hall; eauto. }
    destruct (Z.eqb_spec (zlen l + 1) (cap - 2)) as [E2|E2].
    + left. exists (zlen l + 1). split; [reflexivity|]. split; [now apply Z.eqb_eq|]. pose proof (NoDup_incl_length HN' HI') as X. rewrite map_length, app_length in X. cbn in X. unfold zlen in *. lia.
    + right. split; [reflexivity|]. split; [apply Forall_app; split; [auto|constructor; [split; auto|constructor]]|]. rewrite Base.zlen_app. change (zlen [Thr n cur]) with 1. split; [lia|]. exists tg. auto.
Qed.

Notation exec_op := (exec_op rm isword pr m bol None full ms cap).
Notation chain := (chain rm isword pr m bol None full ms cap).
Notation run_list := (run_list rm isword pr m bol None full ms cap).
Definition forking : Prop := exists pc r n, nth_error C pc = Some (I (OR r) n).
(** How long the current list may be. *)
Definition room (n : Z) : Prop := n <= cap - 2 /\ (forking -> n <= cap - 3).
Definition outc (o : op) (base : Z) (rest : list thr) (i : nat) (st : loc) (a : act) : Prop :=
  match a with
  | Over => forks o = true
  | Go cur' rest' st' => o <> END /\ CI cur' /\ Forall TI rest' /\ RT i (l_r st') /\ l_nl st' = l_nl st /\ room (base + 1 + zlen rest')
  | Brk ok cur' st' => CI cur' /\ RT i (l_r st') /\ l_nl st' = l_nl st /\ (ok = true -> taker o = true)
  end.
Lemma exec_total pc o n i base t0 rest cur st : nth_error C pc = Some (I o n) -> (i <= L)%nat -> (t0 < length C)%nat -> Forall TI rest -> CI cur -> RT i (l_r st) ->
  0 <= base -> room (base + 1 + zlen rest) -> exists a, exec_op (pos i) base t0 rest o cur st = Ok a /\ outc o base rest i st a.
Proof.
  intros Hp Hi Ht HF HC HR Hb Hroom. pose proof (Hdef _ _ (l_r st) Hp (RT_tested _ _ HR)) as D. pose proof (Hdef _ _ (casefold (l_r st)) Hp (RT_tested _ _ (RT_fold _ _ HR))) as DF. cbn [iop] in D, DF.
  assert (GO : forall b, outc o base rest i st (go_if b cur rest st) \/ o = END) by (intros b; destruct (taker o) eqn:Eo; [|]; destruct b; cbn; destruct o; auto; left; repeat split; auto; try apply HC; try apply Hroom; discriminate).
  assert (ZC : zlen cur = Z.of_nat ms) by (unfold zlen; destruct HC as [-> _]; reflexivity).
  assert (KC : forall k, (o = LBRA k \/ o = RBRA k) -> 0 <= k < zlen cur /\ 1 <= k).
  { intros k Hk. destruct (w_cap _ HW pc k n) as [K1 K2]; [destruct Hk as [->| ->]; auto|]. lia. }
  destruct o; cbn [Regex_Model.exec_op defined_on] in *.
  - destruct D as [b ->]. cbn [bind]. eexists. split; [reflexivity|]. cbn. auto.
  - destruct DF as [b ->]. cbn [bind]. eexists. split; [reflexivity|]. cbn. split; [auto|]. split; [now apply RT_fold|auto].
  - eexists. split; [reflexivity|]. cbn. auto.
  - eexists. split; [reflexivity|]. cbn. auto.
  - eexists. split; [reflexivity|]. cbn. split; [auto|]. split; [auto|]. split; [auto|discriminate].
  - destruct (prev_total i Hi) as [b ->]. cbn [bind]. eexists. split; [reflexivity|]. destruct (GO b) as [|X]; [auto|discriminate X].
  - eexists. split; [reflexivity|]. destruct (GO (pos i =? bol)) as [|X]; [auto|discriminate X].
  - eexists. split; [reflexivity|]. match goal with |- outc _ _ _ _ _ (go_if ?b _ _ _) => destruct (GO b) as [|X]; [auto|discriminate X] end.
  - eexists. split; [reflexivity|]. match goal with |- outc _ _ _ _ _ (go_if ?b _ _ _) => destruct (GO b) as [|X]; [auto|discriminate X] end.
  - cbn [at_eol orb]. destruct (Z.eqb_spec (l_r st) 0) as [E0|E0]; [eexists; split; [reflexivity|]; destruct (GO true) as [|X]; [auto|discriminate X]|].
    destruct (Z.eqb_spec (l_r st) 10) as [E1|E1].
    + rewrite E1 in HR. pose proof (RT_10 i Hi HR) as HL. pose proof (ple 0 i ltac:(lia)) as B1. pose proof (plt i L ltac:(lia)) as B2. rewrite p0 in B1. destruct (byte_at (pos i + 1)) as [b ->]; [lia|]. cbn [bind].
      eexists. split; [reflexivity|]. destruct (GO (b =? 0)) as [|X]; [auto|discriminate X].
    + eexists. split; [reflexivity|]. destruct (GO false) as [|X]; [auto|discriminate X].
  - destruct (l_icase st).
    + destruct (class_total sp (casefold (l_r st)) DF) as [b ->]. cbn [bind]. eexists. split; [reflexivity|]. cbn. split; [auto|]. split; [now apply RT_fold|auto].
    + destruct (class_total sp (l_r st) D) as [b ->]. cbn [bind]. eexists. split; [reflexivity|]. cbn. auto.
  - destruct (l_icase st).
    + destruct (class_total sp (casefold (l_r st)) DF) as [b ->]. cbn [bind]. eexists. split; [reflexivity|]. cbn. split; [auto|]. split; [now apply RT_fold|auto].
    + destruct (class_total sp (l_r st) D) as [b ->]. cbn [bind]. eexists. split; [reflexivity|]. cbn. auto.
  - destruct (word_total i Hi) as [b ->]. cbn [bind]. eexists. split; [reflexivity|]. destruct (GO b) as [|X]; [auto|discriminate X].
  - destruct (word_total i Hi) as [b ->]. cbn [bind]. eexists. split; [reflexivity|]. destruct b; cbn; [auto|]. split; [discriminate|auto].
  - eexists. split; [reflexivity|]. cbn. split; [discriminate|auto].
  - eexists. split; [reflexivity|]. cbn. split; [discriminate|auto].
  - destruct (KC k ltac:(auto)) as [K1 K2]. destruct (aget_some cur k K1) as [e ->]. cbn [bind]. rewrite aset_ok by exact K1. cbn [bind]. eexists. split; [reflexivity|]. cbn. split; [discriminate|]. split; [now apply CI_upd|auto].
  - destruct (KC k ltac:(auto)) as [K1 K2]. destruct (aget_some cur k K1) as [e ->]. cbn [bind]. rewrite aset_ok by exact K1. cbn [bind]. eexists. split; [reflexivity|]. cbn. split; [discriminate|]. split; [now apply CI_upd|auto].
  - destruct (w_right _ HW _ _ _ Hp) as (q & -> & Hq). assert (FK : forking) by (exists pc, (Some q), n; exact Hp). destruct Hroom as [R1 R2]. specialize (R2 FK).
    unfold renewthread. assert (HF0 : Forall TI (Thr t0 cur :: rest)) by (constructor; [split; auto|exact HF]).
    destruct (renew_scan (Thr t0 cur :: rest) q cur) as [l'|] eqn:E.
    + cbn [bind fst snd]. eexists. split; [reflexivity|]. destruct (scan_ok _ _ _ _ E Hq HC HF0) as [A _]. pose proof (scan_len _ _ _ _ E) as SL. rewrite zlen_cons in SL.
      destruct l' as [|t' l']; [rewrite zlen_nil in SL; pose proof (zlen_nonneg rest); lia|]. rewrite zlen_cons in SL. inversion A; subst. cbn. split; [discriminate|]. split; [auto|]. split; [auto|]. split; [auto|]. split; [auto|]. split; [lia|intros; lia].
    + rewrite zlen_cons. destruct (Z.ltb_spec (base + (1 + zlen rest) + 1) cap) as [Hlt|Hge]; [|lia]. cbn [bind fst snd]. destruct (Z.eqb_spec (base + (1 + zlen rest) + 1) (cap - 2)) as [E2|E2].
      * eexists. split; [reflexivity|]. reflexivity.
      * eexists. split; [reflexivity|]. cbn. split; [discriminate|]. split; [auto|]. split; [apply Forall_app; split; [exact HF|constructor; [split; auto|constructor]]|]. split; [auto|]. split; [auto|]. rewrite Base.zlen_app. change (zlen [Thr q cur]) with 1. split; [lia|intros; lia].
  - assert (F : exists f, (if negb full then Ok true else if at_eol None (pos i) || (l_r st =? 0) || (l_r st =? 10) then prev_nl m bol (m0buf cur) else Ok false) = Ok f).
    { destruct (negb full); [eauto|]. destruct (_ || _); [|eauto]. destruct HC as [_ (j & Hj & Ej)]. unfold m0buf. rewrite Ej. cbn [ptr]. now apply prev_total. }
    destruct F as [f ->]. cbn [bind]. rewrite aset_ok by lia. cbn [bind]. eexists. split; [reflexivity|]. cbn. split; [now apply CI_end|]. split; [auto|]. split; [auto|discriminate].
Qed.

Definition why : Prop := forking \/ cap - 2 <= Z.of_nat (ntakers C).
Lemma chain_total i base t0 : (i <= L)%nat -> (t0 < length C)%nat -> 0 <= base -> forall fuel rest pc cur st e k, ends C pc e k -> (k < fuel)%nat ->
  Forall TI rest -> CI cur -> RT i (l_r st) -> NL (l_nl st) -> room (base + 1 + zlen rest) ->
  exists o, chain fuel (pos i) base t0 rest pc cur st = Ok o /\
    match o with None => why | Some (rest', st') => Forall TI rest' /\ room (base + 1 + zlen rest') /\ RT i (l_r st') /\ NL (l_nl st') end.
Proof.
  intros Hi Ht Hb. induction fuel as [|fuel IH]; intros rest pc cur st e k HE Hk HF HC HR HN Hroom; [lia|]. cbn [Regex_Model.chain].
  destruct (nth_error C pc) as [[o n]|] eqn:Ep; [|apply nth_error_None in Ep; apply ends_in in HE; lia]. cbn [iop inext].
  destruct (exec_total pc o n i base t0 rest cur st Ep Hi Ht HF HC HR Hb Hroom) as (a & -> & Ha). cbn [bind]. destruct a as [cur' rest' st'|ok cur' st'|]; cbn [outc] in Ha.
  - destruct Ha as (Ho & HC' & HF' & HR' & Hnl & Hroom'). destruct (w_next _ HW _ _ _ Ep Ho) as (q & -> & Hq). inversion HE as [? o' X|? o' q' ? k1 X X']; subst; rewrite Ep in X; [discriminate X|]. injection X as <- <-.
    eapply IH; eauto; [lia|congruence].
  - destruct Ha as (HC' & HR' & Hnl & Hok). destruct ok; [|eexists; split; [reflexivity|]; cbn; rewrite Hnl; auto]. specialize (Hok eq_refl).
    destruct (w_next _ HW _ _ _ Ep) as (q & -> & Hq); [intros ->; discriminate Hok|]. rewrite Hnl. destruct (renew_nl _ _ _ _ _ HN HC' Ep Hok Hq) as (x & -> & [(e0 & Ex & E0 & Hw)|[Ex HN']]); cbn [bind].
    + rewrite Ex, E0. eexists. split; [reflexivity|]. now right.
    + rewrite Ex. eexists. split; [reflexivity|]. cbn. auto.
  - eexists. split; [reflexivity|]. left. destruct o; try discriminate Ha. exists pc, right, n. exact Ep.
Qed.
Lemma run_total i : (i <= L)%nat -> forall fuel base pend st, cap - base <= Z.of_nat fuel -> 0 <= base -> Forall TI pend -> room (base + zlen pend) -> RT i (l_r st) -> NL (l_nl st) ->
  exists o, run_list fuel (pos i) base pend st = Ok o /\ match o with None => why | Some st' => RT i (l_r st') /\ NL (l_nl st') end.
Proof.
  intros Hi. induction fuel as [|fuel IH]; intros base pend st Hf Hb HF Hroom HR HN; (destruct pend as [|t rest]; cbn [Regex_Model.run_list]; [eexists; split; [reflexivity|]; cbn; auto|]);
    rewrite zlen_cons in Hroom; pose proof (zlen_nonneg rest) as Hz; pose proof Hroom as [Hr1 Hr2]; [lia|].
  inversion HF as [|? ? [Ht HCt] HF']; subst. destruct (w_ends _ HW _ Ht) as (e & k & HE). pose proof (ends_short _ _ _ _ HE) as Hk.
  destruct (chain_total i base (tpc t) Hi Ht Hb (S (length C)) rest (tpc t) (tse t) st e k HE ltac:(lia) HF' HCt HR HN) as (o & -> & Ho); [replace (base + 1 + zlen rest) with (base + (1 + zlen rest)) by lia; exact Hroom|]. cbn [bind].
  destruct o as [[rest' st']|]; [|eexists; split; [reflexivity|exact Ho]]. destruct Ho as (A1 & A2 & A3 & A4). apply IH; auto; lia.
Qed.
Definition targets : list nat := flat_map (fun i => if taker (iop i) then match inext i with Some n => [n] | None => [] end else []) C.
Lemma targets_few : (length targets <= ntakers C)%nat.
Proof.
  unfold targets, ntakers. generalize C. induction l as [|[o n] l IH]; [cbn; lia|]. cbn [flat_map filter iop inext]. rewrite app_length. destruct (taker o); [|cbn; lia]. destruct n; cbn; lia.
Qed.
Lemma NL_nil : NL [].
Proof.
  split; [constructor|]. split; [rewrite zlen_nil; lia|]. exists targets. split; [constructor|]. split; [intros x []|]. split; [apply targets_few|].
  intros pc o n H Ho. unfold targets. apply in_flat_map. exists (I o (Some n)). split; [eapply nth_error_In; eauto|]. cbn. rewrite Ho. now left.
Qed.
Lemma NL_room l : NL l -> forking -> zlen l <= 6.
Proof.
  intros (_ & _ & tg & HN & HI & Ht & _) (pc & r & n & HF). destruct Hfew as [X|X]; [destruct (X _ _ _ HF)|]. pose proof (NoDup_incl_length HN HI) as Y. rewrite map_length in Y. unfold zlen. lia.
Qed.
Lemma empty_CI i : (i <= L)%nat -> CI (empty_se ms (pos i)).
Proof. intros Hi. unfold empty_se. split; [cbn [length]; rewrite repeat_length; lia|]. exists i. auto. Qed.
Lemma start_push tl i : NL tl -> (i <= L)%nat -> exists x, renewthread cap 0 tl (startpc pr) (empty_se ms (pos i)) = Ok x /\ Forall TI (fst x) /\ room (zlen (fst x)).
Proof.
  intros HN Hi. pose proof (NL_room _ HN) as HR. destruct HN as (HF & HL & _). pose proof (w_start _ HW) as Hst. pose proof (empty_CI i Hi) as HC. unfold renewthread. destruct (renew_scan tl (startpc pr) (empty_se ms (pos i))) as [l'|] eqn:E.
  - eexists. split; [reflexivity|]. cbn [fst]. destruct (scan_ok _ _ _ _ E Hst HC HF) as [A _]. rewrite (scan_len _ _ _ _ E). split; [exact A|]. split; [lia|]. intros; lia.
  - cbv zeta. rewrite (Z.add_0_l (zlen tl)). destruct (Z.ltb_spec (zlen tl + 1) cap); [|lia]. eexists. split; [reflexivity|]. cbn [fst]. split.
    + apply Forall_app. split; [exact HF|]. constructor; [split; auto|constructor].
    + rewrite zlen_app. change (zlen [Thr (startpc pr) (empty_se ms (pos i))]) with 1. split; [lia|]. intros FK. specialize (HR FK). lia.
Qed.
Lemma start_total styp i : start_of pr = Ok styp -> (i <= L)%nat -> exists q, start_check m bol None styp (pos i) = Ok q.
Proof.
  intros Hst Hi. destruct (skip_len up m bol cs HA i) as [HF|]; [|unfold L in *; lia]. pose proof (Fskip cs _ i HS) as S1. pose proof (Fskip cs _ i HZ) as S2. pose proof (at_skip m bol cs HA i Hi) as S3.
  assert (T : forall c, 0 <= c < 128 -> exists q, utfrune m (pos i) c = Ok q).
  { intros c Hc. unfold utfrune. destruct (strchr_ok m c Hc (skipn i cs) (pos i) (S (length m)) S1 S2 S3 HF) as [(k & E & _)|(E & _)]; rewrite E; eauto. }
  unfold start_of in Hst. destruct (nth_error C (startpc pr)) as [[o n]|] eqn:Ep; [|discriminate Hst]. cbn [iop] in Hst. injection Hst as <-. pose proof (Hfirst _ _ Ep) as Hf. destruct o; cbn [start_check]; eauto.
  - destruct (negb (picase pr) && (c <? 128)) eqn:Eb; cbn [start_check]; [|eauto]. apply andb_true_iff in Eb as [_ Eb]. apply Z.ltb_lt in Eb. destruct (T c ltac:(lia)) as [q ->]. cbn [bind]. eauto.
  - destruct (picase pr && (c <? 128)) eqn:Eb; cbn [start_check]; [|eauto]. apply andb_true_iff in Eb as [_ Eb]. apply Z.ltb_lt in Eb. unfold utfruneicase.
    assert (HL : 0 <= lower c < 128) by (unfold lower; destruct (Z.leb_spec 65 c); destruct (Z.leb_spec c 90); cbn; lia).
    destruct (icase_ok m (lower c) HL (skipn i cs) (pos i) (S (length m)) S1 S2 S3 HF) as [(k & x & E & _)|(E & _)]; rewrite E; cbn [bind]; eauto.
  - destruct (pos i =? bol); [eauto|]. destruct (T 10 ltac:(lia)) as [q ->]. cbn [bind]. eauto.
Qed.
Lemma rune_total i : (i <= L)%nat -> exists r n, rune_at m (pos i) = Ok (r, n) /\ RT i r /\ ((i < L)%nat -> pos i + n = pos (S i)) /\ (i = L -> r = 0).
Proof.
  intros Hi. destruct (Nat.eq_dec i L) as [->|Hn].
  - exists 0, 1. unfold rune_at. rewrite pend. cbn [bind]. split; [reflexivity|]. split; [|split; [lia|auto]]. unfold RT. rewrite (proj2 (nth_error_None cs L)) by (unfold L; lia). reflexivity.
  - destruct (nth_error cs i) as [c|] eqn:E; [|apply nth_error_None in E; unfold L in *; lia]. exists c, (pos (S i) - pos i). split; [apply (rune_lt rm isword m bol cs HA1 HS HZ i c E)|]. split; [unfold RT; rewrite E; auto|]. split; [lia|lia].
Qed.
Lemma loop_total styp : start_of pr = Ok styp -> forall fuel i ck tl ic mat mp, (i <= L)%nat -> (L - i < fuel)%nat -> NL tl ->
  exists x, loop rm isword pr m bol None full ms styp cap fuel (pos i) ck tl ic mat mp = Ok x /\ (fst x = 0 \/ fst x = 1 \/ fst x = -1 /\ why).
Proof.
  intros Hst. induction fuel as [|fuel IH]; intros i ck tl ic mat mp Hi Hf HN; [lia|]. cbn [loop].
  assert (Q : exists q, (if ck then start_check m bol None styp (pos i) else Ok (Some (pos i))) = Ok q /\ match q with Some s => exists k, (i <= k <= L)%nat /\ s = pos k | None => True end).
  { destruct ck; [|eexists; split; [reflexivity|]; exists i; split; [lia|reflexivity]]. destruct (start_total styp i Hst Hi) as [q E]. exists q. split; [exact E|].
    pose proof (start_good up isword pr m bol cs HT Hfirst False styp ltac:(tauto) Hst i q Hi E) as G. destruct q; [|auto]. destruct G as (k & G1 & G2 & _). eauto. }
  destruct Q as (q & -> & Q). cbn [bind]. destruct q as [s|]; [|eexists; split; [reflexivity|]; cbn [fst]; destruct mat; auto]. destruct Q as (k & Hk & ->).
  destruct (rune_total k ltac:(lia)) as (r & n & -> & HR & Hn1 & Hn2). cbn [bind].
  assert (T1 : exists tl1, (if mat then Ok tl else let* x := renewthread cap 0 tl (startpc pr) (empty_se ms (pos k)) in Ok (fst x)) = Ok tl1 /\ Forall TI tl1 /\ room (zlen tl1)).
  { destruct mat.
    - exists tl. pose proof (NL_room _ HN). destruct HN as (A & B & _). split; [reflexivity|]. split; [exact A|]. split; [lia|]. intros; lia.
    - destruct (start_push tl k HN ltac:(lia)) as (x & -> & A & B). cbn [bind]. eauto. }
  destruct T1 as (tl1 & -> & HF1 & HR1). cbn [bind].
  destruct (run_total k ltac:(lia) (Z.to_nat cap) 0 tl1 (Loc r ic mat mp []) ltac:(lia) ltac:(lia) HF1 HR1 HR NL_nil) as (o & -> & Ho). cbn [bind].
  destruct o as [st|]; [|eexists; split; [reflexivity|]; cbn [fst]; auto]. destruct Ho as [HR' HN']. cbn [at_eol orb].
  destruct (Z.eqb_spec (l_r st) 0) as [E0|E0]; [eexists; split; [reflexivity|]; cbn [fst]; destruct (l_match st); auto|].
  assert (k < L)%nat. { destruct (Nat.eq_dec k L) as [->|]; [|lia]. unfold RT in HR'. rewrite (proj2 (nth_error_None cs L)) in HR' by (unfold L; lia). congruence. }
  rewrite Hn1 by assumption. apply IH; auto; lia.
Qed.
Lemma regexec1_total styp i mp : start_of pr = Ok styp -> (i <= L)%nat ->
  exists x, regexec1 rm isword pr m bol (pos i) None full mp ms styp cap = Ok x /\ (fst x = 0 \/ fst x = 1 \/ fst x = -1 /\ why).
Proof.
  intros Hst Hi. unfold regexec1. apply loop_total; auto; [|apply NL_nil].
  pose proof (at_len _ _ _ HA) as HL. rewrite zlen_app in HL. change (zlen [0]) with 1 in HL. assert (length cs <= length (enc_all cs))%nat; [|unfold zlen, L in *; lia].
  pose proof HS as X. clear -X. induction X as [|c cs Hc _ IH]; [cbn; lia|]. rewrite enc_all_cons, app_length. pose proof (enc_zlen c Hc). unfold zlen in *. cbn [length]. lia.
Qed.
End Total.

(** ** The entry points *)
Section Entries.
Variable up : Z -> Z -> bool.
Variable isword : Z -> bool.
Variable pr : prog.
Variable m : list Z.
Variable bol : Z.
Variable cs : list Z.
Notation pos := (posn bol cs).
Hypothesis HT : text m bol cs.
Hypothesis HW : wired pr.
Hypothesis Hdef : forall pc i r, nth_error (code pr) pc = Some i -> tested cs r -> defined_on (rune_match up) (iop i) r.
Hypothesis Hfirst : first_ok pr.
Hypothesis Hfew : no_fork pr \/ (ntakers (code pr) <= 6)%nat.
Lemma starts_ex : exists styp, start_of pr = Ok styp.
Proof. unfold start_of. pose proof (w_start _ HW) as H. destruct (nth_error (code pr) (startpc pr)) eqn:E; [eauto|]. apply nth_error_None in E. lia. Qed.
Lemma two_total full styp i mp : start_of pr = Ok styp -> (i <= length cs)%nat ->
  exists x, (let* x := regexec1 (rune_match up) isword pr m bol (pos i) None full mp (S (nsub pr)) styp 10 in
             if 0 <=? fst x then Ok x else regexec1 (rune_match up) isword pr m bol (pos i) None full (snd x) (S (nsub pr)) styp 100) = Ok x /\
    (fst x = 0 \/ fst x = 1 \/ fst x = -1 /\ ~ (no_fork pr /\ (ntakers (code pr) <= 97)%nat)).
Proof.
  intros Hst Hi. destruct (regexec1_total up isword pr m bol cs full 10 HT HW Hdef Hfirst ltac:(lia) Hfew styp i mp Hst Hi) as (x & -> & Hx). cbn [bind].
  destruct (Z.leb_spec 0 (fst x)) as [H0|H0]; [eexists; split; [reflexivity|]; destruct Hx as [|[|[? _]]]; auto; lia|].
  destruct (regexec1_total up isword pr m bol cs full 100 HT HW Hdef Hfirst ltac:(lia) Hfew styp i (snd x) Hst Hi) as (y & -> & Hy). eexists. split; [reflexivity|].
  destruct Hy as [|[|[Hy Hwhy]]]; auto. right; right. split; [exact Hy|]. intros [N1 N2]. destruct Hwhy as [(pc & r & n & X)|X]; [exact (N1 _ _ _ X)|lia].
Qed.
Definition plain_flag (fl : mflag) : Prop := fl = FDefault \/ fl = FFull.
Lemma match_total mp fl : plain_flag fl -> exists x, match_pro (rune_match up) isword pr m bol mp fl = Ok x /\
  (fst x = 0 \/ fst x = -1 \/ fst x = -2 /\ ~ (no_fork pr /\ (ntakers (code pr) <= 97)%nat)).
Proof.
  intros Hfl. destruct starts_ex as [styp Hst]. unfold match_pro, regexec.
  assert (E : (match fst (match mp with Some e => m0 e | None => (None, 0) end), fl with
    | Some b, FStartEnd => (b, Some (b + snd (match mp with Some e => m0 e | None => (None, 0) end)))
    | Some b, FNext => (b + snd (match mp with Some e => m0 e | None => (None, 0) end), None)
    | _, _ => (bol, None) end) = (bol, @None Z)) by (destruct (fst _); destruct Hfl as [->| ->]; reflexivity).
  cbv zeta. rewrite E, Hst. cbn [bind]. assert (P0 : pos 0 = bol) by (unfold posn; rewrite cp_offset_0; lia).
  destruct (two_total (match fl with FFull => true | _ => false end) styp 0 mp Hst ltac:(lia)) as (x & Ex & Hx). rewrite P0 in Ex. rewrite Ex. cbn [bind]. eexists. split; [reflexivity|]. cbn [fst].
  destruct Hx as [->|[->|[-> Hx]]]; cbn; auto.
Qed.
Lemma next_total mt i0 j0 : m0 mt = (Some (pos i0), pos j0 - pos i0) -> (j0 <= length cs)%nat -> exists x, match_next (rune_match up) isword pr m bol mt = Ok x /\
  (fst x = 0 \/ fst x = -1 \/ fst x = -2 /\ ~ (no_fork pr /\ (ntakers (code pr) <= 97)%nat)).
Proof.
  intros Hm Hj. destruct starts_ex as [styp Hst]. unfold match_next, match_pro, regexec. rewrite Hm. cbn [fst snd]. cbv zeta iota. rewrite Hst. cbn [bind].
  replace (pos i0 + (pos j0 - pos i0)) with (pos j0) by lia. destruct (two_total false styp j0 (Some mt) Hst Hj) as (x & Ex & Hx). rewrite Ex. cbn [bind]. eexists. split; [reflexivity|]. cbn [fst].
  destruct Hx as [->|[->|[-> Hx]]]; cbn; auto.
Qed.
End Entries.
