(** The end of the compilation: END, the last evaluation, NOPs skipped. *)
From Verif Require Import Base Utf8_Tab Utf8_Model Utf8_Spec Regex_Model Regex_Spec Recomp_Model Recomp_Spec Recomp_Proofs Recomp_Proofs2 Recomp_Proofs3 Recomp_Proofs4 Recomp_Proofs5 Recomp_Proofs6.

(** The program is well-formed: every way leads to an instruction, none to a NOP. *)
Record wfprog (T : op -> Prop) (pr : prog) : Prop := {
  wp_start : (startpc pr < length (code pr))%nat /\ opat (code pr) (startpc pr) <> Some NOP;
  wp_ops : forall pc o n, nth_error (code pr) pc = Some (I o n) ->
    o = END \/ o = NOP \/ (exists r, o = OR r) \/ (exists k, (o = LBRA k \/ o = RBRA k) /\ 1 <= k <= Z.of_nat (nsub pr)) \/ T o;
  wp_next : forall pc o n, nth_error (code pr) pc = Some (I o n) -> o <> END -> exists q, n = Some q /\ (q < length (code pr))%nat /\ opat (code pr) q <> Some NOP;
  wp_right : forall pc r n, nth_error (code pr) pc = Some (I (OR r) n) -> exists q, r = Some q /\ (q < length (code pr))%nat /\ opat (code pr) q <> Some NOP }.
Definition Qof (T : op -> Prop) (kmax : Z) (o : op) : Prop :=
  match o with END => False | NOP => True | OR _ => True | LBRA k | RBRA k => 1 <= k <= kmax | _ => T o end.

Lemma operand_end p f l x : ators p = [(AStart, x)] -> ands p = [(f, l)] -> lw p = true -> zlen (pcode p) < icap p ->
  operand p END = ret (Par (pcode p ++ [I END None]) [(length (pcode p), length (pcode p)); (f, l)] [(ACat, csub p); (AStart, x)] (csub p) true (nbra p) (icap p)).
Proof.
  destruct p as [C an at_ cs w nb ic]. cbn [ators ands lw pcode icap csub nbra]. intros -> -> -> Hz. unfold operand, op_cat, eval_. cbn [lw ators length evaluntil cbind ret]. cbn [prio]. change (4 <=? -1) with false. cbn [cbind ret].
  unfold pushator. cbn [ators length]. change (1 <? NSTACK)%nat with true. cbn [cbind ret set_ators set_lw pcode ands ators csub lw nbra icap]. unfold newinst. cbn [pcode icap set_lw set_ators]. rewrite (proj2 (Z.ltb_lt _ _) Hz). reflexivity.
Qed.
Lemma operand_end0 p x : ators p = [(AStart, x)] -> ands p = [] -> lw p = false -> zlen (pcode p) < icap p ->
  operand p END = ret (Par (pcode p ++ [I END None]) [(length (pcode p), length (pcode p))] [(AStart, x)] (csub p) true (nbra p) (icap p)).
Proof.
  destruct p as [C an at_ cs w nb ic]. cbn [ators ands lw pcode icap csub nbra]. intros -> -> -> Hz. unfold operand. cbn [lw cbind ret].
  unfold newinst. cbn [pcode icap]. rewrite (proj2 (Z.ltb_lt _ _) Hz). reflexivity.
Qed.
Lemma eval_end C h f l x cs w nb ic k o0 n0 : nth_error C l = Some (I o0 n0) ->
  eval_ (Some 0) (Par C [(h, h); (f, l)] [(ACat, k); (AStart, x)] cs w nb ic) = ret (Par (upd C l (I o0 (Some h))) [(f, h)] [(AStart, x)] cs w nb ic).
Proof.
  intros H. unfold eval_. cbn [ators length evaluntil cbind ret prio]. change (0 <=? 4) with true. cbn [cbind ret popator ators eval_op popand ands set_ators set_ands pcode csub lw nbra icap].
  unfold set_next. cbn [pcode set_ands set_ators ands]. rewrite H. reflexivity.
Qed.
Lemma eval_nil C an x cs w nb ic : eval_ (Some 0) (Par C an [(AStart, x)] cs w nb ic) = ret (Par C an [(AStart, x)] cs w nb ic).
Proof. unfold eval_. cbn [ators length evaluntil cbind ret prio]. change (0 <=? -1) with false. reflexivity. Qed.

Section Fin.
Variables (T : op -> Prop) (kmax : Z).
Hypothesis T_end : ~ T END.
Notation Q := (Qof T kmax).
(** After END only the first operand is left; its end leads to END. *)
Lemma fin_code C f l e x cs nb ic cap : cs = kmax -> 0 <= cs -> fr C 0 (length C) f l e -> wfc Q C [l] [f] -> zlen C < cap -> nb = 0 ->
  exists pr, (let! p := operand (Par C [(f, l)] [(AStart, x)] cs true nb cap) END in
              let! p := eval_ (Some 0) p in
              if negb (nbra p =? 0) then fail UNMATCHEDLEFT else
              match ands p with
              | [] => Err OOB
              | (f, _) :: _ => let! c := lift (opt_loop (S (length (pcode p))) (pcode p) 0) in ret (Prog c f ic (Z.to_nat (csub p)))
              end) = ret pr /\ nsub pr = Z.to_nat cs /\ picase pr = ic /\ means pr e /\ wfprog T pr.
Proof.
  intros Ek Hcs HF HW Hz ->. set (hi := length C). destruct (fr_last _ _ _ _ _ _ HF) as [o0 Hl]. pose proof (fr_l _ _ _ _ _ _ HF) as Hll. pose proof (fr_f _ _ _ _ _ _ HF) as Hff.
  rewrite (operand_end _ f l x) by (auto; exact Hz). cbn [pcode csub nbra icap cbind ret]. fold hi.
  assert (Hl' : nth_error (C ++ [I END None]) l = Some (I o0 None)) by (rewrite nth_snoc_old by lia; exact Hl).
  rewrite (eval_end _ _ _ _ _ _ _ _ _ _ o0 None Hl'). cbn [cbind ret nbra ands pcode csub]. change (negb (0 =? 0)) with false. cbn iota.
  set (CF := upd (C ++ [I END None]) l (I o0 (Some hi))).
  assert (Lf : length CF = S hi) by (unfold CF; rewrite length_upd, app_length; cbn; unfold hi; lia).
  assert (EC : nth_error CF hi = Some (I END None)).
  { unfold CF. rewrite nth_upd. destruct (Nat.eqb_spec l hi); [unfold hi in *; lia|]. unfold hi. apply nth_snoc_new. }
  assert (EO : forall pc, (pc < hi)%nat -> opat CF pc = opat C pc).
  { intros pc Hp. unfold CF. rewrite (opat_upd _ _ _ _ _ _ Hl'). apply opat_snoc_old. exact Hp. }
  assert (EN : forall pc i, (pc < hi)%nat -> nth_error CF pc = Some i -> pc = l /\ i = I o0 (Some hi) \/ pc <> l /\ nth_error C pc = Some i).
  { intros pc i Hp H. unfold CF in H. rewrite nth_upd in H. destruct (Nat.eqb_spec l pc) as [<-|Hne].
    - destruct (Nat.ltb_spec l (length (C ++ [I END None]))); [|rewrite app_length in *; cbn in *; unfold hi in *; lia]. left. split; congruence.
    - right. rewrite nth_snoc_old in H by exact Hp. split; [congruence|exact H]. }
  destruct HW as [w1 w2 w3 w4 w5 w6].
  assert (Cin : forall pc, (pc < hi)%nat -> exists o q, nth_error CF pc = Some (I o (Some q)) /\ o <> END /\ (q <= hi)%nat /\ (o = NOP -> opat CF q = Some NOP -> (pc < q)%nat)).
  { intros pc Hp. destruct (nth_error CF pc) as [i|] eqn:E; [|apply nth_error_None in E; lia]. destruct (EN _ _ Hp E) as [[-> ->]|[Hne H]].
    - exists o0, hi. split; [reflexivity|]. split; [intros ->; exact (w1 _ _ _ Hl)|]. split; [lia|]. intros _ H. unfold opat in H. rewrite EC in H. discriminate H.
    - destruct i as [o [q|]]; [|destruct (w4 _ _ H) as [|[]]; congruence]. destruct (w2 _ _ _ H) as [A B]. exists o, q. split; [reflexivity|]. split; [intros ->; exact (w1 _ _ _ H)|]. split; [unfold hi; lia|]. intros Ho Hq. apply B; [exact Ho|]. rewrite EO in Hq by exact A. exact Hq. }
  assert (Cright : forall pc r n, nth_error CF pc = Some (I (OR r) n) -> exists q, r = Some q /\ (q <= hi)%nat /\ opat CF q <> Some NOP).
  { intros pc r n H. assert (Hp : (pc < length CF)%nat) by (apply nth_error_Some; congruence). rewrite Lf in Hp. destruct (Nat.eq_dec pc hi) as [->|Hne]; [rewrite EC in H; discriminate H|].
    assert (X : exists n', nth_error C pc = Some (I (OR r) n')).
    { destruct (EN pc _ ltac:(lia) H) as [[-> E]|[_ E]]; [|eauto]. injection E as <- _. eauto. }
    destruct X as [n' X]. destruct (w3 _ _ _ X) as (q & -> & A & B). exists q. rewrite EO by exact A. split; [reflexivity|]. split; [unfold hi; lia|exact B]. }
  destruct (opt_ok CF hi EC Lf Cin hi CF 0 (S (length CF)) ltac:(lia) ltac:(lia) ltac:(lia) (rel0 CF hi Lf)) as (c' & E & HR).
  rewrite E. cbn [lift cbind ret]. eexists. split; [reflexivity|]. cbn [nsub picase]. split; [reflexivity|]. split; [reflexivity|]. split.
  - eapply means_frag; try eassumption; [reflexivity|]. apply (w5 f). now left.
  - pose proof (r_len _ _ _ _ HR) as Lc.
    assert (EQ : forall pc o n, nth_error c' pc = Some (I o n) -> pc = hi /\ o = END /\ n = None \/ (pc < hi)%nat /\ exists q t, nth_error CF pc = Some (I o (Some q)) /\ n = Some t /\ skips CF q t).
    { intros pc o n H. assert (Hp : (pc < length c')%nat) by (apply nth_error_Some; congruence). rewrite Lc in Hp. destruct (Nat.eq_dec pc hi) as [->|Hne].
      - left. rewrite (r_ge _ _ _ _ HR), EC in H by lia. split; [reflexivity|]. split; congruence.
      - right. split; [lia|]. destruct (Cin pc ltac:(lia)) as (o1 & q & A & _). destruct (r_lt _ _ _ _ HR pc _ _ ltac:(lia) A) as (t & B & S). rewrite H in B. injection B as -> ->. eauto 6. }
    assert (EP : forall pc, opat c' pc = opat CF pc).
    { intros pc. unfold opat. destruct (nth_error c' pc) as [[o n]|] eqn:Ec.
      - destruct (EQ _ _ _ Ec) as [(-> & -> & ->)|(_ & q & t & A & _)]; [rewrite EC|rewrite A]; reflexivity.
      - destruct (nth_error CF pc) eqn:Ex; [|reflexivity]. exfalso. apply nth_error_None in Ec. assert (pc < length CF)%nat by (apply nth_error_Some; congruence). lia. }
    constructor; cbn [code startpc nsub].
    + rewrite Lc, EP, EO by (unfold hi; lia). split; [unfold hi; lia|]. apply (w5 f). now left.
    + intros pc o n H. destruct (EQ _ _ _ H) as [(-> & -> & ->)|(Hp & q & t & A & _)]; [now left|]. right.
      assert (HQ : Q o). { destruct (EN _ _ Hp A) as [[-> X]|[_ X]]; [injection X as -> _; exact (w1 _ _ _ Hl)|exact (w1 _ _ _ X)]. }
      destruct o; cbn [Qof] in HQ; try (now left); try (destruct HQ; fail); try (right; right; right; exact HQ).
      * right. right. left. eexists. split; [left; reflexivity|]. rewrite Z2Nat.id by lia. lia.
      * right. right. left. eexists. split; [right; reflexivity|]. rewrite Z2Nat.id by lia. lia.
      * right. left. eauto.
    + intros pc o n H Ho. destruct (EQ _ _ _ H) as [(-> & -> & ->)|(Hp & q & t & A & -> & S)]; [congruence|]. exists t. split; [reflexivity|]. rewrite Lc, EP.
      destruct (skips_end _ _ _ S) as (o1 & n1 & B1 & B2). split; [rewrite <- Lf; apply nth_error_Some; congruence|]. unfold opat. rewrite B1. cbn. congruence.
    + intros pc r n H. destruct (EQ _ _ _ H) as [(_ & Ho & _)|(Hp & q & t & A & _)]; [discriminate Ho|]. destruct (Cright _ _ _ A) as (q' & -> & B1 & B2). exists q'. rewrite Lc, EP. split; [reflexivity|]. split; [lia|exact B2].
Qed.
Lemma fin_empty ic : exists pr, pr = Prog [I END None] 0 ic 0 /\ means pr EEmpty /\ wfprog T pr.
Proof.
  eexists. split; [reflexivity|]. split.
  - intros rm cs pos i c j c'. cbn [startpc picase].
    assert (X : forall y, csteps rm (Prog [I END None] 0 ic 0) cs pos (0%nat, i, c) y -> y = (0%nat, i, c)).
    { intros y H. remember (0%nat, i, c) as z eqn:Ez. induction H as [|x y z _ IH H]; [reflexivity|]. subst x. specialize (IH eq_refl). subst y. exfalso.
      inversion H as [pc i' c1 o n r A|pc i' c1 o n A B|pc i' c1 q n A]; subst; cbn in A; discriminate A. }
    split.
    + intros (pc & H & _). apply X in H. injection H as -> -> ->. constructor.
    + intros H. inversion H; subst. exists 0%nat. split; [apply css_refl|]. exists None. reflexivity.
  - constructor; cbn [code startpc nsub].
    + split; [cbn; lia|]. cbn. discriminate.
    + intros [|pc] o n H; [injection H as <- <-; now left|destruct pc; discriminate H].
    + intros [|pc] o n H; [injection H as <- <-; congruence|destruct pc; discriminate H].
    + intros [|pc] o n H; [discriminate H|destruct pc; discriminate H].
Qed.
End Fin.
