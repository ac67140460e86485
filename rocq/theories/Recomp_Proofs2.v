(** The parser builds the code of the expressions a symbolic parser builds. *)
From Verif Require Import Base Utf8_Tab Utf8_Model Utf8_Spec Regex_Model Regex_Spec Recomp_Model Recomp_Spec Recomp_Proofs.

Definition fr (C : list inst) (lo hi f l : nat) (e : re) : Prop := forall rm ic cs pos, frag rm ic cs pos C lo hi f l e.
Inductive stk (C : list inst) : list (nat * nat) -> list re -> nat -> Prop :=
| stk_nil : stk C [] [] 0
| stk_cons f l e lo hi a es : stk C a es lo -> fr C lo hi f l e -> stk C ((f, l) :: a) (e :: es) hi.
Definition rm0 (_ _ : Z) : res bool := Err OOB.
Definition fr0 C lo hi f l e (H : fr C lo hi f l e) : frag rm0 false [] (fun _ => 0) C lo hi f l e := H _ _ _ _.
Lemma fr_f C lo hi f l e : fr C lo hi f l e -> (lo <= f < hi)%nat.
Proof. intros H. apply (g_f _ _ _ _ _ _ _ _ _ _ (fr0 _ _ _ _ _ _ H)). Qed.
Lemma fr_l C lo hi f l e : fr C lo hi f l e -> (lo <= l < hi)%nat.
Proof. intros H. apply (g_l _ _ _ _ _ _ _ _ _ _ (fr0 _ _ _ _ _ _ H)). Qed.
Lemma fr_last C lo hi f l e : fr C lo hi f l e -> exists o, nth_error C l = Some (I o None).
Proof. intros H. apply (g_last _ _ _ _ _ _ _ _ _ _ (fr0 _ _ _ _ _ _ H)). Qed.
Lemma fr_ext C C' lo hi f l e : (forall pc, (lo <= pc < hi)%nat -> nth_error C' pc = nth_error C pc) -> fr C lo hi f l e -> fr C' lo hi f l e.
Proof. intros HE H rm ic cs pos. eapply frag_ext; [exact HE|apply H]. Qed.
Lemma stk_ext C C' a es hi : stk C a es hi -> (forall pc, (pc < hi)%nat -> nth_error C' pc = nth_error C pc) -> stk C' a es hi.
Proof.
  induction 1 as [|f l e lo hi a es HS IH Hf]; intros HE; [constructor|]. pose proof (fr_f _ _ _ _ _ _ Hf).
  econstructor; [apply IH; intros; apply HE; lia|]. eapply fr_ext; [|exact Hf]. intros; apply HE; lia.
Qed.
Lemma stk_len C a es hi : stk C a es hi -> length a = length es.
Proof. induction 1; cbn; congruence. Qed.

(** * The symbolic parser *)
Definition sym (a : ator) (sub : Z) (es : list re) : out (list re) :=
  match a, es with
  | AStart, _ => Bad UNKNOWNOPERATOR
  | ALbra, e :: r => Good (EGrp sub e :: r)
  | AOr, e2 :: e1 :: r => Good (EAlt e1 e2 :: r)
  | ACat, e2 :: e1 :: r => Good (ECat e1 e2 :: r)
  | AStar, e :: r => Good (EStar e :: r)
  | APlus, e :: r => Good (EPlus e :: r)
  | AQuest, e :: r => Good (EQuest e :: r)
  | _, _ => Bad MISSINGOPERAND
  end.
Definition go (pri : option Z) (a : ator) : bool := match pri with None => true | Some v => v <=? prio a end.
Fixpoint sevu (pri : option Z) (ats : list (ator * Z)) (es : list re) : out (list (ator * Z) * list re) :=
  match ats with
  | [] => Bad OPERATORUNDERFLOW
  | (a, sub) :: r =>
    if go pri a then
      match sym a sub es with
      | Bad c => Bad c
      | Good es' => match a with ALbra => Good (r, es') | _ => sevu pri r es' end
      end
    else Good (ats, es)
  end.
Record sst := Sst { es : list re; ats : list (ator * Z); scs : Z; slw : bool; snb : Z }.
Definition obind {A B} (x : out A) (f : A -> out B) : out B := match x with Bad c => Bad c | Good a => f a end.
Definition sop (s : sst) (pri : option Z) : out sst :=
  obind (sevu pri (ats s) (es s)) (fun r => Good (Sst (snd r) (fst r) (scs s) (slw s) (snb s))).
Definition spush (s : sst) (a : ator) : out sst :=
  if (length (ats s) <? NSTACK)%nat then Good (Sst (es s) ((a, scs s) :: ats s) (scs s) (slw s) (snb s)) else Bad OPERATOROVERFLOW.
Definition slw_ (s : sst) (b : bool) : sst := Sst (es s) (ats s) (scs s) b (snb s).
Definition scat (s : sst) : out sst := obind (sop s (Some 4)) (fun s => obind (spush s ACat) (fun s => Good (slw_ s false))).
Definition soperator (s : sst) (a : ator) : out sst :=
  match a with
  | ALbra =>
    if 32 <=? scs s + 1 then Bad TOOMANYSUB else
    let s := Sst (es s) (ats s) (scs s + 1) (slw s) (snb s + 1) in
    obind (if slw s then scat s else Good s) (fun s => obind (spush s ALbra) (fun s => Good (slw_ s false)))
  | _ =>
    obind (sop s (Some (prio a))) (fun s => obind (spush s a) (fun s =>
      Good (slw_ s (match a with AStar | APlus | AQuest => true | _ => false end))))
  end.
Definition srbra (s : sst) : out sst :=
  if snb s - 1 <? 0 then Bad UNMATCHEDRIGHT else
  obind (sop (Sst (es s) (ats s) (scs s) (slw s) (snb s - 1)) None) (fun s => Good (slw_ s true)).
Definition soperand (s : sst) (o : op) : out sst :=
  obind (if slw s then scat s else Good s) (fun s =>
    if (length (es s) <? NSTACK)%nat then Good (Sst (EAtom o :: es s) (ats s) (scs s) true (snb s)) else Bad OPERANDOVERFLOW).
Definition sfeed (s : sst) (t : token) : out sst :=
  match t with
  | KEnd => Good s
  | KRbra => srbra s
  | KAtor a => soperator s a
  | KOp o => soperand s o
  end.

(** * Simulation *)
Definition cost (a : ator) : Z := match a with AStart | ACat => 0 | AStar | APlus => 1 | _ => 2 end.
Definition costs (l : list (ator * Z)) : Z := fold_right (fun x s => cost (fst x) + s) 0 l.
Lemma cost_nonneg a : 0 <= cost a. Proof. destruct a; cbn; lia. Qed.
Lemma costs_nonneg l : 0 <= costs l. Proof. induction l as [|[a s] l IH]; unfold costs in *; cbn [fold_right fst]; [lia|]. pose proof (cost_nonneg a). lia. Qed.
Fixpoint wfa (l : list (ator * Z)) : Prop :=
  match l with
  | [] => False
  | (a, _) :: r => match r with [] => a = AStart | _ => a <> AStart /\ wfa r end
  end.
Definition nlb (l : list (ator * Z)) : Z := fold_right (fun x s => (match fst x with ALbra => 1 | _ => 0 end) + s) 0 l.
Record sim (p : par) (s : sst) : Prop := {
  m_stk : stk (pcode p) (ands p) (es s) (length (pcode p));
  m_ats : ators p = ats s;
  m_cs : csub p = scs s;
  m_lw : lw p = slw s;
  m_nb : nbra p = snb s;
  m_wfa : wfa (ats s);
  m_len : (length (es s) <= NSTACK)%nat }.

Lemma newinst_ok p o : zlen (pcode p) + 1 <= icap p -> newinst p o = ret (length (pcode p), set_code p (pcode p ++ [I o None])).
Proof. intros H. unfold newinst. destruct (Z.ltb_spec (zlen (pcode p)) (icap p)); [reflexivity|lia]. Qed.
Lemma set_next_ok p pc n o x : nth_error (pcode p) pc = Some (I o x) -> set_next p pc n = ret (set_code p (upd (pcode p) pc (I o (Some n)))).
Proof. unfold set_next. intros ->. reflexivity. Qed.
Lemma pushand_ok p f l : (length (ands p) < NSTACK)%nat -> pushand p f l = ret (set_ands p ((f, l) :: ands p)).
Proof. intros H. unfold pushand. destruct (Nat.ltb_spec (length (ands p)) NSTACK); [reflexivity|lia]. Qed.
Lemma nth_snoc_old {A} (l : list A) x i : (i < length l)%nat -> nth_error (l ++ [x]) i = nth_error l i.
Proof. intros H. now rewrite nth_error_app1. Qed.
Lemma nth_snoc_new {A} (l : list A) x : nth_error (l ++ [x]) (length l) = Some x.
Proof. rewrite nth_error_app2 by lia. now rewrite Nat.sub_diag. Qed.
Lemma nth_snoc_at {A} (l : list A) x i : i = length l -> nth_error (l ++ [x]) i = Some x.
Proof. intros ->. apply nth_snoc_new. Qed.
Lemma nth_upd {A} (l : list A) i x k : nth_error (upd l i x) k = if Nat.eqb i k then (if (i <? length l)%nat then Some x else None) else nth_error l k.
Proof.
  destruct (Nat.eqb_spec i k) as [->|Hn]; [|now apply nth_error_upd_other].
  destruct (Nat.ltb_spec k (length l)) as [Hl|Hl]; [now apply nth_error_upd_same|]. apply nth_error_None. rewrite length_upd. exact Hl.
Qed.
Ltac lens := repeat (rewrite length_upd in * || rewrite app_length in * || cbn [length] in * ).
Ltac nths := repeat (rewrite nth_upd || (rewrite nth_snoc_old by (lens; lia)) || (rewrite nth_snoc_at by (lens; lia)) ||
   match goal with
   | |- context [Nat.eqb ?a ?b] => destruct (Nat.eqb_spec a b); try lia
   | |- context [Nat.ltb ?a ?b] => destruct (Nat.ltb_spec a b); lens; try lia
   end).

Lemma eval_ok p a sub e :
  stk (pcode p) (ands p) e (length (pcode p)) -> (length e <= NSTACK)%nat -> zlen (pcode p) + cost a <= icap p ->
  match sym a sub e with
  | Bad c => eval_op p a sub = fail c
  | Good e' => exists c' an, eval_op p a sub = ret (Par c' an (ators p) (csub p) (lw p) (nbra p) (icap p)) /\
      stk c' an e' (length c') /\ (length e' <= length e)%nat /\ zlen c' = zlen (pcode p) + cost a
  end.
Proof.
  intros HS HL HC. unfold sym. destruct p as [c an at_ cs lw_ nb ic]. cbn [pcode ands ators csub lw nbra icap] in *.
  assert (HZ : zlen c = Z.of_nat (length c)) by reflexivity.
  remember (length c) as hi eqn:Ehi.
  destruct a; cbn [cost] in HC; try reflexivity.
  - (* LBRA *)
    inversion HS as [|f l x lo hi' an' es' HS' Hf]; subst; [reflexivity|]. destruct (fr_last _ _ _ _ _ _ Hf) as [o Ho]. pose proof (fr_l _ _ _ _ _ _ Hf). pose proof (fr_f _ _ _ _ _ _ Hf).
    cbn [eval_op popand ands cbind ret]. rewrite newinst_ok by (cbn; lia). cbn [cbind ret set_code set_ands pcode].
    erewrite set_next_ok by (cbn; rewrite nth_snoc_old by lia; exact Ho). cbn [cbind ret set_code set_ands pcode].
    rewrite newinst_ok by (cbn; unfold zlen; lens; lia). cbn [cbind ret set_code set_ands pcode].
    erewrite set_next_ok by (cbn; apply nth_snoc_new). cbn [cbind ret set_code set_ands pcode].
    rewrite pushand_ok by (apply stk_len in HS'; cbn in *; unfold NSTACK in *; lia).
    cbn [set_ands set_code ands pcode ators csub lw nbra icap cost]. eexists _, _. split; [reflexivity|]. cbn [set_ands set_code pcode ands]. lens. split; [|split; [lia|unfold zlen; lens; lia]].
    econstructor.
    + eapply stk_ext; [exact HS'|]. intros pc Hpc. nths. reflexivity.
    + intros rm ic' cs' pos. replace (length c + 1 + 1)%nat with (S (S (length c))) by lia. replace (length c + 1)%nat with (S (length c)) by lia.
      eapply post_grp; [apply Hf|exact Ho|reflexivity|..].
      * intros pc H1 H2. nths. reflexivity.
      * nths. reflexivity.
      * nths. reflexivity.
      * nths. reflexivity.
  - (* OR *)
    inversion HS as [|f l x lo hi' an' es' HS' Hf]; subst; [reflexivity|]. inversion HS' as [|f1 l1 x1 lo1 hi1 an1 es1 HS1 Hf1]; subst; [reflexivity|].
    destruct (fr_last _ _ _ _ _ _ Hf) as [o Ho]. pose proof (fr_l _ _ _ _ _ _ Hf). pose proof (fr_f _ _ _ _ _ _ Hf).
    destruct (fr_last _ _ _ _ _ _ Hf1) as [o1 Ho1]. pose proof (fr_l _ _ _ _ _ _ Hf1). pose proof (fr_f _ _ _ _ _ _ Hf1).
    cbn [eval_op popand ands cbind ret set_ands]. rewrite newinst_ok by (cbn; lia). cbn [cbind ret set_code set_ands pcode].
    erewrite set_next_ok by (cbn; rewrite nth_snoc_old by lia; exact Ho). cbn [cbind ret set_code set_ands pcode].
    erewrite set_next_ok by (cbn; nths; exact Ho1). cbn [cbind ret set_code set_ands pcode].
    rewrite newinst_ok by (cbn; unfold zlen; lens; lia). cbn [cbind ret set_code set_ands pcode].
    erewrite set_next_ok by (cbn; apply nth_snoc_new). cbn [cbind ret set_code set_ands pcode].
    rewrite pushand_ok by (apply stk_len in HS1; cbn in *; unfold NSTACK in *; lia).
    cbn [set_ands set_code ands pcode ators csub lw nbra icap cost]. eexists _, _. split; [reflexivity|]. cbn [set_ands set_code pcode ands]. lens. split; [|split; [lia|unfold zlen; lens; lia]].
    econstructor.
    + eapply stk_ext; [exact HS1|]. intros pc Hpc. nths. reflexivity.
    + intros rm ic' cs' pos. replace (length c + 1 + 1)%nat with (S (S (length c))) by lia. replace (length c + 1)%nat with (S (length c)) by lia.
      eapply frag_alt; [apply Hf1|apply Hf|reflexivity|exact Ho1|exact Ho|..].
      * intros pc H5 H6 H7. nths. reflexivity.
      * nths. reflexivity.
      * nths. reflexivity.
      * nths. reflexivity.
      * nths. reflexivity.
  - (* CAT *)
    inversion HS as [|f l x lo hi' an' es' HS' Hf]; subst; [reflexivity|]. inversion HS' as [|f1 l1 x1 lo1 hi1 an1 es1 HS1 Hf1]; subst; [reflexivity|].
    pose proof (fr_l _ _ _ _ _ _ Hf). pose proof (fr_f _ _ _ _ _ _ Hf).
    destruct (fr_last _ _ _ _ _ _ Hf1) as [o1 Ho1]. pose proof (fr_l _ _ _ _ _ _ Hf1). pose proof (fr_f _ _ _ _ _ _ Hf1).
    cbn [eval_op popand ands cbind ret set_ands].
    erewrite set_next_ok by exact Ho1. cbn [cbind ret set_code set_ands pcode].
    rewrite pushand_ok by (apply stk_len in HS1; cbn in *; unfold NSTACK in *; lia).
    cbn [set_ands set_code ands pcode ators csub lw nbra icap cost]. eexists _, _. split; [reflexivity|]. cbn [set_ands set_code pcode ands]. lens. split; [|split; [lia|unfold zlen; lens; lia]].
    econstructor.
    + eapply stk_ext; [exact HS1|]. intros pc Hpc. nths. reflexivity.
    + intros rm ic' cs' pos. eapply frag_cat; [apply Hf1|apply Hf|exact Ho1|..].
      * intros pc H5. nths. reflexivity.
      * nths. reflexivity.
  - (* STAR *)
    inversion HS as [|f l x lo hi' an' es' HS' Hf]; subst; [reflexivity|]. destruct (fr_last _ _ _ _ _ _ Hf) as [o Ho]. pose proof (fr_l _ _ _ _ _ _ Hf). pose proof (fr_f _ _ _ _ _ _ Hf).
    cbn [eval_op popand ands cbind ret]. rewrite newinst_ok by (cbn; lia). cbn [cbind ret set_code set_ands pcode].
    erewrite set_next_ok by (cbn; rewrite nth_snoc_old by lia; exact Ho). cbn [cbind ret set_code set_ands pcode].
    rewrite pushand_ok by (apply stk_len in HS'; cbn in *; unfold NSTACK in *; lia).
    cbn [set_ands set_code ands pcode ators csub lw nbra icap cost]. eexists _, _. split; [reflexivity|]. cbn [set_ands set_code pcode ands]. lens. split; [|split; [lia|unfold zlen; lens; lia]].
    econstructor.
    + eapply stk_ext; [exact HS'|]. intros pc Hpc. nths. reflexivity.
    + intros rm ic' cs' pos. replace (length c + 1)%nat with (S (length c)) by lia.
      eapply post_star; [apply Hf|exact Ho|reflexivity|..].
      * intros pc H1 H2. nths. reflexivity.
      * nths. reflexivity.
      * nths. reflexivity.
  - (* PLUS *)
    inversion HS as [|f l x lo hi' an' es' HS' Hf]; subst; [reflexivity|]. destruct (fr_last _ _ _ _ _ _ Hf) as [o Ho]. pose proof (fr_l _ _ _ _ _ _ Hf). pose proof (fr_f _ _ _ _ _ _ Hf).
    cbn [eval_op popand ands cbind ret]. rewrite newinst_ok by (cbn; lia). cbn [cbind ret set_code set_ands pcode].
    erewrite set_next_ok by (cbn; rewrite nth_snoc_old by lia; exact Ho). cbn [cbind ret set_code set_ands pcode].
    rewrite pushand_ok by (apply stk_len in HS'; cbn in *; unfold NSTACK in *; lia).
    cbn [set_ands set_code ands pcode ators csub lw nbra icap cost]. eexists _, _. split; [reflexivity|]. cbn [set_ands set_code pcode ands]. lens. split; [|split; [lia|unfold zlen; lens; lia]].
    econstructor.
    + eapply stk_ext; [exact HS'|]. intros pc Hpc. nths. reflexivity.
    + intros rm ic' cs' pos. replace (length c + 1)%nat with (S (length c)) by lia.
      eapply post_plus; [apply Hf|exact Ho|reflexivity|..].
      * intros pc H1 H2. nths. reflexivity.
      * nths. reflexivity.
      * nths. reflexivity.
  - (* QUEST *)
    inversion HS as [|f l x lo hi' an' es' HS' Hf]; subst; [reflexivity|]. destruct (fr_last _ _ _ _ _ _ Hf) as [o Ho]. pose proof (fr_l _ _ _ _ _ _ Hf). pose proof (fr_f _ _ _ _ _ _ Hf).
    cbn [eval_op popand ands cbind ret]. rewrite newinst_ok by (cbn; lia). cbn [cbind ret set_code set_ands pcode].
    rewrite newinst_ok by (cbn; unfold zlen; lens; lia). cbn [cbind ret set_code set_ands pcode].
    erewrite set_next_ok by (cbn; nths; reflexivity). cbn [cbind ret set_code set_ands pcode].
    erewrite set_next_ok by (cbn; nths; exact Ho). cbn [cbind ret set_code set_ands pcode].
    rewrite pushand_ok by (apply stk_len in HS'; cbn in *; unfold NSTACK in *; lia).
    cbn [set_ands set_code ands pcode ators csub lw nbra icap cost]. eexists _, _. split; [reflexivity|]. cbn [set_ands set_code pcode ands]. lens. split; [|split; [lia|unfold zlen; lens; lia]].
    econstructor.
    + eapply stk_ext; [exact HS'|]. intros pc Hpc. nths. reflexivity.
    + intros rm ic' cs' pos. replace (length c + 1 + 1)%nat with (S (S (length c))) by lia. replace (length c + 1)%nat with (S (length c)) by lia.
      eapply post_quest; [apply Hf|exact Ho|reflexivity|..].
      * intros pc H1 H2. nths. reflexivity.
      * nths. reflexivity.
      * nths. reflexivity.
      * nths. reflexivity.
Qed.

Lemma wfa_cons a s r : r <> [] -> wfa ((a, s) :: r) -> a <> AStart /\ wfa r.
Proof. destruct r; [congruence|]. cbn. tauto. Qed.
Lemma wfa_push a s r : a <> AStart -> wfa r -> wfa ((a, s) :: r).
Proof. intros Ha Hr. destruct r; [destruct Hr|]. split; assumption. Qed.
Lemma wfa_one a s r : wfa ((a, s) :: r) -> r = [] /\ a = AStart \/ a <> AStart /\ wfa r.
Proof. destruct r; cbn; tauto. Qed.
Lemma costs_cons a s r : costs ((a, s) :: r) = cost a + costs r. Proof. reflexivity. Qed.
Lemma nlb_cons a s r : nlb ((a, s) :: r) = (match a with ALbra => 1 | _ => 0 end) + nlb r. Proof. reflexivity. Qed.
Lemma nlb_nonneg r : 0 <= nlb r.
Proof. induction r as [|[a s] r IH]; [cbn; lia|]. rewrite nlb_cons. destruct a; lia. Qed.

Lemma eu_sim pri : (forall v, pri = Some v -> 0 <= v) -> forall fuel p s,
  sim p s -> (length (ats s) < fuel)%nat -> zlen (pcode p) + costs (ats s) <= icap p -> (pri = None -> 0 < nlb (ats s)) ->
  match sevu pri (ats s) (es s) with
  | Bad c => evaluntil fuel pri p = fail c
  | Good (a', e') => exists p', evaluntil fuel pri p = ret p' /\ sim p' (Sst e' a' (scs s) (slw s) (snb s)) /\ icap p' = icap p /\
      zlen (pcode p') + costs a' = zlen (pcode p) + costs (ats s) /\ (length e' <= length (es s))%nat /\ (length a' <= length (ats s))%nat /\
      (pri = None -> nlb a' = nlb (ats s) - 1)
  end.
Proof.
  intros Hpri fuel. induction fuel as [|fuel IH]; intros p s HS Hf HC HN; [lia|].
  destruct HS as [h1 h2 h3 h4 h5 h6 h7]. cbn [evaluntil]. rewrite h2. destruct s as [e a k w nb]. cbn [es ats scs slw snb] in *.
  destruct a as [|[a sub] r]; [destruct h6|]. cbn [sevu].
  assert (EG : (match pri with Some v => ret (v <=? prio a) | None => ret true end) = ret (go pri a)) by (destruct pri; reflexivity). rewrite EG. cbn [cbind ret].
  destruct (go pri a) eqn:Eg.
  2:{ exists p. split; [reflexivity|]. split; [constructor; assumption|]. repeat split; try lia; auto. intros ->. discriminate Eg. }
  assert (Ha : a <> AStart /\ wfa r).
  { destruct (wfa_one _ _ _ h6) as [[-> ->]|Hw]; [|exact Hw]. exfalso. destruct pri as [v|].
    - specialize (Hpri v eq_refl). cbn in Eg. destruct (Z.leb_spec v (-1)); [lia|discriminate].
    - specialize (HN eq_refl). cbn in HN. lia. }
  destruct Ha as [Ha Hr]. unfold popator. rewrite h2. cbn [cbind ret].
  assert (HP : set_ators p r = Par (pcode p) (ands p) r (csub p) (lw p) (nbra p) (icap p)) by reflexivity.
  pose proof (eval_ok (set_ators p r) a sub e) as HV. rewrite HP in *. cbn [pcode ands ators csub lw nbra icap] in HV.
  rewrite costs_cons in HC. pose proof (costs_nonneg r). specialize (HV h1 h7 ltac:(lia)). destruct (sym a sub e) as [e'|c] eqn:Es; [|rewrite HV; reflexivity].
  destruct HV as (c' & an & EV & S1 & S2 & S3). rewrite EV. cbn [cbind ret].
  assert (HD : a = ALbra \/ a <> ALbra) by (destruct a; (now left) || (right; discriminate)). destruct HD as [->|HD].
  - exists (Par c' an r (csub p) (lw p) (nbra p) (icap p)). split; [reflexivity|]. split; [constructor; cbn; auto; lia|]. split; [reflexivity|]. rewrite costs_cons. cbn [pcode length] in *.
    split; [lia|]. split; [lia|]. split; [lia|]. intros _. rewrite nlb_cons. lia.
  - assert (EA : match a with ALbra => ret (Par c' an r (csub p) (lw p) (nbra p) (icap p)) | _ => evaluntil fuel pri (Par c' an r (csub p) (lw p) (nbra p) (icap p)) end = evaluntil fuel pri (Par c' an r (csub p) (lw p) (nbra p) (icap p))) by (destruct a; congruence).
    rewrite EA. assert (EB : match a with ALbra => Good (r, e') | _ => sevu pri r e' end = sevu pri r e') by (destruct a; congruence). rewrite EB. clear EA EB.
    rewrite nlb_cons in HN. assert (HZ : match a with ALbra => 1 | _ => 0 end = 0) by (destruct a; congruence). rewrite HZ in HN.
    specialize (IH (Par c' an r (csub p) (lw p) (nbra p) (icap p)) (Sst e' r k w nb)). cbn [es ats scs slw snb pcode icap] in IH.
    assert (IHS : sim (Par c' an r (csub p) (lw p) (nbra p) (icap p)) (Sst e' r k w nb)) by (constructor; cbn; auto; lia).
    cbn [length] in Hf. specialize (IH IHS ltac:(lia) ltac:(lia) HN). destruct (sevu pri r e') as [[a' e'']|c]; [|exact IH].
    destruct IH as (p' & I1 & I2 & I3 & I4 & I5 & I6 & I7). exists p'. split; [exact I1|]. split; [exact I2|]. split; [exact I3|]. rewrite costs_cons. cbn [length].
    split; [lia|]. split; [lia|]. split; [lia|]. rewrite nlb_cons. intros Hp. specialize (I7 Hp). lia.
Qed.
(** The operators on the stack are within the budget. *)
Definition room (p : par) (s : sst) (b : Z) : Prop := zlen (pcode p) + costs (ats s) + b <= icap p.
Lemma sop_sim pri p s b : (forall v, pri = Some v -> 0 <= v) -> sim p s -> room p s b -> 0 <= b -> (pri = None -> 0 < nlb (ats s)) ->
  match sop s pri with
  | Bad c => eval_ pri p = fail c
  | Good s' => exists p', eval_ pri p = ret p' /\ sim p' s' /\ room p' s' b /\ icap p' = icap p /\ (length (es s') <= length (es s))%nat /\
      scs s' = scs s /\ slw s' = slw s /\ snb s' = snb s /\ (pri = None -> nlb (ats s') = nlb (ats s) - 1)
  end.
Proof.
  intros Hp HS HR Hb HN. unfold eval_, sop. unfold room in *. pose proof (eu_sim pri Hp (S (length (ators p))) p s HS) as H. rewrite (m_ats _ _ HS) in H at 1. specialize (H ltac:(lia) ltac:(lia) HN).
  destruct (sevu pri (ats s) (es s)) as [[a' e']|c]; [|exact H]. cbn [obind fst snd]. destruct H as (p' & H1 & H2 & H3 & H4 & H5 & H6 & H7). exists p'. cbn [es ats scs slw snb].
  split; [exact H1|]. split; [exact H2|]. split; [lia|]. split; [exact H3|]. auto.
Qed.
Lemma spush_sim p s a b : a <> AStart -> sim p s -> room p s (cost a + b) ->
  match spush s a with
  | Bad c => pushator p a = fail c
  | Good s' => exists p', pushator p a = ret p' /\ sim p' s' /\ room p' s' b /\ icap p' = icap p /\ es s' = es s /\ ats s' = (a, scs s) :: ats s /\ scs s' = scs s /\ slw s' = slw s /\ snb s' = snb s
  end.
Proof.
  intros Ha HS HR. unfold spush, pushator. rewrite (m_ats _ _ HS), (m_cs _ _ HS). destruct (Nat.ltb_spec (length (ats s)) NSTACK); [|reflexivity].
  eexists. split; [reflexivity|]. split; [|split].
  - destruct HS. constructor; cbn; auto; try congruence. apply wfa_push; assumption.
  - unfold room in *. cbn [ats set_ators pcode icap]. rewrite costs_cons. lia.
  - repeat split; reflexivity.
Qed.
Lemma slw_sim p s b x : sim p s -> room p s b -> sim (set_lw p x) (slw_ s x) /\ room (set_lw p x) (slw_ s x) b.
Proof. intros [h1 h2 h3 h4 h5 h6 h7] HR. split; [constructor; assumption||reflexivity|exact HR]. Qed.

Lemma scat_sim p s b : sim p s -> room p s b -> 0 <= b ->
  match scat s with
  | Bad c => op_cat p = fail c
  | Good s' => exists p', op_cat p = ret p' /\ sim p' s' /\ room p' s' b /\ icap p' = icap p /\ (length (es s') <= length (es s))%nat /\ scs s' = scs s /\ snb s' = snb s
  end.
Proof.
  intros HS HR Hb. unfold scat, op_cat. change (prio ACat) with 4. pose proof (sop_sim (Some 4) p s b) as H. specialize (H ltac:(intros v [= <-]; lia) HS HR Hb ltac:(discriminate)).
  destruct (sop s (Some 4)) as [s1|c]; [|rewrite H; reflexivity]. destruct H as (p1 & H1 & H2 & H3 & H4 & H5 & H6 & H7 & H8 & _). rewrite H1. cbn [cbind ret obind].
  pose proof (spush_sim p1 s1 ACat b) as G. specialize (G ltac:(discriminate) H2 H3). destruct (spush s1 ACat) as [s2|c]; [|rewrite G; reflexivity].
  destruct G as (p2 & G1 & G2 & G3 & G4 & G5 & G6 & G7 & G8 & G9). rewrite G1. cbn [cbind ret obind]. exists (set_lw p2 false). split; [reflexivity|].
  destruct (slw_sim p2 s2 b false G2 G3) as [L1 L2]. split; [exact L1|]. split; [exact L2|]. cbn. split; [congruence|]. rewrite G5, G7, G9. repeat split; congruence||lia.
Qed.
Definition tcost (t : token) : Z := match t with KEnd | KRbra => 0 | KAtor a => cost a | KOp _ => 1 end.
Definition tok_ok (t : token) : Prop := match t with KAtor AStart | KAtor ACat => False | KOp o => atom_op o | _ => True end.

Lemma stk_snoc c a e o : atom_op o \/ o = END -> stk c a e (length c) -> stk (c ++ [I o None]) ((length c, length c) :: a) (EAtom o :: e) (length (c ++ [I o None])).
Proof.
  intros Ho HS. econstructor.
  - eapply stk_ext; [exact HS|]. intros pc Hp. now rewrite nth_snoc_old.
  - rewrite app_length. cbn. replace (length c + 1)%nat with (S (length c)) by lia. intros rm ic cs pos. apply frag_atom; [exact Ho|]. apply nth_snoc_new.
Qed.
Lemma soperand_sim p s o b : atom_op o \/ o = END -> sim p s -> room p s (1 + b) -> 0 <= b ->
  match soperand s o with
  | Bad c => operand p o = fail c
  | Good s' => exists p', operand p o = ret p' /\ sim p' s' /\ room p' s' b /\ icap p' = icap p /\ scs s' = scs s /\ snb s' = snb s
  end.
Proof.
  intros Ho HS HR Hb. unfold soperand, operand. rewrite (m_lw _ _ HS).
  assert (H : match (if slw s then scat s else Good s) with
    | Bad c => (if slw s then op_cat p else ret p) = fail c
    | Good s' => exists p', (if slw s then op_cat p else ret p) = ret p' /\ sim p' s' /\ room p' s' (1 + b) /\ icap p' = icap p /\ scs s' = scs s /\ snb s' = snb s
    end).
  { destruct (slw s).
    - pose proof (scat_sim p s (1 + b) HS HR ltac:(lia)) as H. destruct (scat s) as [s'|c]; [|exact H]. destruct H as (p' & H1 & H2 & H3 & H4 & H5 & H6 & H7). exists p'. auto 8.
    - exists p. auto 8. }
  destruct (if slw s then scat s else Good s) as [s1|c]; [|rewrite H; reflexivity]. destruct H as (p1 & H1 & H2 & H3 & H4 & H5 & H6). rewrite H1. cbn [cbind ret obind].
  unfold room in H3. pose proof (costs_nonneg (ats s1)). rewrite newinst_ok by lia. cbn [cbind ret]. unfold pushand. cbn [ands set_code]. rewrite (stk_len _ _ _ _ (m_stk _ _ H2)).
  destruct (Nat.ltb_spec (length (es s1)) NSTACK) as [Hl|Hl]; [|reflexivity]. cbn [cbind ret]. eexists. split; [reflexivity|].
  destruct H2 as [h1 h2 h3 h4 h5 h6 h7]. split; [constructor|split]; cbn [set_lw set_ands set_code pcode ands ators csub lw nbra icap es ats scs slw snb length]; auto; try lia.
  - apply stk_snoc; assumption.
  - unfold room. cbn [set_lw set_ands set_code pcode icap ats]. unfold zlen in *. lens. lia.
Qed.
Lemma feed_sim p s t b : tok_ok t -> sim p s -> room p s (tcost t + b) -> 0 <= b -> snb s = nlb (ats s) ->
  match sfeed s t with
  | Bad c => feed p t = fail c
  | Good s' => exists p', feed p t = ret p' /\ sim p' s' /\ room p' s' b /\ icap p' = icap p
  end.
Proof.
  intros Ht HS HR Hb HN. destruct t as [| |a|o]; cbn [sfeed feed tcost] in *.
  - exists p. auto.
  - unfold srbra, op_rbra. rewrite (m_nb _ _ HS). destruct (Z.ltb_spec (snb s - 1) 0) as [Hn|Hn]; [reflexivity|].
    pose proof (sop_sim None (Par (pcode p) (ands p) (ators p) (csub p) (lw p) (snb s - 1) (icap p)) (Sst (es s) (ats s) (scs s) (slw s) (snb s - 1)) b) as H.
    specialize (H ltac:(discriminate)). cbn [ats] in H. specialize (H ltac:(destruct HS; constructor; cbn; auto) HR Hb ltac:(lia)).
    destruct (sop (Sst (es s) (ats s) (scs s) (slw s) (snb s - 1)) None) as [s1|c]; [|rewrite H; reflexivity]. destruct H as (p1 & H1 & H2 & H3 & H4 & _). rewrite H1. cbn [cbind ret obind].
    exists (set_lw p1 true). split; [reflexivity|]. destruct (slw_sim p1 s1 b true H2 H3). auto.
  - assert (HD : a = ALbra \/ a <> ALbra) by (destruct a; (now left) || (right; discriminate)). destruct HD as [->|HD].
    + cbn [soperator operator]. rewrite (m_cs _ _ HS). destruct (Z.leb_spec 32 (scs s + 1)); [reflexivity|]. cbn [slw lw].
      set (p0 := Par (pcode p) (ands p) (ators p) (scs s + 1) (lw p) (nbra p + 1) (icap p)). set (s0 := Sst (es s) (ats s) (scs s + 1) (slw s) (snb s + 1)).
      assert (S0 : sim p0 s0) by (destruct HS; constructor; cbn; auto; congruence). assert (R0 : room p0 s0 (2 + b)) by exact HR.
      assert (HX : match (if slw s then scat s0 else Good s0) with
        | Bad c => (if lw p then op_cat p0 else ret p0) = fail c
        | Good s' => exists p', (if lw p then op_cat p0 else ret p0) = ret p' /\ sim p' s' /\ room p' s' (2 + b) /\ icap p' = icap p
        end).
      { rewrite (m_lw _ _ HS). destruct (slw s).
        - pose proof (scat_sim p0 s0 (2 + b) S0 R0 ltac:(lia)) as HY. destruct (scat s0) as [s'|c]; [|exact HY]. destruct HY as (p' & H1 & H2 & H3 & H4 & _). exists p'. auto.
        - exists p0. auto. }
      destruct (if slw s then scat s0 else Good s0) as [s1|c]; [|rewrite HX; reflexivity]. destruct HX as (p1 & H1 & H2 & H3 & H4). rewrite H1. cbn [cbind ret obind].
      pose proof (spush_sim p1 s1 ALbra b) as G. specialize (G ltac:(discriminate) H2 H3). destruct (spush s1 ALbra) as [s2|c]; [|rewrite G; reflexivity].
      destruct G as (p2 & G1 & G2 & G3 & G4 & _). rewrite G1. cbn [cbind ret obind]. exists (set_lw p2 false). split; [reflexivity|].
      destruct (slw_sim p2 s2 b false G2 G3) as [L1 L2]. split; [exact L1|]. split; [exact L2|]. cbn. congruence.
    + assert (Ha : a <> AStart) by (intros ->; exact Ht).
      assert (E1 : soperator s a = obind (sop s (Some (prio a))) (fun s => obind (spush s a) (fun s => Good (slw_ s (match a with AStar | APlus | AQuest => true | _ => false end))))) by (destruct a; congruence || reflexivity).
      assert (E2 : operator p a = let! p := eval_ (Some (prio a)) p in let! p := pushator p a in ret (set_lw p (match a with AStar | APlus | AQuest => true | _ => false end))) by (destruct a; congruence || reflexivity).
      rewrite E1, E2. clear E1 E2. pose proof (cost_nonneg a).
      pose proof (sop_sim (Some (prio a)) p s (cost a + b)) as H1. specialize (H1 ltac:(intros v [= <-]; destruct a; cbn; congruence || lia) HS HR ltac:(lia) ltac:(discriminate)).
      destruct (sop s (Some (prio a))) as [s1|c]; [|rewrite H1; reflexivity]. destruct H1 as (p1 & H1 & H2 & H3 & H4 & _). rewrite H1. cbn [cbind ret obind].
      pose proof (spush_sim p1 s1 a b Ha H2 H3) as G. destruct (spush s1 a) as [s2|c]; [|rewrite G; reflexivity].
      destruct G as (p2 & G1 & G2 & G3 & G4 & _). rewrite G1. cbn [cbind ret obind]. eexists. split; [reflexivity|].
      match goal with |- sim (set_lw p2 ?x) _ /\ _ => destruct (slw_sim p2 s2 b x G2 G3) as [L1 L2] end. split; [exact L1|]. split; [exact L2|]. cbn. congruence.
  - pose proof (soperand_sim p s o b (or_introl Ht) HS HR Hb) as H. destruct (soperand s o) as [s'|c]; [|exact H]. destruct H as (p' & H1 & H2 & H3 & H4 & _). exists p'. auto.
Qed.
