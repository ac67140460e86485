(** The symbolic parser follows the grammar. *)
From Verif Require Import Base Utf8_Tab Utf8_Model Utf8_Spec Regex_Model Regex_Spec Recomp_Model Recomp_Spec Recomp_Proofs Recomp_Proofs2.

Definition eqa (e e' : re) : Prop := forall rm ic cs pos, eqv rm ic cs pos e e'.
Lemma eqa_refl e : eqa e e. Proof. intros ? ? ? ? x y. reflexivity. Qed.
Lemma eqa_trans a b c : eqa a b -> eqa b c -> eqa a c.
Proof. intros H1 H2 rm ic cs pos x y. etransitivity; [apply H1|apply H2]. Qed.
Lemma eqa_post a e e' : eqa e e' -> eqa (app_post a e) (app_post a e').
Proof. intros H rm ic cs pos. apply app_post_eqv. apply H. Qed.
Lemma eqa_cat a a' b b' : eqa a a' -> eqa b b' -> eqa (ECat a b) (ECat a' b').
Proof.
  intros H1 H2 rm ic cs pos x z. split; intros H; apply cat_inv in H; destruct H as (y & A & B); (eapply d_cat; [apply H1; eassumption|apply H2; eassumption]).
Qed.
Lemma eqa_alt a a' b b' : eqa a a' -> eqa b b' -> eqa (EAlt a b) (EAlt a' b').
Proof.
  intros H1 H2 rm ic cs pos x z. split; intros H; apply alt_inv in H; (destruct H as [A|A]; [apply d_alt1, H1, A|apply d_alt2, H2, A]).
Qed.
Lemma eqa_grp k a a' : eqa a a' -> eqa (EGrp k a) (EGrp k a').
Proof.
  intros H1 rm ic cs pos [i c] z. split; intros H; apply grp_inv in H; destruct H as (j & c' & -> & A); apply d_grp, H1, A.
Qed.

(** Closures still on the stack, top first. *)
Fixpoint appv (ps : list (ator * Z)) (e : re) : re := match ps with [] => e | (a, _) :: ps => appv ps (app_post a e) end.
Definition posts (ps : list (ator * Z)) : Prop := Forall (fun x => is_post (fst x)) ps.
Lemma appv_app ps qs e : appv (ps ++ qs) e = appv qs (appv ps e).
Proof. revert e. induction ps as [|[a s] ps IH]; intros e; cbn; auto. Qed.
Lemma appv_eqa ps e e' : eqa e e' -> eqa (appv ps e) (appv ps e').
Proof. revert e e'. induction ps as [|[a s] ps IH]; intros e e' H; cbn; auto using eqa_post. Qed.
Lemma appv_comm ps a e : posts ps -> is_post a -> eqa (appv ps (app_post a e)) (app_post a (appv ps e)).
Proof.
  revert e. induction ps as [|[b s] ps IH]; intros e Hp Ha; cbn; [apply eqa_refl|]. inversion Hp; subst.
  eapply eqa_trans; [|apply IH; auto]. apply appv_eqa. intros rm ic cs pos. apply post_comm; auto.
Qed.

Definition stops (v : Z) (r : list (ator * Z)) : Prop := match r with [] => False | (a, _) :: _ => prio a < v end.
Lemma sevu_stop v r e : stops v r -> sevu (Some v) r e = Good (r, e).
Proof. destruct r as [|[a s] r]; cbn; [tauto|]. intros H. destruct (Z.leb_spec v (prio a)); [lia|reflexivity]. Qed.
Lemma sym_post a s e r : is_post a -> sym a s (e :: r) = Good (app_post a e :: r).
Proof. destruct a; cbn; tauto. Qed.
Lemma sevu_posts pri ps e r a0 : posts ps -> (forall a, is_post a -> go pri a = true) -> sevu pri (ps ++ a0) (e :: r) = sevu pri a0 (appv ps e :: r).
Proof.
  intros Hp Hg. revert e. induction Hp as [|[a s] ps Ha Hp IH]; intros e; [reflexivity|]. cbn [app sevu fst] in *. rewrite (Hg a Ha), sym_post by assumption. cbn [appv]. rewrite <- IH. destruct a; cbn in *; tauto.
Qed.
Lemma sevu_part v ps e r a0 : posts ps -> stops v a0 -> exists p1 p2, ps = p1 ++ p2 /\ sevu (Some v) (ps ++ a0) (e :: r) = Good (p2 ++ a0, appv p1 e :: r).
Proof.
  intros Hp Hs. revert e. induction Hp as [|[a s] ps Ha Hp IH]; intros e.
  - exists [], []. split; [reflexivity|]. now apply sevu_stop.
  - cbn [app sevu go fst] in *. destruct (Z.leb_spec v (prio a)) as [Hv|Hv].
    + rewrite sym_post by assumption. destruct (IH (app_post a e)) as (p1 & p2 & -> & E). exists ((a, s) :: p1), p2. split; [reflexivity|]. cbn [appv]. rewrite <- E. destruct a; cbn in *; tauto.
    + exists [], ((a, s) :: ps). split; reflexivity.
Qed.

(** One level of brackets: what stands before the last |, the concatenation so far, the operand
    with its closures. *)
Inductive orp : Z -> list token -> list (ator * Z) -> list re -> Z -> Prop :=
| or_none k : orp k [] [] [] k
| or_some k ts e k' x e0 : p_alt k ts e k' -> eqa e0 e -> orp k (ts ++ [KAtor AOr]) [(AOr, x)] [e0] k'.
Inductive catp : Z -> list token -> list (ator * Z) -> list re -> Z -> Prop :=
| cat_none k : catp k [] [] [] k
| cat_some k ts e k' x e0 : p_cat k ts e k' -> eqa e0 e -> catp k ts [(ACat, x)] [e0] k'.
Inductive curp : Z -> list token -> list (ator * Z) -> list re -> Z -> bool -> Prop :=
| cur_none k : curp k [] [] [] k false
| cur_some k ts e k' ps e0 : p_post k ts e k' -> posts ps -> eqa (appv ps e0) e -> curp k ts ps [e0] k' true.
Inductive lev : Z -> list token -> list (ator * Z) -> list re -> Z -> bool -> Prop :=
| lev_ k t1 a1 e1 k1 t2 a2 e2 k2 t3 a3 e3 k' w : orp k t1 a1 e1 k1 -> catp k1 t2 a2 e2 k2 -> curp k2 t3 a3 e3 k' w ->
    lev k (t1 ++ t2 ++ t3) (a3 ++ a2 ++ a1) (e3 ++ e2 ++ e1) k' w.
(** What lies below the level. *)
Inductive ctx : list token -> list (ator * Z) -> list re -> Z -> Prop :=
| ctx_base x : ctx [] [(AStart, x)] [] 0
| ctx_open ts0 a0 e0 k0 t a e k1 : ctx ts0 a0 e0 k0 -> lev k0 t a e k1 false -> ctx (ts0 ++ t ++ [KAtor ALbra]) ((ALbra, k1 + 1) :: a ++ a0) (e ++ e0) (k1 + 1).
Inductive good : list token -> sst -> Prop :=
| good_ ts0 a0 e0 k0 t a e k w nb : ctx ts0 a0 e0 k0 -> lev k0 t a e k w -> nb = nlb a0 -> good (ts0 ++ t) (Sst (e ++ e0) (a ++ a0) k w nb).
Lemma ctx_stops ts a e k : ctx ts a e k -> stops 3 a.
Proof. intros H. inversion H; subst; cbn; lia. Qed.
Lemma stops_le v v' a : stops v a -> v <= v' -> stops v' a.
Proof. destruct a as [|[a s] r]; cbn; [tauto|lia]. Qed.
Lemma stops_or k t a e k' a0 : orp k t a e k' -> stops 3 a0 -> stops 4 (a ++ a0).
Proof. intros H Hs. inversion H; subst; cbn; [eapply stops_le; [eassumption|]; lia|lia]. Qed.
Lemma stops_cat k t a e k' a0 : catp k t a e k' -> stops 4 a0 -> stops 5 (a ++ a0).
Proof. intros H Hs. inversion H; subst; cbn; [eapply stops_le; [eassumption|]; lia|lia]. Qed.
Lemma go_le v a : v <= 4 -> is_post a -> go (Some v) a = true.
Proof. intros Hv Ha. cbn. destruct (Z.leb_spec v (prio a)); [reflexivity|]. destruct a; cbn in *; try tauto; lia. Qed.

(** Concatenation closed: everything down to the | . *)
Definition close_cat k1 (t2 t3 : list token) k' (e : re) : Prop := exists E, p_cat k1 (t2 ++ t3) E k' /\ eqa e E.
Lemma eval_cat pri k1 t2 a2 e2 k2 t3 a3 e3 k' e1 a1 :
  (forall a, is_post a \/ a = ACat -> go pri a = true) -> catp k1 t2 a2 e2 k2 -> curp k2 t3 a3 e3 k' true ->
  exists e, sevu pri (a3 ++ a2 ++ a1) (e3 ++ e2 ++ e1) = sevu pri a1 (e :: e1) /\ close_cat k1 t2 t3 k' e.
Proof.
  intros Hg HC HP. inversion HP as [|k ts e k'' ps e0 P1 P2 P3]; subst. cbn [app]. rewrite sevu_posts by auto.
  inversion HC as [|k ts e4 k'' x e5 Q1 Q2]; subst; cbn [app].
  - eexists. split; [reflexivity|]. exists e. split; [now apply pc_one|exact P3].
  - cbn [sevu]. rewrite Hg by auto. cbn [sym]. eexists. split; [reflexivity|]. exists (ECat e4 e). split; [eapply pc_cat; eassumption|]. now apply eqa_cat.
Qed.
Definition close_alt k (ts : list token) k' (e : re) : Prop := exists E, p_alt k ts E k' /\ eqa e E.
Lemma eval_alt pri k t a e k' e1 a1 :
  (forall a, is_post a \/ a = ACat \/ a = AOr -> go pri a = true) -> lev k t a e k' true ->
  exists e', sevu pri (a ++ a1) (e ++ e1) = sevu pri a1 (e' :: e1) /\ close_alt k t k' e'.
Proof.
  intros Hg HL. inversion HL as [k0 t1 b1 c1 k1 t2 b2 c2 k2 t3 b3 c3 k'' w HO HC HP]; subst.
  destruct (eval_cat pri k1 t2 b2 c2 k2 t3 b3 c3 k' (c1 ++ e1) (b1 ++ a1)) as (x & E & (X & X1 & X2)); auto.
  { intros b [Hb|Hb]; apply Hg; auto. }
  rewrite <- !app_assoc. rewrite E. inversion HO as [|k'' ts e4 k3 y e5 Q1 Q2]; subst; cbn [app].
  - eexists. split; [reflexivity|]. exists X. split; [now apply pa_one|exact X2].
  - cbn [sevu]. rewrite Hg by auto. cbn [sym]. eexists. split; [reflexivity|]. exists (EAlt e4 X). split; [|now apply eqa_alt].
    rewrite <- app_assoc. eapply pa_or; eassumption.
Qed.

Lemma spush_cases s a : (spush s a = Bad OPERATOROVERFLOW) \/ spush s a = Good (Sst (es s) ((a, scs s) :: ats s) (scs s) (slw s) (snb s)).
Proof. unfold spush. destruct (length (ats s) <? NSTACK)%nat; auto. Qed.
(** The implicit concatenation: afterwards the level waits for an operand. *)
Definition ready (toks : list token) (s : sst) : Prop := good toks s /\ slw s = false.
Lemma scat_good toks s : good toks s -> slw s = true -> match scat s with Bad c => resource c | Good s' => ready toks s' /\ scs s' = scs s /\ snb s' = snb s end.
Proof.
  intros HG Hw. inversion HG as [ts0 a0 e0 k0 t a e k w nb HX HL Hn]; subst. cbn [slw] in Hw. subst w.
  inversion HL as [k0' t1 b1 c1 k1 t2 b2 c2 k2 t3 b3 c3 k'' w HO HC HP]; subst.
  destruct (eval_cat (Some 4) k1 t2 b2 c2 k2 t3 b3 c3 k (c1 ++ e0) (b1 ++ a0)) as (x & E & (X & X1 & X2)); auto.
  { intros b [Hb|Hb]; [apply go_le; auto; lia|subst; reflexivity]. }
  rewrite (sevu_stop 4 (b1 ++ a0)) in E by (eapply stops_or; [eassumption|eapply ctx_stops; eassumption]).
  unfold scat, sop. cbn [ats es scs slw snb]. rewrite <- !app_assoc. rewrite E. cbn [obind fst snd].
  match goal with |- context [spush ?s ACat] => destruct (spush_cases s ACat) as [Ep|Ep]; rewrite Ep end; cbn [obind]; [unfold resource; auto|].
  cbn [slw_ es ats scs slw snb]. split; [split; [|reflexivity]|split; reflexivity].
  change (x :: c1 ++ e0) with (([] ++ [x] ++ c1) ++ e0). change ((ACat, k) :: b1 ++ a0) with (([] ++ [(ACat, k)] ++ b1) ++ a0).
  eapply (good_ ts0 a0 e0 k0 _ _ _ k false); [eassumption| |reflexivity].
  rewrite <- (app_nil_r (t2 ++ t3)). econstructor; [eassumption|eapply cat_some; eassumption|constructor].
Qed.
Lemma curp_false k t a e k' : curp k t a e k' false -> t = [] /\ a = [] /\ e = [] /\ k = k'.
Proof. intros H. inversion H; subst. auto. Qed.
Lemma ready_inv toks s : ready toks s -> exists ts0 a0 e0 k0 t1 a1 e1 k1 t2 a2 e2, ctx ts0 a0 e0 k0 /\ orp k0 t1 a1 e1 k1 /\ catp k1 t2 a2 e2 (scs s) /\
  toks = ts0 ++ t1 ++ t2 /\ es s = e2 ++ e1 ++ e0 /\ ats s = a2 ++ a1 ++ a0 /\ snb s = nlb a0.
Proof.
  intros [HG Hw]. inversion HG as [ts0 a0 e0 k0 t a e k w nb HX HL Hn]; subst. cbn [slw] in Hw. subst w.
  inversion HL as [k0' t1 b1 c1 k1 t2 b2 c2 k2 t3 b3 c3 k'' w HO HC HP]; subst. apply curp_false in HP. destruct HP as (-> & -> & -> & ->).
  exists ts0, a0, e0, k0, t1, b1, c1, k1, t2, b2, c2. cbn [scs es ats snb app]. rewrite app_nil_r, <- !app_assoc. auto 10.
Qed.
(** An operand [e0] spelled [ts] in that place. *)
Lemma ready_cur toks s ts e e0 k' : ready toks s -> p_post (scs s) ts e k' -> eqa e0 e -> good (toks ++ ts) (Sst (e0 :: es s) (ats s) k' true (snb s)).
Proof.
  intros HR HP HE. destruct (ready_inv _ _ HR) as (ts0 & a0 & x0 & k0 & t1 & a1 & e1 & k1 & t2 & a2 & e2 & HX & HO & HC & -> & -> & -> & ->).
  replace ((ts0 ++ t1 ++ t2) ++ ts) with (ts0 ++ t1 ++ t2 ++ ts) by (now rewrite !app_assoc).
  replace (e0 :: e2 ++ e1 ++ x0) with (([e0] ++ e2 ++ e1) ++ x0) by (cbn; now rewrite <- !app_assoc).
  replace (a2 ++ a1 ++ a0) with (([] ++ a2 ++ a1) ++ a0) by (cbn; now rewrite <- !app_assoc).
  eapply good_; [eassumption| |reflexivity]. econstructor; [eassumption|eassumption|]. econstructor; [eassumption|constructor|exact HE].
Qed.
Lemma nlb_app x y : nlb (x ++ y) = nlb x + nlb y.
Proof. induction x as [|[b z] x IH]; [reflexivity|]. cbn [app]. rewrite !nlb_cons. lia. Qed.
Lemma nlb_orp k t a e k' : orp k t a e k' -> nlb a = 0. Proof. intros H. inversion H; reflexivity. Qed.
Lemma nlb_catp k t a e k' : catp k t a e k' -> nlb a = 0. Proof. intros H. inversion H; reflexivity. Qed.
Lemma ready_open toks s : ready toks s -> good (toks ++ [KAtor ALbra]) (Sst (es s) ((ALbra, scs s + 1) :: ats s) (scs s + 1) false (snb s + 1)).
Proof.
  intros HR. destruct (ready_inv _ _ HR) as (ts0 & a0 & x0 & k0 & t1 & a1 & e1 & k1 & t2 & a2 & e2 & HX & HO & HC & -> & -> & -> & ->).
  replace ((ts0 ++ t1 ++ t2) ++ [KAtor ALbra]) with ((ts0 ++ (t1 ++ t2 ++ []) ++ [KAtor ALbra]) ++ []) by (now rewrite !app_nil_r, !app_assoc).
  replace (e2 ++ e1 ++ x0) with ([] ++ ([] ++ e2 ++ e1) ++ x0) by (cbn; now rewrite <- !app_assoc).
  replace ((ALbra, scs s + 1) :: a2 ++ a1 ++ a0) with ([] ++ (ALbra, scs s + 1) :: ([] ++ a2 ++ a1) ++ a0) by (cbn; now rewrite <- !app_assoc).
  eapply good_.
  - eapply ctx_open; [eassumption|]. econstructor; [eassumption|eassumption|constructor].
  - change (@nil token) with (@nil token ++ [] ++ []) at 1. change (@nil (ator * Z)) with (@nil (ator * Z) ++ [] ++ []) at 1. change (@nil re) with (@nil re ++ [] ++ []) at 1. repeat econstructor.
  - cbn [app]. rewrite nlb_cons, !nlb_app, (nlb_orp _ _ _ _ _ HO), (nlb_catp _ _ _ _ _ HC). lia.
Qed.
Definition needs (t : token) (s : sst) : Prop :=
  match t with KRbra => slw s = true /\ 0 < snb s | KAtor ALbra => True | KAtor _ => slw s = true | _ => True end.
Definition after (t : token) (s s' : sst) : Prop :=
  match t with
  | KRbra => slw s' = true /\ snb s' = snb s - 1
  | KAtor ALbra => slw s' = false /\ snb s' = snb s + 1
  | KAtor AOr => slw s' = false /\ snb s' = snb s
  | _ => slw s' = true /\ snb s' = snb s
  end.
Lemma pre_ready toks s : good toks s -> match (if slw s then scat s else Good s) with Bad c => resource c | Good s' => ready toks s' /\ scs s' = scs s /\ snb s' = snb s end.
Proof. intros HG. destruct (slw s) eqn:Ew; [now apply scat_good|]. split; [split; assumption|auto]. Qed.
Lemma p_post_app a k ts e k' : is_post a -> p_post k ts e k' -> p_post k (ts ++ [KAtor a]) (app_post a e) k'.
Proof. intros Ha H. destruct a; cbn in *; try tauto; constructor; assumption. Qed.
Lemma post_good toks s b : good toks s -> is_post b -> slw s = true ->
  match obind (sop s (Some (prio b))) (fun s => obind (spush s b) (fun s => Good (slw_ s true))) with
  | Bad c => resource c
  | Good s' => good (toks ++ [KAtor b]) s' /\ slw s' = true /\ snb s' = snb s
  end.
Proof.
  intros HG Hb Hw. inversion HG as [ts0 a0 e0 k0 t a e k w nb HX HL Hn]; subst. cbn [slw] in Hw. subst w.
  inversion HL as [k0' t1 b1 c1 k1 t2 b2 c2 k2 t3 b3 c3 k'' w HO HC HP]; subst. inversion HP as [|k' ts e k'' ps x P1 P2 P3]; subst.
  unfold sop. cbn [ats es scs slw snb]. rewrite <- !app_assoc. cbn [app].
  destruct (sevu_part (prio b) b3 x (c2 ++ c1 ++ e0) (b2 ++ b1 ++ a0) P2) as (p1 & p2 & -> & E).
  { eapply stops_le; [eapply stops_cat; [eassumption|]|destruct b; cbn in *; try tauto; lia]. eapply stops_or; [eassumption|]. eapply ctx_stops; eassumption. }
  rewrite E. cbn [obind fst snd]. match goal with |- context [spush ?s b] => destruct (spush_cases s b) as [Ep|Ep]; rewrite Ep end; cbn [obind]; [unfold resource; auto|].
  cbn [slw_ es ats scs slw snb]. split; [|split; reflexivity].
  apply Forall_app in P2. destruct P2 as [Q1 Q2].
  replace ((ts0 ++ t1 ++ t2 ++ t3) ++ [KAtor b]) with (ts0 ++ t1 ++ t2 ++ t3 ++ [KAtor b]) by (now rewrite <- !app_assoc).
  replace (appv p1 x :: c2 ++ c1 ++ e0) with (([appv p1 x] ++ c2 ++ c1) ++ e0) by (cbn; now rewrite <- !app_assoc).
  replace ((b, k) :: p2 ++ b2 ++ b1 ++ a0) with ((((b, k) :: p2) ++ b2 ++ b1) ++ a0) by (cbn; now rewrite <- !app_assoc).
  eapply good_; [eassumption| |reflexivity]. econstructor; [eassumption|eassumption|]. apply (cur_some _ _ (app_post b e)); [now apply p_post_app| |].
  - constructor; assumption.
  - cbn [appv]. eapply eqa_trans; [apply appv_comm; assumption|]. apply eqa_post. rewrite <- appv_app. exact P3.
Qed.
Lemma step_good toks s t : good toks s -> tok_ok t -> t <> KEnd -> needs t s ->
  match sfeed s t with Bad c => resource c | Good s' => good (toks ++ [t]) s' /\ after t s s' end.
Proof.
  intros HG Ht Hne Hn. destruct t as [| |a|o]; [congruence| | |]; cbn [sfeed].
  - destruct Hn as [Hw Hb]. unfold srbra. destruct (Z.ltb_spec (snb s - 1) 0); [lia|].
    inversion HG as [ts0 a0 e0 k0 t a e k w nb HX HL Hnb]; subst. cbn [slw snb] in *. subst w. cbn [es ats scs slw snb]. unfold sop. cbn [es ats scs slw snb].
    destruct (eval_alt None k0 t a e k e0 a0) as (x & E & (X & X1 & X2)); [reflexivity|exact HL|]. rewrite E.
    inversion HX as [x0|ts1 a1 e1 k1 t1 b1 c1 k2 HX1 HL1]; subst; [cbn in Hb; lia|].
    cbn [sevu go sym obind fst snd slw_ es ats scs slw snb].
    assert (R : ready (ts1 ++ t1) (Sst (c1 ++ e1) (b1 ++ a1) k2 false (nlb a1))) by (split; [econstructor; eauto|reflexivity]).
    apply (ready_cur _ _ (KAtor ALbra :: t ++ [KRbra]) (EGrp (k2 + 1) X) (EGrp (k2 + 1) x) k) in R; [|apply pp_grp; exact X1|apply eqa_grp; exact X2].
    cbn [es ats snb] in R. split.
    + replace (((ts1 ++ t1 ++ [KAtor ALbra]) ++ t) ++ [KRbra]) with ((ts1 ++ t1) ++ KAtor ALbra :: t ++ [KRbra]) by (now rewrite <- !app_assoc).
      rewrite nlb_cons. rewrite nlb_app. replace (1 + (nlb b1 + nlb a1) - 1) with (nlb a1); [exact R|].
      inversion HL1 as [k0' t1' b1' c1' k1' t2 b2 c2 k2' t3 b3 c3 k'' w HO HC HP]; subst. apply curp_false in HP. destruct HP as (-> & -> & -> & ->). cbn [app]. rewrite !nlb_app, (nlb_orp _ _ _ _ _ HO), (nlb_catp _ _ _ _ _ HC). lia.
    + split; reflexivity.
  - destruct a; try (destruct Ht; fail).
    + (* ( *)
      unfold soperator. destruct (Z.leb_spec 32 (scs s + 1)); [unfold resource; auto|]. cbn zeta. cbn [slw].
      (* the counter is raised before the concatenation *)
      assert (H2 : match (if slw s then scat (Sst (es s) (ats s) (scs s + 1) (slw s) (snb s + 1)) else Good (Sst (es s) (ats s) (scs s + 1) (slw s) (snb s + 1))) with
        | Bad c => resource c
        | Good s' => exists s0, ready toks s0 /\ scs s0 = scs s /\ snb s0 = snb s /\ es s' = es s0 /\ ats s' = ats s0 /\ scs s' = scs s + 1 /\ slw s' = false /\ snb s' = snb s + 1
        end).
      { pose proof HG as HG'. inversion HG as [ts0 a0 e0 k0 t a e k w nb HX HL Hnb]; subst. cbn [slw es ats scs snb] in *. destruct w.
        - inversion HL as [k0' t1 b1 c1 k1 t2 b2 c2 k2 t3 b3 c3 k'' w HO HC HP]; subst.
          destruct (eval_cat (Some 4) k1 t2 b2 c2 k2 t3 b3 c3 k (c1 ++ e0) (b1 ++ a0)) as (x & E & (X & X1 & X2)); auto.
          { intros b [Hb|Hb]; [apply go_le; auto; lia|subst; reflexivity]. }
          rewrite (sevu_stop 4 (b1 ++ a0)) in E by (eapply stops_or; [eassumption|eapply ctx_stops; eassumption]).
          unfold scat, sop. cbn [ats es scs slw snb]. rewrite <- !app_assoc. rewrite E. cbn [obind fst snd].
          match goal with |- context [spush ?s ACat] => destruct (spush_cases s ACat) as [Ep|Ep]; rewrite Ep end; cbn [obind]; [unfold resource; auto|].
          cbn [slw_ es ats scs slw snb]. exists (Sst (x :: c1 ++ e0) ((ACat, k + 1) :: b1 ++ a0) k false (nlb a0)). split; [split; [|reflexivity]|repeat split].
          change (x :: c1 ++ e0) with (([] ++ [x] ++ c1) ++ e0). change ((ACat, k + 1) :: b1 ++ a0) with (([] ++ [(ACat, k + 1)] ++ b1) ++ a0).
          eapply (good_ ts0 a0 e0 k0 _ _ _ k false); [eassumption| |reflexivity].
          rewrite <- (app_nil_r (t2 ++ t3)). econstructor; [eassumption|eapply cat_some; eassumption|constructor].
        - exists (Sst (e ++ e0) (a ++ a0) k false (nlb a0)). split; [split; [exact HG'|reflexivity]|repeat split]. }
      match goal with |- context [obind ?x _] => destruct x as [s1|c] end; cbn [obind]; [|exact H2]. destruct H2 as (s0 & R & R1 & R2 & R3 & R4 & R5 & R6 & R7).
      destruct (spush_cases s1 ALbra) as [Ep|Ep]; rewrite Ep; cbn [obind]; [unfold resource; auto|]. apply ready_open in R. rewrite R1, R2, <- R3, <- R4 in R.
      cbn [slw_ es ats scs slw snb]. rewrite R5, R7. split; [exact R|]. split; reflexivity.
    + (* | *)
      cbn [needs] in Hn. inversion HG as [ts0 a0 e0 k0 t a e k w nb HX HL Hnb]; subst. cbn [slw] in Hn. subst w. cbn [soperator prio]. unfold sop. cbn [es ats scs slw snb].
      destruct (eval_alt (Some 3) k0 t a e k e0 a0) as (x & E & (X & X1 & X2)); [|exact HL|].
      { intros b [Hb|[->| ->]]; [apply go_le; auto; lia|reflexivity|reflexivity]. }
      rewrite E, (sevu_stop 3 a0) by (eapply ctx_stops; eassumption). cbn [obind fst snd].
      match goal with |- context [spush ?s AOr] => destruct (spush_cases s AOr) as [Ep|Ep]; rewrite Ep end; cbn [obind]; [unfold resource; auto|].
      cbn [slw_ es ats scs slw snb]. split; [|split; reflexivity]. rewrite <- app_assoc.
      change (x :: e0) with (([] ++ [] ++ [x]) ++ e0). change ((AOr, k) :: a0) with (([] ++ [] ++ [(AOr, k)]) ++ a0).
      eapply good_; [eassumption| |reflexivity]. rewrite <- (app_nil_r (t ++ [KAtor AOr])). change (@nil token) with (@nil token ++ []). econstructor; [eapply or_some; eassumption|constructor|constructor].
    + apply (post_good toks s AStar HG Logic.I Hn).
    + apply (post_good toks s APlus HG Logic.I Hn).
    + apply (post_good toks s AQuest HG Logic.I Hn).
  - (* operand *)
    unfold soperand. pose proof (pre_ready toks s HG) as HP. match goal with |- context [obind ?x _] => destruct x as [s1|c] end; cbn [obind]; [|exact HP].
    destruct HP as (R & R1 & R2). destruct (length (es s1) <? NSTACK)%nat; [|unfold resource; auto]. apply (ready_cur _ _ [KOp o] (EAtom o) (EAtom o) (scs s1)) in R; [|now apply pp_atom|apply eqa_refl].
    split; [exact R|]. split; [reflexivity|exact R2].
Qed.
