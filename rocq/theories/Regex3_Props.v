(** The matcher on programs of the compiler: it always returns. *)
From Verif Require Import Base Utf8_Tab Utf8_Model Utf8_Spec Utf8_Proofs Utf8_Proofs2 Utf8_Proofs3 Utf8_Proofs4 Utf8_Proofs5 Regex_Model Regex_Spec Regex_Proofs Regex_Proofs2 Regex_Proofs3 Regex_Proofs5 Regex_Props.
From Verif Require Import Recomp_Model Recomp_Spec Recomp_Syntax Recomp_Proofs6 Recomp_Proofs10 Recomp_Proofs13 Recomp_Proofs16 Recomp_Proofs17 Recomp_Props.

(** ** C91: matching returns *)
(** No instruction asks a function of ctype.h (C90_ctype_refuted: these are undefined from 256 on). *)
Definition is_ctype (a : Z) : Prop := ASC_an <= a <= ASC_an + 27.
Definition no_ctype (pr : prog) : Prop := forall pc o n, nth_error (code pr) pc = Some (I o n) ->
  match o with RUNE c | IRUNE c => ~ is_ctype c | CCLASS sp | NCCLASS sp => forall a, In (a, a) sp -> ~ is_ctype a | _ => True end.
Definition ascii_text (cs : list Z) : Prop := Forall (fun c => c < 128) cs.
Lemma rune_match_ok up a r : ~ is_ctype a \/ 0 <= r <= 255 -> exists b, rune_match up a r = Ok b.
Proof.
  intros H. unfold rune_match. destruct (between ASC_an (ASC_an + 27) a) eqn:E; [|destruct (_ || _); eauto].
  unfold between in E. apply andb_true_iff in E as [E1 E2]. apply Z.leb_le in E1, E2. destruct H as [H|H]; [exfalso; apply H; split; assumption|].
  assert (B : between 0 255 r = true) by (unfold between; apply andb_true_iff; split; apply Z.leb_le; lia).
  assert (X : exists b, asc_class ((a - ASC_an) / 2) r = Ok b).
  { unfold asc_class. rewrite B. repeat match goal with |- exists b, match ?k with _ => _ end = Ok b => destruct k; eauto end. }
  destruct X as [b ->]. cbn [bind]. eauto.
Qed.
Lemma tested_small cs r : Forall scalar cs -> ascii_text cs -> tested cs r -> 0 <= r <= 255.
Proof.
  intros HS HA [->|(c & HI & HR)]; [lia|]. rewrite Forall_forall in HS. unfold ascii_text in HA. rewrite Forall_forall in HA. specialize (HS _ HI). specialize (HA _ HI). cbn beta in HA. unfold scalar in HS.
  destruct HR as [->| ->]; [lia|]. destruct (ascii_lower c) as (E & -> & _); [lia|]. rewrite E. destruct (_ && _); lia.
Qed.
Lemma defined_all up pr cs : Forall scalar cs -> ascii_text cs \/ no_ctype pr -> forall pc i r, nth_error (code pr) pc = Some i -> tested cs r -> defined_on (rune_match up) (iop i) r.
Proof.
  intros HS H pc [o n] r Hpc Hr. cbn [iop]. destruct H as [H|H].
  - pose proof (tested_small _ _ HS H Hr). destruct o; cbn; auto; intros; apply rune_match_ok; auto.
  - specialize (H _ _ _ Hpc). destruct o; cbn in *; auto; intros; apply rune_match_ok; auto.
Qed.
Lemma elem_noflag ic dn es toks : Forall2 (elem_tok ic dn) es toks -> forall t, In t toks -> ~ flag_tok t.
Proof.
  induction 1 as [|e t es toks H _ IH]; intros t0 HI; [destruct HI|]. destruct HI as [<-|HI]; [|auto].
  assert (X : forall a b, t = KOp (if ic then IRUNE a else RUNE b) -> ~ flag_tok t) by (intros a b -> [F|F]; destruct ic; discriminate F).
  destruct e; cbn [elem_tok] in H; try (eapply X; exact H; fail); try (subst t; intros [F|F]; discriminate F).
  - destruct H as (v & _ & H). eapply X. exact H.
  - subst t. intros [F|F]; destruct dn; discriminate F.
  - destruct H as (sp & -> & _). intros [F|F]; destruct neg; discriminate F.
Qed.
Lemma pattern_wired m s p ic dn es pr : Forall is_byte m -> pattern es p -> zstring m s p -> compile m s (zlen p) ic dn = ret pr ->
  wired pr /\ first_ok pr /\ ntakers (code pr) = length (filter takes_char es) /\ (existsb branches es = false -> no_fork pr).
Proof.
  intros HB HP HZ HC. pose proof (C84_program_closed m s p ic dn es pr HP HZ HC) as [K1 K2]. destruct (pattern_lexes m s p ic dn es HP HZ) as (toks & L & F & H1 & H2).
  split; [|split; [|split]].
  - constructor; [exact K1| | | |eapply compile_ending; eauto].
    + intros pc o n Hpc Ho. destruct (K2 _ _ _ Hpc) as [X _]. destruct (X Ho) as (q & -> & Hq). eauto.
    + intros pc r n Hpc. destruct (K2 _ _ _ Hpc) as [_ X]. exact X.
    + intros pc k n [Hpc|Hpc]; destruct (K2 _ _ _ Hpc) as [_ X]; exact X.
  - destruct (compile_lexes m s (zlen p) ic dn toks L H1 H2) as [(c & E & _)|(pr' & e & k & E & P & _ & _ & _ & [W1 W2 W3 W4])]; rewrite HC in E; [discriminate E|]. injection E as <-.
    pose proof (lexes_rune m _ toks HB L (elem_noflag _ _ _ _ F)) as HRn. intros o n Hpc. destruct (W2 _ o n Hpc) as [->|[->|[[r ->]|[(k' & [->| ->] & Hk)|HI]]]]; cbn; auto. specialize (HRn _ HI). destruct o; cbn in *; tauto.
  - rewrite <- (elem_takes _ _ _ _ F). eapply compile_takes; eauto.
  - intros HN pc r n. eapply compile_straight; eauto. eapply elem_straight; eauto.
Qed.

(** A pattern without | * + ?, or with at most six elements that take a character: the matcher
    returns on every text, wherever it starts, whatever the other flags are: no read outside of the text,
    no write outside of the lists or of the captures, no endless loop.  The text is ASCII or the
    pattern does not ask ctype.h.  It only gives up if it has branches, or 98 characters. *)
Theorem C91_total_partial up isword m s p ic dn es pr tm bol cs :
  Forall is_byte m -> pattern es p -> zstring m s p -> compile m s (zlen p) ic dn = ret pr ->
  text tm bol cs -> ascii_text cs \/ no_ctype pr ->
  existsb branches es = false \/ (length (filter takes_char es) <= 6)%nat ->
  let sure := existsb branches es = false /\ (length (filter takes_char es) <= 97)%nat in
  (forall mp fl, fl = FDefault \/ fl = FFull -> exists x, match_pro (rune_match up) isword pr tm bol mp fl = Ok x /\ (fst x = 0 \/ fst x = -1 \/ fst x = -2 /\ ~ sure)) /\
  (forall mt i j, m0 mt = (Some (posn bol cs i), posn bol cs j - posn bol cs i) -> (j <= length cs)%nat ->
     exists x, match_next (rune_match up) isword pr tm bol mt = Ok x /\ (fst x = 0 \/ fst x = -1 \/ fst x = -2 /\ ~ sure)).
Proof.
  intros HB HP HZ HC HT HD HF sure. destruct (pattern_wired m s p ic dn es pr HB HP HZ HC) as (W & F1 & NT & NF). pose proof HT as (_ & HS & _).
  assert (Few : no_fork pr \/ (ntakers (code pr) <= 6)%nat) by (rewrite NT; tauto).
  assert (Sure : forall x : Z * option se, (fst x = 0 \/ fst x = -1 \/ fst x = -2 /\ ~ (no_fork pr /\ (ntakers (code pr) <= 97)%nat)) -> fst x = 0 \/ fst x = -1 \/ fst x = -2 /\ ~ sure).
  { intros x [|[|[Hx N]]]; auto. right; right. split; [exact Hx|]. intros [S1 S2]. apply N. rewrite NT. auto. }
  split.
  - intros mp fl Hfl. destruct (match_total up isword pr tm bol cs HT W (defined_all up pr cs HS HD) F1 Few mp fl Hfl) as (x & E & Hx). eauto.
  - intros mt i j Hm Hj. destruct (next_total up isword pr tm bol cs HT W (defined_all up pr cs HS HD) F1 Few mt i j Hm Hj) as (x & E & Hx). eauto.
Qed.
(** Without branches and word boundaries, with at most 97 characters: the first match is found,
    or there is none. *)
Definition word_edge (e : elem) : bool := match e with SWord | SNword => true | _ => false end.
Lemma elem_plain ic dn es toks : Forall2 (elem_tok ic dn) es toks -> existsb word_edge es = false -> plain toks.
Proof.
  intros F HE t HI. split; [eapply elem_noflag; eauto|]. revert HE HI. induction F as [|e u es toks H _ IH]; intros HE HI; [destruct HI|]. cbn [existsb] in HE. apply orb_false_iff in HE as [He HE]. destruct HI as [<-|HI]; [|auto].
  assert (X : forall a b, u = KOp (if ic then IRUNE a else RUNE b) -> u <> KOp WBOUND /\ u <> KOp NWBOUND) by (intros a b ->; destruct ic; split; discriminate).
  destruct e; cbn [elem_tok word_edge] in *; try discriminate He; try (eapply X; exact H; fail); try (subst u; split; discriminate).
  - destruct H as (v & _ & H). eapply X. exact H.
  - subst u. destruct dn; split; discriminate.
  - destruct H as (sp & -> & _). destruct neg; split; discriminate.
Qed.
Theorem C91_match_partial up isword m s p ic dn es pr tm bol cs (mt : se) :
  Forall is_byte m -> pattern es p -> zstring m s p -> compile m s (zlen p) ic dn = ret pr ->
  text tm bol cs -> ascii_text cs \/ no_ctype pr -> (S (nsub pr) <= length mt)%nat -> start_ok pr cs ->
  existsb branches es = false -> existsb word_edge es = false -> (length (filter takes_char es) <= 97)%nat ->
  exists toks e k, Forall2 (elem_tok ic dn) es toks /\ parses toks e k /\
  let L := lang (rune_match up) ic cs e in
  exists x, match_str (rune_match up) isword pr tm bol mt = Ok x /\
  ((fst x = 0 /\ exists mt' i j, snd x = Some mt' /\ best_span L (length cs) i j /\ m0 mt' = (Some (posn bol cs i), posn bol cs j - posn bol cs i)) \/
   (fst x = -1 /\ forall i j, (i <= length cs)%nat -> ~ L i j)).
Proof.
  intros HB HP HZ HC HT HD HM HSt HN HE HK. destruct (pattern_lexes m s p ic dn es HP HZ) as (toks & Lx & F & H1 & H2).
  destruct (compile_lexes m s (zlen p) ic dn toks Lx H1 H2) as [(c & E & _)|(pr' & e & k & E & P & _)]; rewrite HC in E; [discriminate E|]. injection E as <-.
  exists toks, e, k. split; [exact F|]. split; [exact P|]. cbv zeta. destruct (C91_total_partial up isword m s p ic dn es pr tm bol cs HB HP HZ HC HT HD (or_introl HN)) as [HA _].
  destruct (HA (Some mt) FDefault (or_introl eq_refl)) as (x & Ex & Hx). exists x. split; [exact Ex|].
  destruct (C64_match up isword m s (zlen p) ic dn toks pr e k tm bol cs mt x HB Lx H1 H2 (elem_plain _ _ _ _ F HE) HC P HT HM Ex) as [Y|[(Y & mt' & i & j & c & Y1 & Y2 & Y3 & Y4 & _)|(Y & Y1)]].
  - exfalso. destruct Hx as [X|[X|[_ X]]]; try lia. auto.
  - left. split; [exact Y|]. exists mt', i, j. auto.
  - right. auto.
Qed.
(** "(é)[^,-.]b$" *)
Definition st_es : list elem := [SOpen; SLit 233; SClose; SClass true [IRange 44 46]; SLit 98; SEol].
Definition st_p : list Z := [40; 195; 169; 41; 91; 94; 44; 45; 46; 93; 98; 36].
Definition st_prog : prog := match compile (st_p ++ [0]) 0 12 false false with Ok (Good pr) => pr | _ => Prog [] 0 false 0 end.
Example C91_met : pattern st_es st_p /\ zstring (st_p ++ [0]) 0 st_p /\ Forall is_byte (st_p ++ [0]) /\ compile (st_p ++ [0]) 0 (zlen st_p) false false = ret st_prog /\
  text (enc_all [97; 233; 120; 98] ++ [0]) 0 [97; 233; 120; 98] /\ no_ctype st_prog /\ start_ok st_prog [97; 233; 120; 98] /\ nsub st_prog = 1%nat /\
  existsb branches st_es = false /\ existsb word_edge st_es = false /\ length (filter takes_char st_es) = 3%nat /\
  match_str (rune_match no_up) no_word st_prog (enc_all [97; 233; 120; 98] ++ [0]) 0 (repeat (None, 0) 2) = Ok (0, Some [(Some 1, 4); (Some 1, 2)]) /\
  match_str (rune_match no_up) no_word st_prog (enc_all [97; 233; 44; 98] ++ [0]) 0 (repeat (None, 0) 2) = Ok (-1, Some [(None, 0); (None, 0)]).
Proof.
  split. { split; [reflexivity|]. split; [|split; [cbn; auto|vm_compute; discriminate]]. repeat constructor; cbn; unfold scalar; try lia; try discriminate; intuition (try lia; try discriminate). }
  split. { split; [cbn; intuition discriminate|]. exists [], []. split; reflexivity. }
  split. { repeat (constructor; [unfold is_byte; lia|]). constructor. }
  split; [vm_compute; reflexivity|].
  split. { split; [exists [], []; split; vm_compute; reflexivity|]. split; repeat (constructor; [unfold scalar; lia|]); constructor. }
  set (q := st_prog). vm_compute in q.
  split. { intros pc o n H. unfold q in H. cbn [code] in H. do 9 (destruct pc as [|pc]; [cbn in H; first [injection H as <- <-; cbn; unfold is_ctype, ASC_an; first [exact Logic.I|lia|intros a HI; cbn in HI; intuition (try congruence); match goal with X : (_, _) = _ |- _ => injection X as ? ?; lia end]|discriminate H]|]). cbn in H. destruct pc; discriminate H. }
  split. { intros o n H. unfold q in H. cbn in H. injection H as <- <-. exact Logic.I. }
  repeat (split; [vm_compute; reflexivity|]). vm_compute. reflexivity.
Qed.
Print Assumptions C91_total_partial.
Print Assumptions C91_match_partial.
