(** Theorems about the regex compiler. *)
From Verif Require Import Base Utf8_Tab Utf8_Model Utf8_Spec Utf8_Proofs Utf8_Proofs3 Regex_Model Regex_Spec Regex_Props Recomp_Model Recomp_Spec Recomp_Syntax.
From Verif Require Import Recomp_Proofs7 Recomp_Proofs8 Recomp_Proofs9 Recomp_Proofs10 Recomp_Proofs12 Recomp_Proofs13 Recomp_Proofs14 Recomp_Proofs15.

Lemma elems_len es : Forall elem_ok es -> (length es <= length (flat_map spell es))%nat.
Proof. induction 1 as [|e es He _ IH]; [cbn; lia|]. cbn [flat_map length]. rewrite app_length. pose proof (spell_nonempty e He). destruct (spell e); [congruence|cbn; lia]. Qed.
Lemma F2_len {A B} (R : A -> B -> Prop) l l' : Forall2 R l l' -> length l = length l'.
Proof. induction 1; cbn; congruence. Qed.
Lemma pattern_lexes m s p ic dn es : pattern es p -> zstring m s p -> exists toks, lexes m (Lx s ic dn false 0) toks /\ Forall2 (elem_tok ic dn) es toks /\ (length toks <= length m)%nat /\ zlen toks <= 3 * zlen p + 2.
Proof.
  intros (-> & HO & HF & HN) HZ. destruct (pattern_lex m es (Lx s ic dn false 0) HO HF) as (toks & L & F); [split; [reflexivity|apply HZ]|cbn [ncls]; lia|]. exists toks. split; [exact L|]. split; [exact F|]. pose proof (F2_len _ _ _ F). pose proof (elems_len es HO). destruct HZ as [_ HZ]. apply fuel_len in HZ. rewrite app_length in HZ. unfold zlen. lia.
Qed.
(** A pattern of the core syntax: the compiler either makes a program that means what the grammar
    says, or reports an error; if the grammar derives the pattern then only one about limits. *)
Theorem C64_compile m s p ic dn es : pattern es p -> zstring m s p ->
  exists toks, Forall2 (elem_tok ic dn) es toks /\
  ((exists c, compile m s (zlen p) ic dn = fail c /\ forall e k, parses toks e k -> resource c) \/
   (exists pr e k, compile m s (zlen p) ic dn = ret pr /\ parses toks e k /\ nsub pr = Z.to_nat k /\ picase pr = ic /\ means pr e)).
Proof.
  intros HP HZ. destruct (pattern_lexes m s p ic dn es HP HZ) as (toks & L & F & H1 & H2). exists toks. split; [exact F|].
  destruct (compile_lexes m s (zlen p) ic dn toks L H1 H2) as [H|(pr & e & k & E & P & C1 & C2 & C3 & _)]; [left; exact H|right; exists pr, e, k; auto 10].
Qed.
(** The expression of a pattern is unique. *)
Theorem C64_grammar_unique ts e1 k1 e2 k2 : parses ts e1 k1 -> parses ts e2 k2 -> e1 = e2 /\ k1 = k2.
Proof. apply parses_unique. Qed.
(** A program that means [e] accepts the spans of its language. *)
Theorem C64_spans rm pr e cs i j : means pr e -> (accepts rm pr cs i j <-> (i <= length cs)%nat /\ lang rm (picase pr) cs e i j).
Proof. apply accepts_lang. Qed.
(** All patterns, also with \Q..\E, flags and classes by name: what the compiler makes of the
    tokens of the lexer. *)
Theorem C64_tokens m s len ic dn toks : lexes m (Lx s ic dn false 0) toks -> (length toks <= length m)%nat -> zlen toks <= 3 * len + 2 ->
  (exists c, compile m s len ic dn = fail c /\ forall e k, parses toks e k -> resource c) \/
  (exists pr e k, compile m s len ic dn = ret pr /\ parses toks e k /\ nsub pr = Z.to_nat k /\ picase pr = ic /\ means pr e).
Proof.
  intros L H1 H2. destruct (compile_lexes m s len ic dn toks L H1 H2) as [H|(pr & e & k & E & P & C1 & C2 & C3 & _)]; [left; exact H|right; exists pr, e, k; auto 10].
Qed.
(** Compiler and matcher together: without case flags and word boundaries, cregex_match finds the
    leftmost longest span of the language with the captures of some way to match it. *)
Definition best_span (L : nat -> nat -> Prop) (n i j : nat) : Prop :=
  (i <= n)%nat /\ L i j /\ forall i' j', (i' <= n)%nat -> L i' j' -> (i < i')%nat \/ i' = i /\ (j' <= j)%nat.
Theorem C64_match up isword m s len ic dn toks pr e k tm bol cs (mt : se) x :
  Forall is_byte m -> lexes m (Lx s ic dn false 0) toks -> (length toks <= length m)%nat -> zlen toks <= 3 * len + 2 -> plain toks ->
  compile m s len ic dn = ret pr -> parses toks e k ->
  text tm bol cs -> (S (nsub pr) <= length mt)%nat -> match_str (rune_match up) isword pr tm bol mt = Ok x ->
  let L := lang (rune_match up) ic cs e in
  fst x = -2 \/
  (fst x = 0 /\ exists mt' i j c, snd x = Some mt' /\ L i j /\ (start_ok pr cs -> best_span L (length cs) i j) /\
     m0 mt' = (Some (posn bol cs i), posn bol cs j - posn bol cs i) /\
     den (rune_match up) ic cs (posn bol cs) e (i, empty_se (S (nsub pr)) (posn bol cs i)) (j, c) /\
     forall g, 1 <= g <= k -> nth (Z.to_nat g) mt' (None, 0) = nth (Z.to_nat g) c (None, 0)) \/
  (fst x = -1 /\ (start_ok pr cs -> forall i j, (i <= length cs)%nat -> ~ L i j)).
Proof.
  intros HB HL H1 H2 HP HC HPa HT HM HX L. destruct (compile_lexes m s len ic dn toks HL H1 H2) as [(c & E & _)|(pr' & e' & k' & E & P & C)]; rewrite HC in E; [discriminate E|]. injection E as <-.
  destruct (parses_unique _ _ _ _ _ P HPa) as [-> ->]. destruct (plain_core m _ toks pr ic k e HB HL eq_refl HP C) as [HCo HFi]. destruct C as (Cn & Ci & Cm & _).
  assert (AL : forall i j, accepts (rune_match up) pr cs i j <-> (i <= length cs)%nat /\ L i j) by (intros i j; unfold L; rewrite <- Ci; now apply accepts_lang).
  destruct (C63_match up isword pr tm bol cs mt x HT HCo HFi HM HX) as [Y|[(Y & mt' & Ym & (i & j & c' & Hi & HA & HBst & HCp & HF & H0))|(Y & HN)]]; [now left|right; left|right; right].
  - split; [exact Y|]. destruct HCp as (pc & c & HS & HE & ->). exists mt', i, j, c. split; [exact Ym|]. apply AL in HA. destruct HA as [HA1 HA2]. split; [exact HA2|]. split.
    { intros Hs. destruct (HBst Hs) as (_ & _ & HB2). split; [exact HA1|]. split; [exact HA2|]. intros i' j' Hi' HL'. apply HB2; [lia|]. apply AL. auto. }
    split; [exact H0|]. split; [rewrite <- Ci; apply Cm; exists pc; auto|].
    intros g Hg. assert (Hn : (Z.to_nat g < S (nsub pr))%nat) by (rewrite Cn; lia).
    assert (NF : forall (l : se) n q, (q < n)%nat -> nth q (firstn n l) (None, 0) = nth q l (None, 0)).
    { clear. induction l as [|a l IH]; intros n q Hq; [destruct n, q; reflexivity|]. destruct n as [|n]; [lia|]. destruct q as [|q]; [reflexivity|]. cbn [firstn nth]. apply IH. lia. }
    rewrite <- (NF mt' _ _ Hn), HF, (NF _ _ _ Hn). destruct (Z.to_nat g) as [|q] eqn:Eg; [lia|]. destruct c; reflexivity.
  - split; [exact Y|]. intros Hs i j Hi HL'. apply (HN Hs i j). apply AL. auto.
Qed.
(** The hypotheses are met, and the results are not trivial: (a|b)*[c-e] . *)
Definition ex_es : list elem := [SOpen; SLit 97; SBar; SLit 98; SClose; SStar; SClass false [IRange 99 101]].
Definition ex_p : list Z := [40; 97; 124; 98; 41; 42; 91; 99; 45; 101; 93].
Definition ex_toks : list token := [KAtor ALbra; KOp (RUNE 97); KAtor AOr; KOp (RUNE 98); KRbra; KAtor AStar; KOp (CCLASS [(99, 101)])].
Definition ex_re : re := ECat (EStar (EGrp 1 (EAlt (EAtom (RUNE 97)) (EAtom (RUNE 98))))) (EAtom (CCLASS [(99, 101)])).
Definition ex_prog : prog :=
  Prog [I (RUNE 97) (Some 4%nat); I (RUNE 98) (Some 4%nat); I NOP (Some 4%nat); I (OR (Some 0%nat)) (Some 1%nat); I (RBRA 1) (Some 6%nat); I (LBRA 1) (Some 3%nat);
        I (OR (Some 5%nat)) (Some 7%nat); I (CCLASS [(99, 101)]) (Some 8%nat); I END None] 6 false 1.
Example C64_met :
  pattern ex_es ex_p /\ zstring (ex_p ++ [0]) 0 ex_p /\ Forall2 (elem_tok false false) ex_es ex_toks /\ parses ex_toks ex_re 1 /\ plain ex_toks /\
  compile (ex_p ++ [0]) 0 11 false false = ret ex_prog /\
  match_str (rune_match no_up) no_word ex_prog [120; 97; 98; 100; 98; 0] 0 (repeat (None, 0) 2) = Ok (0, Some [(Some 1, 3); (Some 2, 1)]) /\
  compile [97; 124; 0] 0 2 false false = fail MISSINGOPERAND.
Proof.
  split; [|split; [|split; [|split; [|split; [|repeat split; vm_compute; reflexivity]]]]].
  - split; [reflexivity|]. split; [|split; [cbn; auto|vm_compute; discriminate]]. repeat constructor; cbn; unfold scalar; try lia; try discriminate.
  - split; [cbn; intuition discriminate|]. exists [], []. split; reflexivity.
  - repeat constructor. eexists. split; [reflexivity|]. intros _ rm r _. reflexivity.
  - left. apply pa_one. change ex_toks with ([KAtor ALbra; KOp (RUNE 97); KAtor AOr; KOp (RUNE 98); KRbra; KAtor AStar] ++ [KOp (CCLASS [(99, 101)])]). eapply pc_cat with (k1 := 1); [|apply pp_atom; exact Logic.I]. apply pc_one.
    change [KAtor ALbra; KOp (RUNE 97); KAtor AOr; KOp (RUNE 98); KRbra; KAtor AStar] with ((KAtor ALbra :: ([KOp (RUNE 97)] ++ KAtor AOr :: [KOp (RUNE 98)]) ++ [KRbra]) ++ [KAtor AStar]). apply pp_star. change 1 with (0 + 1) at 2. apply pp_grp.
    eapply pa_or; [apply pa_one, pc_one, pp_atom|apply pc_one, pp_atom]; exact Logic.I.
  - intros t Ht. cbn in Ht. intuition (subst; unfold flag_tok in *; intuition discriminate).
Qed.

(** \x{64} is not the letter d but \d. *)
Theorem C64_hex_letter_refuted :
  compile [92; 120; 123; 54; 52; 125; 0] 0 6 false false = compile [92; 100; 0] 0 2 false false /\ compile [92; 100; 0] 0 2 false false <> compile [100; 0] 0 1 false false.
Proof. split; [vm_compute; reflexivity|vm_compute; discriminate]. Qed.
(** An unclosed (? is accepted: what follows is dropped. *)
Theorem C64_open_flags_refuted :
  compile [97; 40; 63; 0] 0 3 false false = compile [97; 0] 0 1 false false /\ exists pr, compile [97; 0] 0 1 false false = ret pr.
Proof. split; [vm_compute; reflexivity|eexists; vm_compute; reflexivity]. Qed.
(** A class with more than 32 members: the 33rd is dropped, and the rest is read as a pattern. *)
Theorem C64_long_class_refuted :
  compile (91 :: repeat 97 33 ++ [98; 93; 0]) 0 36 false false =
  ret (Prog [I (CCLASS [(97, 97)]) (Some 1%nat); I (RUNE 98) (Some 2%nat); I (RUNE 93) (Some 3%nat); I END None] 0 false 0).
Proof. vm_compute. reflexivity. Qed.

(** * Classes *)
(** The spans of a class match what the written ones match; a set such as \d must not lie in a
    written range. *)
Theorem C65_union rm sp r : (forall a, In (a, a) sp -> (forall x, rm a x = Ok true -> x = a) \/ alone a sp) ->
  in_spans rm (make_spans sp) r <-> in_spans rm sp r.
Proof. apply make_spans_same. Qed.
(** They are sorted, without overlap and not more than were written. *)
Theorem C65_disjoint sp : Sorted.Sorted (fun p q => snd p < fst q) (make_spans sp) /\ (length (make_spans sp) <= length sp)%nat.
Proof. split; [apply make_disjoint|apply make_length]. Qed.
(** From the text of a class to its token. *)
Theorem C65_class m l neg its p : elem_ok (SClass neg its) -> lit l = false -> holds_at m (ep l) (spell (SClass neg its) ++ p) -> p <> [] -> ncls l < 16 ->
  exists sp l', lex m l = ret (KOp (if neg then NCCLASS sp else CCLASS sp), l') /\ holds_at m (ep l') p /\ same_spans sp (written (ric l) neg its).
Proof.
  intros HO HL HA Hp HN. destruct (elem_lex m l (SClass neg its) p HO (conj HL HA) Hp ltac:(discriminate) ltac:(auto)) as (t & l' & E & _ & (sp & -> & HS) & ([_ HA'] & _)).
  exists sp, l'. auto.
Qed.
Example C65_met :
  make_spans [(120, 122); (97, 99); (98, 101); (UTF_GRP + 4, UTF_GRP + 4); (110, 110); (110, 110)] = [(97, 101); (110, 110); (120, 122); (UTF_GRP + 4, UTF_GRP + 4)] /\
  elem_ok (SClass true [IRange 120 122; IChr 97; IEsc 100]) /\
  lex [91; 94; 120; 45; 122; 97; 92; 100; 93; 0] (Lx 0 false false false 0) = ret (KOp (NCCLASS [(10, 10); (97, 97); (120, 122); (UTF_GRP + 4, UTF_GRP + 4)]), Lx 9 false false false 1).
Proof. split; [vm_compute; reflexivity|]. split; [|vm_compute; reflexivity]. split; [repeat constructor; cbn; unfold scalar; try lia|]. split; [vm_compute; discriminate|discriminate]. Qed.
(** A set within a written range is lost: [\d\x{1}-\x{fffffff}] does not match by \d. *)
Theorem C65_set_in_range_refuted :
  make_spans [(UTF_GRP + 4, UTF_GRP + 4); (200000, 0xfffffff)] = [(200000, 0xfffffff)].
Proof. vm_compute. reflexivity. Qed.
(** An escape is not translated at the end of a range: [\t-\r] ends at the letter r. *)
Theorem C65_range_escape_refuted :
  compile [91; 92; 116; 45; 92; 114; 93; 0] 0 7 false false = ret (Prog [I (CCLASS [(9, 114)]) (Some 1%nat); I END None] 0 false 0).
Proof. vm_compute. reflexivity. Qed.

(** * Memory *)
(** The lexer and parser stay within the pattern and the program. *)
Theorem C84_compile_safe_partial m s r ic dn : zstring m s r -> Forall is_byte r -> safe_pattern r -> exists x, compile m s (zlen r) ic dn = Ok x.
Proof.
  intros HZ HB HS. destruct (compile_safe m s r ic dn HZ HB HS) as (toks & _ & [(c & _ & c' & E)|(_ & [(c & E & _)|(pr & e & k & E & _)])]); rewrite E; unfold fail, ret; eauto.
Qed.
(** The same for all patterns of the core syntax. *)
Theorem C84_pattern_safe m s p ic dn es : pattern es p -> zstring m s p -> exists x, compile m s (zlen p) ic dn = Ok x.
Proof. intros HP HZ. destruct (C64_compile m s p ic dn es HP HZ) as (toks & _ & [(c & E & _)|(pr & e & k & E & _)]); rewrite E; unfold fail, ret; eauto. Qed.
(** Every jump of a program stays in it. *)
Theorem C84_program_closed m s p ic dn es pr : pattern es p -> zstring m s p -> compile m s (zlen p) ic dn = ret pr ->
  (startpc pr < length (code pr))%nat /\
  forall pc o n, nth_error (code pr) pc = Some (I o n) ->
    (o <> END -> exists q, n = Some q /\ (q < length (code pr))%nat) /\
    match o with OR r => exists q, r = Some q /\ (q < length (code pr))%nat | LBRA k | RBRA k => 1 <= k <= Z.of_nat (nsub pr) | _ => True end.
Proof.
  intros HP HZ HC. destruct (pattern_lexes m s p ic dn es HP HZ) as (toks & L & F & H1 & H2).
  destruct (compile_lexes m s (zlen p) ic dn toks L H1 H2) as [(c & E & _)|(pr' & e & k & E & P & _ & _ & _ & [W1 W2 W3 W4])]; rewrite HC in E; [discriminate E|]. injection E as <-.
  split; [apply W1|]. intros pc o n Hpc. split; [intros Ho; destruct (W3 pc o n Hpc Ho) as (q & -> & Hq & _); exists q; auto|].
  destruct o; auto.
  - destruct (W2 pc _ n Hpc) as [X|[X|[[r X]|[(k' & [X|X] & Hk)|X]]]]; try discriminate X; [injection X as ->; exact Hk|]. pose proof (lexes_fine _ _ _ L) as HF. rewrite Forall_forall in HF. destruct (HF _ X) as [[] _].
  - destruct (W2 pc _ n Hpc) as [X|[X|[[r X]|[(k' & [X|X] & Hk)|X]]]]; try discriminate X; [injection X as ->; exact Hk|]. pose proof (lexes_fine _ _ _ L) as HF. rewrite Forall_forall in HF. destruct (HF _ X) as [[] _].
  - destruct (W4 pc right n Hpc) as (q & -> & Hq & _). exists q. auto.
Qed.
Example C84_met : zstring (ex_p ++ [0]) 0 ex_p /\ Forall is_byte ex_p /\ safe_pattern ex_p /\ compile (ex_p ++ [0]) 0 11 false false = ret ex_prog.
Proof.
  split; [apply C64_met|]. split; [repeat constructor; lia|]. split; [|vm_compute; reflexivity]. split; [cbn; auto|]. intros a b E. left.
  apply (f_equal (@length Z)) in E. rewrite app_length in E. unfold ex_p in E. cbn [length] in E. unfold zlen. lia.
Qed.
(** The end of the pattern is skipped: after a single \, in an unclosed \Q, and in an unclosed
    class with exactly 32 members. *)
Theorem C84_trailing_escape_refuted : compile [92; 0] 0 1 false false = Err OOB.
Proof. vm_compute. reflexivity. Qed.
Theorem C84_open_quote_refuted : compile [92; 81; 97; 0] 0 3 false false = Err OOB.
Proof. vm_compute. reflexivity. Qed.
Theorem C84_open_class_refuted : compile (91 :: repeat 97 32 ++ [0]) 0 33 false false = Err OOB.
Proof. vm_compute. reflexivity. Qed.
Print Assumptions C64_compile.
Print Assumptions C64_grammar_unique.
Print Assumptions C64_spans.
Print Assumptions C64_tokens.
Print Assumptions C64_match.
Print Assumptions C64_hex_letter_refuted.
Print Assumptions C64_open_flags_refuted.
Print Assumptions C64_long_class_refuted.
Print Assumptions C65_union.
Print Assumptions C65_disjoint.
Print Assumptions C65_class.
Print Assumptions C65_set_in_range_refuted.
Print Assumptions C65_range_escape_refuted.
Print Assumptions C84_compile_safe_partial.
Print Assumptions C84_pattern_safe.
Print Assumptions C84_program_closed.
Print Assumptions C84_trailing_escape_refuted.
Print Assumptions C84_open_quote_refuted.
Print Assumptions C84_open_class_refuted.
