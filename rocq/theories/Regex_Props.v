(** Regex properties. *)
From Verif Require Import Base Utf8_Tab Utf8_Model Utf8_Spec Regex_Model Regex_Spec Regex_Proofs2 Regex_Proofs3.

(** ** C63: matching is sound and complete, leftmost and longest *)
Theorem C63_match up isword pr m bol cs (mt : se) x :
  text m bol cs -> core pr -> first_ok pr -> (S (nsub pr) <= length mt)%nat ->
  match_str (rune_match up) isword pr m bol mt = Ok x ->
  fst x = -2 \/
  (fst x = 0 /\ exists e, snd x = Some e /\ found (rune_match up) pr bol cs 0 (start_ok pr cs) e) \/
  (fst x = -1 /\ (start_ok pr cs -> forall i j, ~ accepts (rune_match up) pr cs i j)).
Proof.
  intros HT HC HF Hl H. unfold match_str, match_pro in H. destruct (regexec (rune_match up) isword pr m bol (S (nsub pr)) (Some mt) FDefault) as [y|] eqn:E; [|discriminate H].
  injection H as <-. cbn [fst snd]. pose proof (regexec_some _ _ _ _ _ _ _ _ _ E) as HS. cbn [isS] in HS. apply (regexec_default up isword pr m bol cs HT HC HF) in E; [|intros ? [= <-]; exact Hl].
  destruct E as [->|[[-> E]|(-> & _ & E)]]; [now left| |].
  - right; right. split; [reflexivity|]. intros Hst i j. apply E; auto. lia.
  - right; left. split; [reflexivity|]. destruct (snd y) as [e|]; [|discriminate HS]. exists e. auto.
Qed.
(** The next match is the best one from the end of the last. *)
Theorem C63_match_next up isword pr m bol cs (mt : se) i0 j0 x :
  text m bol cs -> core pr -> first_ok pr -> (S (nsub pr) <= length mt)%nat ->
  m0 mt = (Some (posn bol cs i0), posn bol cs j0 - posn bol cs i0) -> (j0 <= length cs)%nat ->
  match_next (rune_match up) isword pr m bol mt = Ok x ->
  fst x = -2 \/
  (fst x = 0 /\ exists e, snd x = Some e /\ found (rune_match up) pr bol cs j0 (start_ok pr cs) e) \/
  (fst x = -1 /\ (start_ok pr cs -> forall i j, (j0 <= i)%nat -> ~ accepts (rune_match up) pr cs i j)).
Proof.
  intros HT HC HF Hl He Hj H. unfold match_next, match_pro in H. destruct (regexec (rune_match up) isword pr m bol (S (nsub pr)) (Some mt) FNext) as [y|] eqn:E; [|discriminate H].
  injection H as <-. cbn [fst snd]. pose proof (regexec_some _ _ _ _ _ _ _ _ _ E) as HS. cbn [isS] in HS. apply (regexec_next up isword pr m bol cs HT HC HF mt i0 j0) in E; auto.
  destruct E as [->|[[-> E]|(-> & _ & E)]]; [now left| |].
  - right; right. split; [reflexivity|]. exact E.
  - right; left. split; [reflexivity|]. destruct (snd y) as [e|]; [|discriminate HS]. exists e. auto.
Qed.
(** cregex_is_match says true only if there is a match; false also stands for a full list. *)
Theorem C63_is_match up isword pr m bol cs b :
  text m bol cs -> core pr -> first_ok pr -> is_match (rune_match up) isword pr m bol = Ok b ->
  (b = true -> exists i j, accepts (rune_match up) pr cs i j) /\
  (b = false -> start_ok pr cs -> (exists x, regexec (rune_match up) isword pr m bol (S (nsub pr)) None FDefault = Ok x /\ fst x = -1) \/ forall i j, ~ accepts (rune_match up) pr cs i j).
Proof.
  intros HT HC HF H. unfold is_match, match_pro in H. destruct (regexec (rune_match up) isword pr m bol (S (nsub pr)) None FDefault) as [y|] eqn:E; [|discriminate H].
  injection H as <-. pose proof E as E0. apply (regexec_default up isword pr m bol cs HT HC HF) in E; [|discriminate].
  destruct E as [E|[[E E1]|(E & (i & j & _ & E1) & _)]]; rewrite E; cbn; split; try discriminate.
  - intros _ _. left. exists y. auto.
  - intros _ Hst. right. intros i j. apply E1; auto. lia.
  - intros _. exists i, j. exact E1.
Qed.
(** "b+|(a)" on "xabbb": the match is "a" with its capture; from there on it is "bbb". *)
Definition ex_pr : prog := Prog [I (OR (Some 3%nat)) (Some 1%nat); I (RUNE 98) (Some 2%nat); I (OR (Some 1%nat)) (Some 6%nat);
  I (LBRA 1) (Some 4%nat); I (RUNE 97) (Some 5%nat); I (RBRA 1) (Some 6%nat); I END None] 0 false 1.
Definition ex_m : list Z := [120; 97; 98; 98; 98; 0].
Definition no_up (_ _ : Z) : bool := false.
Definition no_word (_ : Z) : bool := false.
Example C63_met :
  text ex_m 0 [120; 97; 98; 98; 98] /\ core ex_pr /\ first_ok ex_pr /\ start_ok ex_pr [120; 97; 98; 98; 98] /\
  match_str (rune_match no_up) no_word ex_pr ex_m 0 (repeat (None, 0) 2) = Ok (0, Some [(Some 1, 1); (Some 1, 1)]) /\
  match_next (rune_match no_up) no_word ex_pr ex_m 0 [(Some 1, 1); (Some 1, 1)] = Ok (0, Some [(Some 2, 3); (None, 0)]).
Proof.
  split; [|split; [|split; [|split; [|split; vm_compute; reflexivity]]]].
  - split; [exists [], []; split; reflexivity|]. split; repeat constructor; unfold scalar; lia.
  - intros pc i H. do 7 (destruct pc as [|pc]; [injection H as <-; cbn; auto; lia|]). destruct pc; discriminate H.
  - intros o n H. injection H as <- _. exact Logic.I.
  - intros o n H. injection H as <- _. exact Logic.I.
Qed.
(** With ^ first, the search for a line break starts behind one: "^b" is not found in "a\n\nb". *)
Definition bol_pr : prog := Prog [I BOL (Some 1%nat); I (RUNE 98) (Some 2%nat); I END None] 0 false 0.
Theorem C63_line_start_refuted :
  accepts (rune_match no_up) bol_pr [97; 10; 10; 98] 3 4 /\
  match_str (rune_match no_up) no_word bol_pr [97; 10; 10; 98; 0] 0 [(None, 0)] = Ok (-1, Some [(None, 0)]).
Proof.
  split; [|vm_compute; reflexivity]. split; [cbn; lia|]. exists 2%nat. split; [|exists None; reflexivity].
  eapply ss_snoc; [eapply ss_snoc; [apply ss_refl|]|]; [eapply st_pass; [reflexivity|right; reflexivity]|eapply st_take; [reflexivity|reflexivity|reflexivity]].
Qed.
(** Without case, a first letter k is searched for byte by byte: U+212A, which folds to k, is
    not found, although it matches elsewhere in the pattern. *)
Definition kelvin_pr : prog := Prog [I (IRUNE 107) (Some 1%nat); I END None] 0 true 0.
Theorem C63_caseless_start_refuted :
  accepts (rune_match no_up) kelvin_pr [8490] 0 1 /\
  match_str (rune_match no_up) no_word kelvin_pr (enc_all [8490] ++ [0]) 0 [(None, 0)] = Ok (-1, Some [(None, 0)]).
Proof.
  split; [|vm_compute; reflexivity]. split; [cbn; lia|]. exists 1%nat. split; [|exists None; reflexivity].
  eapply ss_snoc; [apply ss_refl|]. eapply st_take; [reflexivity|reflexivity|vm_compute; reflexivity].
Qed.

(** ** C66: views *)
(** For a program with no fast start (first instruction no ASCII character and not ^) the result
    is that of the view alone. *)
Theorem C66_view_partial up isword pr m bol cs (mt : se) x :
  viewed m bol cs -> core pr -> start_of pr = Ok SNone -> (forall pc n, nth_error (code pr) pc <> Some (I EOZ n)) ->
  (S (nsub pr) <= length mt)%nat ->
  match_sv (rune_match up) isword pr m bol (cp_offset cs (length cs)) mt = Ok x ->
  fst x = -2 \/
  (fst x = 0 /\ exists e, snd x = Some e /\ found (rune_match up) pr bol cs 0 True e) \/
  (fst x = -1 /\ forall i j, ~ accepts (rune_match up) pr cs i j).
Proof.
  intros HV HC HS HZ Hl H. unfold match_sv in H. destruct (aset mt 0 (Some bol, cp_offset cs (length cs))) as [mt'|] eqn:E0; [|discriminate H]. cbn [bind] in H.
  apply aset_upd in E0. subst mt'. unfold match_pro in H. destruct mt as [|e0 mt]; [cbn in Hl; lia|]. cbn [upd Z.to_nat] in H.
  match type of H with context [regexec ?a ?b ?c ?d ?e ?f ?g ?h] => destruct (regexec a b c d e f g h) as [y|] eqn:E end; [|discriminate H].
  injection H as <-. cbn [fst snd]. pose proof (regexec_some _ _ _ _ _ _ _ _ _ E) as HSS. cbn [isS] in HSS. apply (regexec_view up isword pr m bol cs) in E; auto.
  destruct E as [->|[[-> E]|(-> & _ & E)]]; [now left| |].
  - right; right. split; [reflexivity|]. intros i j. apply E; auto. lia.
  - right; left. split; [reflexivity|]. destruct (snd y) as [e|]; [|discriminate HSS]. exists e. auto.
Qed.
(** "." or "(b)" at the start of the view "ab" of "abb". *)
Definition dot_pr : prog := Prog [I ANY (Some 1%nat); I (RUNE 98) (Some 2%nat); I (OR (Some 1%nat)) (Some 3%nat); I END None] 0 false 0.
Example C66_met : viewed [97; 98; 98; 0] 0 [97; 98] /\ core dot_pr /\ start_of dot_pr = Ok SNone /\ cp_offset [97; 98] 2 = 2 /\
  match_sv (rune_match no_up) no_word dot_pr [97; 98; 98; 0] 0 2 [(None, 0)] = Ok (0, Some [(Some 0, 2)]) /\
  match_str (rune_match no_up) no_word dot_pr [97; 98; 98; 0] 0 [(None, 0)] = Ok (0, Some [(Some 0, 3)]).
Proof.
  split; [|split; [|repeat split]].
  - split; [exists [], [98; 0]; split; reflexivity|]. split; repeat constructor; unfold scalar; lia.
  - intros pc i H. do 4 (destruct pc as [|pc]; [injection H as <-; cbn; auto; lia|]). destruct pc; discriminate H.
Qed.
(** Otherwise the fast start leaves the view: "b" in the view "a" of "acb" is found, outside. *)
Definition b_pr : prog := Prog [I (RUNE 98) (Some 1%nat); I END None] 0 false 0.
Theorem C66_outside_refuted :
  match_sv (rune_match no_up) no_word b_pr [97; 99; 98; 0] 0 1 [(None, 0)] = Ok (0, Some [(Some 2, 1)]).
Proof. vm_compute. reflexivity. Qed.
(** The first cregex_match_next_sv does not pass on where the view ends. *)
Theorem C66_first_next_refuted :
  match_next_sv (rune_match no_up) no_word dot_pr [97; 98; 98; 0] 0 2 [(None, 0)] = Ok (0, Some [(Some 0, 3)]).
Proof. vm_compute. reflexivity. Qed.
Print Assumptions C63_match.
Print Assumptions C63_match_next.
Print Assumptions C63_is_match.
Print Assumptions C63_line_start_refuted.
Print Assumptions C63_caseless_start_refuted.
Print Assumptions C66_view_partial.
Print Assumptions C66_outside_refuted.
Print Assumptions C66_first_next_refuted.
