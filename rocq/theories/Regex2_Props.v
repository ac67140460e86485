(** Full matches, word boundaries and the thread lists of the matcher. *)
From Verif Require Import Base Utf8_Tab Utf8_Model Utf8_Spec Utf8_Proofs Utf8_Proofs2 Utf8_Proofs3 Utf8_Proofs4 Regex_Model Regex_Spec Regex_Proofs Regex_Proofs2 Regex_Proofs3 Regex_Proofs4 Regex_Props.
From Verif Require Import Recomp_Model Recomp_Props Resub_Props.

(** The program of a pattern (END alone if it has none). *)
Definition prog_of (p : list Z) : prog :=
  match compile (p ++ [0]) 0 (zlen p) false false with Ok (Good pr) => pr | _ => Prog [I END None] 0 false 0 end.
(** Letters, digits and _. *)
Definition word_char (r : Z) : bool := c_alnum r || (r =? 95).
Definition run (fl : mflag) (p t : list Z) : res (Z * option se) :=
  match_pro (rune_match no_up) word_char (prog_of p) (t ++ [0]) 0 (Some [(None, 0)]) fl.

(** ** C85: a full match is a match of a whole line *)
(** What is reported as a full match is one: some line of the text is matched as a whole. *)
Theorem C85_full_sound_partial up isword pr m bol cs mp x : text m bol cs -> core pr -> first_ok pr ->
  match_pro (rune_match up) isword pr m bol mp FFull = Ok x -> fst x = 0 ->
  exists i j, accepts (rune_match up) pr cs i j /\ (i = 0%nat \/ nth_error cs (i - 1) = Some 10) /\ (j = length cs \/ nth_error cs j = Some 10).
Proof.
  intros HT HC HF H Hx. unfold match_pro in H. destruct (regexec (rune_match up) isword pr m bol (S (nsub pr)) mp FFull) as [y|] eqn:E; [|discriminate H]. cbn [bind] in H. injection H as <-. cbn [fst] in Hx.
  destruct (Z.eqb_spec (fst y) 1) as [Ey|_]; [|destruct (fst y =? 0); discriminate Hx]. destruct (regexec_full up isword pr m bol cs mp y HT HC HF E Ey) as (i & j & HA & HB & HE). exists i, j. auto.
Qed.
(** "b+|(a)" on "x\nbb" *)
Example C85_full_sound_met : text [120; 10; 98; 98; 0] 0 [120; 10; 98; 98] /\ core ex_pr /\ first_ok ex_pr /\
  match_pro (rune_match no_up) no_word ex_pr [120; 10; 98; 98; 0] 0 (Some (repeat (None, 0) 2)) FFull = Ok (0, Some [(Some 2, 2); (None, 0)]) /\
  match_pro (rune_match no_up) no_word ex_pr [120; 98; 98; 0] 0 (Some (repeat (None, 0) 2)) FFull = Ok (-1, Some [(Some 1, 2); (None, 0)]).
Proof.
  split; [|split; [apply C63_met|split; [apply C63_met|split; vm_compute; reflexivity]]].
  split; [exists [], []; split; reflexivity|]. split; repeat constructor; unfold scalar; lia.
Qed.
(** "ab|bc*" has a match of all of "ab", which is even reported in match[0], but the result is
    CREG_NOMATCH: the b of the other alternative ends there as well, and has the last word. *)
Definition full_pr : prog := Prog [I (RUNE 97) (Some 1%nat); I (RUNE 98) (Some 7%nat); I (RUNE 98) (Some 4%nat); I (RUNE 99) (Some 4%nat);
  I (OR (Some 3%nat)) (Some 7%nat); I NOP (Some 7%nat); I (OR (Some 0%nat)) (Some 2%nat); I END None] 6 false 0.
Theorem C85_full_refuted : compiled_as [97; 98; 124; 98; 99; 42] full_pr /\
  accepts (rune_match no_up) full_pr [97; 98] 0 2 /\
  match_pro (rune_match no_up) word_char full_pr [97; 98; 0] 0 (Some [(None, 0)]) FFull = Ok (-1, Some [(Some 0, 2)]).
Proof.
  split; [vm_compute; reflexivity|]. split; [|vm_compute; reflexivity]. split; [cbn; lia|].
  exists 7%nat. split; [|exists None; reflexivity].
  eapply ss_snoc; [eapply ss_snoc; [eapply ss_snoc; [apply ss_refl|]|]|].
  - eapply st_right; reflexivity.
  - eapply st_take; reflexivity.
  - eapply st_take; reflexivity.
Qed.

(** ** C86: word boundaries *)
(** Inside the text \b holds exactly where one of the two characters around is a word
    character, and \B stops there. *)
Theorem C86_inside_partial rm isword pr m bol ms cap cs base t0 rest cur st i a b : text m bol cs -> nth_error cs i = Some a -> nth_error cs (S i) = Some b ->
  exec_op rm isword pr m bol None false ms cap (posn bol cs (S i)) base t0 rest WBOUND cur st =
    Ok (if Bool.eqb (isword a) (isword b) then Brk false cur st else Go cur rest st) /\
  (isword a = isword b -> exec_op rm isword pr m bol None false ms cap (posn bol cs (S i)) base t0 rest NWBOUND cur st = Ok (Go cur rest st)).
Proof.
  intros (HA & Hs & Hz) Ea Eb. pose proof (nth_error_Some cs (S i)) as HL. rewrite Eb in HL. assert (S i < length cs)%nat as Hi by (apply HL; discriminate). clear HL.
  assert (HZ : zstring m bol (enc_all cs)) by (split; [now apply nz_scalars|exact HA]).
  assert (HB : (posn bol cs (S i) =? bol) = false).
  { apply Z.eqb_neq. unfold posn. pose proof (cp_offset_lt cs 0 (S i) Hs ltac:(lia)). rewrite cp_offset_0 in H. lia. }
  assert (P : forall k c, nth_error cs k = Some c -> peek m (posn bol cs k) = Ok c).
  { intros k c Hk. unfold posn. destruct (at_sub m bol cs k HZ) as [_ HA']. pose proof Hk as Hk2. apply nth_error_split in Hk as (l1 & l2 & E & El). rewrite E, <- El, skipn_app, skipn_all, Nat.sub_diag in HA'. cbn [skipn app] in HA'.
    rewrite enc_all_cons, <- app_assoc, El, <- E in HA'. apply (peek_loop_enc m c (enc_all l2 ++ [0])); auto. rewrite Forall_forall in Hs. apply Hs. eapply nth_error_In; eauto. }
  assert (W : word_test isword m bol None (posn bol cs (S i)) = Ok (xorb (isword a) (isword b))).
  { unfold word_test. rewrite HB. cbn [orb at_eol]. unfold peek_at. pose proof (offset_back m bol cs (S i) 1 Hs HZ ltac:(lia) ltac:(lia)) as O. change (- Z.of_nat 1) with (-1) in O. fold (posn bol cs (S i)) in O. rewrite O. cbn [bind].
    replace (S i - 1)%nat with i by lia. fold (posn bol cs i). rewrite (P i a Ea). cbn [bind]. rewrite (P (S i) b Eb). reflexivity. }
  cbn [exec_op]. rewrite W. cbn [bind]. split.
  - now destruct (isword a), (isword b).
  - intros ->. now rewrite xorb_nilpotent.
Qed.
Example C86_inside_met : text [45; 195; 165; 120; 0] 0 [45; 229; 120] /\ nth_error [45; 229; 120] 0 = Some 45 /\ nth_error [45; 229; 120] 1 = Some 229 /\
  word_char 45 = false /\ posn 0 [45; 229; 120] 2 = 3 /\
  run FDefault [92; 98; 120] [45; 120] = Ok (0, Some [(Some 1, 1)]) /\ run FDefault [97; 92; 66; 120] [97; 120] = Ok (0, Some [(Some 0, 2)]).
Proof.
  split; [split; [exists [], []; split; reflexivity|split; repeat constructor; unfold scalar; lia]|]. repeat split; vm_compute; reflexivity.
Qed.
(** At the end of a C string the character before is not seen: "fo\b" is not found in "fo". *)
Theorem C86_at_end_refuted : compiled_as [102; 111; 92; 98] (prog_of [102; 111; 92; 98]) /\ run FDefault [102; 111; 92; 98] [102; 111] = Ok (-1, Some [(None, 0)]) /\
  run FDefault [102; 111; 92; 98] [102; 111; 45] = Ok (0, Some [(Some 0, 2)]).
Proof. split; [|split]; vm_compute; reflexivity. Qed.
(** At a boundary \B takes a character: "\Bx" matches both characters of "-x". *)
Theorem C86_not_boundary_refuted : compiled_as [92; 66; 120] (prog_of [92; 66; 120]) /\ run FDefault [92; 66; 120] [45; 120] = Ok (0, Some [(Some 0, 2)]).
Proof. split; vm_compute; reflexivity. Qed.

(** ** C87: the thread lists *)
(** The lists have 10 entries; that one is full is noticed only when an alternative fills entry
    8.  Here the start fills it, and entry 10 is written. *)
Theorem C87_lists_refuted : compiled_as [97;98;124;97;99;124;97;100;124;97;101;124;97;102;124;97;103;124;97;104] (prog_of [97;98;124;97;99;124;97;100;124;97;101;124;97;102;124;97;103;124;97;104]) /\
  run FDefault [97;98;124;97;99;124;97;100;124;97;101;124;97;102;124;97;103;124;97;104] [97; 98] = Err OOB.
Proof. split; vm_compute; reflexivity. Qed.
Print Assumptions C85_full_sound_partial.
Print Assumptions C85_full_refuted.
Print Assumptions C86_inside_partial.
Print Assumptions C86_at_end_refuted.
Print Assumptions C86_not_boundary_refuted.
Print Assumptions C87_lists_refuted.
