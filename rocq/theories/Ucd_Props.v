(** Character classes and the sets of a pattern. *)
From Coq Require Import String.
From Verif Require Import Base Utf8_Tab Utf8_Model Utf8_Spec Regex_Model Regex_Spec Regex_Props Recomp_Model Recomp_Spec Recomp_Syntax Recomp_Props Ucd_Model Ucd_Spec Ucd_Proofs Ucd_Proofs2.

(** ** C90: sets by name *)
(** utf8_isgroup: the scan that stops early finds what is in the table. *)
Theorem C90_groups g c : isgroup g c = true <-> in_ranges (nth (Z.to_nat g) groups []) c.
Proof. apply group_in. Qed.
(** The groups that are general categories are those of Unicode 14 below 65536. *)
Theorem C90_categories g c : 0 <= g < 12 -> isgroup g c = true <-> in_ranges (nth (Z.to_nat g) categories []) c.
Proof. apply category_in. Qed.
(** The classes of utf8_is*. *)
Theorem C90_classes c : 0 <= c ->
  (u_isalpha c = true <-> s_alpha c) /\ (u_isalnum c = true <-> s_alnum c) /\ (u_isword c = true <-> s_word c) /\
  (u_isblank c = true <-> s_blank c) /\ (u_isspace c = true <-> s_space c) /\ (u_iscased c = true <-> s_cased c).
Proof. intros H. auto 10 using alpha_ok, alnum_ok, word_ok, blank_ok, space_ok, cased_ok. Qed.
(** No code point is in two categories, or in two scripts. *)
Theorem C90_disjoint i j c : 0 <= i < j -> j < 23 -> (j < 12 \/ 12 <= i) -> isgroup i c = true -> isgroup j c = true -> False.
Proof.
  intros Hij Hj H. rewrite !group_in. apply apart_in.
  assert (X : forallb (fun i => forallb (fun j => (j <=? i) || ((i <? 12) && (12 <=? j)) || apart (nth (Z.to_nat i) groups []) (nth (Z.to_nat j) groups [])) (below 23)) (below 23) = true) by (vm_compute; reflexivity).
  pose proof (by_cases 23 _ X i ltac:(lia)) as Y. cbv beta in Y. pose proof (by_cases 23 _ Y j ltac:(lia)) as Z0. cbv beta in Z0.
  destruct (Z.leb_spec j i); [lia|]. cbn [orb] in Z0. destruct ((i <? 12) && (12 <=? j)) eqn:E; [lia|]. exact Z0.
Qed.
(** What is matched by \p{Ll} is a lower case letter. *)
Theorem C90_lower c : s_lower c -> in_ranges cat_Ll c.
Proof. rewrite <- lower_ok. apply lower_cat. Qed.
(** \p{Lu}: missing, that the exceptions are not matched. *)
Theorem C90_upper_partial c : s_upper c -> in_ranges cat_Lu c \/ In c not_chars.
Proof. rewrite <- upper_ok. apply upper_cat. Qed.

(** A pattern of one set: the program, and what it accepts. *)
Definition one (o : op) : prog := Prog [I o (Some 1%nat); I END None] 0 false 0.
Definition taker (o : op) : Prop := match o with RUNE _ | CCLASS _ | NCCLASS _ => True | _ => False end.
Lemma one_accepts rm o cs i j : taker o -> accepts rm (one o) cs i j <-> exists c, nth_error cs i = Some c /\ j = S i /\ takes rm (one o) o c.
Proof.
  intros HT. split.
  - intros (Hi & pc & HS & n & HE). assert (INV : forall x y, steps rm (one o) cs x y -> x = (0%nat, i) -> y = (0%nat, i) \/ (exists c, nth_error cs i = Some c /\ takes rm (one o) o c) /\ y = (1%nat, S i)).
    { induction 1 as [x|x y z HS1 IH HS2]; [now left|]. intros E. specialize (IH E). destruct IH as [->|[(c & Hc & Ht) ->]].
      - inversion HS2 as [? ? o' n' c' Hn Hc Ht|? ? o' n' Hn Hh|? ? q n' Hn]; subst; cbn in Hn; injection Hn as -> <-; [right; split; [exists c'; auto|reflexivity]|destruct o'; destruct HT; destruct Hh|destruct HT].
      - inversion HS2 as [? ? o' n' c' Hn Hc' Ht'|? ? o' n' Hn Hh|? ? q n' Hn]; subst; cbn in Hn; discriminate Hn. }
    destruct (INV _ _ HS eq_refl) as [[= -> ->]|[(c & Hc & Ht) [= -> ->]]]; [|exists c; auto]. cbn in HE. injection HE as -> _. destruct HT.
  - intros (c & Hc & -> & Ht). split; [apply Nat.lt_le_incl, nth_error_Some; congruence|]. exists 1%nat. split; [|exists None; reflexivity]. eapply ss_snoc; [apply ss_refl|]. eapply st_take; [reflexivity|exact Hc|exact Ht].
Qed.
(** \p{name} and \P{name}. *)
Theorem C90_named w P inv cs i j : In (w, P) set_meaning -> Forall scalar cs ->
  exists pr, compile (spell_set inv w ++ [0]) 0 (zlen (spell_set inv w)) false false = ret pr /\
    (accepts (rune_match u_set) pr cs i j <-> exists c, nth_error cs i = Some c /\ j = S i /\ if inv then ~ P c else P c).
Proof.
  intros HI HS. exists (one (RUNE (set_value false inv w))). split.
  - assert (X : forall inv : bool, Forall (fun w => compile (spell_set inv w ++ [0]) 0 (zlen (spell_set inv w)) false false = ret (one (RUNE (set_value false inv w)))) (map fst set_meaning)) by (let l := eval vm_compute in (map fst set_meaning) in change (map fst set_meaning) with l; intros []; repeat (constructor; [vm_compute; reflexivity|]); constructor).
    specialize (X inv). rewrite Forall_forall in X. apply X. exact (in_map fst _ _ HI).
  - rewrite one_accepts by exact Logic.I. assert (EQ : forall c, scalar c -> takes (rune_match u_set) (one (RUNE (set_value false inv w))) (RUNE (set_value false inv w)) c <-> if inv then ~ P c else P c).
    { intros c Hc. destruct (sets_stand w P c HI ltac:(unfold scalar in Hc; lia)) as (b & E1 & E2 & E3). cbn [takes]. unfold set_value. cbn [andb]. destruct inv; cbn [Z.b2z]; [rewrite E2|rewrite Z.add_0_r, E1]; rewrite <- E3; destruct b; cbn; intuition congruence. }
    split; intros (c & Hc & Hj & H); exists c; (split; [exact Hc|split; [exact Hj|]]); (apply EQ in H; [exact H|]) || apply EQ; try exact H; apply nth_error_In in Hc; rewrite Forall_forall in HS; now apply HS.
Qed.
(** \d \s \w and \D \S \W. *)
Theorem C90_escapes x P (inv : bool) cs i j : In (x, P) escape_meaning -> Forall scalar cs ->
  exists pr, compile [92; if inv then x - 32 else x; 0] 0 2 false false = ret pr /\
    (accepts (rune_match u_set) pr cs i j <-> exists c, nth_error cs i = Some c /\ j = S i /\ if inv then ~ P c else P c).
Proof.
  intros HI HS. exists (one (RUNE (esc_value (if inv then x - 32 else x)))). split.
  - unfold escape_meaning in HI. cbn [In] in HI. destruct HI as [[= <- <-]|[[= <- <-]|[[= <- <-]|[]]]]; destruct inv; vm_compute; reflexivity.
  - rewrite one_accepts by exact Logic.I. assert (EQ : forall c, scalar c -> takes (rune_match u_set) (one (RUNE (esc_value (if inv then x - 32 else x)))) (RUNE (esc_value (if inv then x - 32 else x))) c <-> if inv then ~ P c else P c).
    { intros c Hc. destruct (escapes_stand x P c HI ltac:(unfold scalar in Hc; lia)) as ((b & E1 & E2 & E3) & EI). cbn [takes]. destruct inv; [rewrite EI, E2|rewrite E1]; rewrite <- E3; destruct b; cbn; intuition congruence. }
    split; intros (c & Hc & Hj & H); exists c; (split; [exact Hc|split; [exact Hj|]]); (apply EQ in H; [exact H|]) || apply EQ; try exact H; apply nth_error_In in Hc; rewrite Forall_forall in HS; now apply HS.
Qed.
(** [[:name:]] and [[:^name:]], missing: code points from 256 on. *)
Definition spell_posix (inv : bool) (w : list Z) : list Z := spell (SClass false [IName inv w]).
Theorem C90_posix_partial w P inv cs i j : In (w, P) posix_meaning -> Forall (fun c => 0 <= c < 256) cs ->
  exists pr, compile (spell_posix inv w ++ [0]) 0 (zlen (spell_posix inv w)) false false = ret pr /\
    (accepts (rune_match u_set) pr cs i j <-> exists c, nth_error cs i = Some c /\ j = S i /\ if inv then ~ P c else P c).
Proof.
  intros HI HS. set (t := posix_value false inv w). exists (one (CCLASS [(t, t)])). split.
  - assert (X : forall inv : bool, Forall (fun w => compile (spell_posix inv w ++ [0]) 0 (zlen (spell_posix inv w)) false false = ret (one (CCLASS [(posix_value false inv w, posix_value false inv w)]))) (map fst posix_meaning)) by (let l := eval vm_compute in (map fst posix_meaning) in change (map fst posix_meaning) with l; intros []; repeat (constructor; [vm_compute; reflexivity|]); constructor).
    specialize (X inv). rewrite Forall_forall in X. apply X. exact (in_map fst _ _ HI).
  - rewrite one_accepts by exact Logic.I. assert (HV : 256 <= t).
    { unfold t, posix_value. cbn [andb]. assert (X : forallb (fun w => 256 <=? value_in posix_names w) (map fst posix_meaning) = true) by (vm_compute; reflexivity). rewrite forallb_forall in X. specialize (X w (in_map fst _ _ HI)). cbv beta in X. destruct inv; cbn [Z.b2z]; lia. }
    assert (EQ : forall c, 0 <= c < 256 -> takes (rune_match u_set) (one (CCLASS [(t, t)])) (CCLASS [(t, t)]) c <-> if inv then ~ P c else P c).
    { intros c Hc. destruct (posix_stand w P c HI Hc) as (b & E1 & E2 & E3). cbn [takes]. unfold in_spans, folded. cbn [picase one].
      assert (Q : (exists a b0, In (a, b0) [(t, t)] /\ (a <= c <= b0 \/ a = b0 /\ rune_match u_set a c = Ok true)) <-> rune_match u_set t c = Ok true).
      { split; [intros (a & b0 & [[= <- <-]|[]] & [Hx|[_ Hx]]); [lia|exact Hx]|]. intros Hx. exists t, t. split; [now left|]. right. auto. }
      rewrite Q. unfold t, posix_value. cbn [andb]. destruct inv; cbn [Z.b2z]; [rewrite E2|rewrite Z.add_0_r, E1]; rewrite <- E3; destruct b; cbn; intuition congruence. }
    split; intros (c & Hc & Hj & H); exists c; (split; [exact Hc|split; [exact Hj|]]); (apply EQ in H; [exact H|]) || apply EQ; try exact H; apply nth_error_In in Hc; rewrite Forall_forall in HS; now apply HS.
Qed.
(** U+FF15 is a digit: \d takes it and \p{Alpha} does not; [^\p{Lu}[:digit:]] takes neither 5
    nor A. *)
Definition word_of (p : list Z) : prog := match compile (p ++ [0]) 0 (zlen p) false false with Ok (Good pr) => pr | _ => one END end.
Definition first_of (p cs : list Z) : res (Z * option se) := match_str (rune_match u_set) u_isword (word_of p) (enc_all cs ++ [0]) 0 [(None, 0)].
Example C90_met :
  first_of (bytes "\d") [65; 0xff15] = Ok (0, Some [(Some 1, 3)]) /\ first_of (bytes "\p{Alpha}") [0xff15; 65] = Ok (0, Some [(Some 3, 1)]) /\
  first_of (bytes "[^\p{Lu}[:digit:]]") [53; 65; 97] = Ok (0, Some [(Some 2, 1)]) /\
  elem_ok (SClass true [ISet false (bytes "Lu"); IName false (bytes "digit")]) /\ spell (SClass true [ISet false (bytes "Lu"); IName false (bytes "digit")]) = bytes "[^\p{Lu}[:digit:]]" /\
  in_ranges cat_Nd 0xff15 /\ s_word 0xe9 /\ ~ s_alpha 0xff15.
Proof.
  split; [vm_compute; reflexivity|]. split; [vm_compute; reflexivity|]. split; [vm_compute; reflexivity|]. split.
  { split; [repeat constructor; vm_compute; tauto|]. split; [vm_compute; discriminate|discriminate]. }
  split; [vm_compute; reflexivity|]. split; [apply in_rangesb_ok; vm_compute; reflexivity|]. split; [apply word_ok; [lia|]; vm_compute; reflexivity|].
  rewrite <- alpha_ok by lia. vm_compute. discriminate.
Qed.
(** ctype of a wide character: [[:alpha:]] on U+0100 calls isalpha(256). *)
Theorem C90_ctype_refuted : first_of (bytes "[[:alpha:]]") [0x100] = Err Overflow.
Proof. vm_compute. reflexivity. Qed.
(** A name that is not known is taken as text. *)
Theorem C90_unknown_refuted : word_of (bytes "\p{Foo}") = word_of (bytes "p{Foo}") /\ first_of (bytes "\p{Foo}") (bytes "p{Foo}") = Ok (0, Some [(Some 0, 6)]).
Proof. split; vm_compute; reflexivity. Qed.
(** Letters of other scripts are not letters (Hebrew U+05D0), while a currency sign (U+060B) and
    a digit (U+0663) of a script are. *)
Theorem C90_letters_refuted : ~ s_word 0x5d0 /\ in_ranges cat_Sc 0x60b /\ s_alpha 0x60b /\ in_ranges cat_Nd 0x663 /\ s_alpha 0x663.
Proof.
  split; [rewrite <- word_ok by lia; vm_compute; discriminate|]. split; [apply in_rangesb_ok; vm_compute; reflexivity|]. split; [apply alpha_ok; [lia|]; vm_compute; reflexivity|]. split; [apply in_rangesb_ok; vm_compute; reflexivity|apply alpha_ok; [lia|]; vm_compute; reflexivity].
Qed.
(** Beyond 65535 nothing is in a group: U+1D7CE is a decimal digit, U+20000 is Han. *)
Theorem C90_beyond_refuted g c : 65535 < c -> isgroup g c = false.
Proof. apply group_bmp. Qed.
(** What is matched by \p{Lu} need not be a letter, and not all lower case letters are matched
    by \p{Ll} (U+0138). *)
Theorem C90_case_refuted : s_upper 0x1f5a /\ ~ in_ranges cat_Lu 0x1f5a /\ in_ranges cat_Ll 0x138 /\ ~ s_lower 0x138.
Proof.
  split; [apply upper_ok; vm_compute; reflexivity|]. split; [rewrite <- in_rangesb_ok; vm_compute; discriminate|]. split; [apply in_rangesb_ok; vm_compute; reflexivity|rewrite <- lower_ok; vm_compute; discriminate].
Qed.
(** Without case the text is folded before a set is asked: \p{Lt} takes U+01C5, (?i) does not. *)
Theorem C90_caseless_refuted : first_of (bytes "\p{Lt}") [0x1c5] = Ok (0, Some [(Some 0, 2)]) /\
  match_str (rune_match u_set) u_isword (match compile (bytes "\p{Lt}" ++ [0]) 0 6 true false with Ok (Good pr) => pr | _ => one END end) (enc_all [0x1c5] ++ [0]) 0 [(None, 0)] = Ok (-1, Some [(None, 0)]).
Proof. split; vm_compute; reflexivity. Qed.
Print Assumptions C90_groups.
Print Assumptions C90_categories.
Print Assumptions C90_classes.
Print Assumptions C90_disjoint.
Print Assumptions C90_lower.
Print Assumptions C90_upper_partial.
Print Assumptions C90_named.
Print Assumptions C90_escapes.
Print Assumptions C90_posix_partial.
Print Assumptions C90_ctype_refuted.
Print Assumptions C90_unknown_refuted.
Print Assumptions C90_letters_refuted.
Print Assumptions C90_beyond_refuted.
Print Assumptions C90_case_refuted.
Print Assumptions C90_caseless_refuted.
