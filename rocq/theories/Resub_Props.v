(** cregex_replace. *)
From Verif Require Import Base Slots Utf8_Tab Utf8_Model Utf8_Spec Utf8_Proofs3 View_Model View_Proofs Cstr_Model Cstr_Spec Cstr_Proofs
  Regex_Model Regex_Spec Regex_Proofs Regex_Proofs2 Regex_Proofs3 Regex_Props Resub_Model Resub_Spec Resub_Proofs Resub_Proofs2.
From Verif Require Import Recomp_Model Recomp_Spec Recomp_Proofs9 Recomp_Proofs10 Recomp_Proofs13 Recomp_Props Resub_Proofs3.

(** ** Views up to the end of the text: any first instruction *)
Theorem C66_to_end up isword pr m bol cs (mt : se) x : text m bol cs -> core pr -> first_ok pr -> (S (nsub pr) <= length mt)%nat ->
  match_sv (rune_match up) isword pr m bol (cp_offset cs (length cs)) mt = Ok x ->
  fst x = -2 \/
  (fst x = 0 /\ exists e, snd x = Some e /\ found (rune_match up) pr bol cs 0 (start_ok pr cs) e) \/
  (fst x = -1 /\ (start_ok pr cs -> forall i j, ~ accepts (rune_match up) pr cs i j)).
Proof. apply match_end. Qed.
Example C66_to_end_met : text [97; 99; 98; 0] 1 [99; 98] /\ core b_pr /\ first_ok b_pr /\ start_ok b_pr [99; 98] /\ cp_offset [99; 98] 2 = 2 /\
  match_sv (rune_match no_up) no_word b_pr [97; 99; 98; 0] 1 2 [(None, 0)] = Ok (0, Some [(Some 2, 1)]).
Proof.
  split; [|split; [|split; [|split; [|split; vm_compute; reflexivity]]]].
  - split; [exists [97], []; split; reflexivity|]. split; repeat constructor; unfold scalar; lia.
  - intros pc i H. do 2 (destruct pc as [|pc]; [injection H as <-; cbn; auto|]). destruct pc; discriminate H.
  - intros o n H. injection H as <- _. lia.
  - intros o n H. injection H as <- _. exact Logic.I.
Qed.

(** ** C67: templates *)
(** Whatever the string held before, afterwards it holds the expansion of the template: $d and
    $dd; are the groups (nothing if there is no such group), $$ is a dollar sign.  Otherwise the
    text would be longer than an int, or a group is no readable part of the text. *)
Theorem C67_template tr m rep q t ms (mt : se) s l : (ms <= length mt)%nat -> zstring rep q t -> repr s l ->
  (exists s', build tr m rep q (Z.of_nat ms) mt s = Ok s' /\ repr s' (expand (group tr m ms mt) t)) \/
  (exists e, build tr m rep q (Z.of_nat ms) mt s = Err e /\ (e = Overflow /\ 2 ^ 31 <= zlen (expand (group tr m ms mt) t) \/ unreadable m ms mt)).
Proof. intros H. now apply build_sub. Qed.
(** "<$1$$2;$01;$9>" with the groups "ab" and "b": "<b$2;b>". *)
Definition ex_t : list Z := [60; 36; 49; 36; 36; 50; 59; 36; 48; 49; 59; 36; 57; 62].
Example C67_template_met : zstring (ex_t ++ [0]) 0 ex_t /\ repr init [] /\
  expand (group (fun _ _ => None) [97; 98; 0] 2 [(Some 0, 2); (Some 1, 1)]) ex_t = [60; 98; 36; 50; 59; 98; 62] /\
  exists s', build (fun _ _ => None) [97; 98; 0] (ex_t ++ [0]) 0 2 [(Some 0, 2); (Some 1, 1)] init = Ok s' /\ repr s' [60; 98; 36; 50; 59; 98; 62].
Proof.
  split; [split; [cbn; intuition discriminate|exists [], []; split; reflexivity]|]. split; [apply init_ok|]. split; [reflexivity|].
  destruct (C67_template (fun _ _ => None) [97; 98; 0] (ex_t ++ [0]) 0 ex_t 2 [(Some 0, 2); (Some 1, 1)] init []) as [H|(e & H & _)]; [cbn; lia|split; [cbn; intuition discriminate|exists [], []; split; reflexivity]|apply init_ok|exact H|vm_compute in H; discriminate H].
Qed.

(** ** C67: replacing *)
(** The first [n] matches (all if [n] is negative) are replaced: the leftmost longest one, then
    those of the rest of the text, up to a place where the matcher gives up.  For any number of
    rounds [fuel] after which there is a result. *)
Theorem C67_replace_partial tr m rep q t up isword pr copy fuel buf cs n s :
  text m buf cs -> core pr -> first_ok pr -> start_ok pr cs -> (nsub pr <= 31)%nat -> zstring rep q t ->
  replace_pro tr m rep (rune_match up) isword pr q copy fuel buf (cp_offset cs (length cs)) n = Ok s ->
  exists l, repr s l /\
    replaced (accepts (rune_match up) pr) (fun bol cs i j e => captured (rune_match up) pr cs (posn bol cs) (S (nsub pr)) i j e)
      (gave_up m up isword pr buf (cp_offset cs (length cs))) (fun e => expand (group tr m (S (nsub pr)) e) t) copy buf cs n l.
Proof. intros HT HC HF HS HN HQ. now apply replace_ok. Qed.
(** cregex_replace: the same for a C string. *)
Theorem C67_string_partial m rep q t up isword pr fuel buf cs s :
  text m buf cs -> core pr -> first_ok pr -> start_ok pr cs -> (nsub pr <= 31)%nat -> zstring rep q t ->
  replace (rune_match up) isword pr m buf rep q fuel = Ok s ->
  exists l, repr s l /\
    replaced (accepts (rune_match up) pr) (fun bol cs i j e => captured (rune_match up) pr cs (posn bol cs) (S (nsub pr)) i j e)
      (gave_up m up isword pr buf (cp_offset cs (length cs))) (fun e => expand (group (fun _ _ => None) m (S (nsub pr)) e) t) true buf cs (2 ^ 31 - 1) l.
Proof.
  intros HT HC HF HS HN HQ H. unfold replace in H. rewrite (strlen_ok m buf (enc_all cs)) in H.
  - cbn [bind] in H. replace (zlen (enc_all cs)) with (cp_offset cs (length cs)) in H by (unfold cp_offset; now rewrite firstn_all). now apply replace_ok with (tmpl := t) in H.
  - destruct HT as (HA & Hs & Hz). split; [|exact HA]. now apply Utf8_Proofs4.nz_scalars.
Qed.
(** The loop itself ends when no match is empty: more rounds than characters change nothing. *)
Theorem C67_rounds tr m rep q up isword pr copy f1 f2 buf cs n :
  text m buf cs -> core pr -> first_ok pr -> (nsub pr <= 31)%nat -> (forall k i, (k <= length cs)%nat -> ~ accepts (rune_match up) pr (skipn k cs) i i) ->
  (length cs < f1)%nat -> (length cs < f2)%nat ->
  replace_pro tr m rep (rune_match up) isword pr q copy f1 buf (cp_offset cs (length cs)) n =
  replace_pro tr m rep (rune_match up) isword pr q copy f2 buf (cp_offset cs (length cs)) n.
Proof.
  intros HT HC HF HN HE H1 H2. unfold replace_pro. now rewrite (loop_fuel tr m rep up isword pr q copy HC HF f1 f2) by (auto; rewrite repeat_length; lia).
Qed.

(** ** From pattern to result *)
Lemma replaced_mono (acc acc' : list Z -> nat -> nat -> Prop) (caps caps' : Z -> list Z -> nat -> nat -> se -> Prop) quit sub copy :
  (forall cs i j, acc cs i j <-> acc' cs i j) -> (forall bol cs i j e, caps bol cs i j e -> caps' bol cs i j e) ->
  forall bol cs n l, replaced acc caps quit sub copy bol cs n l -> replaced acc' caps' quit sub copy bol cs n l.
Proof.
  intros HA HC bol cs n l H. induction H as [bol cs n H|bol cs n i j e out Hn [Hb1 Hb2] Hc H IH].
  - apply rep_stop. destruct H as [H|[H|H]]; auto. right; left. intros i j Ha. apply (H i j). now apply HA.
  - apply rep_step with (j := j); auto. split; [now apply HA|]. intros i' j' Ha. apply Hb2. now apply HA.
Qed.
(** A compiled pattern: the matches are the spans of the language of its expression, the groups
    those of some way to match it, group 0 the whole match. *)
Theorem C67_pattern_partial tr up isword m s len ic dn toks pr e k tm rep q t copy fuel buf cs n o :
  Forall is_byte m -> lexes m (Lx s ic dn false 0) toks -> (length toks <= length m)%nat -> zlen toks <= 3 * len + 2 -> plain toks ->
  compile m s len ic dn = ret pr -> parses toks e k ->
  text tm buf cs -> start_ok pr cs -> zstring rep q t ->
  replace_pro tr tm rep (rune_match up) isword pr q copy fuel buf (cp_offset cs (length cs)) n = Ok o ->
  let ms := S (Z.to_nat k) in
  exists l, repr o l /\
    replaced (fun cs i j => (i <= length cs)%nat /\ lang (rune_match up) ic cs e i j)
      (fun bol cs i j c => exists c', den (rune_match up) ic cs (posn bol cs) e (i, empty_se ms (posn bol cs i)) (j, c') /\ c = upd c' 0 (Some (posn bol cs i), posn bol cs j - posn bol cs i))
      (gave_up tm up isword pr buf (cp_offset cs (length cs))) (fun c => expand (group tr tm ms c) t) copy buf cs n l.
Proof.
  intros HB HL H1 H2 HP HC HPa HT HS HQ HX ms. pose proof (compile_nsub _ _ _ _ _ _ HC) as Hk. destruct (compile_lexes m s len ic dn toks HL H1 H2) as [(c & E & _)|(pr' & e' & k' & E & P & C)]; rewrite HC in E; [discriminate E|]. injection E as <-.
  destruct (parses_unique _ _ _ _ _ P HPa) as [-> ->]. destruct (plain_core m _ toks pr ic k e HB HL eq_refl HP C) as [HCo HFi]. destruct C as (Cn & Ci & Cm & _).
  destruct (C67_replace_partial tr tm rep q t up isword pr copy fuel buf cs n o HT HCo HFi HS Hk HQ HX) as (l & R & HR). exists l. split; [exact R|]. unfold ms. rewrite <- Cn.
  eapply replaced_mono; [| |exact HR].
  - intros cs' i j. cbv beta. rewrite <- Ci. now apply accepts_lang.
  - intros bol cs' i j c (pc & c' & HSt & HE & ->). exists c'. split; [|reflexivity]. rewrite <- Ci. apply Cm. exists pc. auto.
Qed.

Definition text_of (s : cstr) : res (list Z) := let* n := ssize s in rds (sdata s) 0 n.
Definition compiled_as (p : list Z) (pr : prog) : Prop := compile (p ++ [0]) 0 (zlen p) false false = ret pr.
Definition replace_in (pr : prog) (i t : list Z) (fuel : nat) : res (list Z) :=
  let* s := replace (rune_match no_up) no_word pr (i ++ [0]) 0 (t ++ [0]) 0 fuel in text_of s.
(** "(a)b" in "xababy", replaced by "[$1]": "x[a][a]y". *)
Definition ex_pr2 : prog := Prog [I (RUNE 97) (Some 1%nat); I (RBRA 1) (Some 3%nat); I (LBRA 1) (Some 0%nat); I (RUNE 98) (Some 4%nat); I END None] 2 false 1.
Example C67_met : compiled_as [40; 97; 41; 98] ex_pr2 /\ text [120; 97; 98; 97; 98; 121; 0] 0 [120; 97; 98; 97; 98; 121] /\ core ex_pr2 /\ first_ok ex_pr2 /\ start_ok ex_pr2 [120; 97; 98; 97; 98; 121] /\ zstring [91; 36; 49; 93; 0] 0 [91; 36; 49; 93] /\ replace_in ex_pr2 [120; 97; 98; 97; 98; 121] [91; 36; 49; 93] 7 = Ok [120; 91; 97; 93; 91; 97; 93; 121].
Proof.
  split; [reflexivity|]. split; [|split; [|split; [|split; [|split; [|vm_compute; reflexivity]]]]].
  - split; [exists [], []; split; reflexivity|]. split; repeat constructor; unfold scalar; lia.
  - intros pc i H. do 5 (destruct pc as [|pc]; [injection H as <-; cbn; auto; lia|]). destruct pc; discriminate H.
  - intros o n H. injection H as <- _. exact Logic.I.
  - intros o n H. injection H as <- _. exact Logic.I.
  - split; [cbn; intuition discriminate|exists [], []; split; reflexivity].
Qed.
(** An empty match is found again at the same place, to the end of the count: "x*" in "b"
    replaced by "-" gives as many dashes as allowed, which is 2^31 - 1 for cregex_replace. *)
Definition xs_pr : prog := Prog [I (RUNE 120) (Some 1%nat); I (OR (Some 0%nat)) (Some 2%nat); I END None] 1 false 0.
Lemma xs_loop : forall k n out subst mt lo ls, n = Z.of_nat k -> n < 2 ^ 31 -> repr out lo -> repr subst ls -> zlen lo + n <= 2 ^ 31 -> (mt = repeat (None, 0) 32 \/ mt = (Some 0, 0) :: repeat (None, 0) 31) ->
  exists s, replace_loop (fun _ _ => None) [98; 0] [45; 0] (rune_match no_up) no_word xs_pr 0 true (S k) out subst mt 0 1 n = Ok (s, (0, 1)) /\ repr s (lo ++ repeat 45 k).
Proof.
  induction k as [|k IH]; intros n out subst mt lo ls Hn H31 Ro Rs Hl Hm; [subst n; exists out; cbn [replace_loop Z.of_nat Z.eqb repeat]; rewrite app_nil_r; auto|].
  assert (EM : match_sv (rune_match no_up) no_word xs_pr [98; 0] 0 1 mt = Ok (0, Some ((Some 0, 0) :: repeat (None, 0) 31))) by (destruct Hm as [-> | ->]; vm_compute; reflexivity).
  remember (S k) as f eqn:Ef. cbn [replace_loop]. destruct (Z.eqb_spec n 0); [lia|]. destruct (Z.leb_spec n (- 2 ^ 31)); [lia|]. rewrite EM. cbn [bind fst snd Z.eqb negb].
  set (mt2 := (Some 0, 0) :: repeat (None, 0) 31). change (Z.of_nat (S (nsub xs_pr))) with (Z.of_nat 1).
  destruct (build_sub (fun _ _ => None) [98; 0] [45; 0] 1 mt2 ltac:(cbn; lia) [45] 0 subst ls) as [(s1 & -> & R1)|(er & _ & [[_ B]|(k0 & v & e & Hk & Ev & Eb)])].
  - split; [cbn; intuition discriminate|exists [], []; split; reflexivity].
  - exact Rs.
  - cbn [bind]. change (aget mt2 0) with (Ok (Some 0, 0) : res (option Z * Z)). cbn [bind fst snd]. change (0 - 0) with 0. change (true && (0 <? 0)) with false. cbn [bind]. pose proof R1 as (_ & _ & -> & _). cbn [bind]. rewrite (proj1 (repr_read _ _ R1)). cbn [bind].
    change (expand (group (fun _ _ => None) [98; 0] 1 mt2) [45]) with [45] in *. destruct (append_ok out lo (Ext [45]) [45] Ro eq_refl) as (o2 & -> & Ro2); [change (zlen [45]) with 1; lia|]. cbn [bind]. change (0 + 0) with 0. change (1 - 0) with 1.
    destruct (IH (n - 1) o2 s1 mt2 (lo ++ [45]) [45]) as (s & E & R); auto; try lia; [rewrite zlen_app; change (zlen [45]) with 1; lia|]. subst f. exists s. rewrite E. split; [reflexivity|]. cbn [repeat]. rewrite <- app_assoc in R. exact R.
  - vm_compute in B. congruence.
  - exfalso. assert (k0 = 0) as -> by lia. vm_compute in Ev. injection Ev as <-. vm_compute in Eb. discriminate Eb.
Qed.
Theorem C67_empty_refuted n : 0 <= n < 2 ^ 31 -> compiled_as [120; 42] xs_pr /\
  exists s, replace_pro (fun _ _ => None) [98; 0] [45; 0] (rune_match no_up) no_word xs_pr 0 true (S (Z.to_nat n)) 0 1 n = Ok s /\ repr s (repeat 45 (Z.to_nat n) ++ [98]).
Proof.
  intros Hn. split; [reflexivity|]. unfold replace_pro. destruct (xs_loop (Z.to_nat n) n init init (repeat (None, 0) 32) [] []) as (s & -> & R); auto; try lia; try apply init_ok; [change (zlen (@nil Z)) with 0; lia|].
  cbn [bind fst snd]. change (aslice [98; 0] 0 1) with (Ok [98] : res (list Z)). cbn [bind]. destruct (append_ok s _ (Ext [98]) [98] R eq_refl) as (s' & -> & R'); [|eauto].
  cbn [app]. rewrite zlen_repeat by lia. change (zlen [98]) with 1. lia.
Qed.
(** ^ matches again after each match: "^a" in "aaa". *)
Theorem C67_line_start_refuted : compiled_as [94; 97] (Prog [I BOL (Some 1%nat); I (RUNE 97) (Some 2%nat); I END None] 0 false 0) /\
  replace_in (Prog [I BOL (Some 1%nat); I (RUNE 97) (Some 2%nat); I END None] 0 false 0) [97; 97; 97] [45] 5 = Ok [45; 45; 45].
Proof. split; vm_compute; reflexivity. Qed.
(** Where the matcher gives up, the rest is copied as if there were no match: in
    "abc" with a pattern of three closures, the outer one around an alternative of the others. *)
Definition abc_pr : prog := match compile ([40; 97; 42; 124; 98; 42; 41; 42; 99] ++ [0]) 0 9 false false with Ok (Good pr) => pr | _ => xs_pr end.
Theorem C67_gives_up_refuted : compiled_as [40; 97; 42; 124; 98; 42; 41; 42; 99] abc_pr /\
  match_str (rune_match no_up) no_word abc_pr [97; 98; 99; 0] 0 (repeat (None, 0) 2) = Ok (-2, Some (repeat (None, 0) 2)) /\
  replace_in abc_pr [97; 98; 99] [45] 5 = Ok [97; 98; 99].
Proof. split; [|split]; vm_compute; reflexivity. Qed.
(** A view: "b" in the view "a" of "acb" is found outside of it; what is left has a negative size. *)
Theorem C67_view_refuted :
  replace_pro (fun _ _ => None) [97; 99; 98; 0] [45; 0] (rune_match no_up) no_word b_pr 0 true 5 0 1 1 = Err OOB.
Proof. vm_compute. reflexivity. Qed.
Print Assumptions C66_to_end.
Print Assumptions C67_template.
Print Assumptions C67_replace_partial.
Print Assumptions C67_string_partial.
Print Assumptions C67_rounds.
Print Assumptions C67_pattern_partial.
Print Assumptions C67_empty_refuted.
Print Assumptions C67_line_start_refuted.
Print Assumptions C67_gives_up_refuted.
Print Assumptions C67_view_refuted.
