(** The lexer on a zero-terminated pattern that satisfies [safe_pattern] stays inside it. *)
From Coq Require Import ZArith List Lia Bool.
From Verif Require Import Base Utf8_Model Utf8_Spec Utf8_Proofs Regex_Model Recomp_Model Recomp_Spec.
From Verif Require Import Recomp_Proofs2 Recomp_Proofs3 Recomp_Proofs4 Recomp_Proofs5 Recomp_Proofs6 Recomp_Proofs8 Recomp_Proofs10 Recomp_Proofs11.
Import ListNotations. Local Open Scope Z_scope.

Lemma at_ext m l l' r : at_ m l r -> ep l' = ep l -> lit l' = lit l -> at_ m l' r.
Proof. intros [h1 h2 h3 h4 h5] E1 E2. constructor; try rewrite E1; try rewrite E2; assumption. Qed.
(** * Names *)
Lemma prefix_z m w : forall s r, zstring m s r -> ~ In 0 w -> exists b, prefix_at m w s = Ok b /\ (b = true -> exists r', r = w ++ r').
Proof.
  induction w as [|c w IH]; intros s r HZ HI; cbn [prefix_at]; [exists true; split; [reflexivity|]; intros _; exists r; reflexivity|].
  rewrite (z_head _ _ _ HZ). cbn [bind]. destruct (Z.eqb_spec (hd 0 r) c) as [E|_]; [|exists false; split; [reflexivity|discriminate]].
  destruct r as [|b r]; [cbn in E; subst c; exfalso; apply HI; now left|]. cbn in E. subst b.
  destruct (IH (s + 1) r (z_tail _ _ _ _ HZ)) as (b & E & H); [intros X; apply HI; now right|]. exists b. split; [exact E|]. intros Hb. destruct (H Hb) as [r' ->]. exists r'. reflexivity.
Qed.
Lemma lookup_z m tab : forall s r, zstring m s r -> Forall (fun e => ~ In 0 (fst e)) tab ->
  lookup m tab s = Ok None \/ exists w t r', lookup m tab s = Ok (Some (w, t)) /\ In (w, t) tab /\ r = w ++ r'.
Proof.
  induction tab as [|[w t] tab IH]; intros s r HZ HF; cbn [lookup fst]; [now left|]. inversion HF as [|? ? F1 F2]; subst. cbn [fst] in F1.
  destruct (prefix_z m w s r HZ F1) as ([|] & -> & H); cbn [bind].
  - right. destruct (H eq_refl) as [r' ->]. exists w, t, r'. split; [reflexivity|]. split; [now left|reflexivity].
  - destruct (IH s r HZ F2) as [E|(w' & t' & r' & E & HI & ->)]; [now left|]. right. exists w', t', r'. split; [exact E|]. split; [now right|reflexivity].
Qed.
Definition has (z : Z) (l : list Z) : bool := existsb (Z.eqb z) l.
Lemma has_not z l : has z l = false -> ~ In z l.
Proof. intros H HI. assert (has z l = true); [|congruence]. apply existsb_exists. exists z. split; [exact HI|apply Z.eqb_refl]. Qed.
Definition name_ok (e : list Z * Z) : bool :=
  negb (has 0 (fst e)) && negb (has 92 (fst e)) && nc 0 (58 :: fst e) && nc 0 (58 :: 94 :: fst e) && nc 0 (fst e).
Lemma asc_ok : forallb name_ok asc_names = true. Proof. vm_compute. reflexivity. Qed.
Lemma utf_ok : forallb name_ok utf_names = true. Proof. vm_compute. reflexivity. Qed.
Lemma names_z tab : forallb name_ok tab = true -> Forall (fun e => ~ In 0 (fst e)) tab.
Proof. intros H. apply Forall_forall. intros e He. rewrite forallb_forall in H. specialize (H e He). unfold name_ok in H. rewrite !andb_true_iff, !negb_true_iff in H. apply has_not. tauto. Qed.
Lemma names_in tab w t : forallb name_ok tab = true -> In (w, t) tab -> ~ In 92 w /\ nc 0 (58 :: w) = true /\ nc 0 (58 :: 94 :: w) = true /\ nc 0 w = true.
Proof. intros H HI. rewrite forallb_forall in H. specialize (H _ HI). unfold name_ok in H. cbn [fst] in H. rewrite !andb_true_iff, !negb_true_iff in H. split; [apply has_not; tauto|tauto]. Qed.
(** What is skipped: [u], without passing the ] of a class. *)
Definition moved (m : list Z) (l l' : lx) (r : list Z) : Prop := exists u r', r = u ++ r' /\ at_ m l' r' /\ nc 0 u = true.
Lemma moved_0 m l r : at_ m l r -> moved m l l r.
Proof. intros H. exists [], r. split; [reflexivity|]. split; [exact H|reflexivity]. Qed.
Lemma ascii_z m l r c : at_ m l (58 :: r) -> exists r1 l1, lexasciiclass m l c = Ok (r1, l1) /\ moved m l l1 (58 :: r).
Proof.
  intros A. pose proof (a_z _ _ _ A) as HZ. pose proof (z_tail _ _ _ _ HZ) as HZ1. unfold lexasciiclass. rewrite (z_head _ _ _ HZ1). cbn [bind].
  destruct (Z.eqb_spec (hd 0 r) 94) as [E|_].
  - destruct r as [|b r]; [discriminate E|]. cbn in E. subst b. pose proof (z_tail _ _ _ _ HZ1) as HZ2. replace (ep l + 1 + 1) with (ep l + 2) in HZ2 by lia.
    destruct (lookup_z m asc_names _ r HZ2 (names_z _ asc_ok)) as [E|(w & t & r' & E & HI & ->)]; rewrite E; cbn [bind]; eexists _, _; (split; [reflexivity|]).
    + apply moved_0. exact A.
    + destruct (names_in _ _ _ asc_ok HI) as (N1 & _ & N2 & _). exists (58 :: 94 :: w), r'. split; [reflexivity|]. split; [|exact N2].
      replace (ep l + 2 + zlen w) with (ep l + zlen (58 :: 94 :: w)) by (rewrite !zlen_cons; lia). apply at_skip; [exact A|]. intros [X|[X|X]]; [lia|lia|contradiction].
  - destruct (lookup_z m asc_names _ r HZ1 (names_z _ asc_ok)) as [E|(w & t & r' & E & HI & ->)]; rewrite E; cbn [bind]; eexists _, _; (split; [reflexivity|]).
    + apply moved_0. exact A.
    + destruct (names_in _ _ _ asc_ok HI) as (N1 & N2 & _ & _). exists (58 :: w), r'. split; [reflexivity|]. split; [|exact N2].
      replace (ep l + 1 + zlen w) with (ep l + zlen (58 :: w)) by (rewrite !zlen_cons; lia). apply at_skip; [exact A|]. intros [X|X]; [lia|contradiction].
Qed.
Lemma utf_z m l r c : at_ m l r -> exists r1 l1, lexutfclass m l c = Ok (r1, l1) /\ moved m l l1 r.
Proof.
  intros A. unfold lexutfclass. destruct (lookup_z m utf_names _ r (a_z _ _ _ A) (names_z _ utf_ok)) as [E|(w & t & r' & E & HI & ->)]; rewrite E; cbn [bind]; eexists _, _; (split; [reflexivity|]).
  - apply moved_0. exact A.
  - destruct (names_in _ _ _ utf_ok HI) as (N1 & _ & _ & N2). exists w, r'. split; [reflexivity|]. split; [|exact N2]. now apply at_skip.
Qed.
(** * Classes *)
Lemma removelast_zlen {A} (acc : list A) x : acc <> [] -> zlen (removelast acc ++ [x]) = zlen acc.
Proof. intros H. pose proof (f_equal zlen (app_removelast_last x H)) as E. rewrite zlen_app in *. rewrite E. reflexivity. Qed.
Lemma unit_nc q c x : uni q c x -> (q = false -> c <> 93) -> nc 0 x = true.
Proof. unfold uni. destruct q; [auto|]. intros (_ & H & _) Hc. apply nc_no. apply H. auto. Qed.
Lemma zl_pos (x : list Z) : 0 < zlen x -> (0 < length x)%nat.
Proof. unfold zlen. lia. Qed.
(** A step of the loop: the next unit, after the current one. *)
Lemma class_z m : forall fuel acc q rune l r n, at_ m l r -> (S (length r) < fuel)%nat -> closed_in n r -> zlen acc + n <= 29 ->
  (exists c, class_items m fuel acc q rune l = fail c) \/
  exists acc' l' r', class_items m fuel acc q rune l = ret (acc', l') /\ at_ m l' r' /\ (length r' <= length r)%nat.
Proof.
  induction fuel as [|fuel IH]; intros acc q rune l r n A Hf HC Hn; [lia|]. cbn [class_items]. pose proof (closed_nonneg _ _ HC) as Hn0.
  rewrite (proj2 (Z.ltb_lt (zlen acc) NSPAN)) by (unfold NSPAN; lia). cbn [negb].
  destruct (Z.eqb_spec rune 0) as [->|Hr0]; [left; eexists; reflexivity|].
  destruct (negb q && (rune =? 93)); [right; exists acc, l, r; auto|].
  (* the unit after position [l'] and the rest of the loop *)
  assert (NX : forall acc' l' r', at_ m l' r' -> (length r' <= length r)%nat -> zlen acc' <= 30 -> (forall d, closed_in d r' -> False) \/ (exists n', closed_in n' r' /\ zlen acc' + n' <= 30) ->
    (exists c, (let! (q, r2, l2) := nextc_ m l' in class_items m fuel acc' q r2 l2) = fail c) \/
    exists acc'' l'' r'', (let! (q, r2, l2) := nextc_ m l' in class_items m fuel acc' q r2 l2) = ret (acc'', l'') /\ at_ m l'' r'' /\ (length r'' <= length r)%nat).
  { intros acc' l' r' A' HL Ha [X|(n' & HC' & Hn')]; [exfalso; apply (X (zlen r')); left; lia|]. pose proof (closed_nonneg _ _ HC'). destruct r' as [|b r'].
    - rewrite (nextc_0 _ _ A'). cbn [cbind ret]. destruct fuel as [|fuel']; [lia|]. cbn [class_items]. rewrite (proj2 (Z.ltb_lt (zlen acc') NSPAN)) by (unfold NSPAN; lia). cbn [negb]. change (0 =? 0) with true. left. eexists. reflexivity.
    - destruct (nextc_z m l' (b :: r') A' ltac:(discriminate)) as [[c E]|(q' & c & x & r2 & E & Er & A2 & Hx & HU)]; rewrite E; cbn [cbind ret]; [left; eexists; reflexivity|].
      pose proof (zl_pos _ Hx). assert (HLr : length (b :: r') = (length x + length r2)%nat) by (rewrite Er; apply app_length).
      destruct (Bool.bool_dec q' false) as [->|Hq]; [destruct (Z.eqb_spec c 93) as [->|Hc]|].
      + destruct fuel as [|fuel']; [lia|]. cbn [class_items]. rewrite (proj2 (Z.ltb_lt (zlen acc') NSPAN)) by (unfold NSPAN; lia). cbn [negb andb]. change (93 =? 0) with false. change (93 =? 93) with true. cbv iota. right. eexists _, _, _. split; [reflexivity|]. split; [exact A2|]. lia.
      + rewrite Er in HC'. apply closed_step in HC'; [|eapply unit_nc; [exact HU|auto]].
        destruct (IH acc' false c _ r2 _ A2 ltac:(lia) HC' ltac:(lia)) as [F|(a & l2 & r3 & F & F2 & F3)]; [left; exact F|right; exists a, l2, r3; split; [exact F|]; split; [exact F2|lia]].
      + assert (q' = true) as -> by (destruct q'; congruence). rewrite Er in HC'. apply closed_step in HC'; [|exact HU].
        destruct (IH acc' true c _ r2 _ A2 ltac:(lia) HC' ltac:(lia)) as [F|(a & l2 & r3 & F & F2 & F3)]; [left; exact F|right; exists a, l2, r3; split; [exact F|]; split; [exact F2|lia]]. }
  assert (NXM : forall r1 l1, moved m l l1 r -> 
    (exists c, (let! (q, r2, l2) := nextc_ m l1 in class_items m fuel (acc ++ [(fold_if l1 r1, fold_if l1 r1)]) q r2 l2) = fail c) \/
    exists acc'' l'' r'', (let! (q, r2, l2) := nextc_ m l1 in class_items m fuel (acc ++ [(fold_if l1 r1, fold_if l1 r1)]) q r2 l2) = ret (acc'', l'') /\ at_ m l'' r'' /\ (length r'' <= length r)%nat).
  { intros r1 l1 (u & r' & -> & A' & HN). pose proof (closed_step _ _ _ HC HN) as HC'. pose proof (zlen_nonneg u). apply (NX _ l1 r' A'); [rewrite app_length; lia|rewrite zlen_app; change (zlen [_]) with 1; lia|]. right. exists (n - zlen u). split; [exact HC'|]. rewrite zlen_app. change (zlen [_]) with 1. lia. }
  pose (GD := fun y : cm (list (Z * Z) * lx) => (exists c, y = fail c) \/ exists acc' l' r', y = ret (acc', l') /\ at_ m l' r' /\ (length r' <= length r)%nat).
  assert (PLAIN : forall X : option (Z * Z), X = None -> GD (match X with
      | Some last => let! (_, r1, l1) := nextc_ m l in if r1 =? 0 then fail MALFORMEDCLASS else let acc' := removelast acc ++ [(fst last, fold_if l1 r1)] in let! (q, r2, l2) := nextc_ m l1 in class_items m fuel acc' q r2 l2
      | None => let! (r1, l1) := lift (if negb q then if rune =? 91 then let* c := aget m (ep l) in if c =? 58 then lexasciiclass m l rune else Ok (rune, l) else Ok (rune, l)
           else match rune_mapping rune with Some r => Ok (r, l) | None => if (rune =? 112) || (rune =? 80) then lexutfclass m l rune else Ok (rune, l) end) in
        let r' := fold_if l1 r1 in let! (q, r2, l2) := nextc_ m l1 in class_items m fuel (acc ++ [(r', r')]) q r2 l2 end)).
  { intros X ->. unfold GD. assert (P0 : forall r1 : Z, moved m l l r) by (intros _; now apply moved_0).
    destruct q; cbn [negb].
    - destruct (rune_mapping rune) as [v|]; cbn [lift cbind ret]; [apply NXM, P0; exact 0|]. destruct ((rune =? 112) || (rune =? 80)); [|apply NXM, P0; exact 0].
      destruct (utf_z m l r rune A) as (r1 & l1 & -> & HM). cbn [lift cbind ret]. apply NXM. exact HM.
    - destruct (rune =? 91); [|apply NXM, P0; exact 0]. rewrite (z_head _ _ _ (a_z _ _ _ A)). cbn [bind]. destruct (Z.eqb_spec (hd 0 r) 58) as [E|_]; [|apply NXM, P0; exact 0].
      destruct r as [|b r]; [discriminate E|]. cbn in E. subst b. destruct (ascii_z m l r rune A) as (r1 & l1 & -> & HM). cbn [lift cbind ret]. apply NXM. exact HM. }
  destruct (negb q && (rune =? 45)); [|cbn [cbind ret]; apply (PLAIN None eq_refl)].
  destruct (rev acc) as [|lst racc] eqn:ER; [cbn [cbind ret]; apply (PLAIN None eq_refl)|]. pose proof (PLAIN None eq_refl) as PLAIN2. rewrite (z_head _ _ _ (a_z _ _ _ A)) in PLAIN2 |- *. cbn [lift cbind ret] in PLAIN2 |- *.
  destruct (Z.eqb_spec (hd 0 r) 93) as [E93|N93]; [exact PLAIN2|]. clear PLAIN PLAIN2 NXM GD.
  assert (HA : acc <> []) by (intros ->; discriminate ER).
  destruct r as [|b r].
  - rewrite (nextc_0 _ _ A). cbn [cbind ret]. change (0 =? 0) with true. left. eexists. reflexivity.
  - destruct (nextc_z m l (b :: r) A ltac:(discriminate)) as [[c E]|(q' & c & x & r2 & E & Er & A2 & Hx & HU)]; rewrite E; cbn [cbind ret]; [left; eexists; reflexivity|].
    destruct (c =? 0); [left; eexists; reflexivity|]. cbv zeta. apply (NX _ _ r2 A2).
    + rewrite Er, app_length. lia.
    + rewrite removelast_zlen by exact HA. lia.
    + right. exists (n - zlen x). split; [|rewrite removelast_zlen by exact HA; lia]. apply closed_step; [rewrite <- Er; exact HC|]. eapply unit_nc; [exact HU|].
      intros -> ->. cbn [hd] in N93. unfold uni in HU. destruct HU as (_ & _ & _ & H1 & _). rewrite (H1 ltac:(lia)) in Er. injection Er as -> _. congruence.
Qed.
Lemma class_z' m l r : at_ m l r -> closed_in 30 r -> 
  (exists c, bldcclass m l = fail c) \/ exists o l' r', bldcclass m l = ret (KOp o, l') /\ at_ m l' r' /\ (length r' <= length r)%nat.
Proof.
  intros A HC. unfold bldcclass. destruct (16 <=? ncls l); [left; eexists; reflexivity|].
  set (l0 := Lx (ep l) (ric l) (dnl l) (lit l) (ncls l + 1)). assert (A0 : at_ m l0 r) by (apply (at_ext m l); auto). clearbody l0. clear A.
  assert (END : forall (neg : bool) acc q rn l' n r', at_ m l' r' -> closed_in n r' -> zlen acc + n <= 29 -> (length r' <= length r)%nat ->
    (exists c, (let! (acc, l3) := class_items m (S (length m)) acc q rn l' in ret (KOp (if neg then NCCLASS (make_spans acc) else CCLASS (make_spans acc)), l3)) = fail c) \/
    exists o l2 r2, (let! (acc, l3) := class_items m (S (length m)) acc q rn l' in ret (KOp (if neg then NCCLASS (make_spans acc) else CCLASS (make_spans acc)), l3)) = ret (KOp o, l2) /\ at_ m l2 r2 /\ (length r2 <= length r)%nat).
  { intros neg acc q rn l' n r' A' HC' Hn HL. pose proof (z_len _ _ _ (a_z _ _ _ A')). destruct (class_z m (S (length m)) acc q rn l' r' n A' ltac:(lia) HC' Hn) as [[c ->]|(a & l2 & r2 & -> & A2 & HL2)]; cbn [cbind ret fail]; [left; eexists; reflexivity|].
    right. eexists _, _, _. split; [reflexivity|]. split; [exact A2|lia]. }
  (* running off the end *)
  assert (OFF : forall (neg : bool) acc l', zlen acc <= 30 -> exists c, (let! (acc, l3) := class_items m (S (length m)) acc false 0 l' in ret (KOp (if neg then NCCLASS (make_spans acc) else CCLASS (make_spans acc)), l3)) = fail c).
  { intros neg acc l' Ha. cbn [class_items]. rewrite (proj2 (Z.ltb_lt (zlen acc) NSPAN)) by (unfold NSPAN; lia). cbn [negb]. change (0 =? 0) with true. eexists. reflexivity. }
  assert (BR : forall (neg : bool) acc l' r', zlen acc <= 30 -> at_ m l' r' -> (length r' <= length r)%nat -> 
    exists o l2 r2, (let! (acc, l3) := class_items m (S (length m)) acc false 93 l' in ret (KOp (if neg then NCCLASS (make_spans acc) else CCLASS (make_spans acc)), l3)) = ret (KOp o, l2) /\ at_ m l2 r2 /\ (length r2 <= length r)%nat).
  { intros neg acc l' r' Ha A' HL. cbn [class_items]. rewrite (proj2 (Z.ltb_lt (zlen acc) NSPAN)) by (unfold NSPAN; lia). cbn [negb andb]. change (93 =? 0) with false. change (93 =? 93) with true. cbv iota. cbn [cbind ret]. eexists _, _, _. split; [reflexivity|]. split; [exact A'|exact HL]. }
  destruct r as [|b r].
  - rewrite (nextc_0 _ _ A0). cbn [cbind ret negb andb]. change (0 =? 94) with false. cbv iota. cbn [cbind ret]. left. apply (OFF false []). rewrite zlen_nil. lia.
  - destruct (nextc_z m l0 (b :: r) A0 ltac:(discriminate)) as [[c E]|(q & c & x & r2 & E & Er & A2 & Hx & HU)]; rewrite E; cbn [cbind ret]; [left; eexists; reflexivity|].
    assert (HLr : (length r2 <= length (b :: r))%nat) by (rewrite Er, app_length; lia).
    destruct (negb q && (c =? 94)) eqn:EN.
    + apply andb_true_iff in EN as [E1 E2]. apply negb_true_iff in E1. apply Z.eqb_eq in E2. subst q c. rewrite Er in HC. apply closed_step in HC; [|eapply unit_nc; [exact HU|lia]].
      assert (zlen x = 1). { destruct HU as (_ & _ & _ & H1 & _). rewrite (H1 ltac:(lia)). reflexivity. }
      destruct r2 as [|b2 r2].
      * rewrite (nextc_0 _ _ A2). cbn [cbind ret]. left. apply (OFF true [(10, 10)]). change (zlen [(10, 10)]) with 1. lia.
      * destruct (nextc_z m _ (b2 :: r2) A2 ltac:(discriminate)) as [[c E2]|(q & c & x2 & r3 & E2 & Er2 & A3 & Hx2 & HU2)]; rewrite E2; cbn [cbind ret]; [left; eexists; reflexivity|].
        assert (HLr2 : (length r3 <= length (b :: r))%nat) by (rewrite Er2, app_length in HLr; lia).
        destruct (Bool.bool_dec q false) as [->|Hq]; [destruct (Z.eqb_spec c 93) as [->|Hc]|].
        -- right. apply (BR true [(10, 10)] _ r3); [change (zlen [(10, 10)]) with 1; lia|exact A3|exact HLr2].
        -- rewrite Er2 in HC. apply closed_step in HC; [|eapply unit_nc; [exact HU2|auto]]. apply (END true [(10, 10)] false c _ _ r3 A3 HC); [change (zlen [(10, 10)]) with 1; lia|exact HLr2].
        -- assert (q = true) as -> by (destruct q; congruence). rewrite Er2 in HC. apply closed_step in HC; [|exact HU2]. apply (END true [(10, 10)] true c _ _ r3 A3 HC); [change (zlen [(10, 10)]) with 1; lia|exact HLr2].
    + cbn [cbind ret]. destruct (Bool.bool_dec q false) as [->|Hq]; [destruct (Z.eqb_spec c 93) as [->|Hc]|].
      * right. apply (BR false [] _ r2); [rewrite zlen_nil; lia|exact A2|exact HLr].
      * rewrite Er in HC. apply closed_step in HC; [|eapply unit_nc; [exact HU|auto]]. apply (END false [] false c _ _ r2 A2 HC); [rewrite zlen_nil; lia|exact HLr].
      * assert (q = true) as -> by (destruct q; congruence). rewrite Er in HC. apply closed_step in HC; [|exact HU]. apply (END false [] true c _ _ r2 A2 HC); [rewrite zlen_nil; lia|exact HLr].
Qed.
(** * Flags and tokens *)
Lemma flags_z m : forall fuel k en l r, at_ m (set_ep l (ep l + k)) r -> (length r < fuel)%nat ->
  (exists c, lex_flags m fuel k en l = fail c) \/ exists t l', lex_flags m fuel k en l = ret (t, l') /\ (t = KEnd \/ exists r', at_ m l' r' /\ (length r' <= length r)%nat).
Proof.
  induction fuel as [|fuel IH]; intros k en l r A Hf; [lia|]. cbn [lex_flags]. pose proof (a_z _ _ _ A) as HZ. cbn [set_ep ep] in HZ. rewrite (z_head _ _ _ HZ). cbn [lift cbind ret].
  destruct (Z.eqb_spec (hd 0 r) 0) as [E0|N0]; [right; eexists _, _; split; [reflexivity|now left]|].
  destruct r as [|b r]; [cbn in N0; congruence|]. cbn [hd] in *. cbn [length] in Hf.
  assert (ST : b <> 92 -> forall l1, ep l1 = ep l -> lit l1 = lit l -> at_ m (set_ep l1 (ep l1 + (k + 1))) r).
  { intros N l1 E1 E2. apply (at_skip m _ [b] r) in A; [|intros [X|[]]; congruence]. apply (at_ext m _ _ _ A); cbn [set_ep ep lit]; [rewrite E1; change (zlen [b]) with 1; lia|exact E2]. }
  destruct (Z.eqb_spec b 41) as [->|_].
  { right. eexists _, _. split; [reflexivity|]. right. exists r. split; [|cbn; lia]. specialize (ST ltac:(lia) l eq_refl eq_refl). replace (ep l + k + 1) with (ep l + (k + 1)) by lia. exact ST. }
  assert (REC : b <> 92 -> forall en' l1, ep l1 = ep l -> lit l1 = lit l -> (exists c, lex_flags m fuel (k + 1) en' l1 = fail c) \/ exists t l', lex_flags m fuel (k + 1) en' l1 = ret (t, l') /\ (t = KEnd \/ exists r', at_ m l' r' /\ (length r' <= length (b :: r))%nat)).
  { intros N en' l1 E1 E2. destruct (IH (k + 1) en' l1 r (ST N l1 E1 E2) ltac:(lia)) as [H|(t & l' & H & [H2|(r' & H2 & H3)])]; [now left|right; exists t, l'; auto|].
    right. exists t, l'. split; [exact H|]. right. exists r'. split; [exact H2|cbn; lia]. }
  destruct (Z.eqb_spec b 45) as [->|_]; [apply REC; [lia|reflexivity|reflexivity]|].
  destruct (Z.eqb_spec b 115) as [->|_]; [apply REC; [lia|reflexivity|reflexivity]|].
  destruct (Z.eqb_spec b 105) as [->|_]; [apply REC; [lia|reflexivity|reflexivity]|].
  left. eexists. reflexivity.
Qed.
Lemma lex_z m l r : at_ m l r ->
  (exists c, lex m l = fail c) \/ exists t l', lex m l = ret (t, l') /\ (t = KEnd \/ exists r', at_ m l' r' /\ (length r' < length r)%nat).
Proof.
  intros A. unfold lex. destruct r as [|b r].
  { rewrite (nextc_0 _ _ A). cbn [cbind ret]. change (0 =? 0) with true. right. eexists _, _. split; [reflexivity|now left]. }
  destruct (nextc_z m l (b :: r) A ltac:(discriminate)) as [[c E]|(q & c & x & r2 & E & Er & A2 & Hx & HU)]; rewrite E; cbn [cbind ret]; [left; eexists; reflexivity|].
  pose proof (zl_pos _ Hx) as Hx'. assert (HLr : (length r2 < length (b :: r))%nat) by (rewrite Er, app_length; lia). set (l1 := set_ep l (ep l + zlen x)) in *.
  assert (TK : forall t, (exists c, ret (t, l1) = fail c) \/ exists t' l', ret (t, l1) = ret (t', l') /\ (t' = KEnd \/ exists r', at_ m l' r' /\ (length r' < length (b :: r))%nat)).
  { intros t. right. exists t, l1. split; [reflexivity|]. right. exists r2. auto. }
  destruct q.
  - rewrite (a_lit _ _ _ A2). destruct (rune_mapping c); [apply TK|]. destruct (c =? 98); [apply TK|]. destruct (c =? 66); [apply TK|]. destruct (c =? 65); [apply TK|]. destruct (c =? 122); [apply TK|]. destruct (c =? 90); [apply TK|].
    destruct ((c =? 112) || (c =? 80)); [|apply TK]. destruct (utf_z m l1 r2 c A2) as (r1 & l2 & E2 & (u & r3 & -> & A3 & _)). rewrite E2. cbn [lift cbind ret]. right. eexists _, _. split; [reflexivity|]. right. exists r3. split; [exact A3|]. rewrite app_length in HLr. lia.
  - destruct (c =? 0); [apply TK|]. destruct (c =? 42); [apply TK|]. destruct (c =? 63); [apply TK|]. destruct (c =? 43); [apply TK|]. destruct (c =? 124); [apply TK|]. destruct (c =? 94); [apply TK|]. destruct (c =? 36); [apply TK|]. destruct (c =? 46); [apply TK|].
    destruct (Z.eqb_spec c 91) as [->|_].
    { destruct HU as (_ & _ & _ & HU & _). rewrite (HU ltac:(lia)) in Er. injection Er as -> ->. destruct (class_z' m l1 r2 A2) as [H|(o & l2 & r3 & H & A3 & H3)].
      - apply (a_cl _ _ _ A [] r2). reflexivity.
      - left. exact H.
      - right. eexists _, _. split; [exact H|]. right. exists r3. split; [exact A3|lia]. }
    destruct (c =? 40); [|destruct (c =? 41); apply TK].
    rewrite (z_head _ _ _ (a_z _ _ _ A2)). cbn [lift cbind ret]. destruct (Z.eqb_spec (hd 0 r2) 63) as [E63|_]; [|apply TK]. destruct r2 as [|b2 r2]; [discriminate E63|]. cbn in E63. subst b2.
    assert (A3 : at_ m (set_ep l1 (ep l1 + 1)) r2). { apply (at_skip m l1 [63] r2) in A2; [exact A2|]. intros [X|[]]; lia. }
    pose proof (z_len _ _ _ (a_z _ _ _ A3)). destruct (flags_z m (S (length m)) 1 true l1 r2 A3 ltac:(lia)) as [H1|(t & l' & H1 & [H2|(r' & H2 & H3)])]; [left; exact H1|right; exists t, l'; auto|].
    right. exists t, l'. split; [exact H1|]. right. exists r'. split; [exact H2|]. cbn [length] in HLr |- *. lia.
Qed.
Lemma lexes_z m : forall n l r, at_ m l r -> (length r <= n)%nat ->
  exists toks, (length toks <= length r)%nat /\ (lexes m l toks \/ exists c, lexes_bad m l toks c).
Proof.
  induction n as [|n IH]; intros l r A Hn; destruct (lex_z m l r A) as [[c E]|(t & l' & E & [->|(r' & A' & HL)])].
  1,4: exists []; split; [cbn; lia|right; exists c; now constructor].
  1,3: exists []; split; [cbn; lia|left; econstructor; exact E].
  - lia.
  - assert (DE : {t = KEnd} + {t <> KEnd}) by (destruct t; (left; reflexivity) || (right; discriminate)). destruct DE as [->|Ht]; [exists []; split; [cbn; lia|left; econstructor; exact E]|].
    destruct (IH l' r' A' ltac:(lia)) as (toks & H1 & [H2|[c H2]]); exists (t :: toks); (split; [cbn; lia|]); [left|right; exists c]; econstructor; eassumption.
Qed.
(** * compile *)
Theorem compile_safe m s r ic dn : zstring m s r -> Forall is_byte r -> safe_pattern r ->
  exists toks, (length toks <= length r)%nat /\
  ((exists c, lexes_bad m (Lx s ic dn false 0) toks c /\ exists c', compile m s (zlen r) ic dn = fail c') \/
   lexes m (Lx s ic dn false 0) toks /\
   ((exists c, compile m s (zlen r) ic dn = fail c /\ forall e k, parses toks e k -> resource c) \/
    (exists pr e k, compile m s (zlen r) ic dn = ret pr /\ parses toks e k /\ compiled (fun o => In (KOp o) toks) pr ic k e))).
Proof.
  intros HZ HB [H1 H2]. assert (A : at_ m (Lx s ic dn false 0) r) by (constructor; auto).
  destruct (lexes_z m _ _ r A (le_n _)) as (toks & HL & H). pose proof (z_len _ _ _ HZ). assert (zlen toks <= 3 * zlen r + 2) by (unfold zlen; lia).
  exists toks. split; [exact HL|]. destruct H as [H|[c H]].
  - right. split; [exact H|]. apply compile_lexes; [exact H|lia|assumption].
  - left. exists c. split; [exact H|]. eapply compile_bad; [exact H|lia|assumption].
Qed.
