(** The scan of the tables, and the sets by their tokens. *)
From Verif Require Import Base Utf8_Tab Utf8_Model Regex_Model Recomp_Syntax Ucd_Model Ucd_Spec.

Fixpoint sortedb (rs : list (Z * Z)) : bool :=
  match rs with
  | [] => true
  | (lo, hi) :: rs' => (lo <=? hi) && match rs' with [] => true | (lo', _) :: _ => hi <? lo' end && sortedb rs'
  end.
Lemma sorted_above rs : forall lo hi rs', rs = (lo, hi) :: rs' -> sortedb rs = true -> forall a b, In (a, b) rs -> lo <= a /\ a <= b.
Proof.
  induction rs as [|[l h] rs IH]; intros lo hi rs' E H a b HI; [discriminate E|]. injection E as <- <- <-. cbn [sortedb] in H. apply andb_prop in H as [H H2]. apply andb_prop in H as [H0 H1].
  destruct HI as [[= <- <-]|HI]; [lia|]. destruct rs as [|[l' h'] rs']; [destruct HI|]. destruct (IH l' h' rs' eq_refl H2 a b HI). lia.
Qed.
Lemma scan_in rs c : sortedb rs = true -> scan rs c = true <-> in_ranges rs c.
Proof.
  induction rs as [|[lo hi] rs IH]; intros H; cbn [scan].
  - split; [discriminate|]. intros (a & b & [] & _).
  - pose proof (sorted_above _ lo hi rs eq_refl H) as SA. cbn [sortedb] in H. apply andb_prop in H as [H H2]. destruct (Z.ltb_spec c lo).
    + split; [discriminate|]. intros (a & b & HI & Hc). apply SA in HI. lia.
    + destruct (Z.leb_spec c hi); [split; [intros _; exists lo, hi; split; [now left|lia]|reflexivity]|]. rewrite (IH H2). split; intros (a & b & HI & Hc); exists a, b; (split; [|exact Hc]); [now right|]. destruct HI as [[= <- <-]|HI]; [lia|exact HI].
Qed.
(** Ranges that touch are one. *)
Fixpoint norm (a b : Z) (rs : list (Z * Z)) : list (Z * Z) :=
  match rs with
  | [] => [(a, b)]
  | (lo, hi) :: rs => if (lo =? b + 1) && (a <=? b) && (lo <=? hi) then norm a hi rs else (a, b) :: norm lo hi rs
  end.
Lemma norm_in rs : forall a b c, in_ranges (norm a b rs) c <-> in_ranges ((a, b) :: rs) c.
Proof.
  induction rs as [|[lo hi] rs IH]; intros a b c; cbn [norm]; [reflexivity|]. destruct ((lo =? b + 1) && (a <=? b) && (lo <=? hi)) eqn:E.
  - rewrite IH. split; intros (x & y & HI & Hc).
    + destruct HI as [[= <- <-]|HI]; [|exists x, y; split; [now right; right|exact Hc]]. destruct (Z_le_gt_dec c b); [exists a, b; split; [now left|lia]|exists lo, hi; split; [now right; left|lia]].
    + destruct HI as [[= <- <-]|[[= <- <-]|HI]]; [exists a, hi; split; [now left|lia]|exists a, hi; split; [now left|lia]|exists x, y; split; [now right|exact Hc]].
  - split; intros (x & y & HI & Hc).
    + destruct HI as [[= <- <-]|HI]; [exists a, b; split; [now left|exact Hc]|]. assert (X : in_ranges (norm lo hi rs) c) by (exists x, y; auto). apply IH in X as (x' & y' & HI' & Hc'). exists x', y'. split; [now right|exact Hc'].
    + destruct HI as [[= <- <-]|HI]; [exists a, b; split; [now left|exact Hc]|]. assert (X : in_ranges ((lo, hi) :: rs) c) by (exists x, y; auto). apply IH in X as (x' & y' & HI' & Hc'). exists x', y'. split; [now right|exact Hc'].
Qed.
Definition normal (rs : list (Z * Z)) : list (Z * Z) := match rs with [] => [] | (a, b) :: rs => norm a b rs end.
Lemma normal_in rs c : in_ranges (normal rs) c <-> in_ranges rs c.
Proof. destruct rs as [|[a b] rs]; [reflexivity|apply norm_in]. Qed.
Lemma same_normal rs rs' c : normal rs = normal rs' -> in_ranges rs c <-> in_ranges rs' c.
Proof. intros E. rewrite <- (normal_in rs), <- (normal_in rs'), E. reflexivity. Qed.

Lemma groups_sorted : forallb sortedb groups = true. Proof. vm_compute. reflexivity. Qed.
Lemma group_in g c : isgroup g c = true <-> in_ranges (nth (Z.to_nat g) groups []) c.
Proof.
  unfold isgroup. apply scan_in. destruct (Nat.lt_ge_cases (Z.to_nat g) (length groups)) as [L|G]; [|now rewrite nth_overflow].
  pose proof groups_sorted as X. rewrite forallb_forall in X. apply X. now apply nth_In.
Qed.
Lemma categories_same : map normal (firstn 12 groups) = map normal categories. Proof. vm_compute. reflexivity. Qed.
Lemma category_in g c : 0 <= g < 12 -> isgroup g c = true <-> in_ranges (nth (Z.to_nat g) categories []) c.
Proof.
  intros Hg. rewrite group_in. apply same_normal. pose proof categories_same as X.
  assert (E : nth (Z.to_nat g) (map normal (firstn 12 groups)) (normal []) = nth (Z.to_nat g) (map normal categories) (normal [])) by (now rewrite X).
  rewrite !map_nth in E. rewrite <- E. f_equal. clear - Hg. assert (Hn : (Z.to_nat g < 12)%nat) by lia. generalize dependent (Z.to_nat g). intros n Hn. clear Hg. generalize groups. revert Hn. generalize 12%nat. intros k. revert n. induction k as [|k IH]; intros n Hn l; [lia|]. destruct l, n; cbn; auto. apply IH. lia.
Qed.
(** Ranges in order do not meet. *)
Definition apart (rs rs' : list (Z * Z)) : bool := forallb (fun p => forallb (fun q => (snd p <? fst q) || (snd q <? fst p)) rs') rs.
Lemma apart_in rs rs' c : apart rs rs' = true -> in_ranges rs c -> in_ranges rs' c -> False.
Proof.
  unfold apart. rewrite forallb_forall. intros H (a & b & HI & Hc) (a' & b' & HI' & Hc'). specialize (H _ HI). rewrite forallb_forall in H. specialize (H _ HI'). cbn in H. lia.
Qed.
(** ** ASCII by cases *)
Definition below (n : nat) : list Z := map Z.of_nat (seq 0 n).
Lemma below_in n c : 0 <= c < Z.of_nat n -> In c (below n).
Proof. intros H. unfold below. replace c with (Z.of_nat (Z.to_nat c)) by lia. apply in_map, in_seq. lia. Qed.
Lemma by_cases n (P : Z -> bool) : forallb P (below n) = true -> forall c, 0 <= c < Z.of_nat n -> P c = true.
Proof. intros H c Hc. rewrite forallb_forall in H. now apply H, below_in. Qed.
Lemma b_between a b c : between a b c = true <-> a <= c <= b. Proof. unfold between. lia. Qed.
Lemma b_letter c : c_lower c || c_upper c = true <-> letter c.
Proof. unfold c_lower, c_upper, between, letter. lia. Qed.
Lemma b_alnum c : c_alnum c = true <-> letter c \/ digit c.
Proof. unfold c_alnum, c_digit, c_lower, c_upper, between, letter, digit. lia. Qed.
Lemma bool_iff (b b' : bool) : (b = true <-> b' = true) <-> b = b'. Proof. destruct b, b'; intuition congruence. Qed.
(** No group but Cc, Nd, Pc, Pd, Sc, Zs has ASCII; those by cases. *)
Lemma ascii_sets c : 0 <= c < 128 ->
  (isgroup 2 c = c_digit c) /\ (isgroup 4 c = (c =? 95)) /\ (isgroup 11 c = (c =? 32)) /\ isgroup 1 c = false /\ isgroup 3 c = false /\ isgroup 9 c = false /\ isgroup 10 c = false /\
  islower c = c_lower c /\ isupper c = c_upper c.
Proof.
  intros Hc. pose proof (by_cases 128 (fun c => Bool.eqb (isgroup 2 c) (c_digit c) && Bool.eqb (isgroup 4 c) (c =? 95) && Bool.eqb (isgroup 11 c) (c =? 32) && negb (isgroup 1 c) && negb (isgroup 3 c) && negb (isgroup 9 c) && negb (isgroup 10 c) && Bool.eqb (islower c) (c_lower c) && Bool.eqb (isupper c) (c_upper c)) ltac:(vm_compute; reflexivity) c Hc) as X.
  cbv beta in X. repeat (apply andb_prop in X as [X ?]). repeat match goal with H : Bool.eqb _ _ = true |- _ => apply Bool.eqb_prop in H | H : negb _ = true |- _ => apply Bool.negb_true_iff in H end. repeat split; assumption.
Qed.
Ltac cat g := let X := fresh in assert (X := fun c => category_in g c ltac:(lia)); cbn [Z.to_nat Pos.to_nat Pos.iter_op Nat.add nth categories] in X.
Lemma alpha_ok c : 0 <= c -> u_isalpha c = true <-> s_alpha c.
Proof.
  intros H0. unfold u_isalpha, s_alpha. destruct (Z.ltb_spec c 128).
  - rewrite b_letter. split; [now left|]. intros [X|[X _]]; [exact X|lia].
  - assert (NL : ~ letter c) by (unfold letter; lia). assert (E : existsb (fun g => isgroup g c) alpha_groups = true <-> in_ranges cat_Nl c \/ exists t, In t letters /\ in_ranges t c); [|tauto].
    rewrite existsb_exists. change cat_Nl with (nth (Z.to_nat 3) categories []). rewrite <- (category_in 3 c ltac:(lia)). split.
    + intros (g & Hg & HI). unfold alpha_groups in Hg. destruct Hg as [<-|[<-|[<-|[<-|[<-|[<-|[<-|[<-|[<-|[<-|[<-|[<-|[]]]]]]]]]]]]]; try (left; exact HI); right; apply group_in in HI; eexists; (split; [|exact HI]); cbn; tauto.
    + intros [HI|(t & Ht & HI)]; [exists 3; split; [cbn; tauto|exact HI]|]. unfold letters in Ht.
      destruct Ht as [<-|[<-|[<-|[<-|[<-|[<-|[<-|[<-|[<-|[<-|[<-|[]]]]]]]]]]]]; [exists 21|exists 14|exists 18|exists 15|exists 12|exists 13|exists 19|exists 20|exists 22|exists 17|exists 16]; (split; [cbn; tauto|apply group_in; exact HI]).
Qed.
Lemma nd_ok c : isgroup 2 c = true <-> in_ranges cat_Nd c. Proof. apply (category_in 2 c). lia. Qed.
Lemma pc_ok c : isgroup 4 c = true <-> in_ranges cat_Pc c. Proof. apply (category_in 4 c). lia. Qed.
Lemma zs_ok c : isgroup 11 c = true <-> in_ranges cat_Zs c. Proof. apply (category_in 11 c). lia. Qed.
Lemma zl_ok c : isgroup 9 c = true <-> in_ranges cat_Zl c. Proof. apply (category_in 9 c). lia. Qed.
Lemma zp_ok c : isgroup 10 c = true <-> in_ranges cat_Zp c. Proof. apply (category_in 10 c). lia. Qed.
Lemma lt_ok c : isgroup 1 c = true <-> in_ranges cat_Lt c. Proof. apply (category_in 1 c). lia. Qed.
Lemma alnum_ok c : 0 <= c -> u_isalnum c = true <-> s_alnum c.
Proof.
  intros H0. unfold s_alnum. rewrite <- (alpha_ok c H0), <- nd_ok. unfold u_isalnum, u_isalpha. destruct (Z.ltb_spec c 128); [|now rewrite Bool.orb_true_iff].
  destruct (ascii_sets c) as (E & _); [lia|]. rewrite E, b_alnum, b_letter. unfold c_digit, between, digit. intuition lia.
Qed.
Lemma word_ok c : 0 <= c -> u_isword c = true <-> s_word c.
Proof.
  intros H0. unfold s_word. rewrite <- (alnum_ok c H0), <- pc_ok. unfold u_isword, u_isalnum. destruct (Z.ltb_spec c 128); [|now rewrite Bool.orb_true_iff].
  destruct (ascii_sets c) as (_ & E & _); [lia|]. now rewrite E, Bool.orb_true_iff.
Qed.
Lemma blank_ok c : 0 <= c -> u_isblank c = true <-> s_blank c.
Proof.
  intros H0. unfold s_blank. rewrite <- zs_ok. unfold u_isblank. destruct (Z.ltb_spec c 128); [|intuition lia].
  destruct (ascii_sets c) as (_ & _ & E & _); [lia|]. rewrite E. lia.
Qed.
Lemma zl_one c : isgroup 9 c = (c =? 8232).
Proof. apply bool_iff. rewrite zl_ok. unfold in_ranges. split; [intros (a & b & [[= <- <-]|[]] & Hc); lia|]. intros H. exists 8232, 8232. split; [now left|lia]. Qed.
Lemma zp_one c : isgroup 10 c = (c =? 8233).
Proof. apply bool_iff. rewrite zp_ok. unfold in_ranges. split; [intros (a & b & [[= <- <-]|[]] & Hc); lia|]. intros H. exists 8233, 8233. split; [now left|lia]. Qed.
Lemma space_ok c : 0 <= c -> u_isspace c = true <-> s_space c.
Proof.
  intros H0. unfold s_space. rewrite <- zs_ok, <- zl_ok, <- zp_ok, zl_one, zp_one. unfold u_isspace. destruct (Z.ltb_spec c 128).
  - destruct (ascii_sets c) as (_ & _ & E & _); [lia|]. rewrite E. unfold between. lia.
  - rewrite !Bool.orb_true_iff. intuition lia.
Qed.
Lemma lower_ok c : islower c = true <-> s_lower c.
Proof. unfold islower, s_lower. rewrite Bool.negb_true_iff. rewrite Z.eqb_neq. reflexivity. Qed.
Lemma upper_ok c : isupper c = true <-> s_upper c.
Proof. unfold isupper, s_upper. rewrite Bool.negb_true_iff. rewrite Z.eqb_neq. reflexivity. Qed.
Lemma cased_ok c : 0 <= c -> u_iscased c = true <-> s_cased c.
Proof.
  intros H0. unfold s_cased. rewrite <- lower_ok, <- upper_ok, <- lt_ok. unfold u_iscased. destruct (Z.ltb_spec c 128).
  - destruct (ascii_sets c) as (_ & _ & _ & E1 & _ & _ & _ & E2 & E3); [lia|]. rewrite E1, E2, E3, Bool.orb_true_iff. intuition congruence.
  - change U8G_Lt with 1. generalize (isgroup 1 c) (islower c) (isupper c). intros x y z. rewrite !Bool.orb_true_iff. tauto.
Qed.
(** ** Tokens *)
Lemma rm_set up t r : Z.even t = true -> UTF_al <= t <= UTF_al + 14 \/ UTF_GRP <= t <= UTF_GRP + 44 ->
  rune_match up t r = Ok (up t r) /\ rune_match up (t + 1) r = Ok (negb (up t r)).
Proof.
  intros He Ht. assert (Ho : Z.odd t = false) by (rewrite <- Z.negb_even; now rewrite He). assert (Ho1 : Z.odd (t + 1) = true) by (rewrite Z.odd_add, Ho; reflexivity).
  unfold rune_match. rewrite Ho, Ho1. unfold between, ASC_an, UTF_al, UTF_GRP in *. cbn [Z.b2z].
  assert (HE : exists k, t = 2 * k) by (apply Zeven_bool_iff in He; apply Zeven_ex in He; exact He). destruct HE as [k ->].
  repeat match goal with |- context [if ?b then _ else _] => destruct b eqn:?; try lia end. rewrite Z.sub_0_r. replace (2 * k + 1 - 1) with (2 * k) by lia. cbn [xorb]. destruct (up (2 * k) r); split; reflexivity.
Qed.
Lemma rm_asc up k r b : 0 <= k < 14 -> asc_class k r = Ok b ->
  rune_match up (ASC_an + 2 * k) r = Ok b /\ rune_match up (ASC_an + 2 * k + 1) r = Ok (negb b).
Proof.
  intros Hk E. assert (Ho : Z.odd (ASC_an + 2 * k) = false) by (rewrite Z.odd_add_mul_2; reflexivity). assert (Ho1 : Z.odd (ASC_an + 2 * k + 1) = true) by (rewrite Z.odd_add, Ho; reflexivity).
  assert (B0 : between ASC_an (ASC_an + 27) (ASC_an + 2 * k) = true) by (apply b_between; lia). assert (B1 : between ASC_an (ASC_an + 27) (ASC_an + 2 * k + 1) = true) by (apply b_between; lia).
  assert (D0 : (ASC_an + 2 * k - ASC_an) / 2 = k) by (symmetry; apply Z.div_unique with 0; lia). assert (D1 : (ASC_an + 2 * k + 1 - ASC_an) / 2 = k) by (symmetry; apply Z.div_unique with 1; lia).
  split; unfold rune_match; [rewrite Ho, B0, D0, E|rewrite Ho1, B1, D1, E]; destruct b; reflexivity.
Qed.
