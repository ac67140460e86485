(** The named sets; case and categories. *)
From Verif Require Import Base Utf8_Tab Utf8_Model Regex_Model Regex_Spec Recomp_Model Recomp_Syntax Ucd_Model Ucd_Spec Ucd_Proofs.
From Verif Require Utf8_Proofs5.

(** A token [t] stands for [P]. *)
Definition stands (t : Z) (P : Z -> Prop) (r : Z) : Prop :=
  exists b, rune_match u_set t r = Ok b /\ rune_match u_set (t + 1) r = Ok (negb b) /\ (b = true <-> P r).
Lemma stands_set t P r f : Z.even t = true -> UTF_al <= t <= UTF_al + 14 \/ UTF_GRP <= t <= UTF_GRP + 44 -> u_set t r = f -> (f = true <-> P r) -> stands t P r.
Proof. intros He Ht Hf HP. destruct (rm_set u_set t r He Ht) as [E1 E2]. exists f. rewrite E1, E2, Hf. auto. Qed.
Lemma group_tok g r : 0 <= g < 23 -> u_set (UTF_GRP + 2 * g) r = isgroup g r.
Proof.
  intros Hg. unfold u_set. destruct (Z.ltb_spec (UTF_GRP + 2 * g) UTF_GRP); [lia|]. f_equal. symmetry. apply Z.div_unique with 0; lia.
Qed.
Lemma stands_group g P r : 0 <= g < 23 -> (isgroup g r = true <-> P r) -> stands (UTF_GRP + 2 * g) P r.
Proof.
  intros Hg HP. apply (stands_set _ _ _ (isgroup g r)); [|lia|now apply group_tok|exact HP]. rewrite Z.even_add_mul_2. reflexivity.
Qed.
Lemma stands_asc k (P : Z -> Prop) r b : 0 <= k < 14 -> asc_class k r = Ok b -> (b = true <-> P r) -> stands (ASC_an + 2 * k) P r.
Proof. intros Hk E HP. destruct (rm_asc u_set k r b Hk E) as [E1 E2]. exists b. auto. Qed.
Lemma sets_stand w P r : In (w, P) set_meaning -> 0 <= r -> stands (value_in set_names w) P r.
Proof.
  intros HI Hr.
  Ltac tok v := match goal with |- stands (value_in ?tab ?w) _ _ => replace (value_in tab w) with v by (vm_compute; reflexivity) end.
  Ltac utf k L := tok (UTF_al + 2 * k); eapply stands_set; [reflexivity|unfold UTF_al; lia|reflexivity|exact L].
  Ltac cat g := tok (UTF_GRP + 2 * g); apply stands_group; [lia|]; apply (category_in g); lia.
  Ltac scr g := tok (UTF_GRP + 2 * g); apply stands_group; [lia|]; apply (group_in g).
  unfold set_meaning in HI. cbn [map fst snd] in HI.
  destruct HI as [[= <- <-]|HI]; [utf 0 (alpha_ok r Hr)|]. destruct HI as [[= <- <-]|HI]; [utf 1 (alnum_ok r Hr)|]. destruct HI as [[= <- <-]|HI]; [utf 2 (blank_ok r Hr)|]. destruct HI as [[= <- <-]|HI]; [utf 3 (cased_ok r Hr)|].
  destruct HI as [[= <- <-]|HI]; [utf 4 (lower_ok r)|]. destruct HI as [[= <- <-]|HI]; [utf 4 (lower_ok r)|]. destruct HI as [[= <- <-]|HI]; [utf 5 (upper_ok r)|]. destruct HI as [[= <- <-]|HI]; [utf 5 (upper_ok r)|].
  destruct HI as [[= <- <-]|HI]; [utf 6 (space_ok r Hr)|]. destruct HI as [[= <- <-]|HI]; [utf 7 (word_ok r Hr)|].
  destruct HI as [[= <- <-]|HI]; [cat 0|]. destruct HI as [[= <- <-]|HI]; [cat 0|]. destruct HI as [[= <- <-]|HI]; [cat 1|]. destruct HI as [[= <- <-]|HI]; [cat 2|]. destruct HI as [[= <- <-]|HI]; [cat 2|]. destruct HI as [[= <- <-]|HI]; [cat 3|].
  destruct HI as [[= <- <-]|HI]; [cat 4|]. destruct HI as [[= <- <-]|HI]; [cat 5|]. destruct HI as [[= <- <-]|HI]; [cat 6|]. destruct HI as [[= <- <-]|HI]; [cat 7|]. destruct HI as [[= <- <-]|HI]; [cat 8|]. destruct HI as [[= <- <-]|HI]; [cat 9|]. destruct HI as [[= <- <-]|HI]; [cat 10|]. destruct HI as [[= <- <-]|HI]; [cat 11|].
  destruct HI as [[= <- <-]|HI]; [scr 12|]. destruct HI as [[= <- <-]|HI]; [scr 13|]. destruct HI as [[= <- <-]|HI]; [scr 14|]. destruct HI as [[= <- <-]|HI]; [scr 15|]. destruct HI as [[= <- <-]|HI]; [scr 16|]. destruct HI as [[= <- <-]|HI]; [scr 17|]. destruct HI as [[= <- <-]|HI]; [scr 18|].
  destruct HI as [[= <- <-]|HI]; [scr 19|]. destruct HI as [[= <- <-]|HI]; [scr 20|]. destruct HI as [[= <- <-]|HI]; [scr 21|]. destruct HI as [[= <- <-]|HI]; [scr 22|]. destruct HI.
Qed.
Lemma posix_stand w P r : In (w, P) posix_meaning -> 0 <= r < 256 -> stands (value_in posix_names w) P r.
Proof.
  intros HI Hr. assert (HB : between 0 255 r = true) by (apply b_between; lia).
  Ltac asc k := tok (ASC_an + 2 * k); eapply stands_asc; [lia|cbn [asc_class]; try match goal with H : between 0 255 _ = true |- _ => rewrite H end; reflexivity|cbv beta; unfold p_graph, p_xdigit, letter, digit, c_alnum, c_digit, c_lower, c_upper, between; lia].
  unfold posix_meaning in HI. cbn [map fst snd] in HI.
  destruct HI as [[= <- <-]|HI]; [asc 0|]. destruct HI as [[= <- <-]|HI]; [asc 1|]. destruct HI as [[= <- <-]|HI]; [asc 2|]. destruct HI as [[= <- <-]|HI]; [asc 3|]. destruct HI as [[= <- <-]|HI]; [asc 4|].
  destruct HI as [[= <- <-]|HI]; [asc 5|]. destruct HI as [[= <- <-]|HI]; [asc 6|]. destruct HI as [[= <- <-]|HI]; [asc 7|]. destruct HI as [[= <- <-]|HI]; [asc 8|]. destruct HI as [[= <- <-]|HI]; [asc 9|].
  destruct HI as [[= <- <-]|HI]; [asc 10|]. destruct HI as [[= <- <-]|HI]; [asc 11|]. destruct HI as [[= <- <-]|HI]; [asc 12|]. destruct HI as [[= <- <-]|HI]; [asc 13|]. destruct HI.
Qed.
Lemma escapes_stand c P r : In (c, P) escape_meaning -> 0 <= r -> stands (esc_value c) P r /\ esc_value (c - 32) = esc_value c + 1.
Proof.
  intros HI Hr. unfold escape_meaning in HI. cbn [In] in HI. destruct HI as [[= <- <-]|[[= <- <-]|[[= <- <-]|[]]]]; (split; [|reflexivity]).
  - change (esc_value 100) with (UTF_GRP + 2 * 2). apply stands_group; [lia|]. apply (category_in 2). lia.
  - eapply stands_set; [reflexivity|unfold UTF_al; vm_compute; intuition discriminate|reflexivity|exact (space_ok r Hr)].
  - eapply stands_set; [reflexivity|unfold UTF_al; vm_compute; intuition discriminate|reflexivity|exact (word_ok r Hr)].
Qed.
(** ** Case *)
Lemma group_bmp g c : 65535 < c -> isgroup g c = false.
Proof.
  intros Hc. destruct (isgroup g c) eqn:E; [|reflexivity]. apply group_in in E as (a & b & HI & Hb). exfalso.
  assert (X : forallb (forallb (fun p => snd p <=? 65535)) groups = true) by (vm_compute; reflexivity). rewrite forallb_forall in X.
  destruct (Nat.lt_ge_cases (Z.to_nat g) (length groups)) as [L|G]; [|rewrite nth_overflow in HI by exact G; destruct HI]. specialize (X _ (nth_In groups [] L)). rewrite forallb_forall in X. specialize (X _ HI). cbn in X. lia.
Qed.
Definition in_rangesb (rs : list (Z * Z)) (c : Z) : bool := existsb (fun p => between (fst p) (snd p) c) rs.
Lemma in_rangesb_ok rs c : in_rangesb rs c = true <-> in_ranges rs c.
Proof.
  unfold in_rangesb, in_ranges. rewrite existsb_exists. split.
  - intros ([a b] & HI & Hc). apply b_between in Hc. exists a, b. auto.
  - intros (a & b & HI & Hc). exists (a, b). split; [exact HI|now apply b_between].
Qed.
Lemma lower_cat c : islower c = true -> in_ranges cat_Ll c.
Proof.
  intros H. rewrite <- in_rangesb_ok. pose proof H as H1. apply lower_ok in H1. apply Utf8_Proofs5.upper_with_dom in H1.
  assert (X : forallb (fun c => negb (islower c) || in_rangesb cat_Ll c) (Utf8_Proofs5.upper_dom low_entries) = true) by (vm_compute; reflexivity). rewrite forallb_forall in X. specialize (X c H1).
  cbv beta in X. rewrite H in X. exact X.
Qed.
(** U+1F5A, U+1F5C and U+1F5E are not characters; they lie between capital letters. *)
Definition not_chars : list Z := [8026; 8028; 8030].
Lemma upper_cat c : isupper c = true -> in_ranges cat_Lu c \/ In c not_chars.
Proof.
  intros H. rewrite <- in_rangesb_ok. pose proof H as H1. apply upper_ok in H1. apply Utf8_Proofs5.fold_with_dom in H1.
  assert (X : forallb (fun c => negb (isupper c) || in_rangesb cat_Lu c || existsb (Z.eqb c) not_chars) (Utf8_Proofs5.fold_dom up_entries) = true) by (vm_compute; reflexivity). rewrite forallb_forall in X. specialize (X c H1).
  cbv beta in X. rewrite H in X. cbn [negb orb] in X. apply orb_prop in X as [X|X]; [now left|right]. apply existsb_exists in X as (y & HI & E). apply Z.eqb_eq in E. now subst y.
Qed.
