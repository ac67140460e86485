(** cspan_print. *)
From Verif Require Import Base Cspan_Model Cspan_Spec Cspan_Proofs Cspan_Proofs2 Cspan_Proofs3.

Lemma upto_zup k n : upto k n = zup k n.
Proof. revert k; induction n as [|n IH]; intros k; cbn; f_equal; auto. Qed.
Lemma zup_app k a b : zup k (a + b) = zup k a ++ zup (k + Z.of_nat a) b.
Proof.
  revert k; induction a as [|a IH]; intros k; cbn [Nat.add zup app]; [now rewrite Z.add_0_r|]. rewrite IH. do 3 f_equal. lia.
Qed.

(** All tuples in lexicographic order. *)
Fixpoint tuples (ns : list Z) : list (list Z) :=
  match ns with [] => [[]] | n :: ns' => flat_map (fun i => map (cons i) (tuples ns')) (zup 0 (Z.to_nat n)) end.
Lemma tuples_in ns t : In t (tuples ns) <-> in_range t ns.
Proof.
  revert t; induction ns as [|n ns IH]; intros t; cbn [tuples].
  - split; [intros [<-|[]]; constructor|]. intros H. inversion H. left. reflexivity.
  - rewrite in_flat_map. split.
    + intros (i & Hi & Ht). apply in_map_iff in Ht as (t' & <- & Ht'). apply zup_in in Hi. apply IH in Ht'. constructor; [lia|exact Ht'].
    + intros H. inversion H as [|i ? t' ? Hi Ht]; subst. exists i. split; [apply zup_in; lia|]. apply in_map. now apply IH.
Qed.
Lemma row_offset_tuples ns : Forall (fun n => 0 < n) ns -> map (row_offset ns) (tuples ns) = zup 0 (Z.to_nat (prod ns)).
Proof.
  induction 1 as [|n ns Hn HN IH]; [reflexivity|]. cbn [tuples prod]. pose proof (prod_pos _ HN).
  assert (HX : forall m k, 0 <= k -> map (row_offset (n :: ns)) (flat_map (fun i => map (cons i) (tuples ns)) (zup k m)) = zup (k * prod ns) (m * Z.to_nat (prod ns))).
  { induction m as [|m IHm]; intros k Hk; [reflexivity|]. cbn [zup flat_map Nat.mul]. rewrite map_app, map_map, IHm by lia.
    assert (HZ : map (fun t => row_offset (n :: ns) (k :: t)) (tuples ns) = map (Z.add (k * prod ns)) (map (row_offset ns) (tuples ns))).
    { rewrite map_map. reflexivity. }
    rewrite HZ, IH. rewrite zup_app.
    assert (HW : forall c a b, map (Z.add c) (zup a b) = zup (c + a) b).
    { clear. intros c a b. revert a; induction b as [|b IHb]; intros a; cbn [zup map]; [reflexivity|]. rewrite IHb. do 2 f_equal. lia. }
    rewrite HW. f_equal; f_equal; lia. }
  rewrite HX by lia. f_equal. rewrite Z2Nat.inj_mul; lia.
Qed.

Lemma map_inj_eq (sh : list Z) (a b : list (list Z)) : Forall (fun q => in_range q sh) a -> Forall (fun q => in_range q sh) b ->
  map (row_offset sh) a = map (row_offset sh) b -> a = b.
Proof.
  intros Ha. revert b; induction Ha as [|x a Hx Ha IH]; intros [|y b] Hb E; cbn [map] in E; try discriminate; [reflexivity|].
  inversion Hb; subst. injection E as E1 E2. f_equal; [eapply row_offset_inj; eauto|auto].
Qed.

(** run lengths at the end of an index tuple *)
Definition zrun (k : nat) (ps : list Z) : nat := fold_left (fun k p => if p =? 0 then S k else O) ps k.
Definition lrun (k : nat) (ps sh : list Z) : nat := fold_left (fun k q => if fst q + 1 =? snd q then S k else O) (combine ps sh) k.

Lemma zeros_loop_ok ps r n : (r <= length ps)%nat -> zeros_loop ps r n = Ok (n + zrun 0 (firstn r ps))%nat.
Proof.
  revert n; induction r as [|r IH]; intros n H; [cbn; f_equal; lia|]. cbn [zeros_loop].
  destruct (nth_error_ex ps r ltac:(lia)) as [p Hp]. rewrite (proj2 (aget_nat _ _ _) Hp). cbn [bind].
  rewrite (firstn_snoc _ _ _ Hp). unfold zrun. rewrite fold_left_app. cbn [fold_left]. fold (zrun 0 (firstn r ps)).
  destruct (p =? 0); [rewrite IH by lia; f_equal; lia|f_equal; lia].
Qed.
Lemma combine_app {A B} (a c : list A) (b d : list B) : length a = length b -> combine (a ++ c) (b ++ d) = combine a b ++ combine c d.
Proof. revert b; induction a as [|x a IH]; intros [|y b] H; cbn in H; try discriminate; cbn; [reflexivity|]. rewrite IH by congruence. reflexivity. Qed.
Lemma lasts_loop_ok ps sh r n : (r <= length ps)%nat -> length ps = length sh -> lasts_loop ps sh r n = Ok (n + lrun 0 (firstn r ps) (firstn r sh))%nat.
Proof.
  intros H HL. revert n; induction r as [|r IH]; intros n; [cbn; f_equal; lia|]. cbn [lasts_loop].
  destruct (nth_error_ex ps r ltac:(lia)) as [p Hp]. rewrite (proj2 (aget_nat _ _ _) Hp). cbn [bind].
  destruct (nth_error_ex sh r ltac:(lia)) as [m Hm]. rewrite (proj2 (aget_nat _ _ _) Hm). cbn [bind].
  rewrite (firstn_snoc _ _ _ Hp), (firstn_snoc _ _ _ Hm). unfold lrun. rewrite combine_app by (rewrite !firstn_length; lia). rewrite fold_left_app. cbn [combine fold_left fst snd].
  fold (lrun 0 (firstn r ps) (firstn r sh)).
  destruct (p + 1 =? m); [rewrite IH by lia; f_equal; lia|f_equal; lia].
Qed.

Section Print.
Context {C A : Type}.
Variables (op cl sp nl : C) (comma : option C) (fld : bool -> A -> list C).
Definition comma_list : list C := match comma with Some c => [c] | None => [] end.

Definition pre (rk z : nat) : list C := if (0 <? z)%nat then repeat sp (rk - z) ++ repeat op z else [].
Definition tail_ (rk j : nat) : list C :=
  (if (j <? rk)%nat then comma_list else []) ++ repeat nl ((if (0 <? j)%nat then 1 else 0) + (if (1 <? j)%nat && (j <? rk)%nat then 1 else 0)).
Definition post (rk j : nat) : list C := repeat cl j ++ tail_ rk j.

Lemma zrun_le k ps : (zrun k ps <= k + length ps)%nat.
Proof. revert k; induction ps as [|p ps IH]; intros k; cbn [zrun fold_left length]; [lia|]. fold (zrun (if p =? 0 then S k else 0) ps). specialize (IH (if p =? 0 then S k else 0%nat)). destruct (p =? 0); lia. Qed.
Lemma lrun_le k ps sh : (lrun k ps sh <= k + length ps)%nat.
Proof.
  revert k sh; induction ps as [|p ps IH]; intros k [|n sh]; cbn [lrun combine fold_left length fst snd]; try (unfold lrun; cbn; lia).
  fold (lrun (if p + 1 =? n then S k else 0) ps sh). specialize (IH (if p + 1 =? n then S k else 0%nat) sh). destruct (p + 1 =? n); lia.
Qed.

Lemma print_assist_ok ps sh : length ps = length sh -> (length sh <= 8)%nat ->
  print_assist op cl sp nl comma ps sh = Ok (pre (length sh) (zrun 0 ps), post (length sh) (lrun 0 ps sh)).
Proof.
  intros HL H8. assert (F1 : firstn (length sh) ps = ps) by (rewrite <- HL; apply firstn_all).
  unfold print_assist. rewrite zeros_loop_ok by lia. cbn [bind Nat.add]. rewrite F1.
  assert (Hz : (zrun 0 ps <= length sh)%nat) by (pose proof (zrun_le 0 ps); lia).
  assert (Hr0 : forall z, (z <= length sh)%nat -> room16 (if (0 <? z)%nat then repeat sp (length sh - z) ++ repeat op z else []) = Ok (pre (length sh) z)).
  { intros z Hzz. unfold room16, pre. assert (HH : (length (if (0 <? z)%nat then repeat sp (length sh - z) ++ repeat op z else []) < 16)%nat).
    { destruct (0 <? z)%nat; [rewrite app_length, !repeat_length; lia|cbn; lia]. }
    apply Nat.ltb_lt in HH. rewrite HH. reflexivity. }
  rewrite Hr0 by exact Hz. cbn [bind]. rewrite lasts_loop_ok by lia. cbn [bind Nat.add]. rewrite F1, firstn_all.
  pose proof (lrun_le 0 ps sh) as Hl. cbn [Nat.add] in Hl. rewrite HL in Hl. set (j := lrun 0 ps sh) in *.
  unfold room16, post, tail_, comma_list.
  assert (E : match comma with Some c => if (j <? length sh)%nat then [c] else [] | None => [] end = (if (j <? length sh)%nat then match comma with Some c => [c] | None => [] end else [])).
  { destruct comma, (j <? length sh)%nat; reflexivity. }
  rewrite E. match goal with |- context [(length ?l <? 16)%nat] => assert (HH : (length l < 16)%nat) end.
  { rewrite !app_length, !repeat_length. destruct comma; destruct (Nat.ltb_spec j (length sh)), (0 <? j)%nat, (1 <? j)%nat; cbn; lia. }
  apply Nat.ltb_lt in HH. rewrite HH. reflexivity.
Qed.

Definition chunk (sh : list Z) (q : list Z * A) : list C :=
  pre (length sh) (zrun 0 (fst q)) ++ fld (0 <? last (fst q) 0) (snd q) ++ post (length sh) (lrun 0 (fst q) sh).

Lemma last_aget ps (r : nat) : length ps = S r -> aget ps (Z.of_nat r) = Ok (last ps 0).
Proof.
  intros H. destruct (@exists_last _ ps) as (a & x & ->); [intros ->; discriminate|]. rewrite last_last. apply aget_nat_mid. rewrite app_length in H. cbn in H. lia.
Qed.

Lemma print_loop_each mem s : (length (shape s) <= 8)%nat -> shape s <> [] -> forall fuel it l, each_loop fuel mem s it = Ok l -> Forall (fun q => length (fst q) = length (shape s)) l ->
  print_loop op cl sp nl comma fld fuel mem s it = Ok (concat (map (chunk (shape s)) l)).
Proof.
  intros H8 Hne. induction fuel as [|f IH]; intros it l H HF; cbn [each_loop print_loop] in *; [discriminate|].
  destruct (ref it) as [p|]; [|injection H as <-; reflexivity].
  apply bind_ok in H as (x & Hx & H). apply bind_ok in H as (it1 & Hi & H). apply bind_ok in H as (l1 & Hl & H). injection H as <-.
  inversion HF as [|? ? HF1 HF2]; subst. cbn [fst] in HF1.
  rewrite print_assist_ok by auto. cbn [bind].
  assert (Hr : length (pos it) = S (rank s - 1)) by (unfold rank; destruct (shape s); [congruence|cbn [length] in *; lia]).
  rewrite (last_aget _ _ Hr). cbn [bind]. rewrite Hx. cbn [bind]. rewrite Hi. cbn [bind]. rewrite (IH _ _ Hl HF2). cbn [bind fst snd map concat]. unfold chunk. cbn [fst snd].
  rewrite <- !app_assoc. reflexivity.
Qed.

Variable el : list Z -> list C.
Lemma zrun_app k a b : zrun k (a ++ b) = zrun (zrun k a) b.
Proof. unfold zrun. apply fold_left_app. Qed.
Lemma lrun_app k a b c d : length a = length c -> lrun k (a ++ b) (c ++ d) = lrun (lrun k a c) b d.
Proof. intros H. unfold lrun. rewrite combine_app by exact H. apply fold_left_app. Qed.

Lemma concat_zup (g h : Z -> list C) (first lastt : list C) n : (0 < n)%nat ->
  (forall i, 0 <= i < Z.of_nat n -> g i = (if i =? 0 then first else []) ++ h i ++ (if i =? Z.of_nat n - 1 then lastt else [])) ->
  concat (map g (zup 0 n)) = first ++ concat (map h (zup 0 n)) ++ lastt.
Proof.
  intros Hn H.
  assert (HX : forall m k, (0 < m)%nat -> 0 <= k -> k + Z.of_nat m = Z.of_nat n ->
            concat (map g (zup k m)) = (if k =? 0 then first else []) ++ concat (map h (zup k m)) ++ lastt).
  { induction m as [|m IH]; intros k Hm Hk Hs; [lia|]. cbn [zup map concat]. rewrite H by lia. destruct m as [|m].
    - cbn [zup map concat]. replace (k =? Z.of_nat n - 1) with true by (symmetry; apply Z.eqb_eq; lia). rewrite !app_nil_r, <- ?app_assoc. reflexivity.
    - rewrite IH by lia. replace (k =? Z.of_nat n - 1) with false by (symmetry; apply Z.eqb_neq; lia).
      replace (k + 1 =? 0) with false by (symmetry; apply Z.eqb_neq; lia). cbn [app]. rewrite app_nil_r. rewrite <- ?app_assoc. reflexivity. }
  rewrite (HX n 0) by lia. reflexivity.
Qed.

Lemma flat_map_concat_map' {X Y} (f : X -> list Y) l : flat_map f l = concat (map f l).
Proof. induction l; cbn; congruence. Qed.
Lemma concat_concat_map {X Y} (f : X -> list (list Y)) (l : list X) : concat (concat (map f l)) = concat (map (fun x => concat (f x)) l).
Proof. induction l; cbn; auto. rewrite concat_app. congruence. Qed.

Lemma block rk ns : Forall (fun n => 0 < n) ns -> forall idx sh, length idx = length sh -> (length idx + length ns)%nat = rk ->
  concat (map (fun t => pre rk (zrun 0 (idx ++ t)) ++ el (idx ++ t) ++ post rk (lrun 0 (idx ++ t) (sh ++ ns))) (tuples ns)) =
  (if (0 <? zrun 0 idx + length ns)%nat then repeat sp (rk - (zrun 0 idx + length ns)) else []) ++ repeat op (zrun 0 idx) ++
  text op cl sp nl comma_list rk el ns idx ++ repeat cl (lrun 0 idx sh) ++ tail_ rk (lrun 0 idx sh + length ns).
Proof.
  induction 1 as [|n ns Hn HN IH]; intros idx sh HL HK.
  - cbn [tuples map concat length text]. rewrite !app_nil_r, !Nat.add_0_r. unfold pre, post. destruct (Nat.ltb_spec 0 (zrun 0 idx)) as [Hz|Hz].
    + rewrite <- !app_assoc. reflexivity.
    + replace (zrun 0 idx) with 0%nat by lia. cbn [repeat app]. rewrite <- ?app_assoc. reflexivity.
  - cbn [tuples length] in *. rewrite flat_map_concat_map', concat_map, map_map, concat_concat_map.
    set (z := zrun 0 idx) in *. set (c := lrun 0 idx sh) in *. set (m := length ns) in *.
    assert (Hz : (z <= length idx)%nat) by (unfold z; pose proof (zrun_le 0 idx); lia).
    assert (Hc : (c <= length idx)%nat) by (unfold c; pose proof (lrun_le 0 idx sh); lia).
    cbn [text]. change (upto 0 (Z.to_nat n)) with (zup 0 (Z.to_nat n)). fold m.
    rewrite (concat_zup _ (fun i => (if i =? 0 then [] else indent sp rk m) ++ text op cl sp nl comma_list rk el ns (idx ++ [i]) ++ (if i =? n - 1 then [] else separator nl comma_list m))
               (repeat sp (rk - (z + S m)) ++ repeat op z ++ [op]) ([cl] ++ repeat cl c ++ tail_ rk (c + S m))).
    + replace (0 <? z + S m)%nat with true by (symmetry; apply Nat.ltb_lt; lia). rewrite <- !app_assoc. reflexivity.
    + lia.
    + intros i Hi. rewrite map_map.
      specialize (IH (idx ++ [i]) (sh ++ [n])). rewrite !app_length in IH. cbn [length] in IH. specialize (IH ltac:(lia) ltac:(lia)).
      assert (Em : map (fun x => pre rk (zrun 0 (idx ++ i :: x)) ++ el (idx ++ i :: x) ++ post rk (lrun 0 (idx ++ i :: x) (sh ++ n :: ns))) (tuples ns) =
                   map (fun t => pre rk (zrun 0 ((idx ++ [i]) ++ t)) ++ el ((idx ++ [i]) ++ t) ++ post rk (lrun 0 ((idx ++ [i]) ++ t) ((sh ++ [n]) ++ ns))) (tuples ns)).
      { apply map_ext. intros t. rewrite <- !app_assoc. reflexivity. }
      rewrite Em, IH. rewrite zrun_app, lrun_app by exact HL. fold z. fold c. fold m.
      replace (zrun z [i]) with (if Z.eqb i 0%Z then S z else O) by reflexivity.
      replace (lrun c [i] [n]) with (if Z.eqb (Z.add i 1%Z) n then S c else O) by reflexivity.
      replace (i =? Z.of_nat (Z.to_nat n) - 1) with (i + 1 =? n) by (destruct (Z.eqb_spec (i + 1) n), (Z.eqb_spec i (Z.of_nat (Z.to_nat n) - 1)); lia).
      replace (i =? n - 1) with (i + 1 =? n) by (destruct (Z.eqb_spec (i + 1) n), (Z.eqb_spec i (n - 1)); lia).
      assert (HP : forall W, (if (0 <? (if Z.eqb i 0%Z then S z else O) + m)%nat then repeat sp (rk - ((if Z.eqb i 0%Z then S z else O) + m)) else []) ++ repeat op (if Z.eqb i 0%Z then S z else O) ++ W =
                   (if i =? 0 then repeat sp (rk - (z + S m)) ++ repeat op z ++ [op] else []) ++ (if i =? 0 then [] else indent sp rk m) ++ W).
      { intros W. destruct (i =? 0).
        - replace (0 <? S z + m)%nat with true by (symmetry; apply Nat.ltb_lt; lia). replace (S z + m)%nat with (z + S m)%nat by lia.
          rewrite <- !app_assoc. cbn [app]. f_equal. replace (S z) with (z + 1)%nat by lia. rewrite repeat_app. rewrite <- app_assoc. reflexivity.
        - cbn [Nat.add repeat app]. unfold indent. destruct m; reflexivity. }
      assert (HQ : repeat cl (if Z.eqb (Z.add i 1%Z) n then S c else O) ++ tail_ rk ((if Z.eqb (Z.add i 1%Z) n then S c else O) + m) =
                   (if i + 1 =? n then [] else separator nl comma_list m) ++ (if i + 1 =? n then [cl] ++ repeat cl c ++ tail_ rk (c + S m) else [])).
      { destruct (i + 1 =? n).
        - cbn [repeat app]. replace (S c + m)%nat with (c + S m)%nat by lia. reflexivity.
        - cbn [repeat app Nat.add]. rewrite app_nil_r. unfold tail_, separator. replace (m <? rk)%nat with true by (symmetry; apply Nat.ltb_lt; lia).
          destruct m as [|[|m]]; reflexivity. }
      rewrite HP, HQ. rewrite <- !app_assoc. reflexivity.
Qed.
End Print.

Lemma print_ok {C A} (op cl sp nl : C) (comma : option C) (fld : bool -> A -> list C) (mem : list A) s (val : list Z -> A) :
  in_mem mem s -> (length (shape s) <= 8)%nat -> (forall idx, in_range idx (shape s) -> aget mem (data s + dot idx (stride s)) = Ok (val idx)) ->
  print op cl sp nl comma fld (S (Z.to_nat (prod (shape s)))) mem s =
  Ok (text op cl sp nl (comma_list comma) (length (shape s)) (fun idx => fld (0 <? last idx 0) (val idx)) (shape s) [] ++ [nl]).
Proof.
  intros HM H8 HV. pose proof HM as (H1 & H2 & H3 & H4). destruct (each_ok mem s HM) as (l & E & F & M).
  assert (HF : Forall (fun q => in_range q (shape s)) (map fst l)). { rewrite Forall_map. revert F. apply Forall_impl. intros q [Hq _]. exact Hq. }
  rewrite <- map_map in M. rewrite <- row_offset_tuples in M by exact H3.
  apply map_inj_eq in M; [|exact HF|apply Forall_forall; intros t Ht; now apply tuples_in].
  assert (El : l = map (fun t => (t, val t)) (tuples (shape s))).
  { rewrite <- M, map_map. rewrite <- (map_id l) at 1. apply map_ext_in. intros [t x] Hq. rewrite Forall_forall in F. apply F in Hq as [Hq1 Hq2]. cbn [fst snd] in *. rewrite HV in Hq2 by exact Hq1. congruence. }
  unfold print. unfold each in E. rewrite (print_loop_each op cl sp nl comma fld mem s H8 H2 _ _ _ E).
  2:{ revert F. apply Forall_impl. intros q [Hq _]. now apply in_range_length. }
  f_equal. rewrite El, map_map. unfold chunk. cbn [fst snd].
  pose proof (block op cl sp nl comma (fun idx => fld (0 <? last idx 0) (val idx)) (length (shape s)) (shape s) H3 [] [] eq_refl eq_refl) as B.
  cbn [app] in B. rewrite B. cbn [zrun lrun fold_left combine Nat.add repeat app]. rewrite Nat.sub_diag. cbn [repeat].
  destruct (length (shape s)) as [|r] eqn:Er; [destruct (shape s); [congruence|discriminate]|]. cbn [Nat.ltb Nat.leb app].
  f_equal. unfold tail_. rewrite Nat.ltb_irrefl. rewrite Bool.andb_false_r. reflexivity.
Qed.
