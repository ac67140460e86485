(** Proofs about _fmt_parse: the field and the main loop follow the pure parser. *)
From Coq Require Import String.
From Verif Require Import Base Slots Fmt_Model Fmt_Spec Fmt_Proofs.

Lemma aget_last {A} (l : list A) d : l <> [] -> aget l (zlen l - 1) = Ok (last l d).
Proof.
  intros H. destruct (exists_last H) as (l0 & x & ->). rewrite last_last, zlen_app. change (zlen [x]) with 1.
  rewrite aget_app2 by lia. replace (zlen l0 + 1 - 1 - zlen l0) with 0 by lia. reflexivity.
Qed.

Lemma zlen_pos {A} (l : list A) : l <> [] -> 0 < zlen l.
Proof. destruct l; [congruence|]. rewrite zlen_cons. pose proof (zlen_nonneg l). lia. Qed.

Lemma ch_last pre rest : pre <> [] -> ch (pre ++ rest) (zlen pre - 1) = Ok (last pre 0).
Proof.
  intros H. pose proof (zlen_pos _ H). pose proof (zlen_nonneg rest). unfold ch. rewrite zlen_app.
  destruct (Z.eqb_spec (zlen pre - 1) (zlen pre + zlen rest)); [lia|].
  rewrite aget_app1 by lia. now apply aget_last.
Qed.

Lemma last_app_cons {A} (l : list A) x m d : last (l ++ x :: m) d = last (x :: m) d.
Proof.
  induction l as [|y l IH]; [reflexivity|]. cbn [app]. rewrite <- IH.
  destruct (l ++ x :: m) eqn:E; [destruct l; discriminate|reflexivity].
Qed.

Lemma last_In {A} (l : list A) d : l <> [] -> In (last l d) l.
Proof. intros H. destruct (exists_last H) as (l0 & x & ->). rewrite last_last. apply in_or_app. right. now left. Qed.

Lemma ablit1 {A} (l : list A) i x : ablit l i [x] = aset l i x.
Proof.
  destruct (Z.le_gt_cases 0 i) as [H1|H1]; [destruct (Z.lt_ge_cases i (zlen l)) as [H2|H2]|].
  - destruct (ablit_some l i [x] H1) as [l1 E1]; [change (zlen [x]) with 1; lia|].
    destruct (aset_some l i x) as [l2 E2]; [lia|]. rewrite E1, E2. f_equal.
    apply ablit_inv in E1 as (_ & _ & Z1 & G1). pose proof (aset_zlen _ _ _ _ E2) as Z2.
    apply aget_ext; [lia|]. intros j Hj. rewrite G1, (aget_aset _ _ _ _ j E2). change (zlen [x]) with 1.
    destruct (Z.leb_spec i j), (Z.ltb_spec j (i + 1)), (Z.eqb_spec j i); cbn [andb]; try lia; auto.
    subst. replace (i - i) with 0 by lia. reflexivity.
  - destruct (aset l i x) eqn:E2; [apply aset_inv in E2 as [? _]; lia|].
    destruct (ablit l i [x]) eqn:E1; [apply ablit_inv in E1 as (? & ? & _); change (zlen [x]) with 1 in *; lia|].
    unfold ablit in E1. unfold aset in E2. change (zlen [x]) with 1 in E1.
    destruct ((0 <=? i) && (i <? zlen l)); [discriminate|].
    destruct ((0 <=? i) && (i + 1 <=? zlen l)); [discriminate|]. congruence.
  - destruct (aset l i x) eqn:E2; [apply aset_inv in E2 as [? _]; lia|].
    destruct (ablit l i [x]) eqn:E1; [apply ablit_inv in E1 as (? & ? & _); change (zlen [x]) with 1 in *; lia|].
    unfold ablit in E1. unfold aset in E2. change (zlen [x]) with 1 in E1.
    destruct ((0 <=? i) && (i <? zlen l)); [discriminate|].
    destruct ((0 <=? i) && (i + 1 <=? zlen l)); [discriminate|]. congruence.
Qed.

Lemma insert_ok (s : slots Z) (o d : str) c : holds s (o ++ d) -> zlen o + zlen d + 1 <= zlen s ->
  exists s1 s2, amove s (zlen o) (zlen o + 1) (zlen o + zlen d - zlen o) = Ok s1 /\ wr s1 (zlen o) c = Ok s2 /\
    holds s2 (o ++ [c] ++ d) /\ zlen s2 = zlen s.
Proof.
  intros H Hz. pose proof (zlen_nonneg o). pose proof (zlen_nonneg d).
  destruct (holds_insert s (o ++ d) (zlen o) [c] H) as (s1 & s2 & M & W & Hh & Z1 & Z2).
  { rewrite zlen_app. lia. } { rewrite zlen_app. change (zlen [c]) with 1. lia. }
  rewrite zlen_app in M. change (zlen [c]) with 1 in M. exists s1, s2. split; [exact M|].
  unfold wrs in W. cbn [map] in W. rewrite ablit1 in W. split; [exact W|]. split; [|exact Z2].
  rewrite firstn_app, skipn_app in Hh. rewrite firstn_all2, skipn_all2 in Hh by (unfold zlen; lia).
  replace (Z.to_nat (zlen o) - length o)%nat with 0%nat in Hh by (unfold zlen; lia).
  cbn [firstn skipn app] in Hh. rewrite app_nil_r in Hh. exact Hh.
Qed.

Lemma in_conv_nz c : c <> 0 -> in_conv c = conversion c.
Proof. intros H. unfold in_conv, conversion, conv_chars. destruct (Z.eqb_spec c 0); [congruence|reflexivity]. Qed.

Lemma nonul_app l r : nonul (l ++ r) <-> nonul l /\ nonul r.
Proof. apply Forall_app. Qed.

Lemma prec_ok fmt size s pre rest out (empty : bool) arg :
  inv fmt size s pre rest out -> zlen out + zlen (if empty then default_prec [] arg else []) <= size ->
  exists s', (let a0 := match arg with [] => 0 | a :: _ => a end in
     if a0 =? chG then (if empty then puts s (bs ".8") else Ok s)
     else if a0 =? chAt then (if empty then puts s (bs ".16") else Ok s) else Ok s) = Ok s' /\
   inv fmt size s' pre rest (out ++ if empty then default_prec [] arg else []) /\ n s' = n s /\ args s' = args s.
Proof.
  intros I H. cbn zeta. destruct empty.
  - destruct arg as [|a r]; cbn [default_prec] in *.
    + exists s. rewrite app_nil_r. auto.
    + destruct (Z.eqb_spec a chG); [eapply puts_ok; eauto|]. destruct (Z.eqb_spec a chAt); [eapply puts_ok; eauto|].
      exists s. rewrite app_nil_r. auto.
  - exists s. rewrite app_nil_r. split; auto. destruct (match arg with [] => 0 | a :: _ => a end =? chG), (match arg with [] => 0 | a :: _ => a end =? chAt); auto.
Qed.

Lemma type_of_tl arg : (if (match arg with [] => 0 | a :: _ => a end) =? chAt then tl arg else arg) = type_of arg.
Proof. destruct arg as [|a r]; [reflexivity|]. cbn. reflexivity. Qed.

Lemma field_ok fuel nargs fmt size s pre rest out o r2 k2 codes2 :
  inv fmt size s (pre ++ [chOpen]) rest out -> nonul pre -> nonul rest -> nargs < 99 -> n s <= nargs ->
  zlen (args s) = nargs - n s + 1 -> (length rest < fuel)%nat ->
  pfield nargs rest (n s) (args s) = (o, r2, k2, codes2) -> zlen out + zlen o <= size ->
  exists s' pre', field fuel nargs fmt s = Ok s' /\ inv fmt size s' pre' r2 (out ++ o) /\ n s' = k2 /\ args s' = codes2 /\
    enough nargs k2 codes2 /\ nonul pre' /\ nonul r2 /\ (length r2 <= length rest)%nat.
Proof.
  intros I NP NR H99 Hn Ha Hfuel HP Hsz. unfold pfield in HP. unfold field.
  rewrite (inv_ch _ _ _ _ _ _ I). cbn [bind].
  set (c := hd 0 rest) in *.
  set (k1 := if negb (c =? chColon) && negb (c =? chClose) then 99 else n s) in *.
  set (r1 := if c =? chColon then tl rest else rest) in *.
  destruct (split r1) as [m t] eqn:ES. apply split_spec in ES as (Er1 & Fm & Ht).
  destruct (eat nargs m k1 (hd [] (args s)) (tl (args s))) as [[k2' arg] codes'] eqn:EE.
  injection HP as <- <- <- <-.
  set (pre1 := pre ++ [chOpen] ++ (if c =? chColon then [chColon] else [])).
  set (s1 := if negb (c =? chColon) && negb (c =? chClose) then setn s 99 else s).
  assert (I1 : inv fmt size s1 (pre ++ [chOpen]) rest out) by (unfold s1; destruct (_ && _); auto using setn_ok).
  assert (N1 : n s1 = k1 /\ args s1 = args s) by (unfold s1, k1; destruct (_ && _); auto).
  set (s2 := skipf s1 (if c =? chColon then 1 else 0)).
  assert (Nr1 : nonul r1).
  { unfold r1. destruct (c =? chColon); auto. destruct rest; cbn; auto. now inversion NR. }
  assert (Lr1 : (length r1 <= length rest)%nat).
  { unfold r1. destruct (c =? chColon); auto. destruct rest; cbn; auto. }
  assert (I2 : inv fmt size s2 pre1 r1 out).
  { unfold s2, pre1, r1. destruct (Z.eqb_spec c chColon) as [Ec|Ec].
    - unfold c in Ec. destruct rest as [|c0 rest']; [discriminate|]. cbn [hd] in Ec. subst c0. cbn [tl].
      apply skipf_ok in I1. rewrite <- app_assoc in I1. exact I1.
    - rewrite skipf0, app_nil_r. exact I1. }
  assert (N2 : n s2 = k1 /\ args s2 = args s) by exact N1. destruct N2 as [N2 A2]. clear N1 I1.
  rewrite (inv_ch _ _ _ _ _ _ I2). cbn [bind].
  unfold va_arg. rewrite A2. pose proof (zlen_nonneg (args s)). destruct (args s) as [|a codes] eqn:EA; [cbn in Ha; lia|].
  rewrite zlen_cons in Ha. cbn [bind fst snd hd tl] in *.
  set (s2' := mk (f s2) (p s2) (b s2) (n s2) codes).
  assert (I2' : inv fmt size s2' pre1 r1 out) by (destruct I2; constructor; auto).
  set (empty := hd 0 r1 =? chClose).
  assert (Eempty : empty = match m, t with [], _ :: _ => true | _, _ => false end).
  { unfold empty. rewrite Er1. destruct m as [|x m']; cbn [app hd].
    - destruct Ht as [->|[t' ->]]; reflexivity.
    - inversion_clear Fm as [|? ? F0 F1]. destruct (Z.eqb_spec x chClose); [congruence|reflexivity]. }
  rewrite <- Eempty in *.
  (* sizes *)
  set (own := conversion (last ((if c =? chColon then [chColon] else [chOpen]) ++ m) 0)) in *.
  set (B := flat_map drop_align m) in *. set (PR := if empty return list Z then default_prec [] arg else []) in *.
  set (TY := if own return list Z then [] else type_of arg) in *. set (d := B ++ PR ++ TY) in *.
  set (left := negb (existsb (Z.eqb chGt) m) && ((last (chPct :: d) 0 =? chS) || (last (chPct :: d) 0 =? chC))).
  assert (HG : gen_dir own empty m arg = chPct :: (if left then [chDash] else []) ++ d) by reflexivity.
  rewrite HG in Hsz |- *.
  assert (Hd : zlen d = zlen B + zlen PR + zlen TY) by (unfold d; rewrite !zlen_app; lia).
  pose proof (zlen_nonneg B). pose proof (zlen_nonneg PR). pose proof (zlen_nonneg TY). pose proof (zlen_nonneg out).
  rewrite zlen_cons, zlen_app in Hsz.
  assert (HL : 0 <= zlen (if left then [chDash] else [])) by (apply zlen_nonneg).
  destruct (put_ok _ _ _ _ _ _ chPct I2') as (s3 & -> & I3 & N3 & A3); [lia|]. cbn [bind].
  assert (P3 : p s3 = zlen out + 1) by (destruct I3 as [_ _ _ -> _]; rewrite zlen_app; reflexivity).
  rewrite Er1 in I3.
  assert (NM : nonul m /\ nonul t) by (rewrite Er1 in Nr1; now apply nonul_app). destruct NM as [Nm Nt].
  destruct (mods_ok nargs fmt size t m fuel s3 pre1 (out ++ [chPct]) (Some (p s3)) a I3) as (s4 & -> & I4 & N4 & A4 & En4); auto.
  { rewrite Er1, app_length in Lr1. lia. }
  { fold B. rewrite zlen_app. change (zlen [chPct]) with 1. lia. }
  { rewrite N3, A3. cbn [s2' n args]. rewrite N2. unfold enough, k1. destruct (_ && _); [left|right]; lia. }
  rewrite N3, A3 in *. cbn [s2' n args] in *. rewrite N2 in *. rewrite EE in *. cbn [fst snd] in *. fold B in I4.
  cbn [bind]. rewrite P3.
  destruct (prec_ok _ _ _ _ _ _ empty arg I4) as (s5 & E5 & I5 & N5 & A5).
  { fold PR. rewrite !zlen_app. change (zlen [chPct]) with 1. lia. }
  cbn zeta in E5. rewrite E5. cbn [bind]. clear E5. fold PR in I5.
  rewrite type_of_tl.
  assert (EL : ch fmt (f s5 - 1) = Ok (last ((if c =? chColon then [chColon] else [chOpen]) ++ m) 0)).
  { destruct I5 as [-> -> _ _ _]. rewrite ch_last.
    - unfold pre1. destruct (c =? chColon); cbn [app]; rewrite <- ?app_assoc; cbn [app].
      + rewrite last_app_cons. reflexivity.
      + now rewrite last_app_cons.
    - unfold pre1. destruct pre; discriminate. }
  rewrite EL. cbn [bind]. rewrite in_conv_nz.
  2:{ assert (NN : nonul ((if c =? chColon then [chColon] else [chOpen]) ++ m)).
      { apply nonul_app. split; auto. destruct (c =? chColon); repeat constructor; discriminate. }
      unfold nonul in NN. rewrite Forall_forall in NN. apply NN. apply last_In. destruct (c =? chColon); discriminate. }
  fold own.
  assert (exists s6, (if own then Ok s5 else puts s5 (type_of arg)) = Ok s6 /\
    inv fmt size s6 (pre1 ++ m) t (((out ++ [chPct]) ++ B) ++ PR ++ TY) /\ n s6 = n s5 /\ args s6 = args s5) as (s6 & -> & I6 & N6 & A6).
  { unfold TY. destruct own.
    - exists s5. rewrite app_nil_r. auto.
    - destruct (puts_ok fmt size (pre1 ++ m) t (type_of arg) s5 _ I5) as (s6 & E & I6 & R).
      { rewrite !zlen_app. change (zlen [chPct]) with 1. unfold TY in *. lia. }
      exists s6. rewrite <- !app_assoc in *. auto. }
  cbn [bind].
  assert (Eo : ((out ++ [chPct]) ++ B) ++ PR ++ TY = (out ++ [chPct]) ++ d) by (unfold d; now rewrite <- !app_assoc).
  rewrite Eo in I6.
  set (q := if existsb (Z.eqb chGt) m then None else Some (zlen out + 1)).
  assert (exists s7, match q with
             | None => Ok s6
             | Some q =>
               let* e := rd (b s6) (p s6 - 1) in
               if (e =? chS) || (e =? chC) then
                 let* b1 := amove (b s6) q (q + 1) (p s6 - q) in
                 let* b2 := wr b1 q chDash in
                 Ok (mk (f s6) (p s6 + 1) b2 (n s6) (args s6))
               else Ok s6
             end = Ok s7 /\ inv fmt size s7 (pre1 ++ m) t (out ++ [chPct] ++ (if left then [chDash] else []) ++ d)
             /\ n s7 = n s6 /\ args s7 = args s6) as (s7 & -> & I7 & N7 & A7).
  { unfold q, left. destruct (existsb (Z.eqb chGt) m) eqn:EG; cbn [negb andb].
    - exists s6. cbn [app]. rewrite <- app_assoc in I6. auto.
    - pose proof I6 as [Q1 Q2 Q3 Q4 Q5]. rewrite Q4.
      rewrite (holds_rd _ _ _ Q3) by lia. rewrite (aget_last _ 0) by (destruct out; discriminate). cbn [bind].
      rewrite <- app_assoc. cbn [app]. rewrite last_app_cons.
      destruct ((last (chPct :: d) 0 =? chS) || (last (chPct :: d) 0 =? chC)) eqn:EE2.
      + destruct (insert_ok (b s6) (out ++ [chPct]) d chDash Q3) as (b1 & b2 & M & W & Hh & Z2).
        { unfold left in Hsz. try rewrite EG in Hsz. cbn [negb andb] in Hsz. try rewrite EE2 in Hsz. change (zlen [chDash]) with 1 in Hsz.
          rewrite zlen_app. change (zlen [chPct]) with 1. lia. }
        replace (zlen (out ++ [chPct])) with (zlen out + 1) in M, W by (rewrite zlen_app; reflexivity).
        replace (zlen (out ++ chPct :: d) - (zlen out + 1)) with (zlen out + 1 + zlen d - (zlen out + 1))
          by (rewrite zlen_app, zlen_cons; lia).
        rewrite M. cbn [bind]. rewrite W. cbn [bind]. eexists. split; [reflexivity|]. split; [|auto].
        constructor; cbn [f p b]; auto; try lia.
        * rewrite <- app_assoc in Hh. exact Hh.
        * unfold zlen. rewrite ?app_length. cbn [length app]. rewrite ?app_length. cbn [length]. lia.
      + exists s6. split; [reflexivity|]. split; [|auto]. rewrite <- app_assoc in I6. exact I6. }
  cbn [bind]. rewrite (inv_ch _ _ _ _ _ _ I7). cbn [bind].
  destruct Ht as [->|[t' ->]]; cbn [hd tl] in *.
  - change (0 =? chClose) with false. rewrite skipf0. exists s7, (pre1 ++ m).
    split; [reflexivity|]. split; [exact I7|]. split; [congruence|]. split; [congruence|].
    split; [left; lia|]. split; [|split; [auto|cbn; lia]]. unfold pre1. rewrite !nonul_app. repeat split; auto.
    + repeat constructor; discriminate.
    + destruct (c =? chColon); repeat constructor; discriminate.
  - change (chClose =? chClose) with true. apply skipf_ok in I7.
    exists (skipf s7 1), ((pre1 ++ m) ++ [chClose]). split; [reflexivity|]. split; [exact I7|]. cbn [skipf n args].
    split; [congruence|]. split; [congruence|]. rewrite A4 in En4. split; [exact En4|].
    split; [|split; [now inversion Nt|rewrite Er1, app_length in Lr1; cbn [length] in *; lia]].
    unfold pre1. rewrite !nonul_app. repeat split; auto; try (repeat constructor; discriminate).
    destruct (c =? chColon); repeat constructor; discriminate.
Qed.
