(** Proofs about _fmt_parse: the main loop, the grammar, and the length of the output. *)
From Coq Require Import String.
From Verif Require Import Base Slots Fmt_Model Fmt_Spec Fmt_Proofs Fmt_Proofs2.

Lemma pfield_len nargs r k codes o r2 k2 codes2 : pfield nargs r k codes = (o, r2, k2, codes2) -> (length r2 <= length r)%nat.
Proof.
  unfold pfield. intros H. destruct (split _) as [m t] eqn:E. apply split_spec in E as (E & _ & _).
  destruct (eat _ _ _ _ _) as [[? ?] ?]. injection H as _ <- _ _.
  assert (length t <= length r)%nat.
  { assert (length (if (hd 0 r =? chColon)%Z then tl r else r) <= length r)%nat.
    { destruct (_ =? _); auto. destruct r; cbn; lia. }
    rewrite E, app_length in H. lia. }
  destruct t; cbn in *; lia.
Qed.

Lemma loop_ok nargs fmt size : nargs < 99 -> forall fuel s pre rest out,
  inv fmt size s pre rest out -> nonul pre -> nonul rest -> enough nargs (n s) (args s) -> (length rest < fuel)%nat ->
  zlen out + zlen (fst (parse fuel nargs rest (n s) (args s))) + 1 <= size ->
  exists s', loop fuel nargs fmt s = Ok s' /\ holds (b s') (out ++ fst (parse fuel nargs rest (n s) (args s)) ++ [0]) /\
    zlen (b s') = size /\ n s' = snd (parse fuel nargs rest (n s) (args s)).
Proof.
  intros H99. induction fuel as [|fuel IH]; intros s pre rest out I NP NR He Hf Hsz; [lia|].
  cbn [loop]. cbv zeta. rewrite (inv_ch _ _ _ _ _ _ I). cbn [bind].
  destruct rest as [|c r]; cbn [hd parse] in *.
  { change (0 =? chPct) with false. change (0 =? chClose) with false. change (0 =? chOpen) with false. cbn iota.
    cbn [bind hd fst snd].
    destruct (put_ok _ _ _ _ _ _ 0 I) as (s1 & -> & I1 & N1 & A1); [change (zlen (fst (([] : str), n s))) with 0 in Hsz; lia|].
    cbn [bind]. change (0 =? 0) with true. eexists. split; [reflexivity|]. destruct I1. cbn [skipf b n app]. auto. }
  pose proof NR as NR0. inversion_clear NR as [|? ? Nc Nr]. cbn [length] in Hf.
  assert (NP1 : nonul (pre ++ [c])) by (apply nonul_app; split; auto; repeat constructor; auto).
  assert (Copy : forall s1 pre1 c1 r1 out1 k codes, inv fmt size s1 pre1 (c1 :: r1) out1 -> nonul pre1 -> nonul (c1 :: r1) ->
     (length r1 < fuel)%nat -> n s1 = k -> args s1 = codes -> enough nargs k codes ->
     zlen out1 + (1 + zlen (fst (parse fuel nargs r1 k codes))) + 1 <= size ->
     exists s', ch fmt (f s1) = Ok c1 /\ (let* s1 := put s1 c1 in let s2 := skipf s1 1 in
        if c =? 0 then Ok s2 else loop fuel nargs fmt s2) = Ok s' /\
       holds (b s') (out1 ++ ([c1] ++ fst (parse fuel nargs r1 k codes)) ++ [0]) /\ zlen (b s') = size /\
       n s' = snd (parse fuel nargs r1 k codes)).
  { intros s1 pre1 c1 r1 out1 k codes I1 NP2 NR1 Hf1 <- <- He1 Hs1.
    pose proof (zlen_nonneg (fst (parse fuel nargs r1 (n s1) (args s1)))).
    destruct (put_ok _ _ _ _ _ _ c1 I1) as (s2 & -> & I2 & N2 & A2); [lia|]. cbn [bind].
    destruct (Z.eqb_spec c 0) as [|_]; [congruence|]. apply skipf_ok in I2. inversion_clear NR1.
    destruct (IH (skipf s2 1) (pre1 ++ [c1]) r1 (out1 ++ [c1]) I2) as (s' & E & Hh & Hz & Hn); auto.
    - apply nonul_app. split; auto. repeat constructor; auto.
    - cbn [skipf n args]. congruence.
    - cbn [skipf n args]. rewrite N2, A2, zlen_app. change (zlen [c1]) with 1. lia.
    - cbn [skipf n args] in *. rewrite N2, A2 in *. exists s'. rewrite <- !app_assoc in *. split; [exact (inv_ch _ _ _ _ _ _ I1)|]. auto. }
  destruct (Z.eqb_spec c chPct) as [->|H1].
  { cbn [fst snd app] in Hsz |- *. rewrite !zlen_cons in Hsz.
    pose proof (zlen_nonneg (fst (parse fuel nargs r (n s) (args s)))).
    destruct (put_ok _ _ _ _ _ _ chPct I) as (s1 & -> & I1 & N1 & A1); [lia|]. cbn [bind].
    destruct (Copy s1 pre chPct r (out ++ [chPct]) (n s) (args s)) as (s' & EC & E & Hh & R); auto; try lia.
    { rewrite zlen_app. change (zlen [chPct]) with 1. lia. }
    exists s'. rewrite EC. split; [exact E|]. rewrite <- !app_assoc in Hh. auto. }
  destruct (Z.eqb_spec c chClose) as [->|H2].
  { pose proof (skipf_ok _ _ _ _ _ _ _ I) as I1. rewrite (inv_ch _ _ _ _ _ _ I1). cbn [bind].
    assert (Bad : hd 0 r <> chClose -> zlen out + zlen (fst (parse fuel nargs r 99 (args s))) + 1 <= size ->
      exists s', loop fuel nargs fmt (setn (skipf s 1) 99) = Ok s' /\
       holds (b s') (out ++ fst (parse fuel nargs r 99 (args s)) ++ [0]) /\ zlen (b s') = size /\ n s' = snd (parse fuel nargs r 99 (args s))).
    { intros _ Hs. apply (IH (setn (skipf s 1) 99) (pre ++ [chClose]) r out); auto using setn_ok; try lia. left. cbn. lia. }
    destruct r as [|d r2]; cbn [hd] in *.
    - change (0 =? chClose) with false. apply Bad; [discriminate|exact Hsz].
    - destruct (Z.eqb_spec d chClose) as [->|Hd]; [|apply Bad; auto].
      cbn [fst snd app] in Hsz |- *. rewrite zlen_cons in Hsz. cbn [length] in Hf.
      destruct (Copy (skipf s 1) (pre ++ [chClose]) chClose r2 out (n s) (args s)) as (s' & EC & R); auto; try lia.
      exists s'. exact R. }
  destruct (Z.eqb_spec c chOpen) as [->|H3].
  { pose proof (skipf_ok _ _ _ _ _ _ _ I) as I1. rewrite (inv_ch _ _ _ _ _ _ I1). cbn [bind].
    set (other := if n s + 1 >? nargs then parse fuel nargs r (n s + 1) (args s)
                   else let '(o, r2, k2, codes2) := pfield nargs r (n s + 1) (args s) in
                        (o ++ fst (parse fuel nargs r2 k2 codes2), snd (parse fuel nargs r2 k2 codes2))) in *.
    assert (Oth : hd 0 r <> chOpen -> zlen out + zlen (fst other) + 1 <= size ->
      exists s', (if n (setn (skipf s 1) (n (skipf s 1) + 1)) >? nargs then loop fuel nargs fmt (setn (skipf s 1) (n (skipf s 1) + 1)) else
        let* s3 := field fuel nargs fmt (setn (skipf s 1) (n (skipf s 1) + 1)) in loop fuel nargs fmt s3) = Ok s' /\
       holds (b s') (out ++ fst other ++ [0]) /\ zlen (b s') = size /\ n s' = snd other).
    { intros Hd Hs. cbn [setn skipf n]. unfold other in *. clear other.
      set (s2 := setn (skipf s 1) (n s + 1)).
      assert (I2 : inv fmt size s2 (pre ++ [chOpen]) r out) by (now apply setn_ok).
      destruct (Z.gtb_spec (n s + 1) nargs) as [Hg|Hg].
      - apply (IH s2 (pre ++ [chOpen]) r out); auto; try lia. left. cbn. lia.
      - destruct (pfield nargs r (n s + 1) (args s)) as [[[o r2] k2] codes2] eqn:EF. cbn [fst snd] in *.
        rewrite zlen_app in Hs. pose proof (zlen_nonneg (fst (parse fuel nargs r2 k2 codes2))).
        destruct He as [He|He]; [lia|].
        destruct (field_ok fuel nargs fmt size s2 pre r out o r2 k2 codes2) as (s3 & pre3 & -> & I3 & N3 & A3 & E3 & P3 & R3 & L3);
          auto; try (cbn [s2 setn skipf n args]; lia).
        cbn [bind].
        destruct (IH s3 pre3 r2 (out ++ o) I3) as (s' & E & Hh & R); auto; try lia.
        + rewrite N3, A3. exact E3.
        + rewrite N3, A3, zlen_app. lia.
        + rewrite N3, A3 in *. exists s'. rewrite <- !app_assoc in Hh |- *. auto. }
    destruct r as [|d r2]; cbn [hd] in *.
    - change (0 =? chOpen) with false. apply Oth; [discriminate|exact Hsz].
    - destruct (Z.eqb_spec d chOpen) as [->|Hd]; [|apply Oth; auto].
      cbn [fst snd app] in Hsz |- *. rewrite zlen_cons in Hsz. cbn [length] in Hf.
      destruct (Copy (skipf s 1) (pre ++ [chOpen]) chOpen r2 out (n s) (args s)) as (s' & EC & R); auto; try lia.
      exists s'. exact R. }
  cbn [fst snd app] in Hsz |- *. rewrite zlen_cons in Hsz.
  destruct (Copy s pre c r out (n s) (args s)) as (s' & EC & R); auto; try lia. exists s'. exact R.
Qed.

(** * The grammar *)
Lemma stars_nonneg m : 0 <= stars m.
Proof. apply zlen_nonneg. Qed.
Lemma stars_cons c m : stars (c :: m) = (if c =? chStar then 1 else 0) + stars m.
Proof. unfold stars. cbn [filter]. rewrite (Z.eqb_sym chStar c). destruct (_ =? _); [rewrite zlen_cons|]; lia. Qed.

Lemma eat_n nargs m : forall k arg codes, fst (fst (eat nargs m k arg codes)) = k + stars m.
Proof.
  induction m as [|c m IH]; intros; cbn [eat].
  - cbn. lia.
  - rewrite stars_cons. destruct (c =? chStar); [destruct (_ <=? _)|]; rewrite IH; lia.
Qed.

Lemma skipn_tl {A} k (l : list A) : skipn k (tl l) = skipn (S k) l.
Proof. destruct l; [now rewrite skipn_nil|reflexivity]. Qed.

Lemma eat_spec nargs m : forall k arg codes, k + stars m <= nargs -> stars m <= zlen codes ->
  eat nargs m k arg codes = (k + stars m, nth (Z.to_nat (stars m)) (arg :: codes) [], skipn (Z.to_nat (stars m)) codes).
Proof.
  induction m as [|c m IH]; intros k arg codes H1 H2; cbn [eat].
  - cbn. now rewrite Z.add_0_r.
  - rewrite stars_cons in *. pose proof (stars_nonneg m). destruct (c =? chStar).
    + destruct (Z.leb_spec (k + 1) nargs); [|lia]. destruct codes as [|a codes]; [change (zlen (@nil str)) with 0 in H2; lia|].
      rewrite zlen_cons in H2. cbn [hd tl]. rewrite IH by lia.
      replace (Z.to_nat (1 + stars m)) with (S (Z.to_nat (stars m))) by lia. cbn [nth skipn].
      replace (k + 1 + stars m) with (k + (1 + stars m)) by lia. reflexivity.
    + rewrite IH by lia. replace (0 + stars m) with (stars m) by lia. reflexivity.
Qed.

Lemma split_close m t : Forall (fun c => c <> 0 /\ c <> chClose) m -> split (m ++ chClose :: t) = (m, chClose :: t).
Proof.
  induction 1 as [|c m [_ Hc] H IH]; cbn [split app]; [reflexivity|].
  destruct (Z.eqb_spec c chClose); [congruence|]. now rewrite IH.
Qed.

Lemma gen_dir_eq c m arg : conversion c = false ->
  gen_dir (conversion (last (c :: m) 0)) (match m with [] => true | _ => false end) m arg = directive m arg.
Proof.
  intros Hc. unfold gen_dir, directive, dir_type, has_conversion.
  assert (E1 : conversion (last (c :: m) 0) = conversion (last m 0)).
  { destruct m; [cbn [last]; rewrite Hc; reflexivity|reflexivity]. }
  rewrite E1.
  assert (E2 : (if match m with [] => true | _ => false end return list Z then default_prec [] arg else []) = default_prec m arg)
    by (destruct m; reflexivity).
  rewrite E2. set (d := flat_map drop_align m ++ _).
  assert (E3 : (last (chPct :: d) 0 =? chS) || (last (chPct :: d) 0 =? chC) = (last d 0 =? chS) || (last d 0 =? chC))
    by (destruct d; reflexivity).
  rewrite E3. reflexivity.
Qed.

Lemma pfield_ok nargs o t k codes : tok_ok (TField o) -> k + 1 + stars (mods_of o) <= nargs ->
  uses1 (TField o) <= zlen codes ->
  pfield nargs (skipn 1 (write1 (TField o)) ++ t) (k + 1) codes =
    (directive (mods_of o) (nth (Z.to_nat (stars (mods_of o))) codes []), t, k + uses1 (TField o),
     skipn (Z.to_nat (uses1 (TField o))) codes).
Proof.
  intros Hok Hn Hu. cbn [uses1] in *. pose proof (stars_nonneg (mods_of o)).
  destruct codes as [|a codes]; [change (zlen (@nil str)) with 0 in Hu; lia|]. rewrite zlen_cons in Hu.
  unfold pfield. destruct o as [m|]; cbn [mods_of write1] in *.
  - change (skipn 1 (bs "{:" ++ m ++ bs "}") ++ t) with (chColon :: ((m ++ bs "}") ++ t)). cbn [hd tl].
    change (chColon =? chColon) with true. cbn [negb andb]. cbn iota.
    rewrite <- app_assoc. change (bs "}" ++ t) with (chClose :: t). rewrite split_close by exact Hok.
    rewrite eat_spec by lia. cbn [app].
    replace (Z.to_nat (1 + stars m)) with (S (Z.to_nat (stars m))) by lia. cbn [skipn tl].
    replace (k + 1 + stars m) with (k + (1 + stars m)) by lia.
    rewrite <- (gen_dir_eq chColon) by reflexivity. destruct m; reflexivity.
  - change (skipn 1 (bs "{}") ++ t) with (chClose :: t). cbn [hd tl].
    change (chClose =? chColon) with false. change (chClose =? chClose) with true. cbn [negb andb]. cbn iota.
    cbn [split]. change (chClose =? chClose) with true. cbn iota. cbn [eat app].
    change (stars []) with 0. change (Z.to_nat (1 + 0)) with 1%nat. change (Z.to_nat 0) with 0%nat. cbn [skipn nth tl].
    replace (k + 1) with (k + (1 + 0)) by lia.
    rewrite <- (gen_dir_eq chOpen) by reflexivity. reflexivity.
Qed.

Lemma skipn1_field o : write1 (TField o) = chOpen :: skipn 1 (write1 (TField o)).
Proof. destruct o; reflexivity. Qed.
Lemma uses_nonneg ts : 0 <= uses ts.
Proof. induction ts as [|t r IH]; cbn [uses]; [lia|]. destruct t; cbn [uses1]; try lia. pose proof (stars_nonneg (mods_of mods)). lia. Qed.

Lemma parse_write nargs : forall ts fuel k codes, Forall tok_ok ts -> zlen codes = uses ts -> k + uses ts = nargs ->
  (length (write ts) < fuel)%nat -> parse fuel nargs (write ts) k codes = (translate ts codes, nargs).
Proof.
  induction ts as [|t ts IH]; intros fuel k codes Hok Hc Hk Hf.
  { destruct fuel; [lia|]. cbn in *. f_equal. lia. }
  inversion_clear Hok as [|? ? O1 O2]. destruct fuel as [|fuel]; [lia|].
  unfold write in *. cbn [flat_map uses translate] in *. rewrite app_length in Hf. fold (write ts) in *.
  pose proof (uses_nonneg ts).
  destruct t as [c| | | |o].
  - destruct O1 as (C0 & C1 & C2 & C3). cbn [write1 app parse length] in *.
    destruct (Z.eqb_spec c chPct); [congruence|]. destruct (Z.eqb_spec c chClose); [congruence|].
    destruct (Z.eqb_spec c chOpen); [congruence|]. cbn [uses1] in *.
    rewrite (IH fuel k codes) by (auto; lia). reflexivity.
  - cbn [uses1] in *. change (length (write1 TPct)) with 1%nat in Hf.
    change (write1 TPct ++ write ts) with (chPct :: write ts). cbn [parse]. change (chPct =? chPct) with true. cbn iota.
    rewrite (IH fuel k codes) by (auto; lia). reflexivity.
  - cbn [uses1] in *. change (length (write1 TOpen)) with 2%nat in Hf.
    change (write1 TOpen ++ write ts) with (chOpen :: chOpen :: write ts). cbn [parse].
    change (chOpen =? chPct) with false. change (chOpen =? chClose) with false. change (chOpen =? chOpen) with true. cbn iota.
    rewrite (IH fuel k codes) by (auto; lia). reflexivity.
  - cbn [uses1] in *. change (length (write1 TClose)) with 2%nat in Hf.
    change (write1 TClose ++ write ts) with (chClose :: chClose :: write ts). cbn [parse].
    change (chClose =? chPct) with false. change (chClose =? chClose) with true. cbn iota.
    rewrite (IH fuel k codes) by (auto; lia). reflexivity.
  - pose proof (stars_nonneg (mods_of o)). cbn [uses1] in Hc, Hk.
    rewrite skipn1_field in Hf |- *. cbn [app parse length] in *.
    change (chOpen =? chPct) with false. change (chOpen =? chClose) with false. change (chOpen =? chOpen) with true. cbn iota.
    rewrite pfield_ok by (auto; cbn [uses1]; lia).
    destruct (Z.gtb_spec (k + 1) nargs); [lia|]. cbn [uses1].
    rewrite (IH fuel (k + (1 + stars (mods_of o))) (skipn (Z.to_nat (1 + stars (mods_of o))) codes)); auto; try lia.
    + destruct o as [m|].
      * change (skipn 1 (write1 (TField (Some m))) ++ write ts) with (chColon :: (m ++ bs "}") ++ write ts).
        cbn iota. change (chColon =? chOpen) with false. reflexivity.
      * reflexivity.
    + rewrite zlen_skipn by lia. lia.
Qed.

Lemma parse_mono nargs : nargs < 99 -> forall fuel r k codes, nargs < k -> nargs < snd (parse fuel nargs r k codes).
Proof.
  intros H99. induction fuel as [|fuel IH]; intros r k codes Hk; [exact Hk|]. destruct r as [|c r]; [exact Hk|].
  cbn [parse]. destruct (c =? chPct); [now apply IH|]. destruct (c =? chClose).
  { destruct r as [|d r2]; [apply IH; lia|]. destruct (d =? chClose); [now apply IH|apply IH; lia]. }
  destruct (c =? chOpen).
  { destruct (Z.gtb_spec (k + 1) nargs); [|lia].
    destruct r as [|d r2]; [apply IH; lia|]. destruct (d =? chOpen); [now apply IH|apply IH; lia]. }
  now apply IH.
Qed.

Lemma pfield_n nargs r k codes o r2 k2 codes2 : nargs < 99 -> nonul r -> pfield nargs r k codes = (o, r2, k2, codes2) ->
  nargs < k2 \/ exists op, tok_ok (TField op) /\ r = skipn 1 (write1 (TField op)) ++ r2 /\ k2 + 1 = k + uses1 (TField op).
Proof.
  unfold pfield. intros H99 NR H. destruct (split _) as [m t] eqn:E. apply split_spec in E as (E & F & Ht).
  destruct (eat _ _ _ _ _) as [[k' ?] ?] eqn:EE. apply (f_equal (fun q => fst (fst q))) in EE. rewrite eat_n in EE. cbn [fst] in EE.
  injection H as _ <- <- _. destruct Ht as [->|[t' ->]]; [left; lia|]. cbn [tl]. pose proof (stars_nonneg m).
  destruct r as [|c r]; cbn [hd tl] in *.
  { change (0 =? chColon) with false in *. change (0 =? chClose) with false in *. cbn [negb andb] in *. left. lia. }
  destruct (Z.eqb_spec c chColon) as [->|Hc]; cbn [negb andb] in *.
  - right. exists (Some m). cbn [tok_ok uses1 mods_of]. split.
    { inversion_clear NR as [|? ? _ N2]. rewrite E in N2. apply nonul_app in N2 as [N2 _].
      unfold nonul in N2. rewrite Forall_forall in *. auto. }
    split; [|lia]. cbn [write1].
    change (skipn 1 (bs "{:" ++ m ++ bs "}") ++ t') with (chColon :: (m ++ bs "}") ++ t').
    rewrite <- app_assoc. change (bs "}" ++ t') with (chClose :: t'). now f_equal.
  - destruct (Z.eqb_spec c chClose) as [->|Hc2]; cbn [negb andb] in *; [|left; lia].
    destruct m as [|x m]; [|injection E as <- _; inversion_clear F; congruence].
    right. exists None. split; [exact Logic.I|]. split; [cbn [app] in E; injection E as ->; reflexivity|].
    cbn [uses1 mods_of]. lia.
Qed.

Lemma parse_sound nargs : nargs < 99 -> forall fuel r k codes, (length r < fuel)%nat -> nonul r ->
  snd (parse fuel nargs r k codes) = nargs ->
  exists ts, Forall tok_ok ts /\ r = write ts /\ k + uses ts = nargs.
Proof.
  intros H99. induction fuel as [|fuel IH]; intros r k codes Hf NR H; [lia|].
  destruct r as [|c r].
  { exists []. cbn in *. repeat split; auto. lia. }
  inversion_clear NR as [|? ? N1 N2]. cbn [length parse] in *.
  assert (Step : forall t r1 codes1, tok_ok t -> c :: r = write1 t ++ r1 -> nonul r1 -> (length r1 < fuel)%nat ->
    snd (parse fuel nargs r1 (k + uses1 t) codes1) = nargs ->
    exists ts, Forall tok_ok ts /\ c :: r = write ts /\ k + uses ts = nargs).
  { intros t r1 codes1 Ht E Nr1 L1 H1. destruct (IH r1 (k + uses1 t) codes1 L1 Nr1 H1) as (ts & T1 & -> & T3).
    exists (t :: ts). split; [now constructor|]. split; [exact E|]. cbn [uses]. lia. }
  destruct (Z.eqb_spec c chPct) as [->|H1].
  { apply (Step TPct r codes); try easy; try lia. cbn [uses1]. rewrite Z.add_0_r. exact H. }
  destruct (Z.eqb_spec c chClose) as [->|H2].
  { destruct r as [|d r2].
    - pose proof (parse_mono nargs H99 fuel [] 99 codes H99). lia.
    - destruct (Z.eqb_spec d chClose) as [->|Hd].
      + inversion_clear N2. cbn [length] in Hf. apply (Step TClose r2 codes); try easy; try lia. cbn [uses1]. rewrite Z.add_0_r. exact H.
      + pose proof (parse_mono nargs H99 fuel (d :: r2) 99 codes H99). lia. }
  destruct (Z.eqb_spec c chOpen) as [->|H3].
  { assert (Oth : snd (if k + 1 >? nargs then parse fuel nargs r (k + 1) codes
        else let '(o, r2, k2, codes2) := pfield nargs r (k + 1) codes in
             (o ++ fst (parse fuel nargs r2 k2 codes2), snd (parse fuel nargs r2 k2 codes2))) = nargs ->
        exists ts, Forall tok_ok ts /\ chOpen :: r = write ts /\ k + uses ts = nargs).
    { intros Ho. destruct (Z.gtb_spec (k + 1) nargs) as [Hg|Hg].
      - pose proof (parse_mono nargs H99 fuel r (k + 1) codes). lia.
      - destruct (pfield nargs r (k + 1) codes) as [[[o r2] k2] codes2] eqn:EP. cbn [snd] in Ho.
        pose proof (pfield_len _ _ _ _ _ _ _ _ EP) as PL.
        destruct (pfield_n _ _ _ _ _ _ _ _ H99 N2 EP) as [Hk|(op & T1 & T2 & T3)].
        + pose proof (parse_mono nargs H99 fuel r2 k2 codes2 Hk). lia.
        + apply (Step (TField op) r2 codes2); auto; try lia.
          * rewrite skipn1_field. cbn [app]. now f_equal.
          * rewrite T2 in N2. now apply nonul_app in N2.
          * replace (k + uses1 (TField op)) with k2 by lia. exact Ho. }
    destruct r as [|d r2]; [now apply Oth|]. destruct (Z.eqb_spec d chOpen) as [->|Hd]; [|now apply Oth].
    inversion_clear N2. cbn [length] in Hf. apply (Step TOpen r2 codes); try easy; try lia. cbn [uses1]. rewrite Z.add_0_r. exact H. }
  apply (Step (TLit c) r codes); try easy; try lia. cbn [uses1]. rewrite Z.add_0_r. exact H.
Qed.

(** * Lengths *)
Lemma drop_align_len m : zlen (flat_map drop_align m) <= zlen m.
Proof.
  induction m as [|c m IH]; cbn [flat_map]; [reflexivity|]. rewrite zlen_app, zlen_cons.
  assert (zlen (drop_align c) <= 1).
  { unfold drop_align. destruct (c =? chLt), (c =? chGt), (c =? chDash); vm_compute; discriminate. }
  lia.
Qed.
Lemma default_prec_len m arg : 0 <= zlen (default_prec m arg) <= 3.
Proof.
  split; [apply zlen_nonneg|]. unfold default_prec. destruct m, arg as [|a r]; try (vm_compute; discriminate).
  destruct (a =? chG), (a =? chAt); vm_compute; discriminate.
Qed.
Lemma type_of_len arg : zlen (type_of arg) <= zlen arg.
Proof. destruct arg as [|a r]; [reflexivity|]. cbn [type_of]. destruct (_ =? _); rewrite ?zlen_cons; lia. Qed.

Lemma gen_dir_len own empty m arg : zlen arg <= 3 -> zlen (gen_dir own empty m arg) <= zlen m + 8.
Proof.
  intros H. unfold gen_dir. cbn [app]. rewrite zlen_cons, !zlen_app.
  pose proof (drop_align_len m). pose proof (default_prec_len [] arg). pose proof (type_of_len arg).
  assert (zlen (if empty return list Z then default_prec [] arg else []) <= 3) by (destruct empty; change (zlen (@nil Z)) with 0; lia).
  assert (zlen (if own return list Z then [] else type_of arg) <= 3) by (destruct own; change (zlen (@nil Z)) with 0; lia).
  match goal with |- 1 + (zlen (if ?x then _ else _) + _) <= _ => assert (zlen (if x then [chDash] else []) <= 1) by (destruct x; vm_compute; discriminate) end.
  lia.
Qed.

Lemma eat_codes nargs (P : str -> Prop) m : P [] -> forall k arg codes, P arg -> Forall P codes ->
  P (snd (fst (eat nargs m k arg codes))) /\ Forall P (snd (eat nargs m k arg codes)).
Proof.
  intros P0. induction m as [|c m IH]; intros k arg codes Ha Hc; cbn [eat]; [auto|].
  destruct (c =? chStar); [destruct (_ <=? _)|]; apply IH; auto; destruct codes; cbn; auto; now inversion Hc.
Qed.

Lemma pfield_bound nargs r k codes o r2 k2 codes2 : Forall (fun c => zlen c <= 3) codes -> 0 <= nargs < 99 ->
  pfield nargs r k codes = (o, r2, k2, codes2) ->
  zlen o + zlen r2 <= zlen r + 8 /\ Forall (fun c => zlen c <= 3) codes2 /\ (k <= nargs -> k <= k2).
Proof.
  unfold pfield. intros HC Hn H. destruct (split _) as [m t] eqn:E. apply split_spec in E as (E & F & Ht).
  pose proof (eat_n nargs m (if negb (hd 0 r =? chColon) && negb (hd 0 r =? chClose) then 99 else k) (hd [] codes) (tl codes)) as EN.
  destruct (eat_codes nargs (fun c => zlen c <= 3) m ltac:(cbn; lia)
     (if negb (hd 0 r =? chColon) && negb (hd 0 r =? chClose) then 99 else k) (hd [] codes) (tl codes)) as [C1 C2].
  { destruct codes; cbn; [lia|now inversion HC]. } { destruct codes; cbn; [auto|now inversion HC]. }
  destruct (eat _ _ _ _ _) as [[k' arg] codes']. cbn [fst snd] in *. injection H as <- <- <- <-.
  pose proof (gen_dir_len (conversion (last ((if hd 0 r =? chColon then [chColon] else [chOpen]) ++ m) 0))
     (match m, t with [], _ :: _ => true | _, _ => false end) m arg C1).
  assert (zlen (if hd 0 r =? chColon then tl r else r) <= zlen r).
  { destruct (_ =? _); [|lia]. destruct r; [reflexivity|]. rewrite zlen_cons. cbn [tl]. lia. }
  rewrite E, zlen_app in H0.
  assert (zlen (tl t) <= zlen t) by (destruct t; [reflexivity|rewrite zlen_cons; cbn [tl]; lia]).
  split; [lia|]. split; [exact C2|]. intros Hk. pose proof (stars_nonneg m).
  destruct t; [lia|]. destruct (_ && _); lia.
Qed.

Lemma parse_bound nargs : 0 <= nargs < 99 -> forall fuel r k codes, Forall (fun c => zlen c <= 3) codes ->
  zlen (fst (parse fuel nargs r k codes)) <= 2 * zlen r + 8 * Z.max 0 (nargs - k).
Proof.
  intros H99. induction fuel as [|fuel IH]; intros r k codes HC.
  { pose proof (zlen_nonneg r). destruct r; cbn [parse fst]; change (zlen (@nil Z)) with 0 in *; lia. }
  destruct r as [|c r]; [cbn [parse fst]; change (zlen (@nil Z)) with 0 in *; lia|]. cbn [parse]. rewrite zlen_cons. pose proof (zlen_nonneg r).
  destruct (c =? chPct).
  { cbn [fst app]. rewrite !zlen_cons. pose proof (IH r k codes HC). lia. }
  destruct (c =? chClose).
  { destruct r as [|d r2].
    - pose proof (IH [] 99 codes HC). lia.
    - rewrite zlen_cons in *. destruct (d =? chClose).
      + cbn [fst app]. rewrite zlen_cons. pose proof (IH r2 k codes HC). lia.
      + pose proof (IH (d :: r2) 99 codes HC). rewrite zlen_cons in *. lia. }
  destruct (c =? chOpen).
  { assert (Oth : zlen (fst (if k + 1 >? nargs then parse fuel nargs r (k + 1) codes
        else let '(o, r2, k2, codes2) := pfield nargs r (k + 1) codes in
             (o ++ fst (parse fuel nargs r2 k2 codes2), snd (parse fuel nargs r2 k2 codes2)))) <=
        2 * (1 + zlen r) + 8 * Z.max 0 (nargs - k)).
    { destruct (Z.gtb_spec (k + 1) nargs) as [Hg|Hg].
      - pose proof (IH r (k + 1) codes HC). lia.
      - destruct (pfield nargs r (k + 1) codes) as [[[o r2] k2] codes2] eqn:EP. cbn [fst].
        destruct (pfield_bound _ _ _ _ _ _ _ _ HC H99 EP) as (B1 & B2 & B3).
        pose proof (pfield_len _ _ _ _ _ _ _ _ EP) as PL.
        pose proof (IH r2 k2 codes2 B2). rewrite zlen_app. unfold zlen in *. lia. }
    destruct r as [|d r2]; [exact Oth|]. destruct (d =? chOpen); [|exact Oth].
    cbn [fst app]. rewrite !zlen_cons in *. pose proof (IH r2 k codes HC). pose proof (zlen_nonneg r2). lia. }
  cbn [fst app]. rewrite zlen_cons. pose proof (IH r k codes HC). lia.
Qed.
