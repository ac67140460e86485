(** Proofs about _fmt_parse: how printf reads the output, the size of the output; fmt_stream. *)
From Coq Require Import String.
From Verif Require Import Base Slots Fmt_Model Fmt_Spec Fmt_Proofs Fmt_Proofs2 Fmt_Proofs3.

Definition is_code (c : str) : Prop := exists t, c = fc t.

Lemma fc_short t : zlen (fc t) <= 3.
Proof. destruct t; vm_compute; discriminate. Qed.
Lemma fc_nonul t : nonul (fc t).
Proof. destruct t; vm_compute; repeat constructor; discriminate. Qed.

Lemma parse_all size fmt codes : nonul fmt -> zlen codes < 99 ->
  zlen (fst (parse (S (length fmt)) (zlen codes) fmt 0 codes)) + 1 <= size ->
  exists bf, fmt_parse size fmt codes = Ok (bf, snd (parse (S (length fmt)) (zlen codes) fmt 0 codes)) /\
    holds bf (fst (parse (S (length fmt)) (zlen codes) fmt 0 codes) ++ [0]) /\ zlen bf = size.
Proof.
  intros NF H99 Hs. unfold fmt_parse.
  pose proof (zlen_nonneg (fst (parse (S (length fmt)) (zlen codes) fmt 0 codes))).
  set (s0 := mk 0 0 (repeat None (Z.to_nat size)) 0 codes).
  destruct (loop_ok (zlen codes) fmt size H99 (S (length fmt)) s0 [] fmt []) as (s & -> & Hh & Hz & Hn); auto.
  - constructor; auto. + apply holds_nil. + cbn [s0 b]. rewrite zlen_repeat by lia. reflexivity.
  - constructor.
  - right. cbn [s0 n args]. lia.
  - cbn [s0 n args bind] in *. exists (b s). rewrite Hn. auto.
Qed.

Lemma cstring_holds o bf : nonul o -> holds bf (o ++ [0]) -> cstring bf = Ok o.
Proof.
  intros N [r ->]. induction N as [|c o Hc N IH]; cbn [app map cstring].
  - reflexivity.
  - destruct (Z.eqb_spec c 0); [congruence|]. cbn [app map] in IH. rewrite IH. reflexivity.
Qed.

(** * The translation has no zero byte *)
Lemma drop_align_nonul m : nonul m -> nonul (flat_map drop_align m).
Proof.
  induction 1 as [|c m Hc Hm IH]; cbn [flat_map]; [constructor|]. apply nonul_app. split; auto.
  unfold drop_align. destruct (_ =? _); [repeat constructor; discriminate|].
  destruct (_ =? _); [constructor|]. destruct (_ =? _); repeat constructor; auto.
Qed.
Lemma type_of_nonul c : nonul c -> nonul (type_of c).
Proof. destruct 1 as [|x l Hx Hl]; cbn; [constructor|]. destruct (_ =? _); auto. constructor; auto. Qed.
Lemma directive_nonul m code : nonul m -> nonul code -> nonul (directive m code).
Proof.
  intros Hm Hc. unfold directive. repeat (apply nonul_app; split).
  - repeat constructor; discriminate.
  - destruct (_ && _); repeat constructor; discriminate.
  - now apply drop_align_nonul.
  - unfold default_prec. destruct m, code as [|c r]; try constructor.
    destruct (c =? chG), (c =? chAt); repeat constructor; discriminate.
  - unfold dir_type. destruct (has_conversion m); [constructor|now apply type_of_nonul].
Qed.
Lemma nth_nonul k codes : Forall nonul codes -> nonul (nth k codes []).
Proof. intros H. destruct (nth_in_or_default k codes []) as [I| ->]; [|constructor]. rewrite Forall_forall in H. now apply H. Qed.
Lemma Forall_skipn {A} (P : A -> Prop) k l : Forall P l -> Forall P (skipn k l).
Proof. revert l. induction k; intros l H; [exact H|]. destruct H; cbn; [constructor|auto]. Qed.
Lemma mods_nonul o : tok_ok (TField o) -> nonul (mods_of o).
Proof. destruct o as [m|]; cbn; [|constructor]. intros H. eapply Forall_impl; [|exact H]. now intros c []. Qed.
Lemma translate_nonul ts : Forall tok_ok ts -> forall codes, Forall nonul codes -> nonul (translate ts codes).
Proof.
  induction 1 as [|t ts Ht Hts IH]; intros codes HC; cbn [translate]; [constructor|].
  apply nonul_app. split; [|apply IH; now apply Forall_skipn].
  destruct t; try (repeat constructor; discriminate).
  - destruct Ht. repeat constructor; auto.
  - apply directive_nonul; [now apply mods_nonul|now apply nth_nonul].
Qed.
Lemma write_nonul ts : Forall tok_ok ts -> nonul (write ts).
Proof.
  induction 1 as [|t ts Ht Hts IH]; [constructor|]. unfold write. cbn [flat_map]. apply nonul_app. split; [|exact IH].
  destruct t as [c| | | |[m|]]; cbn [write1]; try (repeat constructor; discriminate).
  - destruct Ht. repeat constructor; auto.
  - repeat (apply nonul_app; split); try (repeat constructor; discriminate). now apply (mods_nonul (Some m)).
Qed.

(** * printf *)
Lemma ex_all (P : Z -> bool) l c : existsb (Z.eqb c) l = true -> forallb P l = true -> P c = true.
Proof.
  intros H1 H2. apply existsb_exists in H1 as (x & Hx & E). apply Z.eqb_eq in E. subst x.
  rewrite forallb_forall in H2. now apply H2.
Qed.

Lemma pf_flags fl : Forall (fun c => flag_char c = true) fl -> forall m0 x,
  printf_items (Some (m0, [])) (fl ++ x) = printf_items (Some (m0 ++ fl, [])) x.
Proof.
  induction 1 as [|c fl Hc Hfl IH]; intros m0 x; cbn [app].
  - now rewrite app_nil_r.
  - cbn [printf_items]. rewrite Hc.
    assert (E : negb (c =? chPct) = true) by (apply (ex_all (fun c => negb (c =? chPct)) _ _ Hc); reflexivity).
    destruct (c =? chPct); [discriminate|]. rewrite IH, <- app_assoc. reflexivity.
Qed.
Lemma pf_type ls c m0 x : conversion c = true -> Forall (fun c => len_char c = true) ls -> forall l0,
  printf_items (Some (m0, l0)) (ls ++ c :: x) = option_map (cons (IDir m0 (l0 ++ ls ++ [c]))) (printf_items None x).
Proof.
  intros Hc. induction 1 as [|a ls Ha Hl IH]; intros l0; cbn [app printf_items].
  - rewrite Hc.
    assert (E : negb (c =? chPct) && negb (flag_char c) && negb (len_char c) = true)
      by (apply (ex_all (fun c => negb (c =? chPct) && negb (flag_char c) && negb (len_char c)) _ _ Hc); reflexivity).
    destruct (c =? chPct), (flag_char c), (len_char c); try discriminate. reflexivity.
  - rewrite Ha.
    assert (E : negb (a =? chPct) && negb (flag_char a) = true)
      by (apply (ex_all (fun c => negb (c =? chPct) && negb (flag_char c)) _ _ Ha); reflexivity).
    destruct (a =? chPct), (flag_char a); try discriminate. rewrite IH, <- !app_assoc. reflexivity.
Qed.

Lemma fc_type t : exists ls c, type_of (fc t) = ls ++ [c] /\ conversion c = true /\ Forall (fun c => len_char c = true) ls.
Proof.
  destruct t; match goal with |- exists ls c, ?x = _ /\ _ => let y := eval vm_compute in x in
    let l := eval vm_compute in (removelast y) in let z := eval vm_compute in (last y 0) in exists l, z end;
  (split; [reflexivity|split; [reflexivity|repeat constructor]]).
Qed.

Lemma mod_not_conv c : mod_char c = true -> conversion c = false.
Proof.
  unfold mod_char. intros H. destruct (conversion c) eqn:E; [|reflexivity].
  assert (X : negb (mod_char c) = true) by (apply (ex_all (fun c => negb (mod_char c)) _ _ E); reflexivity).
  unfold mod_char in X. rewrite H in X. discriminate.
Qed.

Lemma drop_align_flags m : Forall (fun c => mod_char c = true) m -> Forall (fun c => flag_char c = true) (flat_map drop_align m).
Proof.
  induction 1 as [|c m Hc Hm IH]; cbn [flat_map]; [constructor|]. apply Forall_app. split; [|exact IH].
  unfold drop_align, mod_char in *. destruct (c =? chLt); [repeat constructor|]. destruct (c =? chGt); [constructor|].
  destruct (c =? chDash); [constructor|]. constructor; [|constructor]. now rewrite !orb_false_r in Hc.
Qed.
Lemma default_prec_flags m code : Forall (fun c => flag_char c = true) (default_prec m code).
Proof.
  unfold default_prec. destruct m, code as [|c r]; try constructor. destruct (c =? chG), (c =? chAt); repeat constructor.
Qed.

Lemma filter_all {A} (P : A -> bool) l : Forall (fun c => P c = true) l -> filter P l = l.
Proof. induction 1 as [|c l Hc Hl IH]; cbn; [reflexivity|]. now rewrite Hc, IH. Qed.
Lemma filter_none {A} (P : A -> bool) l : Forall (fun c => P c = false) l -> filter P l = [].
Proof. induction 1 as [|c l Hc Hl IH]; cbn; [reflexivity|]. now rewrite Hc. Qed.

Lemma len_not_mod c : len_char c = true -> mod_char c = false.
Proof. intros H. apply negb_true_iff. apply (ex_all (fun c => negb (mod_char c)) _ _ H). reflexivity. Qed.
Lemma conv_not_mod c : conversion c = true -> mod_char c = false.
Proof. intros H. apply negb_true_iff. apply (ex_all (fun c => negb (mod_char c)) _ _ H). reflexivity. Qed.

Lemma drop_align_id l : Forall (fun c => mod_char c = false) l -> flat_map drop_align l = l.
Proof.
  induction 1 as [|c l Hc Hl IH]; cbn [flat_map]; [reflexivity|]. rewrite IH.
  assert (E : drop_align c = [c]).
  { unfold drop_align. destruct (Z.eqb_spec c chLt) as [->|]; [discriminate|].
    destruct (Z.eqb_spec c chGt) as [->|]; [discriminate|]. destruct (Z.eqb_spec c chDash) as [->|]; [discriminate|reflexivity]. }
  rewrite E. reflexivity.
Qed.

Lemma pf_shape (left : bool) fl ls c x : Forall (fun c => flag_char c = true) fl -> Forall (fun c => len_char c = true) ls ->
  conversion c = true ->
  printf_items None ((bs "%" ++ (if left then bs "-" else []) ++ fl ++ ls ++ [c]) ++ x) =
  option_map (cons (IDir ((if left then bs "-" else []) ++ fl) (ls ++ [c]))) (printf_items None x).
Proof.
  intros Hf Hl Hc. rewrite <- app_assoc.
  change (printf_items None (bs "%" ++ ?y)) with (printf_items (Some ([], [])) y).
  assert (HL : Forall (fun c => flag_char c = true) ((if left then bs "-" else []) ++ fl)).
  { apply Forall_app. split; auto. destruct left; repeat constructor. }
  replace (((if left then bs "-" else []) ++ fl ++ ls ++ [c]) ++ x)
    with (((if left then bs "-" else []) ++ fl) ++ ls ++ c :: x) by (rewrite <- !app_assoc; reflexivity).
  rewrite pf_flags by exact HL. rewrite pf_type by auto. reflexivity.
Qed.

Lemma pf_directive m t x : good_mods m ->
  printf_items None (directive m (fc t) ++ x) =
  option_map (cons (IDir (flags_of m (fc t)) (item_type m (fc t)))) (printf_items None x).
Proof.
  intros [m0 Hm|m0 ls c Hm Hl Hc].
  - assert (HN : has_conversion m0 = false).
    { unfold has_conversion. destruct m0 as [|a l] eqn:E; [reflexivity|]. rewrite <- E in *.
      apply mod_not_conv. rewrite Forall_forall in Hm. apply Hm. apply last_In. now rewrite E. }
    destruct (fc_type t) as (ls & c & ET & Hc & Hl).
    unfold directive, flags_of, item_type, dir_type. rewrite HN, (filter_all _ _ Hm), ET.
    assert (EL : forall w, last (w ++ ls ++ [c]) 0 = c).
    { intros w. rewrite app_assoc. apply last_last. }
    rewrite (app_assoc (flat_map drop_align m0)). rewrite EL, last_last. cbn [existsb]. rewrite orb_false_r.
    rewrite pf_shape; auto. apply Forall_app. split; [now apply drop_align_flags|apply default_prec_flags].
  - set (M := m0 ++ ls ++ [c]).
    assert (EM : last M 0 = c) by (unfold M; rewrite app_assoc; apply last_last).
    assert (HN : has_conversion M = true) by (unfold has_conversion; now rewrite EM).
    assert (HR : Forall (fun c => mod_char c = false) (ls ++ [c])).
    { apply Forall_app. split; [eapply Forall_impl; [|exact Hl]; apply len_not_mod|].
      constructor; [now apply conv_not_mod|constructor]. }
    assert (F1 : filter mod_char M = m0).
    { unfold M. rewrite filter_app, (filter_all _ _ Hm), (filter_none _ _ HR). apply app_nil_r. }
    assert (F2 : filter (fun c => negb (mod_char c)) M = ls ++ [c]).
    { unfold M. rewrite filter_app, filter_none, filter_all; [reflexivity| |].
      - eapply Forall_impl; [|exact HR]. cbn. intros a ->. reflexivity.
      - eapply Forall_impl; [|exact Hm]. cbn. intros a ->. reflexivity. }
    assert (DP : default_prec M (fc t) = []) by (unfold default_prec, M; destruct m0, ls; reflexivity).
    unfold directive, flags_of, item_type, dir_type. rewrite HN, F1, F2, DP. cbn [app]. rewrite !app_nil_r.
    assert (ED : flat_map drop_align M = flat_map drop_align m0 ++ ls ++ [c])
      by (unfold M; rewrite flat_map_app, (drop_align_id _ HR); reflexivity).
    rewrite ED.
    assert (EL : last (flat_map drop_align m0 ++ ls ++ [c]) 0 = c) by (rewrite app_assoc; apply last_last).
    rewrite EL, last_last. cbn [existsb]. rewrite orb_false_r.
    rewrite pf_shape; auto. now apply drop_align_flags.
Qed.

Lemma nth_code k codes : Forall is_code codes -> (k < length codes)%nat -> exists t, nth k codes [] = fc t.
Proof. intros H Hk. rewrite Forall_forall in H. apply H. now apply nth_In. Qed.

Lemma pf_translate ts : Forall tok_ok ts -> Forall tok_good ts -> forall codes, Forall is_code codes -> uses ts <= zlen codes ->
  printf_items None (translate ts codes) = Some (items ts codes).
Proof.
  induction ts as [|t ts IH]; intros HO HG codes HC HU; [reflexivity|].
  inversion_clear HO as [|? ? O1 O2]. inversion_clear HG as [|? ? G1 G2]. cbn [uses] in HU. pose proof (uses_nonneg ts).
  assert (HS : printf_items None (translate ts (skipn (Z.to_nat (uses1 t)) codes)) = Some (items ts (skipn (Z.to_nat (uses1 t)) codes))).
  { assert (0 <= uses1 t) by (destruct t; cbn [uses1]; try lia; pose proof (stars_nonneg (mods_of mods)); lia).
    apply IH; auto; [now apply Forall_skipn|]. rewrite zlen_skipn by lia. lia. }
  cbn [translate items]. destruct t as [c| | | |o].
  - cbn [app printf_items]. destruct O1 as (_ & P & _). destruct (Z.eqb_spec c chPct); [congruence|]. rewrite HS. reflexivity.
  - change (bs "%%" ++ ?y) with (chPct :: chPct :: y). cbn [printf_items]. change (chPct =? chPct) with true. cbn iota.
    rewrite HS. reflexivity.
  - change (bs "{" ++ ?y) with (chOpen :: y). cbn [printf_items]. change (chOpen =? chPct) with false. cbn iota. rewrite HS. reflexivity.
  - change (bs "}" ++ ?y) with (chClose :: y). cbn [printf_items]. change (chClose =? chPct) with false. cbn iota. rewrite HS. reflexivity.
  - pose proof (stars_nonneg (mods_of o)). cbn [uses1 tok_good] in *.
    destruct (nth_code (Z.to_nat (stars (mods_of o))) codes HC) as [t ET]; [unfold zlen in HU; lia|].
    cbv zeta. rewrite ET, pf_directive by exact G1. rewrite HS. reflexivity.
Qed.

(** * Size *)
Definition percents (l : str) : Z := zlen (filter (Z.eqb chPct) l).
Lemma directive_len m t : zlen (directive m (fc t)) <= zlen m + (match m with [] => 6 | _ => 5 end).
Proof.
  unfold directive. rewrite !zlen_app. change (zlen (bs "%")) with 1.
  pose proof (drop_align_len m). unfold dir_type.
  destruct m as [|a m].
  - cbn [flat_map existsb negb andb app]. change (has_conversion []) with false. cbn iota.
    destruct t; vm_compute; discriminate.
  - assert (E : default_prec (a :: m) (fc t) = []) by reflexivity. rewrite E. change (zlen (@nil Z)) with 0.
    destruct (has_conversion (a :: m)).
    + assert (zlen (if negb (existsb (Z.eqb chGt) (a :: m)) && ((last (flat_map drop_align (a :: m) ++ [] ++ []) 0 =? chS)
         || (last (flat_map drop_align (a :: m) ++ [] ++ []) 0 =? chC)) then bs "-" else []) <= 1) by (destruct (_ && _); vm_compute; discriminate).
      change (zlen (@nil Z)) with 0. lia.
    + cbn [app].
      assert (EL : last (flat_map drop_align (a :: m) ++ type_of (fc t)) 0 = last (type_of (fc t)) 0).
      { destruct (type_of (fc t)) as [|y l] eqn:ET; [destruct t; discriminate|]. apply last_app_cons. }
      rewrite EL. destruct (negb (existsb (Z.eqb chGt) (a :: m))); cbn [andb].
      * assert (zlen (if (last (type_of (fc t)) 0 =? chS) || (last (type_of (fc t)) 0 =? chC) then bs "-" else []) + zlen (type_of (fc t)) <= 3)
          by (destruct t; vm_compute; discriminate).
        change (zlen (@nil Z)) with 0. lia.
      * pose proof (type_of_len (fc t)). pose proof (fc_short t). change (zlen (@nil Z)) with 0. lia.
Qed.

Lemma translate_len ts : Forall tok_ok ts -> forall codes, Forall is_code codes -> uses ts <= zlen codes ->
  zlen (translate ts codes) <= zlen (write ts) + percents (write ts) + 4 * uses ts.
Proof.
  induction ts as [|t ts IH]; intros HO codes HC HU; [reflexivity|].
  inversion_clear HO as [|? ? O1 O2]. cbn [uses] in HU. pose proof (uses_nonneg ts).
  assert (0 <= uses1 t) by (destruct t; cbn [uses1]; try lia; pose proof (stars_nonneg (mods_of mods)); lia).
  assert (HS := IH O2 (skipn (Z.to_nat (uses1 t)) codes) (Forall_skipn _ _ _ HC)).
  rewrite zlen_skipn in HS by lia. specialize (HS ltac:(lia)).
  cbn [translate uses]. unfold write in *. cbn [flat_map]. fold (write ts) in *.
  unfold percents in *. rewrite filter_app, !zlen_app.
  destruct t as [c| | | |o].
  - change (zlen (write1 (TLit c))) with 1. change (zlen [c]) with 1. pose proof (zlen_nonneg (filter (Z.eqb chPct) (write1 (TLit c)))).
    cbn [uses1] in *. lia.
  - change (zlen (write1 TPct)) with 1. change (zlen (bs "%%")) with 2. change (zlen (filter (Z.eqb chPct) (write1 TPct))) with 1.
    cbn [uses1] in *. lia.
  - change (zlen (write1 TOpen)) with 2. change (zlen (bs "{")) with 1. change (zlen (filter (Z.eqb chPct) (write1 TOpen))) with 0.
    cbn [uses1] in *. lia.
  - change (zlen (write1 TClose)) with 2. change (zlen (bs "}")) with 1. change (zlen (filter (Z.eqb chPct) (write1 TClose))) with 0.
    cbn [uses1] in *. lia.
  - pose proof (stars_nonneg (mods_of o)). cbn [uses1] in *.
    destruct (nth_code (Z.to_nat (stars (mods_of o))) codes HC) as [t ET]; [unfold zlen in HU; lia|]. rewrite ET.
    pose proof (directive_len (mods_of o) t). pose proof (zlen_nonneg (filter (Z.eqb chPct) (write1 (TField o)))).
    assert (zlen (write1 (TField o)) >= zlen (mods_of o) + 2).
    { destruct o as [m|]; cbn [write1 mods_of]; [|vm_compute; discriminate].
      rewrite !zlen_app. change (zlen (bs "{:")) with 2. change (zlen (bs "}")) with 1. lia. }
    destruct (mods_of o); lia.
Qed.

(** * fmt_stream *)
Definition shows (ss : stream) (l : str) : Prop :=
  len ss = zlen l /\ 0 <= cap ss /\ exists d, data ss = Some d /\ zlen d = cap ss + 1 /\ holds d (l ++ [0]).

Lemma wrs_ok (d : slots Z) l xs : holds d l -> zlen l + zlen xs <= zlen d ->
  exists d', wrs d (zlen l) xs = Ok d' /\ holds d' (l ++ xs) /\ zlen d' = zlen d.
Proof.
  intros Hh Hc. pose proof (zlen_nonneg l). unfold wrs.
  destruct (ablit_some d (zlen l) (map Some xs)) as [d' E]; [lia|rewrite zlen_map; lia|].
  exists d'. split; [exact E|]. apply ablit_inv in E as (_ & _ & Z1 & G). split; [|exact Z1].
  apply holds_of; [rewrite zlen_app; lia|]. intros i x Hx. pose proof (aget_ok_range _ _ _ Hx) as R.
  rewrite zlen_app in R. rewrite G, zlen_map. rewrite aget_app in Hx by lia.
  destruct (Z.ltb_spec i (zlen l)).
  - destruct (Z.leb_spec (zlen l) i); [lia|]. cbn [andb]. eapply holds_aget; eauto.
  - destruct (Z.leb_spec (zlen l) i); [|lia]. destruct (Z.ltb_spec i (zlen l + zlen xs)); [|lia]. cbn [andb].
    rewrite aget_map, Hx. reflexivity.
Qed.

Lemma sprint_ok ss l text : shows ss l \/ (data ss = None /\ cap ss = 0 /\ len ss = 0 /\ l = [] /\ text <> []) ->
  exists ss', sprint ss text = Ok ss' /\ shows ss' (if overwrite ss return list Z then text else l ++ text) /\ overwrite ss' = overwrite ss.
Proof.
  intros H. unfold sprint. pose proof (zlen_nonneg text). pose proof (zlen_nonneg l).
  set (l0 := if overwrite ss then [] else l).
  assert (HP : (if overwrite ss then 0 else len ss) = zlen l0).
  { unfold l0. destruct (overwrite ss); [reflexivity|]. destruct H as [[-> _]|(_ & _ & -> & -> & _)]; reflexivity. }
  rewrite HP.
  assert (HL : (if overwrite ss return list Z then text else l ++ text) = l0 ++ text) by (unfold l0; destruct (overwrite ss); reflexivity).
  rewrite HL. pose proof (zlen_nonneg l0).
  assert (HW : forall d c, holds d l0 -> zlen d = c + 1 -> zlen l0 + zlen text <= c ->
    exists ss', (let* d' := wrs d (zlen l0) (text ++ [0]) in Ok (mkss (Some d') c (zlen l0 + zlen text) (overwrite ss))) = Ok ss' /\
      shows ss' (l0 ++ text) /\ overwrite ss' = overwrite ss).
  { intros d c Hd Hz Hc. destruct (wrs_ok d l0 (text ++ [0]) Hd) as (d' & -> & Hh & Hz').
    { rewrite zlen_app. change (zlen [0]) with 1. lia. }
    cbn [bind]. eexists. split; [reflexivity|]. split; [|reflexivity]. unfold shows. cbn [len cap data].
    rewrite zlen_app. split; [reflexivity|]. split; [lia|]. exists d'. rewrite <- app_assoc. split; [reflexivity|]. split; [lia|exact Hh]. }
  assert (HD : forall d, data ss = Some d -> holds d l0).
  { intros d Hd. destruct H as [(_ & _ & d0 & Hd0 & _ & Hh)|(Hn & _)]; [|congruence]. rewrite Hd in Hd0. injection Hd0 as <-.
    unfold l0. destruct (overwrite ss); [apply holds_nil|eapply holds_app; eauto]. }
  destruct (Z.gtb_spec (zlen l0 + zlen text) (cap ss)) as [Hg|Hg].
  - apply HW.
    + destruct (data ss) as [d|] eqn:Ed; [apply holds_realloc; auto|].
      * assert (0 <= cap ss) by (destruct H as [(_ & ? & _)|(_ & -> & _)]; lia).
        assert (0 <= cap ss / 2) by (apply Z.div_pos; lia). lia.
      * assert (l0 = []) as ->; [|apply holds_nil]. unfold l0. destruct H as [(_ & _ & d0 & Hd0 & _)|(_ & _ & _ & -> & _)]; [congruence|].
        destruct (overwrite ss); reflexivity.
    + apply zlen_realloc. assert (0 <= cap ss) by (destruct H as [(_ & ? & _)|(_ & -> & _)]; lia).
      assert (0 <= cap ss / 2) by (apply Z.div_pos; lia). lia.
    + assert (0 <= cap ss) by (destruct H as [(_ & ? & _)|(_ & -> & _)]; lia).
      assert (0 <= cap ss / 2) by (apply Z.div_pos; lia). lia.
  - destruct H as [(K1 & K2 & d & Hd & Hz & Hh)|(Hn & Hc & Hl & -> & Hne)].
    + rewrite Hd. apply HW; auto.
    + exfalso. pose proof (zlen_pos _ Hne). lia.
Qed.
