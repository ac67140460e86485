(** Proofs about _fmt_parse: the model against a parser on lists. *)
From Coq Require Import String.
From Verif Require Import Base Slots Fmt_Model Fmt_Spec.

Local Notation chars := (list Z).

(** * A pure version *)
Fixpoint eat (nargs : Z) (m : str) (k : Z) (arg : str) (codes : list str) : Z * str * list str :=
  match m with
  | [] => (k, arg, codes)
  | c :: m' =>
    if c =? chStar then
      if k + 1 <=? nargs then eat nargs m' (k + 1) (hd [] codes) (tl codes) else eat nargs m' (k + 1) arg codes
    else eat nargs m' k arg codes
  end.
Fixpoint split (r : str) : str * str :=
  match r with
  | [] => ([], [])
  | c :: r' => if c =? chClose then ([], r) else let '(m, t) := split r' in (c :: m, t)
  end.
Definition gen_dir (own empty : bool) (m arg : str) : str :=
  let d := flat_map drop_align m ++ (if empty then default_prec [] arg else []) ++ (if own then [] else type_of arg) in
  let left := negb (existsb (Z.eqb chGt) m) && ((last (chPct :: d) 0 =? chS) || (last (chPct :: d) 0 =? chC)) in
  chPct :: (if left then [chDash] else []) ++ d.
Definition pfield (nargs : Z) (r : str) (k : Z) (codes : list str) : str * str * Z * list str :=
  let c := hd 0 r in
  let k1 := if negb (c =? chColon) && negb (c =? chClose) then 99 else k in
  let r1 := if c =? chColon then tl r else r in
  let '(m, t) := split r1 in
  let '(k2, arg, codes') := eat nargs m k1 (hd [] codes) (tl codes) in
  let own := conversion (last ((if c =? chColon then [chColon] else [chOpen]) ++ m) 0) in
  let empty := match m, t with [], _ :: _ => true | _, _ => false end in
  (gen_dir own empty m arg, tl t, match t with [] => 99 | _ => k2 end, codes').
Fixpoint parse (fuel : nat) (nargs : Z) (r : str) (k : Z) (codes : list str) : str * Z :=
  match fuel, r with
  | O, _ | _, [] => ([], k)
  | S fuel', c :: r' =>
    let cons_ l (q : str * Z) := (l ++ fst q, snd q) in
    if c =? chPct then cons_ [chPct; chPct] (parse fuel' nargs r' k codes)
    else if c =? chClose then
      match r' with
      | d :: r2 => if d =? chClose then cons_ [chClose] (parse fuel' nargs r2 k codes) else parse fuel' nargs r' 99 codes
      | [] => parse fuel' nargs r' 99 codes
      end
    else if c =? chOpen then
      let other := if k + 1 >? nargs then parse fuel' nargs r' (k + 1) codes
                   else let '(o, r2, k2, codes2) := pfield nargs r' (k + 1) codes in
                        cons_ o (parse fuel' nargs r2 k2 codes2) in
      match r' with
      | d :: r2 => if d =? chOpen then cons_ [chOpen] (parse fuel' nargs r2 k codes) else other
      | [] => other
      end
    else cons_ [c] (parse fuel' nargs r' k codes)
  end.

(** * Relation of the state to the lists *)
Record inv (fmt : str) (size : Z) (s : st) (pre rest out : str) : Prop := {
  i_fmt : fmt = pre ++ rest; i_f : f s = zlen pre;
  i_b : holds (b s) out; i_p : p s = zlen out; i_size : zlen (b s) = size }.

Definition nonul (l : str) : Prop := Forall (fun c => c <> 0) l.

Lemma ch_end pre : ch pre (zlen pre) = Ok 0.
Proof. unfold ch. now rewrite Z.eqb_refl. Qed.
Lemma ch_mid pre c r : ch (pre ++ c :: r) (zlen pre) = Ok c.
Proof.
  unfold ch. rewrite zlen_app, zlen_cons. pose proof (zlen_nonneg r).
  destruct (Z.eqb_spec (zlen pre) (zlen pre + (1 + zlen r))); [lia|].
  rewrite aget_app2 by lia. replace (zlen pre - zlen pre) with 0 by lia. reflexivity.
Qed.

Lemma inv_ch fmt size s pre rest out : inv fmt size s pre rest out -> ch fmt (f s) = Ok (hd 0 rest).
Proof.
  intros [-> -> _ _ _]. destruct rest as [|c r]; cbn [hd].
  - rewrite app_nil_r. apply ch_end.
  - apply ch_mid.
Qed.

Lemma put_ok fmt size s pre rest out c : inv fmt size s pre rest out -> zlen out + 1 <= size ->
  exists s', put s c = Ok s' /\ inv fmt size s' pre rest (out ++ [c]) /\ n s' = n s /\ args s' = args s.
Proof.
  intros [E1 E2 E3 E4 E5] H. unfold put. rewrite E4.
  destruct (holds_wr_end (b s) out c E3) as (b' & -> & Hb & Zb); [lia|]. cbn [bind].
  eexists. split; [reflexivity|]. split; [|split; reflexivity]. constructor; cbn [f p b]; auto; try lia.
  rewrite zlen_app. reflexivity.
Qed.

Lemma puts_ok fmt size pre rest cs : forall s out, inv fmt size s pre rest out -> zlen out + zlen cs <= size ->
  exists s', puts s cs = Ok s' /\ inv fmt size s' pre rest (out ++ cs) /\ n s' = n s /\ args s' = args s.
Proof.
  induction cs as [|c cs IH]; intros s out I H; cbn [puts].
  - rewrite app_nil_r. eauto.
  - rewrite zlen_cons in H. pose proof (zlen_nonneg cs).
    destruct (put_ok fmt size s pre rest out c I) as (s1 & -> & I1 & N1 & A1); [lia|]. cbn [bind].
    destruct (IH s1 (out ++ [c]) I1) as (s2 & -> & I2 & N2 & A2).
    { rewrite zlen_app. change (zlen [c]) with 1. lia. }
    exists s2. rewrite <- app_assoc in I2. split; [reflexivity|]. split; [exact I2|]. split; congruence.
Qed.

Lemma skipf_ok fmt size s pre c rest out : inv fmt size s pre (c :: rest) out ->
  inv fmt size (skipf s 1) (pre ++ [c]) rest out.
Proof.
  intros [E1 E2 E3 E4 E5]. constructor; cbn [skipf f p b]; auto.
  - rewrite <- app_assoc. exact E1.
  - rewrite E2, zlen_app. reflexivity.
Qed.
Lemma skipf0 s : skipf s 0 = s.
Proof. destruct s. unfold skipf. cbn. now rewrite Z.add_0_r. Qed.
Lemma setn_ok fmt size s pre rest out k : inv fmt size s pre rest out -> inv fmt size (setn s k) pre rest out.
Proof. intros [E1 E2 E3 E4 E5]. constructor; cbn [setn f p b]; auto. Qed.

(** Enough arguments are left. *)
Definition enough (nargs k : Z) (codes : list str) : Prop := nargs < k \/ zlen codes = nargs - k.

Lemma split_spec r m t : split r = (m, t) -> r = m ++ t /\ Forall (fun c => c <> chClose) m /\ (t = [] \/ exists t', t = chClose :: t').
Proof.
  revert m t. induction r as [|c r IH]; intros m t H; cbn [split] in H.
  - injection H as <- <-. repeat split; auto.
  - destruct (Z.eqb_spec c chClose) as [->|Hc].
    + injection H as <- <-. repeat split; eauto.
    + destruct (split r) as [m0 t0] eqn:E. injection H as <- <-. destruct (IH m0 t0 eq_refl) as (-> & F & T).
      repeat split; auto.
Qed.

Lemma mods_ok nargs fmt size t : forall m fuel s pre out p0 arg,
  inv fmt size s pre (m ++ t) out -> nonul m -> Forall (fun c => c <> chClose) m ->
  (t = [] \/ exists t', t = chClose :: t') -> (length m < fuel)%nat ->
  zlen out + zlen (flat_map drop_align m) <= size -> enough nargs (n s) (args s) ->
  exists s', mods fuel nargs fmt s p0 arg =
      Ok (s', (if existsb (Z.eqb chGt) m then None else p0), snd (fst (eat nargs m (n s) arg (args s)))) /\
    inv fmt size s' (pre ++ m) t (out ++ flat_map drop_align m) /\
    n s' = match t with [] => 99 | _ => fst (fst (eat nargs m (n s) arg (args s))) end /\
    args s' = snd (eat nargs m (n s) arg (args s)) /\
    enough nargs (fst (fst (eat nargs m (n s) arg (args s)))) (args s').
Proof.
  induction m as [|c m IH]; intros fuel s pre out p0 arg I HN HF HT Hfuel Hsz He.
  - destruct fuel as [|fuel]; [cbn in Hfuel; lia|]. cbn [mods]. rewrite (inv_ch _ _ _ _ _ _ I). cbn [bind app].
    cbn [eat existsb flat_map fst snd]. rewrite !app_nil_r.
    destruct HT as [->|[t' ->]]; cbn [hd].
    + change (0 =? 0) with true. eexists. split; [reflexivity|].
      split; [now apply setn_ok|]. split; [reflexivity|]. split; [reflexivity|exact He].
    + change (chClose =? 0) with false. change (chClose =? chClose) with true.
      eexists. split; [reflexivity|]. split; [exact I|]. split; [reflexivity|]. split; [reflexivity|exact He].
  - destruct fuel as [|fuel]; [cbn in Hfuel; lia|]. cbn [mods]. rewrite (inv_ch _ _ _ _ _ _ I). cbn [bind app hd].
    inversion_clear HN as [|? ? N1 N2]. inversion_clear HF as [|? ? F1 F2]. cbn [length] in Hfuel.
    cbn [app] in I. cbn [flat_map] in *. rewrite zlen_app in Hsz.
    destruct (Z.eqb_spec c 0) as [|Hc0]; [congruence|]. destruct (Z.eqb_spec c chClose) as [|HcC]; [congruence|].
    unfold drop_align at 1 in Hsz. unfold drop_align at 1. cbn [existsb].
    rewrite (Z.eqb_sym chGt c).
    pose proof (zlen_nonneg (flat_map drop_align m)).
    cbn [eat].
    destruct (Z.eqb_spec c chLt) as [->|H1].
    { change (zlen (bs "-")) with 1 in Hsz.
      destruct (put_ok _ _ _ _ _ _ chDash I) as (s1 & -> & I1 & E1 & E2); [lia|]. cbn [bind].
      apply skipf_ok in I1. change (chLt =? chGt) with false. change (chLt =? chStar) with false. cbn [orb].
      destruct (IH fuel (skipf s1 1) (pre ++ [chLt]) (out ++ [chDash]) p0 arg I1) as (s' & R & I2 & R2 & R3 & R4); auto; try lia.
      { rewrite zlen_app. change (zlen [chDash]) with 1. lia. }
      { cbn [skipf n args]. congruence. }
      cbn [skipf n args] in *. rewrite E1, E2 in *.
      exists s'. rewrite <- !app_assoc in I2. change (bs "-") with [chDash]. auto. }
    destruct (Z.eqb_spec c chGt) as [->|H2].
    { apply skipf_ok in I. change (chGt =? chStar) with false. cbn [orb].
      destruct (IH fuel (skipf s 1) (pre ++ [chGt]) out None arg I) as (s' & R & I2 & R2 & R3 & R4); auto; try lia.
      cbn [skipf n args] in *. exists s'. rewrite <- !app_assoc in I2. destruct (existsb (Z.eqb chGt) m); auto. }
    destruct (Z.eqb_spec c chDash) as [->|H3].
    { apply skipf_ok in I. change (chDash =? chStar) with false. cbn [orb].
      destruct (IH fuel (skipf s 1) (pre ++ [chDash]) out p0 arg I) as (s' & R & I2 & R2 & R3 & R4); auto; try lia.
      cbn [skipf n args] in *. exists s'. rewrite <- !app_assoc in I2. auto. }
    change (zlen [c]) with 1 in Hsz. cbn [orb].
    destruct (Z.eqb_spec c chStar) as [->|H4].
    { cbn [setn n]. destruct (Z.leb_spec (n s + 1) nargs) as [Hle|Hgt].
      - unfold va_arg. cbn [setn args]. destruct He as [He|He]; [lia|].
        destruct (args s) as [|a codes]; [cbn in He; lia|]. rewrite zlen_cons in He. cbn [bind fst snd hd tl setn f p b n args].
        set (s0 := mk (f s) (p s) (b s) (n s + 1) codes).
        assert (I0 : inv fmt size s0 pre (chStar :: m ++ t) out) by (destruct I; constructor; auto).
        destruct (put_ok _ _ _ _ _ _ chStar I0) as (s1 & -> & I1 & E1 & E2); [lia|]. cbn [bind].
        apply skipf_ok in I1.
        destruct (IH fuel (skipf s1 1) (pre ++ [chStar]) (out ++ [chStar]) p0 a I1) as (s' & R & I2 & R2 & R3 & R4); auto; try lia.
        { rewrite zlen_app. change (zlen [chStar]) with 1. lia. }
        { cbn [skipf n args]. rewrite E1, E2. cbn [s0 n args]. right. lia. }
        cbn [skipf n args] in *. rewrite E1, E2 in *. cbn [s0 n args] in *.
        exists s'. rewrite <- !app_assoc in I2. auto.
      - cbn [bind fst snd].
        assert (I0 : inv fmt size (setn s (n s + 1)) pre (chStar :: m ++ t) out) by (now apply setn_ok).
        destruct (put_ok _ _ _ _ _ _ chStar I0) as (s1 & -> & I1 & E1 & E2); [lia|]. cbn [bind].
        apply skipf_ok in I1.
        destruct (IH fuel (skipf s1 1) (pre ++ [chStar]) (out ++ [chStar]) p0 arg I1) as (s' & R & I2 & R2 & R3 & R4); auto; try lia.
        { rewrite zlen_app. change (zlen [chStar]) with 1. lia. }
        { cbn [skipf n args]. rewrite E1, E2. cbn [setn n args]. left. lia. }
        cbn [skipf n args] in *. rewrite E1, E2 in *. cbn [setn n args] in *.
        exists s'. rewrite <- !app_assoc in I2. auto. }
    { destruct (put_ok _ _ _ _ _ _ c I) as (s1 & -> & I1 & E1 & E2); [lia|]. cbn [bind].
      apply skipf_ok in I1.
      destruct (IH fuel (skipf s1 1) (pre ++ [c]) (out ++ [c]) p0 arg I1) as (s' & R & I2 & R2 & R3 & R4); auto; try lia.
      { rewrite zlen_app. change (zlen [c]) with 1. lia. }
      { cbn [skipf n args]. congruence. }
      cbn [skipf n args] in *. rewrite E1, E2 in *.
      exists s'. rewrite <- !app_assoc in I2. auto. }
Qed.
