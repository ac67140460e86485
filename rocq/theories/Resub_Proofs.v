(** Templates: _build_substitution writes the expansion. *)
From Verif Require Import Base Slots Utf8_Model Utf8_Spec Utf8_Proofs3 View_Model Cstr_Model Cstr_Spec Cstr_Proofs Regex_Model Regex_Spec Resub_Model Resub_Spec.

(** A string under construction: [l] has been written, the size not yet. *)
Definition build_inv (s : cstr) (l : list Z) : Prop := wf s /\ cells (sdata s) 0 l /\ zlen l <= scap s.
Lemma repr_inv s l : repr s l -> build_inv s [].
Proof. intros (W & _ & _ & L). split; [exact W|]. split; [apply cells_nil|]. change (zlen (@nil Z)) with 0. pose proof (wf_cap s W). lia. Qed.
Lemma reserve_inv s l n : build_inv s l -> scap s < n -> n < 2 ^ 63 - 1 -> exists s' mv, reserve s n = Ok (s', mv) /\ build_inv s' l /\ scap s' = n.
Proof.
  intros (W & C & L) Hs Hn. pose proof (wf_cap s W) as K. destruct (ssize_wf s W) as [v Ev]. unfold reserve. destruct s as [d|d m c]; cbn [wf sdata scap] in *.
  - rewrite Ev. cbn [bind]. destruct (Z.ltb_spec s_cap n); [|lia]. rewrite cap_ok_ok by (unfold s_cap in *; lia). cbn [bind]. destruct W as [Z1 W]. rewrite aslice_ok by lia. cbn [bind]. cbn [Z.to_nat skipn]. rewrite firstn_all2 by (unfold zlen in Z1; lia).
    unfold s_cap in *. destruct (ablit_malloc (n + 1) d l) as (d' & -> & Z2 & C2); auto; try lia. cbn [bind]. exists (Long d' v n), true. split; [reflexivity|]. cbn [scap]. split; [|reflexivity]. split; [cbn; lia|]. split; [exact C2|cbn; lia].
  - destruct (Z.ltb_spec c n); [|lia]. rewrite cap_ok_ok by lia. cbn [bind]. exists (Long (realloc d (n + 1)) m n), true. split; [reflexivity|]. cbn [scap]. split; [|reflexivity].
    split; [cbn [wf]; rewrite zlen_realloc by lia; lia|]. split; [|cbn; lia]. cbn [sdata]. apply cells_realloc; auto; lia.
Qed.
Lemma put_ok s l extra full b : build_inv s l -> 0 <= extra -> (full = false -> zlen l + zlen b <= scap s) -> (full = true -> scap s < zlen l + zlen b /\ zlen b <= scap s / 2 + extra + (scap s - zlen l) /\ 0 < scap s / 2 + extra) -> extra <= 4 + zlen b ->
  (exists s', put s (zlen l) (scap s) extra full b = Ok (s', scap s') /\ build_inv s' (l ++ b)) \/
  (put s (zlen l) (scap s) extra full b = Err Overflow /\ 2 ^ 31 <= zlen (l ++ b)).
Proof.
  intros I He Hf Ht Hx. pose proof (zlen_nonneg l). pose proof (zlen_nonneg b). rewrite zlen_app. pose proof I as (W & C & L). pose proof (wf_cap s W) as K. unfold put.
  assert (G : (exists s1, (if full then let* r := reserve s (scap s + (scap s / 2 + extra)) in Ok (fst r, scap s + (scap s / 2 + extra)) else Ok (s, scap s)) = Ok (s1, scap s1) /\ build_inv s1 l /\ zlen l + zlen b <= scap s1) \/
     (exists e, (if full then let* r := reserve s (scap s + (scap s / 2 + extra)) in Ok (fst r, scap s + (scap s / 2 + extra)) else Ok (s, scap s)) = Err e /\ e = Overflow /\ 2 ^ 31 <= zlen l + zlen b)).
  { destruct full; [|left; exists s; split; [reflexivity|]; auto]. destruct (Ht eq_refl) as (H1 & H2 & H3). set (c := scap s + (scap s / 2 + extra)).
    destruct (Z_lt_dec c (2 ^ 63 - 1)) as [Hc|Hc].
    - destruct (reserve_inv s l c I) as (s1 & mv & -> & I1 & E1); [unfold c; lia|exact Hc|]. left. exists s1. cbn [bind fst]. rewrite E1. split; [reflexivity|]. split; [exact I1|]. unfold c. lia.
    - right. exists Overflow. split; [|split; [reflexivity|]].
      + unfold reserve. destruct (ssize_wf s W) as [v Ev]. assert (EC : cap_ok c = Err Overflow) by (unfold cap_ok; destruct (Z.leb_spec 0 c); destruct (Z.ltb_spec c (2 ^ 63 - 1)); cbn [andb]; auto; lia).
        assert (HS : scap s < c) by (unfold c; lia). destruct s as [d|d n0 c0]; cbn [scap] in HS.
        * rewrite Ev. cbn [bind]. destruct (Z.ltb_spec s_cap c); [|lia]. now rewrite EC.
        * destruct (Z.ltb_spec c0 c); [|lia]. now rewrite EC.
      + assert (scap s / 2 <= scap s) by (apply Z.div_le_upper_bound; lia). unfold c in Hc. lia. }
  destruct G as [(s1 & -> & I1 & L1)|(e & -> & -> & G)]; cbn [bind fst snd]; [|now right]. destruct (Z.leb_spec (2 ^ 31) (zlen b)) as [Hb|Hb]; [right; split; [reflexivity|lia]|]. left.
  destruct I1 as (W1 & C1 & L2). destruct (write_ok s1 (zlen l) b W1) as (d & -> & W2 & S2 & F2 & C2); [lia|lia|]. cbn [bind]. exists (wdata s1 d). rewrite scap_wdata. split; [reflexivity|]. split; [exact W2|]. rewrite sdata_wdata, scap_wdata, zlen_app. split; [|lia].
  apply cells_app. split; [|exact C2]. eapply frame_cells; [exact F2|exact C1|lia].
Qed.

Section Build.
Variable tr : Z -> list Z -> option (list Z).
Variable m : list Z.
Variable rep : list Z.
Variable ms : nat.
Variable mt : se.
Hypothesis Hmt : (ms <= length mt)%nat.
Notation g := (group tr m ms mt).
(** Some group cannot be read. *)
Definition unreadable : Prop := exists k v e, 0 <= k < Z.of_nat ms /\ aget mt k = Ok v /\ view_bytes m v = Err e.
Lemma view_text v b : view_bytes m v = Ok b -> b = span_text m v.
Proof.
  unfold view_bytes, span_text. destruct v as [[p|] n]; cbn [fst snd]; destruct (Z.leb_spec n 0).
  - intros [= <-]. replace (Z.to_nat n) with O by lia. reflexivity.
  - intros Hsl. pose proof (aslice_inv _ _ _ _ Hsl) as (? & ? & ? & _). rewrite aslice_ok in Hsl by lia. congruence.
  - congruence.
  - discriminate.
Qed.
Lemma build_ok : forall fuel t p s l, holds_at rep p (t ++ [0]) -> ~ In 0 t -> (length t < fuel)%nat -> build_inv s l ->
  (exists s', build_loop tr m rep fuel (Z.of_nat ms) mt p s (zlen l) (scap s) = Ok s' /\ repr s' (l ++ expand g t)) \/
  (exists e, build_loop tr m rep fuel (Z.of_nat ms) mt p s (zlen l) (scap s) = Err e /\ (e = Overflow /\ 2 ^ 31 <= zlen (l ++ expand g t) \/ unreadable)).
Proof.
  induction fuel as [|fuel IH]; intros t p s l HA Hz Hf I; [lia|]. cbn [build_loop].
  assert (PUT1 : forall c r p', holds_at rep p' (c :: r ++ [0]) -> ~ In 0 r -> (length r < fuel)%nat -> expand g t = c :: expand g r ->
    (exists s', (let* c := aget rep p' in let* r := put s (zlen l) (scap s) 4 (zlen l =? scap s) [c] in build_loop tr m rep fuel (Z.of_nat ms) mt (p' + 1) (fst r) (zlen l + 1) (snd r)) = Ok s' /\ repr s' (l ++ expand g t)) \/
    (exists e, (let* c := aget rep p' in let* r := put s (zlen l) (scap s) 4 (zlen l =? scap s) [c] in build_loop tr m rep fuel (Z.of_nat ms) mt (p' + 1) (fst r) (zlen l + 1) (snd r)) = Err e /\ (e = Overflow /\ 2 ^ 31 <= zlen (l ++ expand g t) \/ unreadable))).
  { intros c r p' HA' Hz' Hf' Ex. rewrite (at_head _ _ _ _ HA'). cbn [bind]. pose proof I as (W & C & L). pose proof (wf_cap s W) as K. assert (0 <= scap s / 2) by (apply Z.div_pos; lia).
    destruct (put_ok s l 4 (zlen l =? scap s) [c] I ltac:(lia)) as [(s1 & -> & I1)|[-> G]]; try (change (zlen [c]) with 1; intros; lia).
    - cbn [bind fst snd]. replace (zlen l + 1) with (zlen (l ++ [c])) by (rewrite zlen_app; reflexivity). rewrite Ex. replace (l ++ c :: expand g r) with ((l ++ [c]) ++ expand g r) by (rewrite <- app_assoc; reflexivity).
      apply IH; auto. eapply at_tail; eauto.
    - cbn [bind]. right. exists Overflow. split; [reflexivity|left]. split; [reflexivity|]. rewrite Ex. rewrite zlen_app in *. rewrite zlen_cons. change (zlen [c]) with 1 in G. pose proof (zlen_nonneg (expand g r)). lia. }
  assert (GRP : forall k r p', 0 <= k -> holds_at rep p' (r ++ [0]) -> ~ In 0 r -> (length r < fuel)%nat -> expand g t = g k ++ expand g r ->
    let run := if k <? Z.of_nat ms then let* v := aget mt k in let* own := view_bytes m v in let b := match tr k own with Some t => t | None => own end in
        let* r := put s (zlen l) (scap s) (zlen b) (scap s <? zlen l + zlen b) b in build_loop tr m rep fuel (Z.of_nat ms) mt p' (fst r) (zlen l + zlen b) (snd r)
      else build_loop tr m rep fuel (Z.of_nat ms) mt p' s (zlen l) (scap s) in
    (exists s', run = Ok s' /\ repr s' (l ++ expand g t)) \/ (exists e, run = Err e /\ (e = Overflow /\ 2 ^ 31 <= zlen (l ++ expand g t) \/ unreadable))).
  { intros k r p' Hk HA' Hz' Hf' Ex run. unfold run; clear run. destruct (Z.ltb_spec k (Z.of_nat ms)) as [Hk2|Hk2].
    - destruct (aget_some mt k) as [v Ev]; [unfold zlen; lia|]. rewrite Ev. cbn [bind]. destruct (view_bytes m v) as [own|e] eqn:Eo; cbn [bind].
      + set (b := match tr k own with Some t0 => t0 | None => own end). assert (Eb : g k = b).
        { unfold group. destruct (Z.ltb_spec k (Z.of_nat ms)); [|lia]. apply aget_nth in Ev as [_ Ev]. rewrite (nth_error_nth _ _ (None, 0) Ev). rewrite <- (view_text _ _ Eo). reflexivity. }
        cbv zeta. pose proof I as (W & C & L). pose proof (wf_cap s W) as K. assert (0 < scap s / 2) by (apply Z.div_str_pos; lia). pose proof (zlen_nonneg b).
        destruct (put_ok s l (zlen b) (scap s <? zlen l + zlen b) b I) as [(s1 & -> & I1)|[-> G]]; try (intros; lia).
        * cbn [bind fst snd]. replace (zlen l + zlen b) with (zlen (l ++ b)) by (rewrite zlen_app; reflexivity). rewrite Ex, Eb, app_assoc. apply IH; auto.
        * cbn [bind]. right. exists Overflow. split; [reflexivity|left]. split; [reflexivity|]. rewrite Ex, Eb, app_assoc, zlen_app. pose proof (zlen_nonneg (expand g r)). lia.
      + right. exists e. split; [reflexivity|right]. exists k, v, e. auto.
    - assert (Eb : g k = []) by (unfold group; destruct (Z.ltb_spec k (Z.of_nat ms)); [lia|reflexivity]). rewrite Ex, Eb. apply IH; auto. }
  destruct t as [|c t].
  - rewrite (at_head _ _ _ _ HA). cbn [bind Z.eqb]. left. destruct I as (W & C & L). destruct (set_size_ok s l (zlen l) W C eq_refl L) as (s' & -> & R & _). exists s'. cbn [expand]. rewrite app_nil_r. auto.
  - rewrite (at_head _ _ _ _ HA). cbn [bind]. assert (c <> 0) by (intros ->; apply Hz; now left). destruct (Z.eqb_spec c 0); [lia|]. pose proof (at_tail _ _ _ _ HA) as HA1. fold (app t [0]) in HA1. assert (Hz1 : ~ In 0 t) by (intros ?; apply Hz; now right). cbn [length] in Hf.
    destruct (Z.eqb_spec c 36) as [->|Hc].
    2:{ cbn [bind]. change (is_digit 0) with false. change (0 =? 36) with false. cbv iota. apply (PUT1 c t p); auto; [lia|]. cbn [expand]. destruct (Z.eqb_spec c 36); [lia|reflexivity]. }
    destruct t as [|a r].
    + rewrite (at_head _ _ _ _ HA1). cbn [bind]. change (is_digit 0) with false. change (0 =? 36) with false. cbv iota. apply (PUT1 36 [] p); auto. cbn; lia.
    + rewrite (at_head _ _ _ _ HA1). cbn [bind]. pose proof (at_tail _ _ _ _ HA1) as HA2. fold (app r [0]) in HA2. replace (p + 1 + 1) with (p + 2) in HA2 by lia. assert (Hz2 : ~ In 0 r) by (intros ?; apply Hz1; now right). cbn [length] in Hf.
      assert (EE : expand g (36 :: a :: r) = if digit a then match r with b :: x :: r2 => if digit b && (x =? 59) then g ((a - 48) * 10 + (b - 48)) ++ expand g r2 else g (a - 48) ++ expand g r | _ => g (a - 48) ++ expand g r end
          else if a =? 36 then 36 :: expand g r else 36 :: expand g (a :: r)) by reflexivity.
      destruct (is_digit a) eqn:Da.
      * change (digit a) with (is_digit a) in EE. rewrite Da in EE. assert (48 <= a) by (unfold is_digit in Da; lia). destruct r as [|b r].
        -- rewrite (at_head _ _ _ _ HA2). cbn [bind]. change (is_digit 0) with false. cbv iota. cbn [bind]. apply (GRP (a - 48) [] (p + 2)); auto; [lia|cbn; lia].
        -- rewrite (at_head _ _ _ _ HA2). cbn [bind]. pose proof (at_tail _ _ _ _ HA2) as HA3. fold (app r [0]) in HA3. replace (p + 2 + 1) with (p + 3) in HA3 by lia. destruct (is_digit b) eqn:Db.
           2:{ cbn [bind]. apply (GRP (a - 48) (b :: r) (p + 2)); auto; [lia|cbn [length] in *; lia|]. rewrite EE. destruct r; [reflexivity|]. change (digit b) with (is_digit b). now rewrite Db. }
           assert (48 <= b) by (unfold is_digit in Db; lia). destruct r as [|x r].
           ++ rewrite (at_head _ _ _ _ HA3). cbn [bind]. change (0 =? 59) with false. cbv iota. apply (GRP (a - 48) [b] (p + 2)); auto; [lia|cbn [length] in *; lia].
           ++ rewrite (at_head _ _ _ _ HA3). cbn [bind]. change (digit b) with (is_digit b) in EE. rewrite Db in EE. cbn [andb] in EE. destruct (x =? 59).
              ** pose proof (at_tail _ _ _ _ HA3) as HA4. fold (app r [0]) in HA4. replace (p + 3 + 1) with (p + 4) in HA4 by lia. apply (GRP ((a - 48) * 10 + (b - 48)) r (p + 4)); auto; [lia| |cbn [length] in *; lia]. intros ?; apply Hz2. right. now right.
              ** apply (GRP (a - 48) (b :: x :: r) (p + 2)); auto; [lia|cbn [length] in *; lia].
      * change (digit a) with (is_digit a) in EE. rewrite Da in EE. destruct (Z.eqb_spec a 36) as [->|Ha].
        -- apply (PUT1 36 r (p + 1)); auto. lia.
        -- apply (PUT1 36 (a :: r) p); auto. cbn [length]; lia.
Qed.
Lemma build_sub t q s l : zstring rep q t -> repr s l ->
  (exists s', build tr m rep q (Z.of_nat ms) mt s = Ok s' /\ repr s' (expand g t)) \/
  (exists e, build tr m rep q (Z.of_nat ms) mt s = Err e /\ (e = Overflow /\ 2 ^ 31 <= zlen (expand g t) \/ unreadable)).
Proof.
  intros [Hz HA] R. unfold build. pose proof R as (_ & _ & -> & _). cbn [bind]. apply (build_ok (S (length rep)) t q s []); auto.
  - apply at_len in HA as [H1 H2]. rewrite zlen_app in H2. unfold zlen in H2. cbn [length] in H2. unfold zlen in H1. lia.
  - eapply repr_inv; eauto.
Qed.
End Build.
