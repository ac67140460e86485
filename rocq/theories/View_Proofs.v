From Verif Require Import Base Utf8_Model Utf8_Spec Utf8_Proofs Utf8_Proofs2 Utf8_Proofs3 Utf8_Proofs4 Utf8_Proofs5 Utf8_Proofs6 View_Model View_Spec.

Lemma memcmp_n_ok : forall l1 l2 m1 p1 m2 p2, holds_at m1 p1 l1 -> holds_at m2 p2 l2 -> length l1 = length l2 ->
  exists c, memcmp_n (length l1) m1 p1 m2 p2 = Ok c /\ (c ?= 0) = lex l1 l2.
Proof.
  induction l1 as [|a l1 IH]; intros [|b l2] m1 p1 m2 p2 H1 H2 HL; cbn [length] in HL; try lia; cbn [length memcmp_n lex].
  - eexists. split; reflexivity.
  - rewrite (at_head _ _ _ _ H1), (at_head _ _ _ _ H2). cbn [bind]. destruct (Z.eqb_spec a b) as [->|N].
    + rewrite Z.compare_refl. apply IH; auto; [now apply at_tail in H1|now apply at_tail in H2].
    + eexists. split; [reflexivity|]. rewrite cmp_sub. destruct (Z.compare_spec a b); auto. contradiction.
Qed.
Lemma memcmp_ok l1 l2 m1 p1 m2 p2 n : holds_at m1 p1 l1 -> holds_at m2 p2 l2 -> zlen l1 = n -> zlen l2 = n ->
  exists c, memcmp m1 p1 m2 p2 n = Ok c /\ (c ?= 0) = lex l1 l2.
Proof.
  intros H1 H2 L1 L2. unfold memcmp. unfold zlen in L1, L2. replace (Z.to_nat n) with (length l1) by lia. apply memcmp_n_ok; auto. lia.
Qed.
Lemma memcmp_eq l1 l2 m1 p1 m2 p2 n : holds_at m1 p1 l1 -> holds_at m2 p2 l2 -> zlen l1 = n -> zlen l2 = n ->
  exists c, memcmp m1 p1 m2 p2 n = Ok c /\ ((c =? 0) = true <-> l1 = l2).
Proof.
  intros H1 H2 L1 L2. destruct (memcmp_ok l1 l2 m1 p1 m2 p2 n H1 H2 L1 L2) as (c & E & H). exists c. split; auto.
  rewrite <- lex_eq, <- H. rewrite Z.eqb_eq. symmetry. apply Z.compare_eq_iff.
Qed.
Lemma strlen_n_ok m : forall fuel l p, zstring m p l -> (length l < fuel)%nat -> strlen_n fuel m p = Ok (zlen l).
Proof.
  induction fuel as [|fuel IH]; intros l p [HZ HA] Hf; [lia|]. cbn [strlen_n]. destruct l as [|b l].
  - cbn [app] in HA. rewrite (at_head _ _ _ _ HA). reflexivity.
  - cbn [app] in HA. rewrite (at_head _ _ _ _ HA). cbn [bind]. destruct (Z.eqb_spec b 0) as [->|N]; [exfalso; apply HZ; now left|].
    rewrite (IH l); [cbn [bind]; rewrite zlen_cons; f_equal; lia| |cbn [length] in Hf; lia]. split; [intros H; apply HZ; now right|now apply at_tail in HA].
Qed.
Lemma strlen_ok m p l : zstring m p l -> strlen m p = Ok (zlen l).
Proof. intros H. apply strlen_n_ok; auto. destruct H as [_ H]. apply fuel_len in H. rewrite app_length in H. cbn in H. lia. Qed.
Lemma from_ok m p l : zstring m p l -> from m p = Ok (V m p (zlen l)) /\ shows (V m p (zlen l)) l.
Proof. intros H. unfold from. rewrite (strlen_ok m p l H). split; [reflexivity|]. split; [|reflexivity]. destruct H as [_ H]. now apply at_app in H. Qed.
Lemma strcmp_n_ok : forall fuel l1 l2 m1 p1 m2 p2, zstring m1 p1 l1 -> zstring m2 p2 l2 -> Forall is_byte l1 -> Forall is_byte l2 -> (length l1 < fuel)%nat ->
  exists c, strcmp_n fuel m1 p1 m2 p2 = Ok c /\ (c ?= 0) = lex l1 l2.
Proof.
  induction fuel as [|fuel IH]; intros l1 l2 m1 p1 m2 p2 [Z1 A1] [Z2 A2] B1 B2 Hf; [lia|]. cbn [strcmp_n].
  destruct l1 as [|a l1], l2 as [|b l2]; cbn [app] in *; rewrite (at_head _ _ _ _ A1), (at_head _ _ _ _ A2); cbn [bind lex].
  - cbn. eexists. split; reflexivity.
  - assert (b <> 0) by (intros ->; apply Z2; now left). inversion B2 as [|? ? Hb _]; subst. unfold is_byte in Hb. destruct (Z.eqb_spec 0 b); [lia|]. cbn [negb].
    eexists. split; [reflexivity|]. destruct (Z.compare_spec (0 - b) 0); lia || reflexivity.
  - assert (a <> 0) by (intros ->; apply Z1; now left). inversion B1 as [|? ? Ha _]; subst. unfold is_byte in Ha. destruct (Z.eqb_spec a 0); [lia|]. cbn [negb].
    eexists. split; [reflexivity|]. destruct (Z.compare_spec (a - 0) 0); lia || reflexivity.
  - assert (a <> 0) by (intros ->; apply Z1; now left). destruct (Z.eqb_spec a b) as [->|N]; cbn [negb].
    + destruct (Z.eqb_spec b 0); [contradiction|]. rewrite Z.compare_refl. inversion B1; inversion B2; subst. cbn [length] in Hf.
      apply IH; auto; try lia; (split; [intros HH; first [now apply Z1; right|now apply Z2; right]|eapply at_tail; eauto]).
    + eexists. split; [reflexivity|]. rewrite cmp_sub. destruct (Z.compare_spec a b); auto. contradiction.
Qed.
Lemma strcmp_ok l1 l2 m1 p1 m2 p2 : zstring m1 p1 l1 -> zstring m2 p2 l2 -> Forall is_byte l1 -> Forall is_byte l2 ->
  exists c, strcmp m1 p1 m2 p2 = Ok c /\ (c ?= 0) = lex l1 l2.
Proof. intros H1 H2 B1 B2. apply strcmp_n_ok; auto. destruct H1 as [_ H]. apply fuel_len in H. rewrite app_length in H. cbn in H. lia. Qed.

(** ** Search *)
Lemma occurs_nil text i : occurs text [] i <-> 0 <= i <= zlen text.
Proof.
  split.
  - intros (x & y & -> & <-). rewrite zlen_app. pose proof (zlen_nonneg x). pose proof (zlen_nonneg y). cbn [app]. lia.
  - intros H. destruct (list_split_at text i H) as (x & r & E & L). exists x, r. split; auto.
Qed.
Lemma occurs_cons b l pat i : 0 < i -> occurs (b :: l) pat i <-> occurs l pat (i - 1).
Proof.
  intros Hi. split.
  - intros (x & y & E & L). destruct x as [|b' x]; [change (zlen []) with 0 in L; lia|]. cbn [app] in E. injection E as <- E. exists x, y. split; auto. rewrite zlen_cons in L. lia.
  - intros (x & y & E & L). exists (b :: x), y. rewrite E, zlen_cons. split; auto. lia.
Qed.
Lemma occurs_range text pat i : occurs text pat i -> 0 <= i /\ i + zlen pat <= zlen text.
Proof. intros (x & y & -> & <-). rewrite !zlen_app. pose proof (zlen_nonneg x). pose proof (zlen_nonneg y). lia. Qed.
Lemma occurs_0 text pat : occurs text pat 0 <-> exists y, text = pat ++ y.
Proof.
  split.
  - intros (x & y & -> & L). destruct x; [exists y; reflexivity|]. rewrite zlen_cons in L. pose proof (zlen_nonneg x). lia.
  - intros (y & ->). exists [], y. split; reflexivity.
Qed.
Lemma strnstrn_loop_ok m nm needle pat : holds_at nm needle pat -> pat <> [] -> forall fuel text str, holds_at m str text -> zlen pat <= zlen text -> (length text < fuel + length pat)%nat ->
  exists r, strnstrn_loop fuel m str (zlen text - zlen pat) nm needle (zlen pat) = Ok r /\
    first_at text pat (match r with Some i => Some (i - str) | None => None end).
Proof.
  intros HN Hne. induction fuel as [|fuel IH]; intros text str HA HL Hf; [unfold zlen in HL; lia|]. cbn [strnstrn_loop].
  destruct text as [|a text]; [exfalso; destruct pat; [contradiction|]; rewrite zlen_cons in HL; change (zlen []) with 0 in HL; pose proof (zlen_nonneg pat); lia|].
  destruct pat as [|b pat]; [contradiction|]. set (P := b :: pat) in *. rewrite (at_head _ _ _ _ HA). unfold P in HN. rewrite (at_head _ _ _ _ HN). fold P in HN. cbn [bind].
  destruct (list_split_at (a :: text) (zlen P)) as (x & y & Ex & Lx); [pose proof (zlen_nonneg P); lia|].
  assert (HX : holds_at m str x) by (rewrite Ex in HA; now apply at_app in HA).
  assert (HI : exists hit, (if a =? b then let* c := memcmp m str nm needle (zlen P) in Ok (c =? 0) else Ok false) = Ok hit /\ (hit = true <-> occurs (a :: text) P 0)).
  { assert (HO : occurs (a :: text) P 0 <-> x = P).
    { rewrite occurs_0. split.
      - intros (y' & E). rewrite E in Ex. apply app_same_len in Ex as [-> _]; auto.
      - intros ->. eauto. }
    destruct (memcmp_eq x P m str nm needle (zlen P) HX HN Lx eq_refl) as (c & Ec & Hc). destruct (Z.eqb_spec a b) as [Eab|N].
    - rewrite Ec. cbn [bind]. eexists. split; [reflexivity|]. now rewrite HO.
    - exists false. split; [reflexivity|]. split; [discriminate|]. rewrite HO. intros ->. unfold P in Ex. cbn [app] in Ex. injection Ex. congruence. }
  destruct HI as (hit & -> & HH). cbn [bind]. destruct hit.
  - exists (Some str). split; [reflexivity|]. rewrite Z.sub_diag. split; [now apply HH|]. intros j Hj. apply occurs_range in Hj. lia.
  - assert (H0 : ~ occurs (a :: text) P 0) by (intros H; apply HH in H; discriminate H).
    destruct (Z.eqb_spec (zlen (a :: text) - zlen P) 0) as [E|E].
    + exists None. split; [reflexivity|]. intros j Hj. pose proof (occurs_range _ _ _ Hj) as [R1 R2]. assert (j = 0) by lia. subst j. contradiction.
    + rewrite zlen_cons in *. destruct (IH text (str + 1)) as (r & Er & Hr); [now apply at_tail in HA|lia|cbn [length] in Hf; lia|].
      replace (1 + zlen text - zlen P - 1) with (zlen text - zlen P) by lia. rewrite Er. exists r. split; [reflexivity|]. destruct r as [i|]; cbn [first_at] in *.
      * destruct Hr as [O1 O2]. pose proof (occurs_range _ _ _ O1). split; [apply occurs_cons; [lia|]; now replace (i - str - 1) with (i - (str + 1)) by lia|].
        intros j Hj. pose proof (occurs_range _ _ _ Hj). destruct (Z.eq_dec j 0) as [->|]; [contradiction|]. apply occurs_cons in Hj; [|lia]. apply O2 in Hj. lia.
      * intros j Hj. pose proof (occurs_range _ _ _ Hj). destruct (Z.eq_dec j 0) as [->|]; [contradiction|]. apply occurs_cons in Hj; [|lia]. now apply Hr in Hj.
Qed.
Lemma strnstrn_ok m str text nm needle pat : holds_at m str text -> holds_at nm needle pat ->
  exists r, strnstrn m str (zlen text) nm needle (zlen pat) = Ok r /\ first_at text pat (match r with Some i => Some (i - str) | None => None end).
Proof.
  intros HA HN. unfold strnstrn. pose proof (zlen_nonneg pat). pose proof (zlen_nonneg text). destruct (Z.eqb_spec (zlen pat) 0) as [E|E].
  - exists (Some str). split; [reflexivity|]. assert (pat = []) as -> by (destruct pat; [auto|rewrite zlen_cons in E; pose proof (zlen_nonneg pat); lia]).
    rewrite Z.sub_diag. split; [apply occurs_nil; lia|]. intros j Hj. apply occurs_range in Hj. lia.
  - assert (pat <> []) by (intros ->; now apply E). destruct (Z.ltb_spec (zlen text) (zlen pat)).
    + exists None. split; [reflexivity|]. intros j Hj. apply occurs_range in Hj. lia.
    + apply strnstrn_loop_ok; auto. apply fuel_len in HA. destruct pat; [contradiction|]. cbn [length]. lia.
Qed.
Lemma find_sv_ok a s l pat : shows a l -> shows s pat -> exists r, find_sv a s = Ok r /\ first_at l pat r.
Proof.
  intros [HA EA] [HS ES]. unfold find_sv. rewrite EA, ES. destruct (strnstrn_ok _ _ _ _ _ _ HA HS) as (r & -> & H). cbn [bind]. eauto.
Qed.
Lemma find_ok a m p l pat : shows a l -> zstring m p pat -> exists r, find a m p = Ok r /\ first_at l pat r.
Proof. intros HA HZ. unfold find. destruct (from_ok m p pat HZ) as [-> HS]. cbn [bind]. now apply find_sv_ok. Qed.
Lemma contains_ok a m p l pat : shows a l -> zstring m p pat -> exists r, contains a m p = Ok r /\ (r = true <-> exists i, occurs l pat i).
Proof.
  intros HA HZ. unfold contains. destruct (find_ok a m p l pat HA HZ) as (r & -> & H). cbn [bind]. eexists. split; [reflexivity|].
  destruct r as [i|]; cbn [first_at] in H; split; try discriminate; auto; [intros _; exists i; tauto|]. intros [i Hi]. now apply H in Hi.
Qed.
Lemma strstr_ok m p l nm q pat : zstring m p l -> zstring nm q pat -> exists r, z_find m p nm q = Ok r /\ first_at l pat r.
Proof.
  intros H1 H2. unfold z_find, strstr. rewrite (strlen_ok m p l H1), (strlen_ok nm q pat H2). cbn [bind].
  destruct H1 as [_ A1], H2 as [_ A2]. apply at_app in A1 as [A1 _], A2 as [A2 _]. destruct (strnstrn_ok _ _ _ _ _ _ A1 A2) as (r & -> & H). cbn [bind]. eauto.
Qed.
Lemma first_unique text pat r1 r2 : first_at text pat r1 -> first_at text pat r2 -> r1 = r2.
Proof.
  destruct r1 as [i|], r2 as [j|]; cbn; auto.
  - intros [O1 H1] [O2 H2]. f_equal. apply H1 in O2. apply H2 in O1. lia.
  - intros [O1 _] H. now apply H in O1.
  - intros H [O1 _]. now apply H in O1.
Qed.

(** ** Equality, order, prefix, suffix *)
Lemma equals_sv_ok a b l l' : shows a l -> shows b l' -> exists v, equals_sv a b = Ok v /\ (v = true <-> l = l').
Proof.
  intros [HA EA] [HB EB]. unfold equals_sv. rewrite EA, EB. destruct (Z.eqb_spec (zlen l) (zlen l')) as [E|E].
  - destruct (memcmp_eq l l' _ _ _ _ (zlen l) HA HB eq_refl (eq_sym E)) as (c & -> & H). cbn [bind]. eauto.
  - exists false. split; [reflexivity|]. split; [discriminate|]. intros ->. contradiction.
Qed.
Lemma lex_app a b x y : length a = length b -> lex (a ++ x) (b ++ y) = match lex a b with Eq => lex x y | r => r end.
Proof. revert b. induction a as [|u a IH]; intros [|v b] H; cbn in *; try lia; auto. destruct (u ?= v); auto. Qed.
Lemma cmp_ok x y l l' : shows x l -> shows y l' -> exists c, cmp x y = Ok c /\ (c ?= 0) = lex l l'.
Proof.
  intros [HA EA] [HB EB]. unfold cmp. rewrite EA, EB. pose proof (zlen_nonneg l). pose proof (zlen_nonneg l').
  set (n := if zlen l <? zlen l' then zlen l else zlen l').
  assert (Hn : 0 <= n <= zlen l /\ n <= zlen l' /\ (n = zlen l \/ n = zlen l')) by (unfold n; destruct (Z.ltb_spec (zlen l) (zlen l')); lia).
  destruct (list_split_at l n ltac:(lia)) as (a & a' & -> & La). destruct (list_split_at l' n ltac:(lia)) as (b & b' & -> & Lb).
  pose proof (at_app _ _ _ _ HA) as [A1 _]. pose proof (at_app _ _ _ _ HB) as [B1 _].
  destruct (memcmp_ok a b _ _ _ _ n A1 B1 La Lb) as (c & -> & Hc). cbn [bind]. eexists. split; [reflexivity|].
  rewrite lex_app by (unfold zlen in *; lia). rewrite <- Hc. rewrite !zlen_app in *. pose proof (zlen_nonneg a'). pose proof (zlen_nonneg b').
  destruct (Z.eqb_spec c 0) as [->|N]; cbn [negb].
  - cbn [Z.compare]. destruct a' as [|u a'], b' as [|v b']; repeat match goal with H : context[zlen (_ :: _)] |- _ => rewrite zlen_cons in H end; change (zlen (@nil Z)) with 0 in *; rewrite ?zlen_cons; change (zlen (@nil Z)) with 0.
    + destruct (Z.ltb_spec (zlen b + 0) (zlen a + 0)), (Z.ltb_spec (zlen a + 0) (zlen b + 0)); try lia; reflexivity.
    + pose proof (zlen_nonneg b'). destruct (Z.ltb_spec (zlen b + (1 + zlen b')) (zlen a + 0)), (Z.ltb_spec (zlen a + 0) (zlen b + (1 + zlen b'))); try lia; reflexivity.
    + pose proof (zlen_nonneg a'). destruct (Z.ltb_spec (zlen b + 0) (zlen a + (1 + zlen a'))), (Z.ltb_spec (zlen a + (1 + zlen a')) (zlen b + 0)); try lia; reflexivity.
    + pose proof (zlen_nonneg a'). pose proof (zlen_nonneg b'). lia.
  - destruct (Z.compare_spec c 0); try contradiction; reflexivity.
Qed.
Lemma starts_ok a m p l pat : shows a l -> zstring m p pat -> exists v, starts_with a m p = Ok v /\ (v = true <-> exists r, l = pat ++ r).
Proof.
  intros [HA EA] HZ. unfold starts_with. rewrite (strlen_ok m p pat HZ). cbn [bind]. rewrite EA. pose proof (zlen_nonneg pat).
  destruct (Z.leb_spec (zlen pat) (zlen l)) as [L|L].
  - destruct (list_split_at l (zlen pat) ltac:(lia)) as (x & y & -> & Lx). apply at_app in HA as [HA _]. destruct HZ as [_ HZ]. apply at_app in HZ as [HZ _].
    destruct (memcmp_eq x pat _ _ _ _ (zlen pat) HA HZ Lx eq_refl) as (c & -> & H'). cbn [bind]. eexists. split; [reflexivity|]. rewrite H'. split; [intros ->; eauto|].
    intros [r E]. apply app_same_len in E as [-> _]; auto.
  - exists false. split; [reflexivity|]. split; [discriminate|]. intros [r ->]. rewrite zlen_app in L. pose proof (zlen_nonneg r). lia.
Qed.
Lemma ends_ok a m p l pat : shows a l -> zstring m p pat -> exists v, ends_with a m p = Ok v /\ (v = true <-> exists r, l = r ++ pat).
Proof.
  intros [HA EA] HZ. unfold ends_with. rewrite (strlen_ok m p pat HZ). cbn [bind]. rewrite EA. pose proof (zlen_nonneg pat).
  destruct (Z.leb_spec (zlen pat) (zlen l)) as [L|L].
  - destruct (list_split_at l (zlen l - zlen pat) ltac:(lia)) as (x & y & -> & Lx). rewrite zlen_app in *. apply at_app in HA as [_ HA]. destruct HZ as [_ HZ]. apply at_app in HZ as [HZ _].
    replace (buf a + (zlen x + zlen y) - zlen pat) with (buf a + zlen x) by lia.
    destruct (memcmp_eq y pat _ _ _ _ (zlen pat) HA HZ ltac:(lia) eq_refl) as (c & -> & H'). cbn [bind]. eexists. split; [reflexivity|]. rewrite H'. split; [intros ->; eauto|].
    intros [r E]. assert (zlen x = zlen r) by (apply (f_equal zlen) in E; rewrite !zlen_app in E; lia). apply app_same_len in E as [_ ->]; auto.
  - exists false. split; [reflexivity|]. split; [discriminate|]. intros [r ->]. rewrite zlen_app in L. pose proof (zlen_nonneg r). lia.
Qed.

(** ** Subviews *)
Lemma sub_shows a l pos len : shows a l -> 0 <= pos -> 0 <= len -> pos + len <= zlen l -> shows (V (mem a) (buf a + pos) len) (sub l pos len).
Proof.
  intros [HA EA] Hp Hl Hr. destruct (list_split_at l pos ltac:(lia)) as (x & y & -> & Lx). rewrite zlen_app in Hr.
  destruct (list_split_at y len ltac:(lia)) as (u & v & -> & Lu). unfold sub.
  assert (E1 : skipn (Z.to_nat pos) (x ++ u ++ v) = u ++ v) by (rewrite skipn_app, skipn_all2 by (unfold zlen in *; lia); replace (Z.to_nat pos - length x)%nat with O by (unfold zlen in *; lia); reflexivity).
  assert (E2 : firstn (Z.to_nat len) (u ++ v) = u) by (rewrite firstn_app, firstn_all2 by (unfold zlen in *; lia); replace (Z.to_nat len - length u)%nat with O by (unfold zlen in *; lia); cbn [firstn]; now rewrite app_nil_r).
  rewrite E1, E2. apply at_app in HA as [_ HA]. apply at_app in HA as [HA _]. split; cbn [mem buf size]; [now rewrite <- Lx|lia].
Qed.
Lemma sub_clamp l pos len : 0 <= pos <= zlen l -> zlen l < pos + len -> sub l pos len = sub l pos (zlen l - pos).
Proof. intros H1 H2. unfold sub. rewrite !firstn_all2; auto; rewrite skipn_length; unfold zlen in *; lia. Qed.
Lemma ule_ok a b : - 2 ^ 63 <= a <= imax -> 0 <= b <= imax -> ule a b = (0 <=? a) && (a <=? b).
Proof.
  unfold ule, imax. intros Ha Hb. rewrite (Z.mod_small b) by lia. destruct (Z.leb_spec 0 a).
  - rewrite Z.mod_small by lia. reflexivity.
  - replace (a mod 2 ^ 64) with (a + 2 ^ 64). 2: { rewrite <- (Z.mod_small (a + 2 ^ 64) (2 ^ 64)) by lia. rewrite <- Zplus_mod_idemp_r, Z_mod_same_full, Z.add_0_r. reflexivity. }
    destruct (Z.leb_spec (a + 2 ^ 64) b); [lia|]. reflexivity.
Qed.
Lemma subview_ok a l pos len : shows a l -> zlen l <= imax -> 0 <= pos <= zlen l -> 0 <= len -> pos + len <= imax ->
  exists v, subview a pos len = Ok v /\ shows v (sub l pos len).
Proof.
  intros HS HM Hp Hl Ho. unfold subview. destruct HS as [HA EA]. rewrite EA. unfold imax in *. rewrite ule_ok by (unfold imax; lia).
  destruct (Z.leb_spec 0 pos); [|lia]. destruct (Z.leb_spec pos (zlen l)); [|lia]. destruct (Z.leb_spec 0 len); [|lia]. cbn [andb negb].
  unfold iadd, imax. destruct (Z.leb_spec (- 2 ^ 63) (pos + len)); [|lia]. destruct (Z.leb_spec (pos + len) (2 ^ 63 - 1)); [|lia]. cbn [andb bind].
  eexists. split; [reflexivity|]. destruct (Z.ltb_spec (zlen l) (pos + len)).
  - rewrite sub_clamp by lia. apply sub_shows; try lia. split; auto.
  - apply sub_shows; try lia. split; auto.
Qed.
Lemma subview_bad a l pos len : shows a l -> zlen l <= imax -> - 2 ^ 63 <= pos <= imax -> (pos < 0 \/ zlen l < pos \/ len < 0) -> subview a pos len = Err AssertFail.
Proof.
  intros [HA EA] HM Hp H. unfold subview. rewrite EA, ule_ok by (auto; pose proof (zlen_nonneg l); lia).
  destruct (Z.leb_spec 0 pos), (Z.leb_spec pos (zlen l)), (Z.leb_spec 0 len); cbn [andb negb]; auto. lia.
Qed.
Lemma slice_ok a l p1 p2 : shows a l -> zlen l <= imax -> 0 <= p1 <= zlen l -> p1 <= p2 <= imax -> exists v, slice a p1 p2 = Ok v /\ shows v (sub l p1 (p2 - p1)).
Proof.
  intros HS HM Hp Hl. unfold slice. destruct HS as [HA EA]. rewrite EA, !ule_ok by (unfold imax in *; lia).
  destruct (Z.leb_spec 0 p1); [|lia]. destruct (Z.leb_spec p1 p2); [|lia]. destruct (Z.leb_spec p1 (zlen l)); [|lia]. cbn [andb negb].
  eexists. split; [reflexivity|]. destruct (Z.ltb_spec (zlen l) p2).
  - rewrite sub_clamp by lia. apply sub_shows; try lia. split; auto.
  - apply sub_shows; try lia. split; auto.
Qed.
Lemma tail_ok a l len : shows a l -> zlen l <= imax -> 0 <= len <= zlen l -> exists v, tail a len = Ok v /\ shows v (sub l (zlen l - len) len).
Proof. intros HS HM Hl. unfold tail. destruct HS as [HA EA]. rewrite EA. apply subview_ok; try lia. split; auto. Qed.
Lemma z_tail_ok a l len : shows a l -> 0 <= len -> exists v, z_tail a len = Ok v /\ shows v (sub l (zlen l - Z.min len (zlen l)) len).
Proof.
  intros HS Hl. unfold z_tail. destruct HS as [HA EA]. rewrite EA. pose proof (zlen_nonneg l). destruct (Z.ltb_spec len 0); [lia|]. eexists. split; [reflexivity|].
  destruct (Z.ltb_spec (zlen l) len).
  - rewrite Z.min_r by lia. rewrite Z.sub_diag. rewrite sub_clamp by lia. rewrite Z.sub_0_r. apply sub_shows; try lia. split; auto.
  - rewrite Z.min_l by lia. apply sub_shows; try lia. split; auto.
Qed.
Lemma from_pos_ok a l pos : shows a l -> 0 <= pos -> shows (z_from_pos a pos) (skipn (Z.to_nat pos) l).
Proof.
  intros HS Hp. unfold z_from_pos. destruct HS as [HA EA]. rewrite EA. set (q := if zlen l <? pos then zlen l else pos).
  assert (Hq : 0 <= q <= zlen l) by (unfold q; pose proof (zlen_nonneg l); destruct (Z.ltb_spec (zlen l) pos); lia).
  assert (E : skipn (Z.to_nat pos) l = sub l q (zlen l - q)).
  { unfold sub. rewrite firstn_all2 by (rewrite skipn_length; unfold zlen in *; lia). unfold q. destruct (Z.ltb_spec (zlen l) pos); auto.
    rewrite !skipn_all2; auto; unfold zlen in *; lia. }
  rewrite E. apply sub_shows; try lia. split; auto.
Qed.
Lemma subview_pro_ok a l pos len : shows a l -> zlen l + len <= imax -> 0 <= len ->
  exists v, subview_pro a pos len = Ok v /\ shows v (sub l (if pos <? 0 then Z.max 0 (zlen l + pos) else Z.min pos (zlen l)) len).
Proof.
  intros HS HM Hl. unfold subview_pro. destruct HS as [HA EA]. rewrite EA. pose proof (zlen_nonneg l).
  set (q := if pos <? 0 then Z.max 0 (zlen l + pos) else Z.min pos (zlen l)).
  set (q0 := if pos <? 0 then if pos + zlen l <? 0 then 0 else pos + zlen l else pos).
  assert (Eq : (if zlen l <? q0 then zlen l else q0) = q).
  { unfold q, q0. destruct (Z.ltb_spec pos 0); [destruct (Z.ltb_spec (pos + zlen l) 0)|]; match goal with |- context[zlen l <? ?t] => destruct (Z.ltb_spec (zlen l) t) end; lia. }
  rewrite Eq. assert (Hq : 0 <= q <= zlen l) by (unfold q; destruct (Z.ltb_spec pos 0); lia). clearbody q. clear q0 Eq.
  unfold iadd, imax in *. destruct (Z.leb_spec (- 2 ^ 63) (q + len)); [|lia]. destruct (Z.leb_spec (q + len) (2 ^ 63 - 1)); [|lia]. cbn [andb bind].
  eexists. split; [reflexivity|]. destruct (Z.ltb_spec (zlen l) (q + len)).
  - rewrite sub_clamp by lia. apply sub_shows; try lia. split; auto.
  - apply sub_shows; try lia. split; auto.
Qed.

(** ** Trimming *)
Lemma trim_start_n_ok : forall fuel a l, shows a l -> Forall is_byte l -> (length l < fuel)%nat -> forall schar, (schar = true -> Forall (fun b => b < 128) l) ->
  exists v r, trim_start_n fuel schar a = Ok v /\ shows v r /\ trimmed_start l r.
Proof.
  induction fuel as [|fuel IH]; intros a l [HA EA] HB Hf schar HS; [lia|]. cbn [trim_start_n]. rewrite EA. destruct l as [|b l].
  - change (zlen []) with 0. cbn [Z.eqb]. exists a, []. split; [reflexivity|]. split; [split; auto|]. exists []. repeat split; auto.
  - rewrite zlen_cons in *. pose proof (zlen_nonneg l). destruct (Z.eqb_spec (1 + zlen l) 0); [lia|]. rewrite (at_head _ _ _ _ HA). cbn [bind].
    inversion HB as [|? ? Hb HB']; subst. unfold is_byte in Hb.
    assert (TC : to_char schar b = b).
    { unfold to_char. destruct schar; [|reflexivity]. specialize (HS eq_refl). inversion HS; subst. destruct (Z.leb_spec 128 b); [lia|]. reflexivity. }
    rewrite TC. destruct (Z.leb_spec b 32).
    + destruct (IH (V (mem a) (buf a + 1) (1 + zlen l - 1)) l) with (schar := schar) as (v & r & E & S & T); auto.
      { split; cbn [mem buf size]; [now apply at_tail in HA|lia]. }
      { cbn [length] in Hf. lia. }
      { intros Hs. specialize (HS Hs). now inversion HS. }
      exists v, r. split; [exact E|]. split; [exact S|]. destruct T as (x & -> & Hx & Hr). exists (b :: x). split; [reflexivity|]. split; [constructor; [split; lia|auto]|auto].
    + exists a, (b :: l). split; [reflexivity|]. split; [split; auto; now rewrite zlen_cons|]. exists []. split; [reflexivity|]. split; [constructor|]. unfold blank. lia.
Qed.
Lemma trim_start_ok schar a l : shows a l -> Forall is_byte l -> (schar = true -> Forall (fun b => b < 128) l) ->
  exists v r, trim_start schar a = Ok v /\ shows v r /\ trimmed_start l r.
Proof. intros HS HB HC. apply trim_start_n_ok; auto. destruct HS as [_ ->]. unfold zlen. lia. Qed.
Lemma trim_end_n_ok : forall fuel a l, shows a l -> Forall is_byte l -> (length l < fuel)%nat -> forall schar, (schar = true -> Forall (fun b => b < 128) l) ->
  exists v r, trim_end_n fuel schar a = Ok v /\ shows v r /\ trimmed_end l r.
Proof.
  induction fuel as [|fuel IH]; intros a l [HA EA] HB Hf schar HS; [lia|]. cbn [trim_end_n]. rewrite EA. destruct l as [|b l _] using rev_ind.
  - change (zlen []) with 0. cbn [Z.eqb]. exists a, []. split; [reflexivity|]. split; [split; auto|]. exists []. repeat split; auto. intros r' b E. destruct r'; discriminate E.
  - rewrite zlen_app in *. change (zlen [b]) with 1 in *. pose proof (zlen_nonneg l). destruct (Z.eqb_spec (zlen l + 1) 0); [lia|].
    pose proof (at_app _ _ _ _ HA) as [HA1 HA2]. replace (buf a + (zlen l + 1) - 1) with (buf a + zlen l) by lia. rewrite (at_head _ _ _ _ HA2). cbn [bind].
    apply Forall_app in HB as [HB' Hb]. inversion Hb as [|? ? Hb1 _]; subst. unfold is_byte in Hb1.
    assert (TC : to_char schar b = b).
    { unfold to_char. destruct schar; [|reflexivity]. specialize (HS eq_refl). apply Forall_app in HS as [_ HS]. inversion HS; subst. destruct (Z.leb_spec 128 b); [lia|]. reflexivity. }
    rewrite TC. destruct (Z.leb_spec b 32).
    + destruct (IH (V (mem a) (buf a) (zlen l + 1 - 1)) l) with (schar := schar) as (v & r & E & S & T); auto.
      { split; cbn [mem buf size]; [auto|lia]. }
      { rewrite app_length in Hf. cbn [length] in Hf. lia. }
      { intros Hs. specialize (HS Hs). now apply Forall_app in HS. }
      exists v, r. split; [exact E|]. split; [exact S|]. destruct T as (x & -> & Hx & Hr). exists (x ++ [b]). split; [now rewrite app_assoc|]. split; [apply Forall_app; split; auto; repeat constructor; lia|auto].
    + exists a, (l ++ [b]). split; [reflexivity|]. split; [split; auto; now rewrite zlen_app|]. exists []. split; [now rewrite app_nil_r|]. split; [constructor|].
      intros r' b' E. apply app_inj_tail in E as [_ <-]. unfold blank. lia.
Qed.
Lemma trim_end_ok schar a l : shows a l -> Forall is_byte l -> (schar = true -> Forall (fun b => b < 128) l) ->
  exists v r, trim_end schar a = Ok v /\ shows v r /\ trimmed_end l r.
Proof. intros HS HB HC. apply trim_end_n_ok; auto. destruct HS as [_ ->]. unfold zlen. lia. Qed.
Lemma trim_ok schar a l : shows a l -> Forall is_byte l -> (schar = true -> Forall (fun b => b < 128) l) ->
  exists v r t, trim schar a = Ok v /\ shows v r /\ trimmed_start l t /\ trimmed_end t r.
Proof.
  intros HS HB HC. unfold trim. destruct (trim_start_ok schar a l HS HB HC) as (v & t & -> & S1 & T1). cbn [bind]. pose proof T1 as (x & El & _ & _).
  destruct (trim_end_ok schar v t S1) as (v2 & r & -> & S2 & T2).
  - rewrite El in HB. now apply Forall_app in HB.
  - intros Hs. specialize (HC Hs). rewrite El in HC. now apply Forall_app in HC.
  - exists v2, r, t. auto.
Qed.

(** ** Tokens *)
Lemma token_ok a sm sep l sp pos : shows a l -> zstring sm sep sp -> 0 <= pos <= zlen l ->
  exists t v, token a sm sep pos = Ok (v, pos + (zlen t + zlen sp)) /\ shows v t /\
    ((skipn (Z.to_nat pos) l = t /\ first_at t sp None) \/
     exists r, skipn (Z.to_nat pos) l = t ++ sp ++ r /\ first_at (t ++ sp ++ r) sp (Some (zlen t))).
Proof.
  intros [HA EA] HZ Hp. unfold token. rewrite (strlen_ok _ _ _ HZ). cbn [bind]. destruct (list_split_at l pos Hp) as (x & y & -> & Lx).
  assert (E1 : skipn (Z.to_nat pos) (x ++ y) = y) by (rewrite skipn_app, skipn_all2 by (unfold zlen in *; lia); replace (Z.to_nat pos - length x)%nat with O by (unfold zlen in *; lia); reflexivity).
  rewrite E1, EA, zlen_app. replace (zlen x + zlen y - pos) with (zlen y) by lia. apply at_app in HA as [_ HA]. rewrite Lx in HA.
  destruct HZ as [_ HZ]. apply at_app in HZ as [HZ _]. destruct (strnstrn_ok _ _ _ _ _ _ HA HZ) as (r & -> & F). cbn [bind]. destruct r as [i|].
  - pose proof F as [(t & r & Ey & Lt) _]. exists t. eexists. rewrite <- Lt. split; [reflexivity|]. rewrite Ey in HA. apply at_app in HA as [HA _]. split; [split; [exact HA|reflexivity]|].
    right. exists r. split; [exact Ey|]. rewrite <- Ey. now rewrite Lt.
  - exists y. eexists. split; [reflexivity|]. split; [split; [exact HA|reflexivity]|]. left. split; auto.
Qed.
Lemma tokens_n_ok a sm sep l sp : shows a l -> zstring sm sep sp -> sp <> [] -> forall fuel pos, 0 <= pos <= zlen l -> (Z.to_nat (zlen l - pos) + 1 < fuel)%nat ->
  exists vs ts, tokens_n fuel a sm sep pos = Ok vs /\ Forall2 shows vs ts /\ splits sp (skipn (Z.to_nat pos) l) ts.
Proof.
  intros HS HZ Hne. assert (Hsp : 0 < zlen sp) by (destruct sp; [contradiction|]; rewrite zlen_cons; pose proof (zlen_nonneg sp); lia).
  induction fuel as [|fuel IH]; intros pos Hp Hf; [lia|]. cbn [tokens_n]. pose proof HS as [_ EA]. rewrite EA. destruct (Z.leb_spec pos (zlen l)); [|lia].
  destruct (token_ok a sm sep l sp pos HS HZ Hp) as (t & v & -> & S & D). cbn [bind fst snd].
  assert (Ls : zlen (skipn (Z.to_nat pos) l) = zlen l - pos) by (rewrite zlen_skipn by lia; lia). pose proof (zlen_nonneg t). destruct D as [[E F]|(r & E & F)].
  - destruct fuel as [|fuel]; [lia|]. cbn [tokens_n]. rewrite EA. rewrite E in Ls. destruct (Z.leb_spec (pos + (zlen t + zlen sp)) (zlen l)); [lia|]. cbn [bind].
    exists [v], [t]. split; [reflexivity|]. split; [repeat constructor; auto; apply S|]. rewrite E. now apply sp_last.
  - rewrite E, !zlen_app in Ls. pose proof (zlen_nonneg r).
    destruct (IH (pos + (zlen t + zlen sp))) as (vs & ts & -> & F2 & SP); [lia|lia|]. cbn [bind]. exists (v :: vs), (t :: ts). split; [reflexivity|]. split; [constructor; auto|].
    rewrite E. apply sp_next; auto.
    assert (E2 : skipn (Z.to_nat (pos + (zlen t + zlen sp))) l = r).
    { replace (Z.to_nat (pos + (zlen t + zlen sp))) with (length (t ++ sp) + Z.to_nat pos)%nat by (rewrite app_length; unfold zlen in *; lia).
      rewrite <- skipn_skipn, E, app_assoc, skipn_app, skipn_all, Nat.sub_diag. reflexivity. }
    now rewrite E2 in SP.
Qed.
Lemma tokens_ok a sm sep l sp : shows a l -> zstring sm sep sp -> sp <> [] -> exists vs ts, tokens a sm sep = Ok vs /\ Forall2 shows vs ts /\ splits sp l ts.
Proof.
  intros HS HZ Hn. unfold tokens. pose proof (zlen_nonneg l). destruct (tokens_n_ok a sm sep l sp HS HZ Hn (S (S (Z.to_nat (size a)))) 0) as (vs & ts & E & F & SP); [lia|destruct HS as [_ ->]; lia|].
  exists vs, ts. auto.
Qed.
Lemma splits_join sep l ts : splits sep l ts -> join sep ts = l.
Proof.
  induction 1 as [t F|t r ts F SP IH]; [reflexivity|]. cbn [join]. destruct ts as [|t2 ts]; [inversion SP|]. now rewrite IH.
Qed.
Lemma splits_clean sep l ts : sep <> [] -> splits sep l ts -> forall t, In t ts -> first_at t sep None.
Proof.
  intros Hn. induction 1 as [t F|t r ts F SP IH]; intros u [<-|Hu]; auto; [destruct Hu|].
  intros j (x & y & E & L). destruct F as [_ F]. assert (O : occurs (t ++ sep ++ r) sep j) by (exists x, (y ++ sep ++ r); rewrite E, <- !app_assoc; auto).
  apply F in O. rewrite E, !zlen_app in O. pose proof (zlen_nonneg y).
  destruct sep as [|b sep]; [contradiction|]. rewrite zlen_cons in O. pose proof (zlen_nonneg sep). lia.
Qed.
Lemma splits_fun sep l ts ts' : splits sep l ts -> splits sep l ts' -> ts = ts'.
Proof.
  intros H. revert ts'. induction H as [t F|t r ts F SP IH]; intros ts' H'.
  - inversion H' as [t' F'|t' r' ts2 F' SP']; subst; auto. exfalso. pose proof (first_unique _ _ _ _ F F') as E. discriminate E.
  - inversion H' as [t' F' E1 E2|t' r' ts2 F' SP' E1 E2]; subst.
    + pose proof (first_unique _ _ _ _ F F') as E. discriminate E.
    + rewrite E1 in F'. pose proof (first_unique _ _ _ _ F F') as E. injection E as E. symmetry in E1. apply app_same_len in E1 as [<- E1]; auto. apply app_inv_head in E1 as <-. f_equal. auto.
Qed.
