(** Proofs about bit sets: whole-set operations, counting, histories. *)
From Verif Require Import Base Slots Cbits_Model Cbits_Spec Cbits_Proofs.

Lemma zlen_zip {A B C} (f : A -> B -> C) l : forall m, zlen l = zlen m -> zlen (zip f l m) = zlen l.
Proof.
  induction l as [|x l IH]; intros [|y m] H; cbn [zip]; auto; rewrite ?zlen_cons, ?zlen_nil in *; try (pose proof (zlen_nonneg m); pose proof (zlen_nonneg l); lia).
  rewrite IH; lia.
Qed.
Lemma aget_zip {A B C} (f : A -> B -> C) l : forall m i x y, aget l i = Ok x -> aget m i = Ok y -> aget (zip f l m) i = Ok (f x y).
Proof.
  induction l as [|a l IH]; intros [|b m] i x y Hx Hy; try (apply aget_ok_range in Hx; unfold zlen in Hx; cbn [length] in Hx; lia); try (apply aget_ok_range in Hy; unfold zlen in Hy; cbn [length] in Hy; lia).
  cbn [zip]. rewrite aget_cons. rewrite aget_cons in Hx. rewrite aget_cons in Hy. destruct (i =? 0); [congruence|]. eauto.
Qed.
Lemma pattern_zlen lg n p : 0 <= n -> zlen (pattern lg n p) = n.
Proof. intros. unfold pattern, zlen. rewrite map_length, seq_length. lia. Qed.
Lemma pattern_aget lg n p i : 0 <= i < n -> aget (pattern lg n p) i = Ok (Z.testbit p (i mod 2 ^ lg)).
Proof.
  intros Hi. unfold pattern. rewrite aget_map. assert (E : aget (seq 0 (Z.to_nat n)) i = Ok (Z.to_nat i)).
  { apply aget_nth. split; [lia|]. rewrite (nth_error_nth' _ O) by (rewrite seq_length; lia). rewrite seq_nth by lia. reflexivity. }
  rewrite E. cbn. now rewrite Z2Nat.id by lia.
Qed.

Section Ops.
Variable lg : Z.
Hypothesis Hlg : 0 <= lg.
Notation WB := (WB lg).
Notation wrep := (wrep lg).
Notation wd := (wd lg).
Lemma mkrepr b l : wrep b l -> bits_repr lg (mkbits (Live b) (zlen l)) l.
Proof. intros H. apply repr_words; auto. exists b. auto. Qed.
Lemma mkrepr' b l n : zlen l = n -> wrep b l -> bits_repr lg (mkbits (Live b) n) l.
Proof. intros <-. apply mkrepr. Qed.
Lemma repr_size s l : bits_repr lg s l -> size s = zlen l.
Proof. intros (ws & _ & H & _). exact H. Qed.

(** A buffer filled word by word. *)
Lemma set_all_gen s b v : live (buf s) = Ok b -> 0 <= size s -> zlen b = words lg (size s) ->
  exists s', set_all lg s v = Ok s' /\ bits_repr lg s' (repeat v (Z.to_nat (size s))).
Proof.
  intros HL HS HZ. unfold set_all. rewrite HL. cbn [bind]. pose proof (words_nonneg lg Hlg _ HS).
  destruct (memset_ok lg b 0 v (words lg (size s))) as (b' & E & Z' & G); [lia..|]. rewrite E. cbn [bind].
  eexists. split; [reflexivity|]. rewrite <- (zlen_repeat v (size s)) at 1 by lia. apply mkrepr.
  split; [rewrite zlen_repeat; lia|]. intros k Hk. exists (fill lg v). rewrite G by lia.
  destruct (Z.leb_spec 0 k), (Z.ltb_spec k (0 + words lg (size s))); try lia. cbn [andb].
  split; [reflexivity|]. split; [now apply wd_fill|]. intros j Hj Hlt. rewrite zlen_repeat in Hlt by lia.
  rewrite fill_bit by auto. apply aget_repeat. pose proof (WB_pos lg Hlg). nia.
Qed.
Lemma pattern_gen s b p : live (buf s) = Ok b -> 0 <= size s -> zlen b = words lg (size s) -> wd p ->
  exists s', set_pattern lg s p = Ok s' /\ bits_repr lg s' (pattern lg (size s) p).
Proof.
  intros HL HS HZ Hp. unfold set_pattern. rewrite HL. cbn [bind]. pose proof (words_nonneg lg Hlg _ HS).
  destruct (each_word_ok (Z.to_nat (words lg (size s))) (fun (_ : Z) (_ : slots Z) => Ok p) (fun _ => p) b) as (b' & E & Z' & G); [lia|auto|]. rewrite E. cbn [bind].
  eexists. split; [reflexivity|]. rewrite <- (pattern_zlen lg (size s) p) at 1 by lia. apply mkrepr.
  split; [rewrite pattern_zlen; lia|]. intros k Hk. exists p. rewrite G by lia.
  destruct (Z.ltb_spec k (Z.of_nat (Z.to_nat (words lg (size s))))); [|lia].
  split; [reflexivity|]. split; [auto|]. intros j Hj Hlt. rewrite pattern_zlen in Hlt by lia.
  pose proof (WB_pos lg Hlg). rewrite pattern_aget by nia. f_equal. f_equal.
  destruct (pos_unique lg Hlg k j _ Hj eq_refl) as [_ E']. unfold Cbits_Model.WB in E'. symmetry. exact E'.
Qed.
Lemma set_all_ok s l v : bits_repr lg s l -> exists s', set_all lg s v = Ok s' /\ bits_repr lg s' (map (fun _ => v) l).
Proof.
  intros HR. apply repr_words in HR as (b & HL & HS & HZ & _); auto. pose proof (zlen_nonneg l).
  destruct (set_all_gen s b v HL) as (s' & E & R); [lia|now rewrite HS|]. exists s'. split; [exact E|].
  replace (map (fun _ : bool => v) l) with (repeat v (Z.to_nat (size s))); [exact R|].
  rewrite HS. unfold zlen. rewrite Nat2Z.id. clear. induction l; cbn; congruence.
Qed.
Lemma set_pattern_ok s l p : bits_repr lg s l -> wd p -> exists s', set_pattern lg s p = Ok s' /\ bits_repr lg s' (pattern lg (zlen l) p).
Proof.
  intros HR Hp. apply repr_words in HR as (b & HL & HS & HZ & _); auto. pose proof (zlen_nonneg l).
  rewrite <- HS. apply (pattern_gen s b p HL); [lia|now rewrite HS|auto].
Qed.
Lemma zlen_malloc n : 0 <= n -> exists b, live (malloc n) = Ok b /\ zlen b = n.
Proof. intros. eexists. split; [reflexivity|]. now apply zlen_repeat. Qed.
Lemma with_size_ok n v : 0 <= n -> exists s', with_size lg n v = Ok s' /\ bits_repr lg s' (repeat v (Z.to_nat n)).
Proof.
  intros Hn. destruct (zlen_malloc (words lg n)) as (b & HL & HZ); [now apply words_nonneg|].
  apply (set_all_gen (mkbits (malloc (words lg n)) n) b v); auto.
Qed.
Lemma with_pattern_ok n p : 0 <= n -> wd p -> exists s', with_pattern lg n p = Ok s' /\ bits_repr lg s' (pattern lg n p).
Proof.
  intros Hn Hp. destruct (zlen_malloc (words lg n)) as (b & HL & HZ); [now apply words_nonneg|].
  apply (pattern_gen (mkbits (malloc (words lg n)) n) b p); auto.
Qed.
Lemma fixed_words len : 1 <= len -> Z.quot (len - 1) WB + 1 = words lg len.
Proof.
  intros H. pose proof (WB_pos lg Hlg). rewrite words_eq by lia. rewrite Z.quot_div_nonneg by lia.
  replace (len + WB - 1) with (len - 1 + 1 * WB) by lia. now rewrite Z.div_add by lia.
Qed.
Lemma fixed_with_size_ok len n v : 1 <= len -> n <= len -> exists s', fixed_with_size lg len n v = Ok s' /\ bits_repr lg s' (repeat v (Z.to_nat len)).
Proof.
  intros Hl Hn. unfold fixed_with_size. fold WB. rewrite fixed_words by lia. destruct (Z.leb_spec n len); [|lia].
  destruct (zlen_malloc (words lg len)) as (b & HL & HZ); [apply words_nonneg; lia|].
  apply (set_all_gen (mkbits (malloc (words lg len)) len) b v); auto. cbn [size]. lia.
Qed.
Lemma fixed_with_pattern_ok len n p : 1 <= len -> n <= len -> wd p -> exists s', fixed_with_pattern lg len n p = Ok s' /\ bits_repr lg s' (pattern lg len p).
Proof.
  intros Hl Hn Hp. unfold fixed_with_pattern. fold WB. rewrite fixed_words by lia. destruct (Z.leb_spec n len); [|lia].
  destruct (zlen_malloc (words lg len)) as (b & HL & HZ); [apply words_nonneg; lia|].
  apply (pattern_gen (mkbits (malloc (words lg len)) len) b p); auto. cbn [size]. lia.
Qed.

Lemma clone_ok s l : bits_repr lg s l -> exists s', clone lg s = Ok s' /\ bits_repr lg s' l.
Proof.
  intros HR. apply repr_words in HR as (b & HL & HS & HW); auto. pose proof (zlen_nonneg l). pose proof (zlen_nonneg b).
  destruct HW as (HZ & HG). unfold clone. rewrite HL. cbn [bind]. rewrite HS. rewrite aslice_ok by lia. cbn [bind].
  eexists. split; [reflexivity|]. rewrite <- HZ. cbn [skipn Z.to_nat]. rewrite firstn_all2 by (unfold zlen; lia). apply mkrepr. split; auto.
Qed.
Lemma copy_ok same s o l m : bits_repr lg s l -> bits_repr lg o m -> (same = true -> l = m) ->
  exists s', copy lg same s o = Ok s' /\ bits_repr lg s' m.
Proof.
  intros HR HO HE. unfold copy. destruct same; [exists s; split; [reflexivity|]; now rewrite <- HE|].
  pose proof (repr_size _ _ HR) as S1. pose proof (repr_size _ _ HO) as S2.
  pose proof HR as HR'. pose proof HO as HO'.
  apply repr_words in HR' as (b & HL & HS & HZ & HG); auto. apply repr_words in HO' as (ob & HL' & HS' & HZ' & HG'); auto.
  destruct (Z.eqb_spec (size s) (size o)) as [E|N]; cbn [negb].
  - rewrite HL, HL'. cbn [bind]. pose proof (zlen_nonneg b). pose proof (zlen_nonneg ob).
    rewrite HS', <- HZ'. rewrite aslice_ok by lia. cbn [bind skipn Z.to_nat]. rewrite firstn_all2 by (unfold zlen; lia).
    destruct (ablit_some b 0 ob) as [b' Hb']; [lia| |]. { rewrite HZ, HZ'. assert (zlen l = zlen m) as -> by lia. lia. }
    rewrite Hb'. cbn [bind]. apply ablit_inv in Hb' as (_ & _ & Hz & Hg).
    eexists. split; [reflexivity|]. rewrite E, HS'. apply mkrepr. assert (EZ : zlen l = zlen m) by lia.
    split; [rewrite Hz, HZ; now rewrite EZ|]. intros k Hk. rewrite Hz, HZ, EZ, <- HZ' in Hk. rewrite Hg.
    destruct (Z.leb_spec 0 k), (Z.ltb_spec k (0 + zlen ob)); try lia. cbn [andb]. rewrite Z.sub_0_r. auto.
  - destruct (clone_ok o m HO) as (c & Ec & Rc). rewrite Ec. cbn [bind take]. unfold drop.
    destruct (buf s) eqn:EB; [| |discriminate]; cbn [bind]; eauto.
Qed.
Lemma drop_ok s l : bits_repr lg s l -> drop s = Ok tt.
Proof. intros HR. apply repr_words in HR as (b & HL & _); auto. unfold drop. destruct (buf s); auto. discriminate. Qed.
Lemma null_repr : bits_repr lg null_bits [].
Proof.
  apply repr_words; auto. exists []. split; [reflexivity|]. split; [reflexivity|]. pose proof (WB_pos lg Hlg). split.
  - change (0 = words lg 0). rewrite words_eq by lia. rewrite Z.div_small by lia. reflexivity.
  - intros k Hk. change (0 <= k < 0) in Hk. lia.
Qed.
Lemma take_ok same s o l m : bits_repr lg s l -> bits_repr lg o m -> (same = true -> l = m) -> exists s', take same s o = Ok s' /\ bits_repr lg s' m.
Proof.
  intros HR HO HE. unfold take. destruct same; [exists s; split; [reflexivity|]; now rewrite <- HE|].
  rewrite (drop_ok _ _ HR). cbn [bind]. eauto.
Qed.

(** ** resize *)
Lemma resize_ok rz s l n v : bits_repr lg s l -> 0 <= n -> (rz = true -> 0 < n) ->
  exists s', resize lg rz s n v = Ok (s', true) /\ bits_repr lg s' (firstn (Z.to_nat n) l ++ repeat v (Z.to_nat n - length l)).
Proof.
  intros HR Hn Hrz. pose proof (WB_pos lg Hlg) as HWB. pose proof (zlen_nonneg l) as Hl.
  apply repr_words in HR as (b & HL & HS & HZ & HG); auto.
  pose proof (words_nonneg lg Hlg n Hn) as HWn.
  assert (Z0 : rz && (words lg n =? 0) && (match buf s with Null => false | _ => true end) = false).
  { destruct rz; [|reflexivity]. specialize (Hrz eq_refl). destruct (Z.eqb_spec (words lg n) 0) as [E|]; [|reflexivity].
    assert (0 < words lg n) by (apply words_bound; lia). lia. }
  unfold resize. destruct (buf s) eqn:EB; try discriminate.
  all: rewrite Z0; cbn [live bind] in *; injection HL as <-.
  all: match goal with |- context[realloc ?x _] => set (b := x) in *; clearbody b end.
  all: set (l' := firstn (Z.to_nat n) l ++ repeat v (Z.to_nat n - length l)).
  all: assert (ZL : zlen l' = n) by (unfold l'; rewrite zlen_app, zlen_firstn by lia; unfold zlen; rewrite repeat_length; lia).
  all: assert (GL : forall i, 0 <= i < n -> aget l' i = if i <? zlen l then aget l i else Ok v).
  1,3: (intros i Hi; unfold l'; destruct (Z.ltb_spec i (zlen l));
    [rewrite aget_app1 by (rewrite zlen_firstn by lia; lia); apply aget_firstn; lia
    |rewrite aget_app2 by (rewrite zlen_firstn by lia; lia); rewrite zlen_firstn by lia;
     replace (Z.to_nat n - length l)%nat with (Z.to_nat (n - zlen l)) by (unfold zlen; lia); apply aget_repeat; lia]).
  all: pose proof (zlen_realloc b (words lg n) HWn) as ZR.
  all: assert (GR : forall k, 0 <= k < words lg n -> k < zlen b -> aget (realloc b (words lg n)) k = aget b k).
  1,3: (intros k Hk Hkb; unfold realloc; rewrite aget_app1 by (rewrite zlen_firstn by lia; lia); apply aget_firstn; lia).
  all: rewrite HS; destruct (Z.gtb_spec n (zlen l)) as [Hg|Hg].
  (* shrink (or equal): words are kept *)
  2,4: (eexists; split; [reflexivity|]; apply (mkrepr' _ _ _ ZL); split; [rewrite ZL; lia|];
    intros k Hk; rewrite ZR in Hk; pose proof (words_mono lg Hlg n (zlen l) ltac:(lia)); rewrite GR by lia;
    destruct (HG k ltac:(lia)) as (w & Hw & Hd & Hb); exists w; split; [exact Hw|]; split; [exact Hd|];
    intros j Hj Hlt; rewrite ZL in Hlt; rewrite GL by nia; destruct (Z.ltb_spec (k * WB + j) (zlen l)); [apply Hb; lia|lia]).
  (* growth *)
  all: pose proof (words_mono lg Hlg (zlen l) n ltac:(lia)) as HM.
  all: destruct (memset_ok lg (realloc b (words lg n)) (words lg (zlen l)) v (words lg n - words lg (zlen l))) as (b1 & E1 & Z1 & G1); [apply words_nonneg; lia|lia|lia|].
  all: rewrite E1; cbn [bind]; fold WB; rewrite (land_mod lg Hlg).
  all: assert (W1 : forall k, 0 <= k < words lg (zlen l) -> aget b1 k = aget b k) by
    (intros k Hk; rewrite G1 by lia; destruct (Z.leb_spec (words lg (zlen l)) k); [lia|]; cbn [andb]; apply GR; lia).
  all: assert (W2 : forall k, words lg (zlen l) <= k < words lg n -> aget b1 k = Ok (Some (fill lg v))) by
    (intros k Hk; pose proof (words_nonneg lg Hlg (zlen l) Hl); rewrite G1 by lia; destruct (Z.leb_spec (words lg (zlen l)) k); [|lia];
     destruct (Z.ltb_spec k (words lg (zlen l) + (words lg n - words lg (zlen l)))); [reflexivity|lia]).
  all: pose proof (Z.div_mod (zlen l) WB ltac:(lia)) as DM; pose proof (mod_WB lg Hlg (zlen l)) as MB.
  all: assert (New : forall k, words lg (zlen l) <= k < words lg n -> exists w, aget b1 k = Ok (Some w) /\ wd w /\
      forall j, 0 <= j < WB -> k * WB + j < zlen l' -> aget l' (k * WB + j) = Ok (Z.testbit w j)) by
    (intros k Hk; exists (fill lg v); split; [auto|]; split; [now apply wd_fill|]; intros j Hj Hlt;
     assert (~ k < words lg (zlen l)) as NK by lia; rewrite words_bound in NK by lia; rewrite fill_bit by auto;
     pose proof (words_nonneg lg Hlg (zlen l) Hl); rewrite GL by nia; destruct (Z.ltb_spec (k * WB + j) (zlen l)); [lia|reflexivity]).
  all: destruct (Z.eqb_spec (zlen l mod WB) 0) as [M0|M0]; cbn [negb].
  (* size is a multiple of the word size *)
  1,3: (eexists; split; [reflexivity|]; apply (mkrepr' _ _ _ ZL); split; [rewrite ZL; lia|];
    intros k Hk; rewrite Z1, ZR in Hk; destruct (Z.lt_ge_cases k (words lg (zlen l))) as [Lt|Ge]; [|apply New; lia];
    rewrite W1 by lia; destruct (HG k ltac:(lia)) as (w & Hw & Hd & Hb); exists w; split; [exact Hw|]; split; [exact Hd|];
    apply words_bound in Lt; auto; intros j Hj Hlt; rewrite M0 in DM; clear - HWB Lt DM Hj Hk GL Hb Hlt ZL HM Hl; assert (k < zlen l / WB) by nia; assert (k * WB + j < zlen l) by nia;
    rewrite GL by nia; destruct (Z.ltb_spec (k * WB + j) (zlen l)); [apply Hb; lia|lia]).
  (* the last old word has free bits *)
  all: assert (LW : words lg (zlen l) - 1 = zlen l / WB) by
    (rewrite words_eq by lia; replace (zlen l + WB - 1) with (zlen l mod WB - 1 + (zlen l / WB + 1) * WB) by lia;
     rewrite Z.div_add, Z.div_small by lia; lia).
  all: assert (LP : 0 <= zlen l / WB) by (apply Z.div_pos; lia).
  all: destruct (HG (zlen l / WB) ltac:(lia)) as (w & Hw & Hd & Hb).
  all: unfold rd; rewrite LW, W1, Hw by lia; cbn [bind]; unfold wr.
  all: match goal with |- context[aset ?B _ (Some ?x)] => set (nw := x); destruct (aset_some B (zlen l / WB) (Some nw)) as [b2 Hb2]; [lia|] end.
  all: rewrite Hb2; cbn [bind]; pose proof (aset_zlen _ _ _ _ Hb2) as Z2.
  all: assert (NW : wd nw /\ forall j, 0 <= j < WB -> Z.testbit nw j = if j <? zlen l mod WB then Z.testbit w j else v).
  1,3: (split; [unfold nw; destruct v; [apply wd_lor; auto; apply wd_wnot; auto; now apply wd_lowmask|apply wd_land; auto; now apply wd_lowmask]|];
    intros j Hj; unfold nw; destruct v;
    [rewrite Z.lor_spec, wnot_bit, lowmask_bit by (auto; lia); destruct (Z.ltb_spec j (zlen l mod WB)); [apply orb_false_r|apply orb_true_r]
    |rewrite Z.land_spec, lowmask_bit by (auto; lia); destruct (Z.ltb_spec j (zlen l mod WB)); [apply andb_true_r|apply andb_false_r]]).
  all: destruct NW as [NW1 NW2].
  all: eexists; split; [reflexivity|]; apply (mkrepr' _ _ _ ZL); split; [rewrite ZL; lia|].
  all: intros k Hk; rewrite Z2, Z1, ZR in Hk; rewrite (aget_aset _ _ _ _ _ Hb2); destruct (Z.eqb_spec k (zlen l / WB)) as [->|Nk].
  1,3: (exists nw; split; [reflexivity|]; split; [exact NW1|]; intros j Hj Hlt; rewrite NW2 by auto; rewrite GL by nia;
    destruct (Z.ltb_spec j (zlen l mod WB)), (Z.ltb_spec (zlen l / WB * WB + j) (zlen l)); try lia; [apply Hb; lia|reflexivity]).
  all: destruct (Z.lt_ge_cases k (words lg (zlen l))) as [Lt|Ge]; [|apply New; lia].
  all: rewrite W1 by lia; destruct (HG k ltac:(lia)) as (w' & Hw' & Hd' & Hb'); exists w'; split; [exact Hw'|]; split; [exact Hd'|].
  all: intros j Hj Hlt; assert (k * WB + j < zlen l) by nia; rewrite GL by nia; destruct (Z.ltb_spec (k * WB + j) (zlen l)); [apply Hb'; lia|lia].
Qed.

(** ** flip_all, intersect, union, xor *)
Lemma flip_all_ok s l : bits_repr lg s l -> exists s', flip_all lg s = Ok s' /\ bits_repr lg s' (map negb l).
Proof.
  intros HR. apply repr_words in HR as (b & HL & HS & HZ & HG); auto. pose proof (zlen_nonneg l). pose proof (zlen_nonneg b).
  unfold flip_all. rewrite HL. cbn [bind]. rewrite HS, <- HZ.
  set (g := fun i => match aget b i with Ok (Some w) => Z.lxor w (ones lg) | _ => 0 end).
  destruct (each_word_ok (Z.to_nat (zlen b)) (fun i (b : slots Z) => let* w := rd b i in Ok (Z.lxor w (ones lg))) g b) as (b' & E & Z' & G); [lia| |].
  { intros i b' Hi _ Hg. unfold rd, g. rewrite Hg. destruct (HG i ltac:(lia)) as (w & Hw & _). rewrite Hw. reflexivity. }
  rewrite E. cbn [bind]. eexists. split; [reflexivity|]. rewrite <- (zlen_map negb l) at 1. apply mkrepr.
  split; [now rewrite Z', zlen_map|]. intros k Hk. rewrite G by lia. destruct (Z.ltb_spec k (Z.of_nat (Z.to_nat (zlen b)))); [|lia].
  destruct (HG k ltac:(lia)) as (w & Hw & Hd & Hb). unfold g. rewrite Hw. eexists. split; [reflexivity|].
  split; [apply wd_lxor; auto using wd_ones|]. intros j Hj Hlt. rewrite zlen_map in Hlt. rewrite aget_map, Hb by auto.
  cbn. now rewrite Z.lxor_spec, ones_bit, xorb_true_r by auto.
Qed.
Lemma combine_ok op f self_arg s o l m : bits_repr lg s l -> bits_repr lg o m -> (self_arg = true -> s = o) -> zlen l = zlen m ->
  (forall x y, wd x -> wd y -> wd (op x y)) -> (forall x y j, 0 <= j -> Z.testbit (op x y) j = f (Z.testbit x j) (Z.testbit y j)) ->
  exists s', combine lg op self_arg s o = Ok s' /\ bits_repr lg s' (zip f l m).
Proof.
  intros HR HO Hself Hlen Hop Hf. pose proof (repr_size _ _ HR) as S1. pose proof (repr_size _ _ HO) as S2.
  apply repr_words in HR as (b & HL & HS & HZ & HG); auto. apply repr_words in HO as (ob & HL' & HS' & HZ' & HG'); auto.
  unfold combine. rewrite S1, S2, Hlen, Z.eqb_refl. cbn [negb]. rewrite HL, HL'. cbn [bind]. rewrite <- Hlen, <- HZ.
  pose proof (zlen_nonneg b). assert (EZ : zlen ob = zlen b) by (rewrite HZ, HZ'; now rewrite Hlen).
  set (g := fun i => match aget b i, aget ob i with Ok (Some w), Ok (Some x) => op w x | _, _ => 0 end).
  destruct (each_word_ok (Z.to_nat (zlen b)) (fun i (b : slots Z) => let* w := rd b i in let* x := rd (if self_arg then b else ob) i in Ok (op w x)) g b) as (b' & E & Z' & G); [lia| |].
  { intros i b' Hi _ Hg. destruct (HG i ltac:(lia)) as (w & Hw & _). destruct (HG' i ltac:(lia)) as (x & Hx & _).
    unfold rd, g. rewrite Hg, Hw. cbn [bind]. destruct self_arg.
    - assert (b = ob) by (rewrite (Hself eq_refl) in HL; congruence). subst ob. rewrite Hg, Hw. reflexivity.
    - rewrite Hx. reflexivity. }
  rewrite E. cbn [bind]. eexists. split; [reflexivity|]. rewrite <- (zlen_zip f l m Hlen) at 1. apply mkrepr.
  split; [now rewrite Z', zlen_zip|]. intros k Hk. rewrite G by lia. destruct (Z.ltb_spec k (Z.of_nat (Z.to_nat (zlen b)))); [|lia].
  destruct (HG k ltac:(lia)) as (w & Hw & Hd & Hb). destruct (HG' k ltac:(lia)) as (x & Hx & Hdx & Hbx). unfold g. rewrite Hw, Hx.
  eexists. split; [reflexivity|]. split; [auto|]. intros j Hj Hlt. rewrite zlen_zip in Hlt by auto.
  rewrite Hf by lia. apply aget_zip; [apply Hb|apply Hbx]; lia.
Qed.

(** ** from *)
Lemma from_loop_ok len n str : forall s l, bits_repr lg s l -> zlen l = len -> zlen str <= len -> Z.of_nat n <= zlen str ->
  exists s' l', from_loop lg n str s = Ok s' /\ bits_repr lg s' l' /\ zlen l' = len /\
    forall i, 0 <= i < len -> aget l' i = if i <? Z.of_nat n then (let* c := aget str i in if c =? 49 then Ok true else aget l i) else aget l i.
Proof.
  induction n as [|n IH]; intros s l HR HZ Hs Hn; cbn [from_loop].
  - exists s, l. split; [reflexivity|]. split; [auto|]. split; [auto|]. intros i Hi. destruct (Z.ltb_spec i (Z.of_nat 0)); [lia|reflexivity].
  - destruct (aget_some str (Z.of_nat n)) as [c Hc]; [lia|]. rewrite Hc. cbn [bind].
    destruct (Z.eqb_spec c 49) as [->|Nc].
    + destruct (set_ok lg Hlg s l (Z.of_nat n) HR ltac:(lia)) as (s1 & E1 & R1). rewrite E1. cbn [bind].
      assert (HU := aset_ok l (Z.of_nat n) true ltac:(lia)). pose proof (aset_zlen _ _ _ _ HU) as ZU.
      destruct (IH s1 _ R1) as (s2 & l2 & E2 & R2 & Z2 & G2); [lia|lia|lia|]. exists s2, l2. split; [exact E2|]. split; [auto|]. split; [auto|].
      intros i Hi. rewrite G2 by auto. rewrite (aget_aset _ _ _ _ _ HU).
      destruct (Z.ltb_spec i (Z.of_nat n)), (Z.ltb_spec i (Z.of_nat (S n))), (Z.eqb_spec i (Z.of_nat n)); try lia; auto. subst i. rewrite Hc. reflexivity.
    + cbn [bind]. destruct (IH s l HR) as (s2 & l2 & E2 & R2 & Z2 & G2); [lia|lia|lia|]. exists s2, l2. split; [exact E2|]. split; [auto|]. split; [auto|].
      intros i Hi. rewrite G2 by auto. destruct (Z.ltb_spec i (Z.of_nat n)), (Z.ltb_spec i (Z.of_nat (S n))); try lia; auto.
      assert (i = Z.of_nat n) as -> by lia. rewrite Hc. cbn [bind]. destruct (Z.eqb_spec c 49); [lia|reflexivity].
Qed.
Lemma from_ok str : exists s', from lg str = Ok s' /\ bits_repr lg s' (map (fun c => c =? 49) str).
Proof.
  unfold from. pose proof (zlen_nonneg str). destruct (with_size_ok (zlen str) false) as (s & E & R); [lia|]. rewrite E. cbn [bind].
  destruct (from_loop_ok (zlen str) (length str) str s _ R) as (s' & l' & E' & R' & Z' & G'); [apply zlen_repeat; lia|lia|unfold zlen; lia|].
  exists s'. split; [exact E'|]. replace (map (fun c => c =? 49) str) with l'; [exact R'|].
  apply aget_ext; [now rewrite zlen_map|]. intros i Hi. rewrite G', aget_map by lia.
  fold (zlen str). destruct (Z.ltb_spec i (zlen str)); [|lia]. destruct (aget_some str i) as [c Hc]; [lia|]. rewrite Hc. cbn [bind].
  rewrite aget_repeat by lia. cbn. now destruct (c =? 49).
Qed.
Lemma fixed_from_ok len str : 1 <= len -> zlen str <= len ->
  exists s', fixed_from lg len str = Ok s' /\ bits_repr lg s' (map (fun c => c =? 49) str ++ repeat false (Z.to_nat (len - zlen str))).
Proof.
  intros Hl Hs. unfold fixed_from. pose proof (zlen_nonneg str). destruct (fixed_with_size_ok len (zlen str) false) as (s & E & R); [lia..|]. rewrite E. cbn [bind].
  destruct (from_loop_ok len (length str) str s _ R) as (s' & l' & E' & R' & Z' & G'); [apply zlen_repeat; lia|lia|unfold zlen; lia|].
  exists s'. split; [exact E'|]. replace (map (fun c => c =? 49) str ++ _) with l'; [exact R'|].
  apply aget_ext; [rewrite zlen_app, zlen_map, zlen_repeat; lia|]. intros i Hi. rewrite G' by lia. fold (zlen str).
  destruct (Z.ltb_spec i (zlen str)).
  - rewrite aget_app1 by (rewrite zlen_map; lia). rewrite aget_map. destruct (aget_some str i) as [c Hc]; [lia|]. rewrite Hc. cbn [bind].
    rewrite aget_repeat by lia. cbn. now destruct (c =? 49).
  - rewrite aget_app2 by (rewrite zlen_map; lia). rewrite zlen_map. rewrite !aget_repeat by lia. reflexivity.
Qed.
End Ops.
