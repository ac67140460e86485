From Verif Require Import Base Slots Stack_Model Stack_Proofs Var_Spec Var_Proofs Fvar_Model Fvar_Spec.

Section FvarProofs.
Context {A : Type}.
Variable N : Z.
Hypothesis N0 : 0 <= N.
Implicit Types (l : list (option (list A))) (s : fstate A) (t : stack A).

Definition fits t (a : list A) : Prop := fixed t = true /\ capacity t = N /\ stored t a.
Definition finv s l : Prop := zlen (fvars s) = zlen l /\ forall i a, owns l i = Some a -> exists t, fload s i = Ok t /\ fits t a.
Notation heldl := (held (fun a : list A => a)).

Lemma fset_ok s l i t a : finv s l -> is_var l i -> fits t a ->
  exists s', fset s i t = Ok s' /\ finv s' (give l i (Some a)) /\ fgone s' = fgone s /\ fgiven s' = fgiven s.
Proof.
  intros [Z0 I] Hi F. unfold fset. destruct (aset_some (fvars s) i (Some t)) as (vs & S); [unfold is_var in Hi; lia|]. rewrite S. cbn [bind].
  eexists. split; [reflexivity|]. split; [|auto]. split; cbn [fvars].
  - rewrite (aset_zlen _ _ _ _ S), zlen_give by exact Hi. exact Z0.
  - intros j b. rewrite owns_give by exact Hi. unfold fload in *. cbn [fvars]. rewrite (aget_aset _ _ _ _ j S).
    destruct (Z.eqb_spec j i); [intros [= <-]; exists t; auto|apply I].
Qed.
Lemma forget s l i : finv s l -> is_var l i -> finv s (give l i None).
Proof.
  intros [Z0 I] Hi. split; [rewrite zlen_give; auto|]. intros j b. rewrite owns_give by exact Hi. destruct (j =? i); [discriminate|apply I].
Qed.
Lemma finv_vars s s' l : fvars s' = fvars s -> finv s l -> finv s' l.
Proof. intros E [Z0 I]. unfold finv, fload. rewrite E. split; auto. Qed.
Lemma move_fits t a : fits t a -> move t = (t, t).
Proof. intros (F & _). unfold move. now rewrite F. Qed.
Lemma clear_fits t a : fits t a -> exists t', clear t = Ok (t', rev a) /\ fits t' [].
Proof. intros (F & C & S). destruct (clear_spec t a S) as [E S']. eexists. split; [exact E|]. split; [exact F|]. split; [exact C|exact S']. Qed.
Lemma push_fits t a x : fits t a -> exists t', push t x = Ok (t', zlen a <? N) /\ fits t' (if zlen a <? N then a ++ [x] else a).
Proof. intros (F & C & S). destruct (push_fixed t a x F S) as (t' & E & F' & C' & S'). rewrite C in *. exists t'. split; [exact E|]. repeat split; auto; apply S'. Qed.
Lemma pop_fits t a : fits t a -> a <> [] -> exists t' x, pop t = Ok (t', x) /\ fits t' (removelast a) /\ a = removelast a ++ [x] /\ skipn (length a - 1) a = [x].
Proof.
  intros (F & C & S) NE. destruct (exists_last NE) as (a0 & x & ->). destruct (pop_spec t a0 x S) as (E & _ & S'). rewrite removelast_last.
  eexists. exists x. split; [exact E|]. split; [split; [exact F|split; [exact C|exact S']]|]. split; [reflexivity|].
  rewrite app_length. cbn [length]. replace (length a0 + 1 - 1)%nat with (length a0) by lia. now rewrite skipn_app, skipn_all, Nat.sub_diag.
Qed.
Lemma put_n_fits xs : forall t a, fits t a -> zlen a + zlen xs <= N -> exists t', put_n t xs = Ok t' /\ fits t' (a ++ xs).
Proof.
  induction xs as [|x xs IH]; intros t a F L; cbn [put_n].
  - exists t. rewrite app_nil_r. auto.
  - rewrite zlen_cons in L. pose proof (zlen_nonneg xs). destruct (push_fits t a x F) as (t' & E & F'). rewrite E. cbn [bind fst].
    destruct (Z.ltb_spec (zlen a) N); [|lia]. destruct (IH t' (a ++ [x]) F') as (t'' & E2 & F2).
    { rewrite zlen_app, zlen_cons. change (zlen (@nil A)) with 0. lia. }
    exists t''. rewrite <- app_assoc in F2. auto.
Qed.
Lemma init_fits : fits (init_fixed N) [].
Proof. split; [reflexivity|]. split; [|apply init_fixed_stored]. unfold capacity, init_fixed; cbn [buf]. unfold zlen. rewrite repeat_length. lia. Qed.
Lemma held_val l i o : is_var l i -> Permutation (val l i ++ heldl (give l i o)) (match o with Some a => a | None => [] end ++ heldl l).
Proof. intro H. pose proof (held_give (fun a : list A => a) l i o H) as P. unfold val. unfold oobjs in P. exact P. Qed.
Lemma is_var_give l i o j : is_var l i -> is_var l j -> is_var (A:=list A) (give l i o) j.
Proof. intros Hi Hj. unfold is_var. now rewrite zlen_give. Qed.
Lemma vacant_val l i : vacant l i -> val l i = [].
Proof. unfold val. now intros [-> | ->]. Qed.

Definition returned1 l (o : fop A) : list A :=
  match o with
  | FPush i x => if zlen (val l i) <? N then [] else [x]
  | FPull i => skipn (length (val l i) - 1) (val l i)
  | _ => []
  end.
Lemma fdrop_ok s l i a : finv s l -> is_var l i -> owns l i = Some a ->
  exists s', fdrop s i = Ok s' /\ finv s' (give l i (Some [])) /\ fgone s' = fgone s ++ rev a /\ fgiven s' = fgiven s.
Proof.
  intros I Hi O. destruct (proj2 I i a O) as (t & LD & F). unfold fdrop. rewrite LD. cbn [bind]. destruct (clear_fits t a F) as (t' & E & F'). rewrite E. cbn [bind fst snd].
  destruct (fset_ok s l i t' [] I Hi F') as (s1 & S & I1 & G1 & G2). rewrite S. cbn [bind]. eexists. split; [reflexivity|]. cbn [fdestroy fgone fgiven].
  split; [apply (finv_vars s1); auto|]. rewrite G1, G2. auto.
Qed.
Lemma fmove_ok s l i a : finv s l -> is_var l i -> owns l i = Some a ->
  exists s' t, fmove s i = Ok (s', t) /\ finv s' l /\ fits t a /\ fgone s' = fgone s /\ fgiven s' = fgiven s.
Proof.
  intros I Hi O. destruct (proj2 I i a O) as (t & LD & F). unfold fmove. rewrite LD. cbn [bind]. rewrite (move_fits t a F). cbn [fst snd].
  destruct (fset_ok s l i t a I Hi F) as (s1 & S & I1 & G1 & G2). rewrite S. cbn [bind]. exists s1, t. rewrite <- O, give_owns in I1 by exact Hi. auto.
Qed.
Lemma fstep_ok s l o : finv s l -> flegal N l o ->
  exists s', fstep N s o = Ok s' /\ finv s' (fst (fspec N l o)) /\ fgiven s' = fgiven s ++ returned1 l o /\
    Permutation (heldl (fst (fspec N l o)) ++ fgone s' ++ fgiven s') (snd (fspec N l o) ++ heldl l ++ fgone s ++ fgiven s).
Proof.
  intros I L. destruct o as [i|i x|i|i|i xs|i|i j|i j]; cbn [flegal fstep fspec returned1 fst snd] in *.
  - destruct L as [Hi VC]. destruct (fset_ok s l i _ [] I Hi init_fits) as (s1 & S & I1 & G1 & G2). exists s1. rewrite G1, G2, app_nil_r.
    split; [exact S|]. split; [exact I1|]. split; [reflexivity|]. pose proof (held_val l i (Some []) Hi) as P. rewrite (vacant_val _ _ VC) in P. cbn [app] in *. now rewrite P.
  - destruct L as [Hi O]. destruct (owns_ne _ _ O) as (a & Oa). assert (VA : val l i = a) by (unfold val; now rewrite Oa). rewrite VA.
    destruct (proj2 I i a Oa) as (t & LD & F). rewrite LD. cbn [bind]. destruct (push_fits t a x F) as (t' & E & F'). rewrite E. cbn [bind fst snd].
    destruct (fset_ok s l i t' _ I Hi F') as (s1 & S & I1 & G1 & G2). rewrite S. cbn [bind].
    destruct (zlen a <? N).
    + exists s1. rewrite G1, G2, app_nil_r. split; [reflexivity|]. split; [exact I1|]. split; [reflexivity|].
      pose proof (held_val l i (Some (a ++ [x])) Hi) as P. rewrite VA in P.
      apply (Permutation_app_inv_l a). rewrite app_assoc, P. perm.
    + rewrite <- Oa, give_owns in I1 by exact Hi. eexists. split; [reflexivity|]. cbn [freturn fgone fgiven]. split; [apply (finv_vars s1); auto|]. rewrite G1, G2. split; [reflexivity|]. perm.
  - destruct L as (Hi & a & Oa & NE). assert (VA : val l i = a) by (unfold val; now rewrite Oa). rewrite VA.
    destruct (proj2 I i a Oa) as (t & LD & F). rewrite LD. cbn [bind]. destruct (pop_fits t a F NE) as (t' & x & E & F' & AX & _). rewrite E. cbn [bind fst snd].
    destruct (fset_ok s l i t' _ I Hi F') as (s1 & S & I1 & G1 & G2). rewrite S. cbn [bind]. eexists. split; [reflexivity|]. cbn [fdestroy fgone fgiven].
    split; [apply (finv_vars s1); auto|]. rewrite G1, G2, app_nil_r. split; [reflexivity|]. pose proof (held_val l i (Some (removelast a)) Hi) as P. rewrite VA in P.
    apply (Permutation_app_inv_l (removelast a)). cbn [app]. transitivity ((a ++ heldl (give l i (Some (removelast a)))) ++ fgone s ++ fgiven s); [rewrite AX at 3; perm|]. rewrite P. perm.
  - destruct L as (Hi & a & Oa & NE). assert (VA : val l i = a) by (unfold val; now rewrite Oa). rewrite VA.
    destruct (proj2 I i a Oa) as (t & LD & F). rewrite LD. cbn [bind]. destruct (pop_fits t a F NE) as (t' & x & E & F' & AX & LX). rewrite E. cbn [bind fst snd].
    destruct (fset_ok s l i t' _ I Hi F') as (s1 & S & I1 & G1 & G2). rewrite S. cbn [bind]. eexists. split; [reflexivity|]. cbn [freturn fgone fgiven].
    split; [apply (finv_vars s1); auto|]. rewrite G1, G2, LX. split; [reflexivity|]. pose proof (held_val l i (Some (removelast a)) Hi) as P. rewrite VA in P.
    apply (Permutation_app_inv_l (removelast a)). cbn [app]. transitivity ((a ++ heldl (give l i (Some (removelast a)))) ++ fgone s ++ fgiven s); [rewrite AX at 3; perm|]. rewrite P. perm.
  - destruct L as (Hi & a & Oa & LE). assert (VA : val l i = a) by (unfold val; now rewrite Oa). rewrite VA.
    destruct (proj2 I i a Oa) as (t & LD & F). rewrite LD. cbn [bind]. destruct (put_n_fits xs t a F LE) as (t' & E & F'). rewrite E. cbn [bind].
    destruct (fset_ok s l i t' _ I Hi F') as (s1 & S & I1 & G1 & G2). exists s1. rewrite G1, G2, app_nil_r. split; [exact S|]. split; [exact I1|]. split; [reflexivity|].
    pose proof (held_val l i (Some (a ++ xs)) Hi) as P. rewrite VA in P. apply (Permutation_app_inv_l a). rewrite app_assoc, P. perm.
  - destruct L as [Hi O]. destruct (owns_ne _ _ O) as (a & Oa). assert (VA : val l i = a) by (unfold val; now rewrite Oa).
    destruct (fdrop_ok s l i a I Hi Oa) as (s1 & S & I1 & G1 & G2). exists s1. rewrite G1, G2, app_nil_r. split; [exact S|]. split; [exact I1|]. split; [reflexivity|].
    pose proof (held_val l i (Some []) Hi) as P. rewrite VA in P. cbn [app] in *. rewrite <- Permutation_rev, <- P. perm.
  - destruct L as (Hi & Hj & O & VC). destruct (owns_ne _ _ O) as (a & Oa). assert (VA : val l i = a) by (unfold val; now rewrite Oa). rewrite Oa.
    destruct (fmove_ok s l i a I Hi Oa) as (s1 & t & S & I1 & F & G1 & G2). rewrite S. cbn [bind fst snd].
    pose proof (is_var_give l i None j Hi Hj) as Hj'.
    destruct (fset_ok s1 _ j t a (forget _ _ i I1 Hi) Hj' F) as (s2 & S2 & I2 & G3 & G4). exists s2. rewrite G3, G4, G1, G2, app_nil_r.
    split; [exact S2|]. split; [exact I2|]. split; [reflexivity|]. cbn [app].
    pose proof (held_val l i None Hi) as P. rewrite VA in P. pose proof (held_val _ j (Some a) Hj') as Q.
    assert (V0 : val (give l i None) j = []).
    { unfold val. rewrite owns_give by exact Hi. destruct (Z.eqb_spec j i); [reflexivity|]. destruct VC as [VC| ->]; [|congruence]. exact (vacant_val _ _ VC). }
    rewrite V0 in Q. cbn [app] in *. rewrite Q, P. reflexivity.
  - destruct L as (Hi & Hj & O & Oj & NE). destruct (owns_ne _ _ O) as (a & Oa). destruct (owns_ne _ _ Oj) as (b & Ob). rewrite Ob.
    assert (VA : val l i = a) by (unfold val; now rewrite Oa). assert (VB : val l j = b) by (unfold val; now rewrite Ob).
    destruct (fmove_ok s l j b I Hj Ob) as (s1 & t & S & I1 & F & G1 & G2). rewrite S. cbn [bind fst snd].
    pose proof (is_var_give l j None i Hj Hi) as Hi'. assert (Oa' : owns (give l j None) i = Some a).
    { rewrite owns_give by exact Hj. destruct (Z.eqb_spec i j); [contradiction|exact Oa]. }
    unfold ftake. destruct (fdrop_ok s1 _ i a (forget _ _ j I1 Hj) Hi' Oa') as (s2 & S2 & I2 & G3 & G4). rewrite S2. cbn [bind].
    destruct (fset_ok s2 _ i t b I2 (is_var_give _ _ _ _ Hi' Hi') F) as (s3 & S3 & I3 & G5 & G6). rewrite give_give in I3.
    exists s3. rewrite G5, G6, G3, G4, G1, G2, app_nil_r. split; [exact S3|]. split; [exact I3|]. split; [reflexivity|]. cbn [app].
    pose proof (held_val l j None Hj) as P. rewrite VB in P. pose proof (held_val _ i (Some b) Hi') as Q.
    assert (V1 : val (give l j None) i = a) by (unfold val; now rewrite Oa'). rewrite V1 in Q. cbn [app] in *. rewrite <- Permutation_rev.
    rewrite <- P, <- Q. perm.
Qed.
Lemma frun_ok ops : forall s l, finv s l -> flegal_all N l ops ->
  exists s', frun N s ops = Ok s' /\ finv s' (fst (fspec_all N l ops)) /\ fgiven s' = fgiven s ++ freturned N l ops /\
    Permutation (heldl (fst (fspec_all N l ops)) ++ fgone s' ++ fgiven s') (snd (fspec_all N l ops) ++ heldl l ++ fgone s ++ fgiven s).
Proof.
  induction ops as [|o ops IH]; intros s l I L; cbn [frun fspec_all flegal_all freturned fst snd] in *.
  - exists s. rewrite app_nil_r. cbn [app]. auto.
  - destruct L as [L1 L2]. destruct (fstep_ok s l o I L1) as (s1 & S & I1 & G & P). rewrite S. cbn [bind].
    destruct (IH s1 _ I1 L2) as (s2 & S2 & I2 & G2 & P2). exists s2. split; [exact S2|]. split; [exact I2|]. split.
    + rewrite G2, G, <- app_assoc. reflexivity.
    + rewrite P2. transitivity (snd (fspec_all N (fst (fspec N l o)) ops) ++ (snd (fspec N l o) ++ heldl l ++ fgone s ++ fgiven s)); [now apply Permutation_app_head|]. perm.
Qed.
Lemma fstart_inv n : finv (fstart n) (repeat None n).
Proof.
  split; [unfold fstart; cbn [fvars]; unfold zlen; now rewrite !repeat_length|]. intros i a O. exfalso. unfold owns in O.
  destruct (aget (repeat None n) i) as [o|] eqn:G; [|discriminate]. subst o. unfold aget in G. destruct (i <? 0); [discriminate|].
  destruct (nth_error (repeat None n) (Z.to_nat i)) eqn:E; [|discriminate]. apply nth_error_In, repeat_spec in E. subst. discriminate.
Qed.
End FvarProofs.
