From Verif Require Import Base Slots Pow2 Float32 Hmap_Model Hmap_Spec Hmap_Proofs Hmap_Proofs2 Hmap_Proofs3 Oomh_Model Oomh_Spec.

Section P.
Context {K V : Type}.
Variable hash : K -> Z.
Variable eqb : K -> K -> bool.
Hypothesis KO : key_ok hash eqb.
Notation repr := (repr hash eqb).
Implicit Types (h : hmap K V) (l : list (K * V)).

Lemma reserve_f_cases a h cap :
  (reserve_f hash eqb a h cap = Ok (h, false) /\ granted a = false) \/
  reserve_f hash eqb a h cap = (let* h' := reserve hash eqb h cap in Ok (h', true)).
Proof.
  unfold reserve_f. destruct ((cap <? size h) || (buckets_for cap =? bcount h)) eqn:Q.
  - right. unfold reserve. rewrite Q. reflexivity.
  - destruct (granted a); auto.
Qed.

Lemma insert_entry_f_cases a h k :
  (insert_entry_f hash eqb a h k = Ok (h, mkresult None 0 false 0 0) /\ granted a = false) \/
  insert_entry_f hash eqb a h k = insert_entry hash eqb h k.
Proof.
  unfold insert_entry_f, insert_entry. destruct (size h >=? load_limit (bcount h)).
  - destruct (reserve_f_cases a h (size h * 3 / 2 + 2)) as [(-> & G)| ->]; [left; cbn; auto|right].
    destruct (reserve hash eqb h (size h * 3 / 2 + 2)); reflexivity.
  - right. reflexivity.
Qed.

Lemma step_f_cases a h l o : repr h l -> legal_op l o -> spread hash (fst (fst (map_step eqb l o))) ->
  (exists b, step_f hash eqb a h o = Ok (h, refused o, b, false) /\ granted a = false /\ may_fail o = true /\ (o <> ShrinkToFit -> b = false)) \/
  (exists h' d, step_f hash eqb a h o = Ok (h', d, snd (map_step eqb l o), true) /\ repr h' (fst (fst (map_step eqb l o))) /\
    Permutation d (snd (fst (map_step eqb l o)))).
Proof.
  intros Hr Hl HS. destruct (step_ok hash eqb KO h l o Hr Hl HS) as (h' & d & c & E & Hr' & SO). destruct SO as (SO1 & SO2). cbn [fst snd] in *.
  destruct o as [k v|k v|k v|k v|k|p| |cap|]; cbn [step_f refused may_fail];
    try (right; rewrite E; cbn [bind fst snd]; exists h', d; rewrite SO2; auto; fail).
  1-4: cbn [step] in E;
    (destruct (insert_entry_ok hash eqb KO h l k v Hr Hl) as (hi & r & p & Ei & Er & _);
     [cbn [map_step] in HS; destruct (lookup eqb k l); cbn [fst] in HS; first [exact HS|now apply spread_assign in HS]|]);
    unfold insert_f, emplace_f, insert_or_assign_f, emplace_or_assign_f;
    destruct (insert_entry_f_cases a h k) as [(-> & G)| ->];
    [left; exists false; cbn; auto|right];
    unfold insert, emplace, insert_or_assign, emplace_or_assign in E;
    rewrite Ei in *; cbn [bind fst snd] in *; unfold the_ref, found in *; rewrite Er in *; cbn [bind] in *;
    rewrite <- SO2; destruct (r_inserted r).
  1,3,5,7: destruct (put_ref hi p (k, v)); cbn [bind] in *; [|discriminate]; injection E as <- <- <-; eauto; fail.
  - injection E as <- <- <-. eauto.
  - injection E as <- <- <-. eauto.
  - destruct (rd (table hi) p) as [e|]; cbn [bind] in *; [|discriminate]. destruct (put_ref hi p (fst e, v)); cbn [bind] in *; [|discriminate].
    injection E as <- <- <-. eauto.
  - destruct (rd (table hi) p) as [e|]; cbn [bind] in *; [|discriminate]. destruct (put_ref hi p (fst e, v)); cbn [bind] in *; [|discriminate].
    injection E as <- <- <-. eauto.
  - cbn [step] in E. destruct (reserve_f_cases a h cap) as [(-> & G)| ->]; [left; exists false; cbn; auto|right].
    destruct (reserve hash eqb h cap); cbn [bind fst snd] in *; [|discriminate]. injection E as <- <- <-. eauto.
  - cbn [step] in E. unfold shrink_to_fit in E. destruct (reserve_f_cases a h (size h)) as [(-> & G)| ->].
    + left. exists true. cbn. split; [reflexivity|]. split; [exact G|]. split; [reflexivity|]. congruence.
    + right. destruct (reserve hash eqb h (size h)); cbn [bind fst snd] in *; [|discriminate]. injection E as <- <- <-. eauto.
Qed.

Lemma run_f_ok ops : forall h l, repr h l -> legal_f hash eqb l ops ->
  exists h' l' outs, run_f hash eqb h ops = Ok (h', outs) /\ run_with eqb l ops l' outs /\ repr h' l'.
Proof.
  induction ops as [|(a & o) ops IH]; intros h l Hr Hl; cbn [run_f].
  - exists h, l, []. split; [reflexivity|]. split; [constructor|exact Hr].
  - destruct Hl as (Hlo & HS & Hok & Hfail). destruct (step_f_cases a h l o Hr Hlo HS) as [(b & E & G & M & B)|(h1 & d & E & Hr1 & P)].
    + rewrite E. cbn [bind]. destruct (IH h l Hr (Hfail G M)) as (h' & l' & outs & E2 & RW & Hr'). rewrite E2. cbn [bind fst snd].
      eexists h', l', _. split; [reflexivity|]. split; [now constructor|exact Hr'].
    + rewrite E. cbn [bind]. destruct (IH h1 _ Hr1 Hok) as (h' & l' & outs & E2 & RW & Hr'). rewrite E2. cbn [bind fst snd].
      eexists h', l', _. split; [reflexivity|]. split; [now constructor|exact Hr'].
Qed.

(** What was handed over is in the map or has been destroyed. *)
Lemma given_ok l ops l' outs : run_with eqb l ops l' outs -> distinct_keys eqb l ->
  Permutation (flat_map destroy_entry l ++ given eqb l ops outs) (flat_map (fun x => fst (fst x)) outs ++ flat_map destroy_entry l').
Proof.
  induction 1 as [l|l a o ops l' d outs HP RW IH|l a o ops l' outs b M G B RW IH]; intros Hd; cbn [given flat_map fst snd].
  - now rewrite app_nil_r.
  - specialize (IH (distinct_step hash eqb KO l o Hd)). rewrite app_assoc, (Permutation_app_comm _ (moved_in eqb l o)).
    rewrite <- (owned_step hash eqb KO l o Hd), (Permutation_app_comm _ (snd (fst (map_step eqb l o)))), <- !app_assoc, HP.
    apply Permutation_app_head. exact IH.
  - rewrite <- app_assoc, <- (IH Hd). rewrite !app_assoc. apply Permutation_app_tail, Permutation_app_comm.
Qed.

(** Short histories are legal. *)
Lemma step_len l (o : op K V) : zlen (fst (fst (map_step eqb l o))) <= zlen l + 1.
Proof.
  assert (F : forall P, zlen (filter P l) <= zlen l).
  { intros P. induction l as [|x r IH]; [apply Z.le_refl|]. cbn [filter]. destruct (P x); rewrite ?zlen_cons; lia. }
  pose proof (zlen_nonneg l).
  destruct o as [k v|k v|k v|k v|k|p| |cap|]; cbn [map_step]; try destruct (lookup eqb k l); cbn [fst snd]; rewrite ?zlen_cons, ?assign_zlen; try lia.
  - unfold remove. specialize (F (fun e => negb (eqb (fst e) k))). lia.
  - specialize (F (fun e => negb (p e))). lia.
  - change (zlen (@nil (K * V))) with 0. lia.
Qed.
Lemma legal_short ops : forall l, zlen l + zlen ops <= 1023 -> Forall (fun x => match snd x with Reserve cap => 0 <= cap <= 2 ^ 60 | _ => True end) ops ->
  legal_f hash eqb l ops.
Proof.
  induction ops as [|(a & o) ops IH]; intros l Hz HF; cbn [legal_f]; [exact I|]. rewrite zlen_cons in Hz. inversion HF as [|x y H1 H2]; subst.
  pose proof (step_len l o). pose proof (zlen_nonneg ops). pose proof (zlen_nonneg l). cbn [snd] in H1.
  split; [destruct o; cbn [legal_op]; auto; lia|]. split; [apply spread_small; lia|]. split; [apply IH; auto; lia|]. intros _ _. apply IH; auto. lia.
Qed.
End P.
