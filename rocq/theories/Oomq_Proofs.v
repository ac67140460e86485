From Verif Require Import Base Slots Pow2 Deque_Model Deque_Spec Deque_Proofs Oomq_Model Oomq_Spec.

Section P.
Context {A : Type}.
Implicit Types (d : deque A) (l : list A).

Lemma reserve_f_true d c : reserve_f true d c = reserve d c.
Proof. unfold reserve_f. now rewrite andb_false_r. Qed.

Lemma reserve_f_spec a d l c : rg d l -> 0 <= c ->
  reserve_f a d c = Ok (d, false) /\ a = false \/ reserve_f a d c = reserve d c.
Proof.
  intros _ _. unfold reserve_f. destruct (asks d c) eqn:Q; cbn [andb]; [|now right]. destruct a; cbn; auto.
Qed.

Lemma reserve_more d l c : rg d l -> cap d <= c -> exists d', reserve d c = Ok (d', true) /\ rg d' l.
Proof.
  intros Hr Hc. pose proof (cap_pos d (proj1 Hr)).
  destruct (reserve_spec d l c Hr ltac:(lia)) as (d' & ok & E & Hr' & H1 & H2 & -> & H3). exists d'. split; [|exact Hr'].
  rewrite E. unfold is_null. rewrite (H3 ltac:(lia)). destruct (Z.eqb_spec (cap d') 0); [lia|reflexivity].
Qed.

Lemma push_back_f_spec a d l x : rg d l ->
  (push_back_f a d x = Ok (d, false) /\ a = false) \/ (exists d', push_back_f a d x = Ok (d', true) /\ rg d' (l ++ [x])).
Proof.
  intros Hr. pose proof (cap_pos d (proj1 Hr)). destruct (push_back_spec d l x Hr) as (d' & E & Hd').
  unfold push_back_f, push_back in *. destruct (Z.land (dend d + 1) (capmask d) =? start d).
  - destruct (reserve_f_spec a d l (capmask d + 3) Hr) as [(-> & ->)| ->]; [unfold cap in *; lia| |].
    + left. cbn. auto.
    + right. destruct (reserve_more d l (capmask d + 3) Hr) as (d1 & E1 & _); [unfold cap; lia|]. rewrite E1 in *. cbn [bind fst snd negb] in *.
      destruct (wr (cbuf d1) (dend d1) x) as [b|e]; cbn [bind] in *; [|discriminate]. injection E as <-. eauto.
  - right. cbn [bind fst snd negb] in *. destruct (wr (cbuf d) (dend d) x) as [b|e]; cbn [bind] in *; [|discriminate]. injection E as <-. eauto.
Qed.

Lemma push_front_f_spec a d l x : rg d l ->
  (push_front_f a d x = Ok (d, false) /\ a = false) \/ (exists d', push_front_f a d x = Ok (d', true) /\ rg d' (x :: l)).
Proof.
  intros Hr. pose proof (cap_pos d (proj1 Hr)). destruct (push_front_spec d l x Hr) as (d' & E & Hd').
  unfold push_front_f, push_front in *. destruct (Z.land (start d - 1) (capmask d) =? dend d).
  - destruct (reserve_f_spec a d l (capmask d + 3) Hr) as [(-> & ->)| ->]; [unfold cap in *; lia| |].
    + left. cbn. auto.
    + right. destruct (reserve_more d l (capmask d + 3) Hr) as (d1 & E1 & _); [unfold cap; lia|]. rewrite E1 in *. cbn [bind fst snd negb] in *.
      destruct (wr (cbuf d1) (Z.land (start d1 - 1) (capmask d1)) x) as [b|e]; cbn [bind] in *; [|discriminate]. injection E as <-. eauto.
  - right. cbn [bind fst snd negb] in *. destruct (wr (cbuf d) (Z.land (start d - 1) (capmask d)) x) as [b|e]; cbn [bind] in *; [|discriminate]. injection E as <-. eauto.
Qed.

Lemma shrink_f_spec a d l : rg d l -> exists d', shrink_f a d = Ok d' /\ rg d' l.
Proof.
  intros Hr. destruct (shrink_spec d l Hr) as (d' & E & Hd'). unfold shrink_f, shrink_to_fit in *.
  destruct (size d >? capmask d / 2); [eauto|].
  destruct (reserve_f_spec a init [] (size d) rg_init) as [(-> & ->)| ->].
  - rewrite (rg_size d l Hr). apply zlen_nonneg.
  - cbn. eauto.
  - eauto.
Qed.

Lemma insert_n_f_true d idx xs : insert_n_f true d idx xs = insert_n d idx xs.
Proof. unfold insert_n_f, insert_uninit_f. now rewrite andb_false_r. Qed.

(** The iterator of a successful insertion is not null. *)
Lemma insert_n_ref d l idx xs : rg d l -> 0 <= idx <= zlen l -> exists d' it, insert_n d idx xs = Ok (d', it) /\
  rg d' (firstn (Z.to_nat idx) l ++ xs ++ skipn (Z.to_nat idx) l) /\ (xs <> [] -> ref it <> None).
Proof.
  intros Hr Hi. destruct (insert_n_spec d l idx xs Hr Hi) as (d' & it & E & H & Hit). exists d', it.
  split; [exact E|]. split; [exact H|]. intros Hne. destruct (Hit Hne) as (-> & _). discriminate.
Qed.

Lemma step_f_spec a d l o : rg d l -> legal_op l o -> match o with InsertN _ _ => a = true | _ => True end ->
  (step_f a d o = Ok (d, ([], []), false) /\ a = false /\ may_fail o = true) \/
  (exists d' ok, step_f a d o = Ok (d', snd (seq_step l o), ok) /\ rg d' (fst (seq_step l o)) /\
    match o with Reserve _ | InsertN _ [] => True | _ => ok = true end).
Proof.
  intros Hr Hl Ha.
  destruct o as [x|x| | | | |idx xs|idx n|c| |]; cbn [step_f seq_step fst snd legal_op may_fail] in *;
    try (right; match goal with |- context [step d ?o] => destruct (step_spec d l o Hr Hl) as (d' & E & Hd') end;
         rewrite E; cbn [bind fst snd]; exists d', true; auto; fail).
  - destruct (push_back_f_spec a d l x Hr) as [(-> & ->)|(d' & -> & Hd')]; [left; cbn; auto|right; cbn; eauto].
  - destruct (push_front_f_spec a d l x Hr) as [(-> & ->)|(d' & -> & Hd')]; [left; cbn; auto|right; cbn; eauto].
  - right. subst a. rewrite insert_n_f_true. destruct (insert_n_ref d l idx xs Hr Hl) as (d' & it & -> & Hd' & Hit). cbn [bind fst snd].
    eexists d', _. split; [reflexivity|]. split; [exact Hd'|]. destruct xs as [|x xs]; [exact I|].
    destruct (ref it); [reflexivity|]. destruct Hit; discriminate || auto.
  - destruct (reserve_f_spec a d l c Hr Hl) as [(-> & ->)| ->]; [left; cbn; auto|right].
    destruct (reserve_spec d l c Hr Hl) as (d' & ok & -> & Hd' & _). cbn. eauto.
  - right. destruct (shrink_f_spec a d l Hr) as (d' & -> & Hd'). cbn. eauto.
Qed.

Lemma run_f_spec ops : forall d l, rg d l -> legal_f l ops ->
  exists d' l' outs, run_f d ops = Ok (d', outs) /\ run_with l ops l' outs /\ rg d' l'.
Proof.
  induction ops as [|(a & o) ops IH]; intros d l Hr Hl; cbn [run_f].
  - exists d, l, []. split; [reflexivity|]. split; [constructor|exact Hr].
  - destruct Hl as (Hlo & Ha & Hok & Hfail). destruct (step_f_spec a d l o Hr Hlo Ha) as [(E & -> & M)|(d1 & ok & E & Hr1 & Hk)].
    + rewrite E. cbn [bind fst snd]. destruct (IH d l Hr (Hfail eq_refl M)) as (d' & l' & outs & E2 & RW & Hr'). rewrite E2. cbn [bind fst snd].
      eexists d', l', _. split; [reflexivity|]. split; [now constructor|exact Hr'].
    + rewrite E. cbn [bind fst snd]. destruct (IH d1 _ Hr1 Hok) as (d' & l' & outs & E2 & RW & Hr'). rewrite E2. cbn [bind fst snd].
      eexists d', l', _. split; [reflexivity|]. split; [now constructor|exact Hr'].
Qed.

Lemma insert_n_lost d l idx xs : rg d l -> 0 <= idx -> idx + zlen xs <= zlen l -> xs <> [] ->
  zlen l + zlen xs >= capmask d + 1 ->
  exists d', insert_n_f false d idx xs = Ok (d', mkit None 0) /\ rg d' (firstn (Z.to_nat idx) l ++ xs ++ skipn (Z.to_nat (idx + zlen xs)) l).
Proof.
  intros Hr Hi Hle Hne Hfull. pose proof Hr as (Hw & Hz & He & Hv). pose proof (zlen_nonneg l). pose proof (cap_pos d Hw).
  assert (Hx : 0 < zlen xs) by (destruct xs; [congruence|rewrite zlen_cons; pose proof (zlen_nonneg xs); lia]).
  unfold insert_n_f, insert_uninit_f. rewrite (rg_size d l Hr).
  assert (Q : (zlen l + zlen xs >=? capmask d) && asks d (zlen l + zlen xs) && negb false = true).
  { rewrite Z.geb_leb. destruct (Z.leb_spec (capmask d) (zlen l + zlen xs)); [|lia]. cbn [andb negb]. rewrite andb_true_r. unfold asks.
    destruct (pow2_ceil_pow2 (zlen l + zlen xs + 1)) as [_ Hp]; [lia|]. destruct (Z.leb_spec (pow2_ceil (zlen l + zlen xs + 1)) (capmask d + 1)); [lia|reflexivity]. }
  rewrite Q. cbn [bind fst snd].
  assert (Hlne : l <> []) by (destruct l; [cbn in *; change (zlen (@nil A)) with 0 in *; lia|discriminate]).
  destruct (fill_spec xs d idx (zlen l) Hw (rg_buf d l Hr Hlne) (rg_size d l Hr) Hz Hi Hle) as (d' & E & W & C & B & S & D & M & G).
  rewrite E. cbn [bind]. exists d'. split; [reflexivity|].
  set (nl := firstn (Z.to_nat idx) l ++ xs ++ skipn (Z.to_nat (idx + zlen xs)) l).
  assert (Hnl : zlen nl = zlen l) by (unfold nl; rewrite !zlen_app, zlen_firstn, zlen_skipn by lia; lia).
  split; [exact W|]. rewrite C, Hnl. split; [exact Hz|]. split; [rewrite S, D; exact He|].
  intros i y Hy. pose proof (aget_ok_range _ _ _ Hy) as Ri. rewrite Hnl in Ri. rewrite G by lia.
  assert (Hf : zlen (firstn (Z.to_nat idx) l) = idx) by (rewrite zlen_firstn by lia; lia).
  unfold nl in Hy. destruct (Z.leb_spec idx i); cbn [andb].
  - rewrite aget_app2 in Hy by lia. rewrite Hf in Hy. destruct (Z.ltb_spec i (idx + zlen xs)).
    + rewrite aget_app1 in Hy by lia. rewrite Hy. reflexivity.
    + rewrite aget_app2 in Hy by lia. rewrite aget_skipn in Hy by lia. apply Hv. rewrite <- Hy. f_equal. lia.
  - rewrite aget_app1 in Hy by lia. rewrite aget_firstn in Hy by lia. apply Hv. exact Hy.
Qed.
End P.
