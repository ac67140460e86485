(** C92-C94: ownership in vec, stack and pqueue. *)
From Coq Require Import Permutation.
From Verif Require Import Base Slots Own_Model Own_Spec Own_Proofs Own_Proofs2 Own_Proofs3 Own_Proofs4.

(** An allocator that hands out unused addresses and does not run out of memory. *)
Definition sound {A} (place : nat -> @heap A -> Z -> Z) : Prop :=
  (forall t h n, look h (place t h n) = None) /\ (forall t h n, 0 < n -> place t h n <> 0).

(** Every history of calls on any number of vec (stack) variables that the list specification allows runs
    without touching freed, foreign or uninitialised memory and does what the specification says. *)
Theorem C92_runs {A} place stay (keyclone : A -> A) k n ops a : sound place -> arun keyclone k (astart n) ops = Some a ->
  exists s, run place stay keyclone k (start n) ops = Some (Ok s) /\
    zlen (vars s) = zlen (aseqs a) /\
    (forall i v o, aget (vars s) i = Ok v -> aget (aseqs a) i = Ok o ->
       match v, o with Dead, None => True | Live c, Some l => stores (hp (wd s)) c l | _, _ => False end) /\
    mine s = amine a /\ made (wd s) = amade a /\ gone (wd s) = agone a.
Proof.
  intros (Hf & Hp) E. pose proof (run_legal place stay keyclone Hf Hp k ops _ _ _ (sim_start k n) E) as L.
  destruct (run place stay keyclone k (start n) ops) as [r|] eqn:Er; [|congruence].
  destruct (run_ok place stay keyclone Hf Hp k ops _ _ _ (sim_start k n) Er) as (s & a' & -> & E' & S). rewrite E in E'. injection E' as <-.
  exists s. split; [reflexivity|]. destruct S as [V Hm Hd Hg]. split; [apply V|]. split; [|auto].
  intros i v o Ev Eo. pose proof (v_rel _ _ _ _ V i v o Ev Eo) as R. destruct v, o; cbn in R; tauto.
Qed.

(** Conversely a history the code accepts is one of the specification; different containers never share a
    block and every live block belongs to a container. *)
Theorem C92_blocks {A} place stay (keyclone : A -> A) k n ops r : sound place -> run place stay keyclone k (start n) ops = Some r ->
  exists s a, r = Ok s /\ arun keyclone k (astart n) ops = Some a /\
    (forall i j c d, i <> j -> aget (vars s) i = Ok (Live c) -> aget (vars s) j = Ok (Live d) -> data c <> 0 -> data c <> data d) /\
    (forall p b, look (hp (wd s)) p = Some b -> exists i c, aget (vars s) i = Ok (Live c) /\ data c = p).
Proof.
  intros (Hf & Hp) E. destruct (run_ok place stay keyclone Hf Hp k ops _ _ _ (sim_start k n) E) as (s & a & -> & E' & [V _ _ _]).
  exists s, a. split; [reflexivity|]. split; [exact E'|]. split.
  - intros i j c d Hij Ei Ej Hd. exact (v_disj _ _ _ _ V i j _ _ Hij Ei Ej Hd).
  - intros p b Ep. destruct (v_own _ _ _ _ V p b Ep) as (i & v & Ei & Hv). destruct v as [|c]; [cbn in Hv; subst p; discriminate|]. exists i, c. auto.
Qed.

(** No element is in two places, none is destroyed twice and none is lost: what is held and what was destroyed
    are together the elements made so far. *)
Theorem C92_once {A} (keyclone : A -> A) k n ops a : arun keyclone k (astart n) ops = Some a ->
  NoDup (held a ++ agone a) /\ (forall i, In i (held a ++ agone a) <-> 0 <= i < amade a).
Proof.
  intros E. destruct (arun_idok keyclone k ops _ _ (idok_start n) E) as (Hm & P). split.
  - eapply Permutation_NoDup; [symmetry; exact P|]. apply upto_nodup.
  - intros i. rewrite <- upto_in. split; apply Permutation_in; [exact P|symmetry; exact P].
Qed.

(** When every container has been dropped and the client has destroyed what it owns, all memory is returned and
    every element was destroyed exactly once. *)
Theorem C92_end {A} place stay (keyclone : A -> A) k n ops s : sound place -> run place stay keyclone k (start n) ops = Some (Ok s) ->
  (forall v, In v (vars s) -> v = Dead) -> mine s = [] ->
  (forall p, look (hp (wd s)) p = None) /\ NoDup (gone (wd s)) /\ (forall i, In i (gone (wd s)) <-> 0 <= i < made (wd s)).
Proof.
  intros Hs E Hv Hm. destruct (C92_blocks place stay keyclone k n ops _ Hs E) as (s' & a & E1 & Ea & _ & Ho). injection E1 as <-.
  destruct (C92_runs place stay keyclone k n ops a Hs Ea) as (s' & E2 & Hz & Hr & Hm' & Hd & Hg). rewrite E in E2. injection E2 as <-. split.
  - intros p. destruct (look (hp (wd s)) p) as [b|] eqn:Ep; [|reflexivity]. destruct (Ho p b Ep) as (i & c & Ei & _). apply aget_In, Hv in Ei. discriminate.
  - destruct (C92_once keyclone k n ops a Ea) as [N I]. assert (H0 : held a = []).
    { unfold held. rewrite <- Hm', Hm, app_nil_r.
      assert (Q : forall o, In o (aseqs a) -> o = None).
      { intros o Ho'. destruct (In_aget _ _ Ho') as (i & Hi & Ei). rewrite <- Hz in Hi. destruct (aget_some (vars s) i Hi) as [v Ev].
        pose proof (Hr i v o Ev Ei) as R. apply aget_In, Hv in Ev as ->. destruct o; [contradiction|reflexivity]. }
      clear - Q. induction (aseqs a) as [|o t IH]; [reflexivity|]. cbn [flat_map]. rewrite (Q o (or_introl eq_refl)). apply IH. intros ? ?. apply Q. now right. }
    rewrite H0 in N, I. rewrite Hg, Hd. exact (conj N I).
Qed.

(** An allocator: the first address above all those in use; malloc(0) gives NULL. *)
Definition bump {A} (t : nat) (h : @heap A) (n : Z) : Z := if n =? 0 then 0 else 1 + fold_right (fun x m => Z.max (fst x) m) 0 h.
Lemma bump_sound {A} : sound (@bump A).
Proof.
  assert (P : forall h : @heap A, 0 <= fold_right (fun x m => Z.max (fst x) m) 0 h) by (induction h; cbn; lia).
  split; intros t h n; unfold bump; [|intros Hn; destruct (Z.eqb_spec n 0); [lia|]; specialize (P h); lia].
  destruct (Z.eqb_spec n 0); [reflexivity|]. unfold look. destruct (_ =? 0); [reflexivity|].
  assert (Q : forall p, fold_right (fun x m => Z.max (fst x) m) 0 h < p -> find h p = None).
  { clear. induction h as [|[q b] u IH]; intros p Hp; cbn in *; [reflexivity|]. destruct (Z.eqb_spec q p); [lia|]. apply IH. lia. }
  apply Q. lia.
Qed.

(** A history with every call, for both kinds; element 100 owned by the client ends in variable 2. *)
Definition c92_common : list (op Z) :=
  [Init 0; PutN 0 [10; 11; 12; 13; 14]; Clone 1 0; Pop 1; New 100; Push 1 0; Copy 0 1; Copy 0 0; Move 2 1; Take 0 2; Take 0 0; Pull 0; Push 2 0;
   Reserve 0 50; Shrink 0; WithCapacity 3 0; Shrink 3; Copy 3 0; Drop 3; WithSize 3 3 7; PutN 3 [1]; Clear 3; Copy 0 1; FromN 4 [20; 21]; New 5; Free 0].
Example C92_met :
  let l := c92_common ++ [Drop 0; Drop 1; Drop 2; Drop 3; Drop 4] in
  let lv := c92_common ++ [EraseN 4 0 1; Resize 4 4 8; Resize 4 1 8; Drop 0; Drop 1; Drop 2; Drop 3; Drop 4] in
  sound (@bump Z) /\
  (exists s, run bump (fun _ _ _ _ => false) (fun x => x + 1) KStack (start 5) l = Some (Ok s) /\ vars s = [Dead; Dead; Dead; Dead; Dead] /\ mine s = [] /\ made (wd s) = 24) /\
  (exists s, run bump (fun _ _ _ n => n <? 10) (fun x => x + 1) KVec (start 5) lv = Some (Ok s) /\ vars s = [Dead; Dead; Dead; Dead; Dead] /\ mine s = [] /\ made (wd s) = 24).
Proof.
  cbv zeta. split; [apply bump_sound|]. split; eexists; vm_compute; repeat split; reflexivity.
Qed.

(** _with_size copies one value into every slot: with an owning element the same object is destroyed again and again. *)
Theorem C92_with_size_refuted : exists (w w1 w2 : @world Z) c, with_size bump (fun _ _ _ _ => false) KVec w 2 (Some 0, 7) = Ok (w1, c) /\ drop KVec w1 c = Ok w2 /\ gone w2 = [0; 0].
Proof. exists (mkw [] 0 1 []). eexists _, _, _. split; [vm_compute; reflexivity|]. split; [vm_compute; reflexivity|reflexivity]. Qed.

(** Out of memory: a push or reserve that reports failure changed nothing, whatever the allocator. *)
Theorem C93_reserve_fails {A} place stay (w : @world A) c n w' c' : 0 <= cap c ->
  reserve place stay w c n = Ok (w', c', false) -> c' = c /\ hp w' = hp w /\ made w' = made w /\ gone w' = gone w.
Proof.
  intros Hc. unfold reserve, realloc, malloc. destruct ((cap c <? n) || (negb (n =? 0) && (n =? size c))) eqn:C; [|intros [= <- <- _]; auto].
  assert (Hn : n <> 0). { apply orb_true_iff in C. rewrite andb_true_iff, negb_true_iff in C. lia. }
  destruct (Z.eqb_spec (data c) 0) as [H0|H0].
  - destruct (Z.eqb_spec (place (tick w) (hp w) n) 0) as [Hp|Hp]; cbn [bind]; [intros [= <- <-]; auto|]. rewrite (proj2 (Z.eqb_neq _ _) Hp). discriminate.
  - unfold block. destruct (look (hp w) (data c)) as [b|]; cbn [bind]; [|discriminate]. destruct (negb (zlen b =? cap c)); [discriminate|].
    destruct (stay _ _ _ _); cbn [bind]; [rewrite (proj2 (Z.eqb_neq _ _) H0); discriminate|]. rewrite (proj2 (Z.eqb_neq _ _) Hn).
    destruct (Z.eqb_spec (place (tick w) (hp w) n) 0) as [Hp|Hp]; cbn [bind]; [intros [= <- <-]; auto|]. rewrite (proj2 (Z.eqb_neq _ _) Hp). discriminate.
Qed.
Theorem C93_push_fails {A} place stay k (w : @world A) c x w' c' : 0 <= cap c ->
  push place stay k w c x = Ok (w', c', false) -> c' = c /\ hp w' = hp w /\ made w' = made w /\ gone w' = gone w.
Proof.
  intros Hc. unfold push. destruct (size c =? cap c).
  - destruct (reserve place stay w c (grown k (size c))) as [[[w1 c1] ok]|] eqn:E; cbn [bind]; [|discriminate]. destruct ok; cbn [negb].
    + destruct (store w1 (data c1) (size c1) x); discriminate.
    + intros [= <- <-]. eapply C93_reserve_fails; eauto.
  - cbn [bind negb]. destruct (store w (data c) (size c) x); discriminate.
Qed.
(** vec's _copy_n (and so _clone, _copy, on a cleared vec) inserts nothing when memory runs out. *)
Theorem C93_copy_n_fails {A} stay (keyclone : A -> A) (w : @world A) c arr n : 0 <= cap c -> size c = 0 -> cap c < n -> (forall t h p m, stay t h p m = false) ->
  data c = 0 \/ (exists b, look (hp w) (data c) = Some b /\ zlen b = cap c) ->
  exists w', copy_n (fun _ _ _ => 0) stay keyclone w c 0 arr n = Ok (w', c) /\ hp w' = hp w /\ made w' = made w /\ gone w' = gone w.
Proof.
  intros Hc Hs Hn Hst Hd. unfold copy_n, insert_uninit. rewrite Hs. change (0 * 3 / 2 + n) with n. rewrite Z.add_0_l.
  destruct (Z.leb_spec (cap c) n); [|lia]. unfold reserve. destruct (Z.ltb_spec (cap c) n); [|lia]. cbn [orb]. unfold realloc, malloc.
  destruct (Z.eqb_spec (data c) 0) as [Hz|Hz].
  - cbn. eexists. split; [reflexivity|]. auto.
  - destruct Hd as [Hd|(b & E & Zb)]; [congruence|]. unfold block. rewrite E. cbn [bind]. rewrite Zb, Z.eqb_refl, Hst. cbn [negb].
    destruct (Z.eqb_spec n 0); cbn; [lia|]. eexists. split; [reflexivity|]. auto.
Qed.
(** a full vec and an allocator that refuses *)
Example C93_met : exists (w : @world Z) c w' c', size c = 1 /\ load w (data c) 0 = Ok (Some 0, 5) /\
  push (fun _ _ _ => 0) (fun _ _ _ _ => false) KVec w c (Some 1, 6) = Ok (w', c', false) /\ load w' (data c') 0 = Ok (Some 0, 5).
Proof. exists (mkw [(8, [Some (Some 0, 5)])] 0 2 []), (mkc 8 1 1). eexists _, _. repeat split; vm_compute; reflexivity. Qed.
(** The stack does not survive it: _with_capacity keeps the requested capacity without a buffer, so the next push
    writes through NULL; a failed _clone keeps the size, so _drop reads through NULL; _with_size writes through NULL. *)
Theorem C93_stack_refuted : let no := (fun _ _ _ => 0) : nat -> @heap Z -> Z -> Z in let st := fun _ _ _ _ => false in
  (exists w c, with_capacity no st KStack (mkw [] 0 0 []) 4 = Ok (w, c) /\ push no st KStack w c (Some 0, 7) = Err NullDeref) /\
  (exists w c, clone no st (fun x => x) KStack (mkw [(8, [Some (Some 0, 5)])] 0 1 []) (mkc 8 1 1) = Ok (w, c) /\ drop KStack w c = Err NullDeref) /\
  with_size no st KStack (mkw [] 0 0 []) 4 (None, 7) = Err NullDeref.
Proof. cbv zeta. split; [|split; [|reflexivity]]; eexists _, _; split; vm_compute; reflexivity. Qed.
(** _put_n ignores the refusal: the element made from the raw value is neither stored nor destroyed. *)
Theorem C93_put_n_refuted : exists w c, put_n (fun _ _ _ => 0) (fun _ _ _ _ => false) KVec (mkw [] 0 0 []) zero [5] = Ok (w, c) /\
  made w = 1 /\ c = zero /\ hp w = (@nil (Z * slots (@elem Z))) /\ gone w = [].
Proof. eexists _, _. split; [vm_compute; reflexivity|]. repeat split. Qed.
(** pqueue's _push does not look at the result of _reserve. *)
Theorem C93_pq_push_refuted : pq_push_last (fun _ _ _ => 0) (fun _ _ _ _ => false) (mkw [] 0 0 []) zero (Some 0, 5) = Err NullDeref.
Proof. reflexivity. Qed.

(** pqueue: reserving keeps the elements, unless it asks realloc for 0 bytes of an existing block. *)
Theorem C94_reserve_partial {A} place stay (w : @world A) c l n : sound place -> stores (hp w) c l -> 0 <= n -> 0 < n \/ data c = 0 \/ 0 < zlen l \/ stay (tick w) (hp w) (data c) n = true ->
  exists w' c' ok, pq_reserve place stay w c n = Ok (w', c', ok) /\ stores (hp w') c' l /\ moves (hp w) (hp w') (data c) (data c') /\
    made w' = made w /\ gone w' = gone w /\ (ok = true -> n <= cap c').
Proof.
  intros (Hf & Hp) S Hn Hok. destruct (stores_size _ _ _ S) as [Hs Hl]. unfold pq_reserve.
  destruct (negb (n =? size c) && (n <=? cap c)) eqn:C.
  { apply andb_true_iff in C as [_ C]. exists w, c, true. split; [reflexivity|]. split; [exact S|]. split; [apply moves_refl|]. repeat split. intros _. lia. }
  assert (Hln : zlen l <= n). { apply andb_false_iff in C. rewrite negb_false_iff in C. lia. } clear C.
  unfold realloc. destruct (Z.eqb_spec (data c) 0) as [H0|H0].
  - assert (l = []) as ->. { destruct S as (_ & [(_ & _ & ->)|(b & E & _)]); [reflexivity|]. rewrite H0 in E. discriminate. }
    destruct (malloc_ok place Hf Hp w n Hn) as (w' & a & -> & M & Em & Eg & Ha & Hb). cbn [bind]. destruct (Z.eqb_spec a 0) as [->|Ha'].
    + exists w', c, false. rewrite H0. split; [reflexivity|]. split; [|split; [exact M|repeat split; auto; discriminate]].
      split; [exact Hs|]. left. destruct S as (_ & [?|(b & E & _)]); [assumption|]. rewrite H0 in E. discriminate.
    + destruct (Hb Ha') as (b & Eb & Zb). exists w', (mkc a (size c) n), true. rewrite H0. split; [reflexivity|]. split; [|split; [exact M|repeat split; auto; cbn; lia]].
      split; [exact Hs|]. right. exists b. cbn. repeat split; auto. apply holds_nil.
  - destruct (stores_block _ _ _ S H0) as (b & E & Zb & Hb). unfold block. rewrite E. cbn [bind]. rewrite Zb, Z.eqb_refl. cbn [negb].
    assert (Zr : zlen (Slots.realloc b n) = n) by now apply zlen_realloc.
    assert (Hr : holds (Slots.realloc b n) l) by now apply holds_realloc.
    destruct (stay (tick w) (hp w) (data c) n) eqn:St.
    + cbn [bind]. rewrite (proj2 (Z.eqb_neq _ _) H0). eexists _, _, _. split; [reflexivity|]. cbn [data ticked hp made gone cap].
      split; [|split; [now apply moves_put|repeat split; lia]]. split; [exact Hs|]. right. eexists. cbn [data cap]. rewrite look_put by exact H0. rewrite Z.eqb_refl. repeat split; auto.
    + assert (Hpos : 0 < n) by (destruct Hok as [?|[?|[?|?]]]; [lia|congruence|lia|congruence]).
      rewrite (proj2 (Z.eqb_neq n 0)) by lia. pose proof (Hf (tick w) (hp w) n) as Fr. pose proof (Hp (tick w) (hp w) n Hpos) as Ha. set (a := place _ _ _) in *. clearbody a.
      rewrite (proj2 (Z.eqb_neq _ _) Ha). cbn [bind]. rewrite (proj2 (Z.eqb_neq _ _) Ha). eexists _, _, _. split; [reflexivity|]. cbn [data ticked hp made gone cap].
      assert (a <> data c) by congruence. split; [|split; [|repeat split; lia]].
      * split; [exact Hs|]. right. eexists. cbn [data cap]. rewrite look_put by exact Ha. rewrite Z.eqb_refl. repeat split; auto.
      * split; [|split].
        -- intros p H1 H2. rewrite look_put, look_del by exact Ha. destruct (Z.eqb_spec p a), (Z.eqb_spec p (data c)); congruence.
        -- now right.
        -- intros _. rewrite look_put, look_del by exact Ha. destruct (Z.eqb_spec (data c) a), (Z.eqb_spec (data c) (data c)); congruence.
Qed.
(** _shrink_to_fit of an empty pqueue that has a buffer is realloc(data, 0): where that frees the block and returns
    NULL (glibc), the queue keeps the dangling pointer; dropping it frees twice, pushing writes to freed memory. *)
Theorem C94_shrink_refuted : exists w c w1 c1, pq_with_capacity bump (fun _ _ _ _ => false) (mkw [] 0 0 []) 4 = Ok (w, c) /\ size c = 0 /\
  pq_reserve bump (fun _ _ _ _ => false) w c (size c) = Ok (w1, c1, false) /\
  drop (A := Z) KStack w1 c1 = Err UseAfterFree /\ pq_push_last bump (fun _ _ _ _ => false) w1 c1 (Some 0, 5) = Err UseAfterFree.
Proof. eexists _, _, _, _. repeat split; vm_compute; reflexivity. Qed.
(** cloning a pqueue gives it copies of its own, also when it is empty *)
Theorem C94_clone {A} place stay (keyclone : A -> A) (w : @world A) c l : sound place -> stores (hp w) c l ->
  exists w' c', pq_clone place stay keyclone w c = Ok (w', c') /\ stores (hp w') c' (copies keyclone (made w) l) /\ stores (hp w') c l /\
    moves (hp w) (hp w') 0 (data c') /\ (data c <> 0 -> data c' <> data c) /\ made w' = made w + zlen (ids l) /\ gone w' = gone w.
Proof.
  intros Hs S. destruct (stores_size _ _ _ S) as [Hsz Hl]. unfold pq_clone, pq_with_capacity.
  destruct (C94_reserve_partial place stay w zero [] (size c) Hs (stores_zero _) ltac:(lia) ltac:(auto)) as (w1 & c1 & ok & E & S1 & M & Em & Eg & Hc).
  rewrite E. cbn [bind data] in *.
  assert (S1' : stores (hp w1) c l) by (eapply moves_stores; [exact M| |exact S]; destruct (Z.eq_dec (data c) 0); auto).
  assert (Hne : data c <> 0 -> data c <> data c1).
  { intros H0 Heq. destruct (stores_block _ _ _ S H0) as (b & Eb & _). destruct M as (_ & [N|N] & _); [cbn in N; congruence|]. rewrite <- Heq in N. congruence. }
  destruct l as [|x t].
  - change (zlen []) with 0 in Hsz. rewrite Hsz in *. cbn [Z.to_nat clone_loop bind]. eexists _, _. split; [reflexivity|]. cbn [data copies ids flat_map].
    split; [split; [reflexivity|]; destruct S1 as (_ & [(? & ? & _)|(b & ? & ? & ?)]); [left|right; exists b]; cbn; auto|].
    split; [exact S1'|]. split; [exact M|]. split; [intros; apply not_eq_sym; auto|]. cbn. split; [lia|exact Eg].
  - assert (H0 : data c <> 0) by (eapply stores_nonempty; [exact S|discriminate]). rewrite zlen_cons in *. pose proof (zlen_nonneg t).
    assert (ok = true /\ data c1 <> 0) as [-> H1].
    { unfold pq_reserve in E. cbn [size cap data zero] in E. destruct (negb (size c =? 0) && (size c <=? 0)) eqn:C; [lia|]. unfold realloc in E. cbn [Z.eqb] in E.
      destruct (malloc_ok place (proj1 Hs) (proj2 Hs) w (size c) ltac:(lia)) as (w2 & a & E2 & _ & _ & _ & Ha & _). rewrite E2 in E. cbn [bind] in E.
      specialize (Ha ltac:(lia)). rewrite (proj2 (Z.eqb_neq _ _) Ha) in E. injection E as _ <- <-. auto. }
    specialize (Hc eq_refl). destruct (stores_block _ _ _ S1 H1) as (b & Eb & Zb & _).
    destruct (clone_from keyclone w1 c (x :: t) (data c1) b S1' (Hne H0) Eb ltac:(rewrite zlen_cons; lia)) as (w2 & -> & (b2 & L2 & Z2 & H2) & M2 & Em2 & Eg2).
    cbn [bind]. eexists _, _. split; [reflexivity|]. cbn [data]. rewrite Em in *. split.
    { split; [cbn [size]; rewrite zlen_copies, zlen_cons; exact Hsz|]. right. exists b2. cbn [data cap]. repeat split; auto; congruence. }
    split; [eapply moves_stores; [exact M2|left; auto|exact S1']|]. split; [eapply moves_trans; eauto|]. split; [intros; apply not_eq_sym; auto|]. split; congruence.
Qed.
Example C94_met : sound (@bump Z) /\ stores (A := Z) [(8, [Some (Some 0, 5); None])] (mkc 8 1 2) [(Some 0, 5)].
Proof. split; [apply bump_sound|]. split; [reflexivity|]. right. exists [Some (Some 0, 5); None]. repeat split. exists [None]. reflexivity. Qed.
Print Assumptions C92_runs.
Print Assumptions C92_blocks.
Print Assumptions C92_once.
Print Assumptions C92_end.
Print Assumptions C92_with_size_refuted.
Print Assumptions C93_reserve_fails.
Print Assumptions C93_push_fails.
Print Assumptions C93_copy_n_fails.
Print Assumptions C93_stack_refuted.
Print Assumptions C93_put_n_refuted.
Print Assumptions C93_pq_push_refuted.
Print Assumptions C94_reserve_partial.
Print Assumptions C94_shrink_refuted.
Print Assumptions C94_clone.
