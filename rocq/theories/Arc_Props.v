(** C52, C53: shared ownership. *)
From Verif Require Import Base Arc_Model Arc_Spec Arc_Proofs Arc_Proofs2.
From Coq Require Import Permutation.

Lemma bounded_le w O R V X m m' : m <= m' -> forall l g, bounded w O R V X m g l -> bounded w O R V X m' g l.
Proof. intros Hm. induction l as [|[i o] l IH]; intros g [H1 H2]; (split; [lia|]); [exact H2|]. destruct (step w O R V X g i o) as [[g'|]|]; auto. Qed.
Lemma bounded_end w O R V X m : forall l g g', bounded w O R V X m g l -> run w O R V X g l = Some (Ok g') -> zlen (handles g') <= m.
Proof.
  induction l as [|[i o] l IH]; intros g g' [H1 H2]; cbn [run]; [intros [= <-]; exact H1|]. destruct (step w O R V X g i o) as [[g1|]|]; [|discriminate|discriminate]. intros H. eapply IH; eauto.
Qed.

(** [w] is the width of the counter; the numbers of threads, histories and placements of the blocks are arbitrary. *)
Theorem C52_arc : forall w OFFSET REP VAL n l r, 0 < w -> layout OFFSET REP VAL ->
  bounded w OFFSET REP VAL 4 (2 ^ w - 1) (start n) l -> run w OFFSET REP VAL 4 (start n) l = Some r ->
  exists g, r = Ok g /\
    (* a handle's object is alive, and use_count is the number of its owners *)
    (forall h, In h (handles g) -> uc h <> 0 ->
       use_count g h = Ok (owners h (handles g)) /\ inside (blocks g) (get h) = true /\
       exists id, obj g (get h) = Some id /\ 0 <= id < made g /\ ~ In id (gone g)) /\
    (* no object is destroyed twice *)
    NoDup (gone g) /\ (forall id, In id (gone g) -> 0 <= id < made g) /\
    (* an object that is not destroyed is owned, or about to be destroyed by its last owner *)
    (forall id, 0 <= id < made g -> In id (gone g) \/ exists p, obj g p = Some id /\
       ((exists h, In h (handles g) /\ uc h <> 0 /\ get h = p) \/ (exists h, In (h, SDestroy) (unfinished g) /\ get h = p) \/ In p (clients g))) /\
    (* in the end everything is destroyed exactly once and all memory is released *)
    ((forall h, In h (handles g) -> uc h = 0) -> unfinished g = [] -> clients g = [] ->
       blocks g = [] /\ Permutation (gone g) (map Z.of_nat (seq 0 (Z.to_nat (made g))))).
Proof.
  intros w O R V n l r Hw HL HB HR. destruct (run_ok w O R V 4 Hw HL ltac:(lia) l (start n) r) as (g & -> & HI); auto; [apply Inv_start; auto; lia|eapply bounded_le; [|exact HB]; lia|]. exists g. split; [reflexivity|].
  pose proof (bounded_end _ _ _ _ _ _ _ _ _ HB HR) as HE. split; [|split; [|split; [|split]]].
  - intros h Hh HU. apply (Inv_owner w O R V 4); auto; lia.
  - apply (Inv_ids w O R V 4 HL ltac:(lia) g HI).
  - apply (Inv_ids w O R V 4 HL ltac:(lia) g HI).
  - apply (Inv_ids w O R V 4 HL ltac:(lia) g HI).
  - intros H1 H2 H3. apply (Inv_end w O R V 4); auto. lia.
Qed.
(** With a 64-bit long the number of handles needs no assumption beyond the size of memory:
    a handle takes 16 bytes of a 64-bit address space. *)
Theorem C52_arc_lp64 : forall OFFSET REP VAL n l r, layout OFFSET REP VAL ->
  bounded 64 OFFSET REP VAL 4 (2 ^ 64 / 16) (start n) l -> run 64 OFFSET REP VAL 4 (start n) l = Some r ->
  exists g, r = Ok g /\ NoDup (gone g) /\
    (forall h, In h (handles g) -> uc h <> 0 -> use_count g h = Ok (owners h (handles g)) /\ exists id, obj g (get h) = Some id /\ ~ In id (gone g)) /\
    ((forall h, In h (handles g) -> uc h = 0) -> unfinished g = [] -> clients g = [] -> blocks g = [] /\ Permutation (gone g) (map Z.of_nat (seq 0 (Z.to_nat (made g))))).
Proof.
  intros O R V n l r HL HB HR. destruct (C52_arc 64 O R V n l r) as (g & E & H1 & H2 & _ & _ & H3); auto; [lia|eapply bounded_le; [|exact HB]; apply Z.leb_le; vm_compute; reflexivity|]. exists g. split; [exact E|]. split; [exact H2|]. split; [|exact H3].
  intros h Hh HU. destruct (H1 h Hh HU) as (A & _ & id & B & _ & C). split; [exact A|]. exists id. auto.
Qed.

(** With [w] bits for the counter (32 where long has 32 bits), 2^w + 1 handles make it wrap:
    dropping one then destroys the object although 2^w handles remain. *)
Lemma clones w O R V n k g h : 0 < w -> thr g = [mkt (repeat h (S k)) [] []] -> uc h <> 0 -> inside (blocks g) (uc h) = true -> ctr g (uc h) = Some (wrap w (Z.of_nat (S k))) ->
  exists g', run w O R V 4 g (repeat (0, Clone 0) n) = Some (Ok g') /\ thr g' = [mkt (repeat h (S (n + k))) [] []] /\ blocks g' = blocks g /\ ctr g' (uc h) = Some (wrap w (Z.of_nat (S (n + k)))) /\ gone g' = gone g.
Proof.
  intros Hw. revert k g. induction n as [|n IH]; intros k g HT HU HI HC; [exists g; auto|]. cbn [repeat run]. unfold step. rewrite HT. cbn [aget Z.ltb Z.compare Z.to_nat nth_error]. change (aget [mkt (repeat h (S k)) [] []] 0) with (Ok (mkt (repeat h (S k)) [] [])). cbn [hs repeat pick]. destruct (Z.eqb_spec (uc h) 0); [congruence|]. unfold load. rewrite HI, HC. cbn [bind]. unfold with_thr. cbn [thr].
  change (aset [mkt (h :: repeat h k) [] []] 0 (mkt (h :: h :: repeat h k) (raws (mkt (h :: repeat h k) [] [])) (pend (mkt (h :: repeat h k) [] [])))) with (Ok [mkt (repeat h (S (S k))) [] []]). cbn [bind].
  destruct (IH (S k) (mks (blocks g) (setf (ctr g) (uc h) (Some (wrap w (wrap w (Z.of_nat (S k)) + 1)))) (obj g) (made g) (gone g) [mkt (repeat h (S (S k))) [] []])) as (g' & E & T & B & C & G); auto.
  - cbn [ctr]. rewrite setf_same, wrap_add by exact Hw. do 2 f_equal. lia.
  - exists g'. split; [exact E|]. replace (S n + k)%nat with (n + S k)%nat by lia. split; [exact T|]. split; [exact B|]. split; [exact C|exact G].
Qed.
Theorem C52_counter_wraps_refuted : forall w, 0 < w -> exists l g h, run w 8 16 8 4 (start 1) l = Some (Ok g) /\
  In h (handles g) /\ uc h <> 0 /\ gone g = [0] /\ obj g (get h) = None.
Proof.
  intros w Hw. assert (HP : 0 < 2 ^ w) by (apply Z.pow_pos_nonneg; lia).
  set (h := mkh 1008 1000). set (g1 := mks [(1000, 16)] (setf (fun _ => None) 1000 (Some 1)) (setf (fun _ => None) 1008 (Some 0)) 1 [] [mkt [h] [] []]).
  destruct (clones w 8 16 8 (Z.to_nat (2 ^ w)) 0 g1 h) as (g2 & E2 & T2 & B2 & C2 & G2); auto; [cbn; lia|cbn [ctr g1 h uc]; rewrite setf_same; f_equal; symmetry; apply wrap1; exact Hw|]. 
  assert (EO : obj g2 = obj g1 /\ made g2 = made g1).
  { clear - E2. revert E2. generalize g1. generalize (Z.to_nat (2 ^ w)) as n. induction n as [|n IH]; cbn [repeat run]; intros g; [intros [= <-]; auto|]. destruct (step w 8 16 8 4 g 0 (Clone 0)) as [[g'|]|] eqn:E; [|discriminate|discriminate]. intros H. apply IH in H as [-> ->]. clear IH.
    unfold step in E. destruct (aget (thr g) 0) as [t|]; [|discriminate]. destruct (pick 0 (hs t)) as [[x r]|]; [|discriminate]. destruct (uc x =? 0).
    - injection E as E. unfold with_thr in E. destruct (aset _ _ _); [|discriminate]. injection E as <-. auto.
    - injection E as E. destruct (load g (uc x)); [|discriminate]. cbn [bind] in E. unfold with_thr in E. destruct (aset _ _ _); [|discriminate]. injection E as <-. auto. }
  set (n := Z.to_nat (2 ^ w)) in *. assert (Hn : exists m, n = S m) by (exists (Nat.pred n); unfold n; lia). destruct Hn as [m Hm].
  exists (((0, Make 1000) :: repeat (0, Clone 0) n) ++ [(0, Drop 0); (0, Continue 0)]).
  assert (RA : forall l1 l2 g g', run w 8 16 8 4 g l1 = Some (Ok g') -> run w 8 16 8 4 g (l1 ++ l2) = run w 8 16 8 4 g' l2).
  { induction l1 as [|[i o] l1 IH]; intros l2 g g'; cbn [run app]; [intros [= ->]; reflexivity|]. destruct (step w 8 16 8 4 g i o) as [[ga|]|]; [apply IH|discriminate|discriminate]. }
  rewrite (RA _ _ _ g2) by (cbn [run]; exact E2). cbn [run].
  assert (V0 : wrap w (wrap w (Z.of_nat (S (n + 0))) - 1) = 0).
  { unfold Z.sub. rewrite wrap_add by exact Hw. unfold wrap. replace (Z.of_nat (S (n + 0)) + - (1)) with (2 ^ w) by (unfold n; lia). apply Z.mod_same. lia. }
  assert (S1 : step w 8 16 8 4 g2 0 (Drop 0) = Some (Ok (mks (blocks g2) (setf (ctr g2) 1000 (Some 0)) (obj g2) (made g2) (gone g2) [mkt (repeat h (n + 0)) [] [(h, SDestroy)]]))).
  { unfold step. rewrite T2. change (aget [mkt (repeat h (S (n + 0))) [] []] 0) with (Ok (mkt (repeat h (S (n + 0))) [] [])). cbn [hs repeat pick]. cbn [uc h]. cbn [Z.eqb]. unfold load. cbn [uc h]. rewrite B2. cbn [blocks g1]. change (inside [(1000, 16)] 1000) with true. cbv iota. change 1000 with (uc h). rewrite C2. cbn [bind]. rewrite V0. cbn [Z.eqb]. reflexivity. }
  rewrite S1. cbv iota beta.
  assert (S2 : step w 8 16 8 4 (mks (blocks g2) (setf (ctr g2) 1000 (Some 0)) (obj g2) (made g2) (gone g2) [mkt (repeat h (n + 0)) [] [(h, SDestroy)]]) 0 (Continue 0) =
     Some (Ok (mks (blocks g2) (setf (ctr g2) 1000 (Some 0)) (setf (obj g2) 1008 None) (made g2) (gone g2 ++ [0]) [mkt (repeat h (n + 0)) [] [(h, SFree)]]))).
  { unfold step. cbn [thr]. change (aget [mkt (repeat h (n + 0)) [] [(h, SDestroy)]] 0) with (Ok (mkt (repeat h (n + 0)) [] [(h, SDestroy)])). cbn [pend pick blocks obj]. rewrite B2. destruct EO as [-> ->]. reflexivity. }
  rewrite S2. eexists. exists h. split; [reflexivity|]. split; [|split; [cbn; lia|split]].
  - unfold handles. cbn. rewrite app_nil_r, Hm. cbn. now left.
  - cbn. rewrite G2. reflexivity.
  - reflexivity.
Qed.
(** Without atomics, two threads that clone at the same time lose a count; the object is then
    destroyed while one handle remains. *)
Theorem C52_plain_counting_refuted : exists l s, prun (mkp 2 [None; None] [1; 1] false) l = Ok s /\ destroyed s = true /\ owned s = [0; 1].
Proof. exists [PLoad 0; PLoad 1; PInc 0; PInc 1; PLoad 0; PDec 0; PLoad 0; PDec 0; PLoad 1; PDec 1]. eexists. split; [vm_compute; reflexivity|]. split; reflexivity. Qed.

Example C52_met : exists l g, layout 8 24 16 /\ bounded 64 8 24 16 4 (2 ^ 64 / 16) (start 3) l /\ run 64 8 24 16 4 (start 3) l = Some (Ok g) /\
  gone g = [0] /\ handles g = [mkh 2048 2008; mkh 2048 2008] /\ use_count g (mkh 2048 2008) = Ok 2.
Proof.
  exists [(0, Make 1000); (0, Clone 0); (0, Send 0 1); (1, Clone 0); (1, Drop 0); (0, Drop 0); (1, Alloc 2048); (1, Drop 0); (1, FromPtr 0 2008); (1, Continue 0); (1, Clone 0); (1, Send 1 2); (1, Continue 0)].
  eexists. split; [unfold layout; lia|]. split; [vm_compute; intuition discriminate|]. split; [vm_compute; reflexivity|]. vm_compute. auto.
Qed.

(** ** C53: the way the memory was obtained. *)
Theorem C53_placement : forall w OFFSET REP VAL n l r, 0 < w -> layout OFFSET REP VAL ->
  bounded w OFFSET REP VAL 4 (2 ^ w - 1) (start n) l -> run w OFFSET REP VAL 4 (start n) l = Some r ->
  exists g, r = Ok g /\ forall h, In (h, SFree) (unfinished g) ->
    if uc h + OFFSET =? get h then In (uc h, REP) (blocks g)
    else In (uc h, OFFSET + 4) (blocks g) /\ In (get h, VAL) (blocks g).
Proof.
  intros w O R V n l r Hw HL HB HR. destruct (run_ok w O R V 4 Hw HL ltac:(lia) l (start n) r) as (g & -> & (cs & rp & I)); auto; [apply Inv_start; auto; lia|eapply bounded_le; [|exact HB]; lia|]. exists g. split; [reflexivity|].
  intros h Hh. apply in_split in Hh as (p1 & p2 & EP). assert (HP : Permutation ((h, SFree) :: p1 ++ p2) (unfinished g)) by (rewrite EP; apply Permutation_middle).
  destruct (pend_cell cs h SFree (p1 ++ p2)) as (c & cs' & Pc & <- & Ec); [rewrite HP; apply (i_pend _ _ _ _ _ _ _ _ _ _ _ _ _ _ _ I)|].
  assert (I2 : inv w O R V 4 (blocks g) (ctr g) (obj g) (made g) (gone g) (handles g) (clients g) (unfinished g) (c :: cs') rp) by (eapply inv_perm; eauto).
  pose proof (own_in _ _ _ _ _ _ _ _ _ _ _ _ _ _ _ _ I2) as OW. pose proof (i_cells _ _ _ _ _ _ _ _ _ _ _ _ _ _ _ I2) as J. inversion J as [|? ? (K1 & _ & _) _]; subst. unfold blocks_of in OW. rewrite Ec in OW. cbn [uc get hd]. destruct (cmk c) eqn:M.
  - destruct K1 as [K1 _]. rewrite K1, Z.eqb_refl. apply OW. now left.
  - destruct (Z.eqb_spec (cu c + O) (cg c)) as [X|X]; [|split; apply OW; cbn; auto]. exfalso. destruct HL as (L1 & L2 & L3). pose proof (i_dis _ _ _ _ _ _ _ _ _ _ _ _ _ _ _ I2) as D. pose proof (i_blocks _ _ _ _ _ _ _ _ _ _ _ _ _ _ _ I2) as B. cbn in B. unfold blocks_of in B at 1. rewrite Ec, M in B. cbn in B.
    apply (disjoint_perm _ _ B) in D. destruct D as [D _]. inversion D as [|? ? D1 _]; subst. unfold dis in D1. cbn in D1. lia.
Qed.
(** Without the dummy bytes a placement exists where two blocks are taken for one. *)
Theorem C53_no_dummy_bytes_refuted : exists l e, run 64 8 16 8 0 (start 1) l = Some (Err e).
Proof. exists [(0, Alloc 1008); (0, FromPtr 0 1000); (0, Drop 0); (0, Continue 0); (0, Continue 0)], OOB. vm_compute. reflexivity. Qed.
Example C53_met : exists l g h, layout 8 16 8 /\ bounded 64 8 16 8 4 (2 ^ 64 - 1) (start 1) l /\ run 64 8 16 8 4 (start 1) l = Some (Ok g) /\ unfinished g = [(h, SFree)] /\ uc h + 12 = get h.
Proof.
  exists [(0, Alloc 1012); (0, FromPtr 0 1000); (0, Drop 0); (0, Continue 0)]. eexists. exists (mkh 1012 1000). split; [unfold layout; lia|]. split; [vm_compute; intuition discriminate|]. split; [vm_compute; reflexivity|]. split; reflexivity.
Qed.
Print Assumptions C52_arc.
Print Assumptions C52_arc_lp64.
Print Assumptions C52_counter_wraps_refuted.
Print Assumptions C52_plain_counting_refuted.
Print Assumptions C53_placement.
Print Assumptions C53_no_dummy_bytes_refuted.
