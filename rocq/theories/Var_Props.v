(** C103: several variables of queue, deque, hmap and smap. *)
From Verif Require Import Base Var_Model Var_Spec Var_Proofs Varc_Model Varc_Spec.
From Verif Require Deque_Model Deque_Spec Deque_Proofs Hmap_Model Hmap_Spec Hmap_Proofs2 Hmap_Proofs3.
From Verif Require Smap_Model Smap_Spec Smap_Tree Smap_Sim Smap_Proofs Smap_Proofs2 Smap_Proofs3 Smap_Proofs4 Smap_Proofs5 Sraw_Spec Sraw_Proofs.

Lemma sound_weaken {C A E} (init : C) (r1 r2 : C -> A -> Prop) (s : state C E) l :
  (forall c a, r1 c a -> r2 c a) -> sound init r1 s l -> sound init r2 s l.
Proof.
  intros H (S1 & S2 & S3). split; [|split; assumption]. intros i a O. destruct (S1 i a O) as (v & c & G & L & R). exists v, c. auto.
Qed.
Lemma vgiven_nil {A E Op} (i : A) st md cl ob ops : forall l, vgiven i st md cl ob (fun (_ : A) (_ : Op) => @nil E) l ops = [].
Proof. induction ops as [|o ops IH]; intro l; [reflexivity|]. cbn [vgiven]. rewrite IH. destruct o; try reflexivity. destruct (owns l i0); reflexivity. Qed.

(** * Deques *)
Section Dq.
Context {A : Type}.
Lemma dq_step_ok (c : Deque_Model.deque A) l o : Deque_Proofs.rg c l -> Deque_Spec.legal_op l o ->
  exists c' d g, dq_step c o = Ok (c', d, g) /\ Deque_Proofs.rg c' (fst (Deque_Spec.seq_step l o)) /\
    Permutation (fst (Deque_Spec.seq_step l o) ++ d ++ g) (dq_made l o ++ l).
Proof.
  intros R L. destruct (Deque_Proofs.step_spec c l o R L) as (c' & S & R'). unfold dq_step. rewrite S. cbn [bind fst snd].
  exists c', (fst (snd (Deque_Spec.seq_step l o))), (snd (snd (Deque_Spec.seq_step l o))). split; [reflexivity|]. split; [exact R'|].
  assert (LAST : l <> [] -> Permutation (removelast l ++ skipn (length l - 1) l) l).
  { intro N. destruct (exists_last N) as (l0 & x & ->). rewrite removelast_last, app_length. cbn [length].
    replace (length l0 + 1 - 1)%nat with (length l0) by lia. rewrite skipn_app, skipn_all, Nat.sub_diag. reflexivity. }
  assert (FST : l <> [] -> Permutation (tl l ++ firstn 1 l) l).
  { destruct l as [|x l0]; [congruence|]. intros _. cbn [tl firstn]. symmetry. apply Permutation_cons_append. }
  destruct o; cbn [Deque_Spec.seq_step fst snd dq_made app Deque_Spec.legal_op] in *; rewrite ?app_nil_r; auto.
  - symmetry. apply Permutation_cons_append.
  - rewrite Permutation_app_swap_app. apply Permutation_app_head. now rewrite firstn_skipn.
  - destruct L as (L1 & L2 & L3). rewrite <- Permutation_rev.
    rewrite <- (firstn_skipn (Z.to_nat idx) l) at 4. rewrite <- app_assoc. apply Permutation_app_head.
    rewrite Permutation_app_comm. rewrite <- (firstn_skipn (Z.to_nat n) (skipn (Z.to_nat idx) l)) at 2. apply Permutation_app_head.
    rewrite skipn_skipn. replace (Z.to_nat n + Z.to_nat idx)%nat with (Z.to_nat (idx + n)) by lia. reflexivity.
Qed.
Lemma dq_null (c : Deque_Model.deque A) l : Deque_Proofs.rg c l -> Deque_Model.is_null c = true -> c = Deque_Model.init.
Proof.
  intros R N. apply Deque_Proofs.rg_ring in R. destruct R as (_ & B & S & L & D & _). unfold Deque_Model.is_null in N. apply Z.eqb_eq in N.
  destruct c as [b st en cm]. cbn [Deque_Model.cbuf Deque_Model.start Deque_Model.dend Deque_Model.capmask] in *.
  assert (C1 : cm + 1 = 1) by (destruct B as [B|[B _]]; lia). pose proof (zlen_nonneg l). rewrite C1 in *. rewrite Z.mod_1_r in D.
  unfold Deque_Model.init. assert (cm = 0) by lia. assert (st = 0) by lia. subst.
  destruct b; [reflexivity|]. rewrite zlen_cons in N. pose proof (zlen_nonneg b). lia.
Qed.
End Dq.

(** C103.  Every program that uses variables of a deque or queue type by their operations, init,
    drop, move, take, clone and copy, uses only variables that own a value and overwrites only
    those that do not, runs without touching a freed block or an uninitialised variable; each
    variable holds the sequence that the program on plain sequences gives it; no two share a
    block, no block is lost; and every object ever put in or cloned is held by one of them, or
    was destroyed, or was returned (exactly those that pulls return), once.  When all variables are dropped, all are destroyed or
    returned and all blocks are freed. *)
Theorem C103_deque_variables {A} stays n (ops : list (vop (Deque_Model.op A))) :
  dq_legal (repeat None n) ops ->
  let l := fst (dq_spec (repeat None n) ops) in let made := snd (dq_spec (repeat None n) ops) in
  exists s, dq_vrun stays (start n) ops = Ok s /\
    sound Deque_Model.init (fun c a => Deque_Spec.stores c a /\ Deque_Model.each c = Ok a) s l /\
    Permutation (held (fun a => a) l ++ gone s ++ given s) made /\
    given s = dq_given (repeat None n) ops /\
    ((forall i, owns l i = None) -> Permutation (gone s ++ given s) made /\ forall p c, aget (heap s) p <> Ok (Some c)).
Proof.
  intros L l made.
  destruct (program_ok Deque_Model.init dq_step Deque_Model.clone dq_drop Deque_Model.is_null stays [] (fun l o => fst (Deque_Spec.seq_step l o))
    dq_made Deque_Spec.legal_op (fun _ => True) (fun l => l) (fun l => l) (Deque_Proofs.rg (A:=A)) Deque_Proofs.rg_init dq_step_ok) with (sgiven := fun (l : list A) (o : Deque_Model.op A) => snd (snd (Deque_Spec.seq_step l o))) (n := n) (ops := ops) as (s & R & SD & P & GV & Z0); auto.
  - intros c a H _. exact (Deque_Proofs.clone_spec c a H).
  - intros c a H. destruct (Deque_Proofs.clear_spec c a H) as (d' & E & _). exists a. unfold dq_drop. rewrite E. split; reflexivity.
  - intros c a H N. exact (dq_null c a H N).
  - intros c a o r R LO S. destruct (Deque_Proofs.step_spec c a o R LO) as (c' & S' & _). unfold dq_step in S. rewrite S' in S. injection S as <-. reflexivity.
  - exists s. split; [exact R|]. split; [|split; [exact P|split; [exact GV|exact Z0]]]. eapply sound_weaken; [|exact SD].
    intros c a H. split; [now apply Deque_Proofs.rg_stores|now apply Deque_Proofs.each_spec].
Qed.

(** * Hash maps *)
(** C103 for hash maps and sets: the objects are the keys and values. *)
Theorem C103_hmap_variables {K V} (hash : K -> Z) (eqb : K -> K -> bool) stays n (ops : list (vop (Hmap_Model.op K V))) :
  Hmap_Spec.key_ok hash eqb -> hm_legal hash eqb (repeat None n) ops ->
  let l := fst (hm_spec eqb (repeat None n) ops) in let made := snd (hm_spec eqb (repeat None n) ops) in
  exists s, hm_vrun hash eqb stays (start n) ops = Ok s /\
    sound Hmap_Model.init (fun h a => Hmap_Model.size h = zlen a /\ forall k, Hmap_Model.get hash eqb h k = Ok (Hmap_Spec.lookup eqb k a)) s l /\
    Permutation (held hm_objs l ++ gone s ++ given s) made /\
    given s = [] /\
    ((forall i, owns l i = None) -> Permutation (gone s ++ given s) made /\ forall p c, aget (heap s) p <> Ok (Some c)).
Proof.
  intros KO L l made.
  destruct (program_ok Hmap_Model.init (hm_step hash eqb) Hmap_Model.clone Hmap_Model.drop hm_null stays [] (fun l o => fst (fst (Hmap_Spec.map_step eqb l o)))
    (Hmap_Spec.moved_in eqb) (fun l o => Hmap_Spec.legal_op l o /\ Hmap_Spec.spread hash (fst (fst (Hmap_Spec.map_step eqb l o))))
    (fun _ => True) (fun l => l) hm_objs (Hmap_Proofs2.repr hash eqb) (Hmap_Proofs3.init_repr hash eqb)) with (sgiven := fun (_ : list (K * V)) (_ : Hmap_Model.op K V) => @nil (Hmap_Model.destroyed K V)) (n := n) (ops := ops) as (s & R & SD & P & GV & Z0); auto.
  - intros c a o H [L1 L2]. destruct (Hmap_Proofs3.step_ok hash eqb KO c a o H L1 L2) as (h' & d & b & S & R & SO & _). unfold hm_step. rewrite S. cbn [bind fst snd].
    exists h', d, []. split; [reflexivity|]. split; [exact R|]. rewrite app_nil_r. cbn [fst] in SO. rewrite SO.
    exact (Hmap_Proofs3.owned_step hash eqb KO a o (Hmap_Proofs2.repr_distinct _ _ _ _ H)).
  - intros c a H _. destruct (Hmap_Proofs3.clone_ok hash eqb c a H) as (h' & E & R & _). eauto.
  - intros c a H. exact (Hmap_Proofs3.drop_ok hash eqb c a H).
  - intros c a H N. unfold hm_null in N. apply Z.eqb_eq in N. destruct H as [[-> _]|H]; [reflexivity|].
    pose proof (Hmap_Proofs2.table_lt _ _ _ _ H). pose proof (zlen_nonneg a). lia.
  - intros c a o r _ _ S. unfold hm_step in S. destruct (Hmap_Model.step hash eqb c o); [|discriminate]. injection S as <-. reflexivity.
  - exists s. split; [exact R|]. split; [|split; [exact P|split; [rewrite GV; apply vgiven_nil|exact Z0]]]. eapply sound_weaken; [|exact SD].
    intros c a H. split; [exact (Hmap_Proofs2.repr_size hash eqb c a H)|]. intro k. now apply Hmap_Proofs3.get_ok.
Qed.

(** * Sorted maps *)
Section Sm.
Context {K V : Type}.
Variable cmp : K -> K -> Z.
Hypothesis CO : Smap_Spec.cmp_ok cmp.
Definition sm_rep (s : Smap_Model.smap K V) (a : sval K V) : Prop :=
  (exists T ds, Smap_Proofs3.wf cmp s T ds (entries a)) /\ Smap_Proofs3.room s (rsv a) /\ 0 <= rsv a < 2 ^ 31 /\ Smap_Model.head s = pk a.
Lemma sm_raw : Sraw_Spec.raw_ok (fun k : K => k) (fun k => k) cmp.
Proof. constructor; [exact CO|]. intro r. pose proof (Smap_Spec.co_opp _ CO r r). lia. Qed.
Lemma flat_filter (p : K * V -> bool) l : Permutation
  (flat_map Smap_Spec.destroy_entry (filter (fun e => negb (p e)) l) ++ flat_map Smap_Spec.destroy_entry (filter p l)) (flat_map Smap_Spec.destroy_entry l).
Proof.
  induction l as [|e l IH]; [constructor|]. cbn [filter]. destruct (p e); cbn [negb flat_map].
  - rewrite Permutation_app_swap_app. now apply Permutation_app_head.
  - rewrite <- app_assoc. now apply Permutation_app_head.
Qed.
Lemma sm_owned (a : sval K V) o : Smap_Spec.increasing cmp (entries a) ->
  Permutation (sm_objs (sm_sstep cmp a o) ++ snd (fst (Smap_Spec.map_step cmp (entries a) o))) (sm_made cmp a o ++ sm_objs a).
Proof.
  destruct a as [l r p]. unfold sm_objs, sm_sstep. cbn [entries rsv pk]. intro I.
  assert (ADD : forall k v, Smap_Spec.lookup cmp k l = None ->
    Permutation (flat_map Smap_Spec.destroy_entry (Smap_Spec.add cmp k v l)) (Smap_Model.DKey k :: Smap_Model.DVal v :: flat_map Smap_Spec.destroy_entry l))
    by (intros k v; exact (Sraw_Proofs.objs_add (fun k => k) cmp k v l)).
  assert (ASG : forall k v e, Smap_Spec.lookup cmp k l = Some e ->
    Permutation (Smap_Model.DVal (snd e) :: flat_map Smap_Spec.destroy_entry (Smap_Spec.assign cmp k v l)) (Smap_Model.DVal v :: flat_map Smap_Spec.destroy_entry l))
    by (intros k v e; exact (Sraw_Proofs.objs_assign (fun k => k) (fun k => k) cmp sm_raw k v l e I)).
  assert (REM : forall k e, Smap_Spec.lookup cmp k l = Some e ->
    Permutation (flat_map Smap_Spec.destroy_entry (Smap_Spec.remove cmp k l) ++ Smap_Spec.destroy_entry e) (flat_map Smap_Spec.destroy_entry l))
    by (intros k e; exact (Sraw_Proofs.objs_remove (fun k => k) (fun k => k) cmp sm_raw k l e I)).
  destruct o; cbn [Smap_Spec.map_step sm_made entries]; try (destruct (Smap_Spec.lookup cmp _ l) as [e|] eqn:LK); cbn [fst snd app]; rewrite ?app_nil_r; auto.
  - apply (Permutation_app_comm _ [_; _]).
  - rewrite Permutation_app_comm. cbn [app]. constructor. now apply ASG.
  - rewrite Permutation_app_comm. now apply ASG.
  - apply flat_filter.
Qed.
Lemma sm_step_ok (c : Smap_Model.smap K V) a o : sm_rep c a -> sm_slegal cmp a o ->
  exists c' d g, sm_step cmp c o = Ok (c', d, g) /\ sm_rep c' (sm_sstep cmp a o) /\
    Permutation (sm_objs (sm_sstep cmp a o) ++ d ++ g) (sm_made cmp a o ++ sm_objs a).
Proof.
  intros ((T & ds & W) & RM & RV & HP) [L1 L2].
  destruct (Smap_Proofs4.step_ok cmp CO c T ds (entries a) (rsv a) o W RM RV L1 L2) as (s1 & T1 & ds1 & dr & S & PD & W1 & RM1 & H1).
  unfold sm_step. rewrite S. cbn [bind fst snd]. exists s1, dr, []. split; [reflexivity|]. split.
  - split; [now exists T1, ds1|]. split; [exact RM1|]. split.
    + unfold sm_sstep; cbn [rsv]. destruct o; cbn [Smap_Spec.reserved] in *; lia.
    + rewrite H1, HP. reflexivity.
  - rewrite app_nil_r, PD. apply sm_owned. apply W.
Qed.
Lemma sm_null_ok (c : Smap_Model.smap K V) a : sm_rep c a -> sm_null c = true -> c = Smap_Model.init.
Proof.
  intros ((T & ds & W) & _ & _ & _) N. unfold sm_null in N. apply Z.eqb_eq in N. pose proof (Smap_Proofs4.wf_cap0 cmp _ _ _ _ W N) as ->.
  pose proof (Smap_Proofs3.w_base _ _ _ _ _ W) as B. pose proof (Smap_Proofs3.w_root _ _ _ _ _ W) as R. pose proof (Smap_Proofs3.w_size _ _ _ _ _ W) as S.
  pose proof (Smap_Proofs3.b_cap _ _ _ B) as HC. pose proof (Smap_Proofs3.b_len _ _ _ B) as HL. pose proof (Smap_Proofs3.b_chain _ _ _ B) as CH.
  destruct (Smap_Proofs3.b_arr _ _ _ B) as [[_ A]|(A & _)]; [|lia]. destruct ds as [|x ds].
  - cbn in *. destruct c. cbn in *. subst. unfold zlen in *. cbn in *. subst. reflexivity.
  - cbn [Smap_Tree.inord app] in HL. rewrite zlen_cons in HL. pose proof (zlen_nonneg ds). lia.
Qed.
Lemma sm_clone_ok (c : Smap_Model.smap K V) a : sm_rep c a -> sm_cloneable a -> exists c', Smap_Model.clone c = Ok c' /\ sm_rep c' (sm_cloned a).
Proof.
  intros ((T & ds & W) & RM & RV & HP) CL. pose proof (Smap_Proofs4.room_head _ _ RM ltac:(lia)) as H31. unfold sm_cloneable in CL.
  assert (D0 : ds = []).
  { pose proof (Smap_Proofs3.b_len _ _ _ (Smap_Proofs3.w_base _ _ _ _ _ W)) as HL. rewrite zlen_app in HL.
    pose proof (Smap_Proofs.ents_zlen _ _ _ (Smap_Proofs3.w_ents _ _ _ _ _ W)). destruct ds as [|x ds]; [reflexivity|]. rewrite zlen_cons in HL. pose proof (zlen_nonneg ds). lia. }
  destruct (Smap_Proofs5.clone_ok cmp c T ds (entries a) W H31) as (c' & T' & E & _ & _ & HC & _ & _ & _ & _ & WC). destruct (WC D0) as [W' R'].
  exists c'. split; [exact E|]. pose proof (Smap_Proofs.ents_zlen _ _ _ (Smap_Proofs3.w_ents _ _ _ _ _ W)) as EZ. pose proof (Smap_Proofs3.w_size _ _ _ _ _ W) as SZ.
  split; [now exists T', []|]. unfold sm_cloned; cbn [entries rsv pk]. rewrite EZ, <- SZ. split; [exact R'|]. pose proof (zlen_nonneg (Smap_Tree.inord T)). split; [lia|congruence].
Qed.
End Sm.

(** C103 for sorted maps and sets.  A map is cloned or copied only if it has not held more
    entries since it was made or cleared than it holds now. *)
Theorem C103_smap_variables {K V} (cmp : K -> K -> Z) stays n (ops : list (vop (Smap_Model.op K V))) :
  Smap_Spec.cmp_ok cmp -> sm_legal cmp (repeat None n) ops ->
  let l := fst (sm_spec cmp (repeat None n) ops) in let made := snd (sm_spec cmp (repeat None n) ops) in
  exists s, sm_vrun cmp stays (start n) ops = Ok s /\
    sound Smap_Model.init (fun s a => Smap_Model.size s = zlen (entries a) /\ Smap_Model.each s = Ok (entries a) /\ Smap_Spec.increasing cmp (entries a)) s l /\
    Permutation (held sm_objs l ++ gone s ++ given s) made /\
    given s = [] /\
    ((forall i, owns l i = None) -> Permutation (gone s ++ given s) made /\ forall p c, aget (heap s) p <> Ok (Some c)).
Proof.
  intros CO L l made.
  destruct (program_ok Smap_Model.init (sm_step cmp) Smap_Model.clone Smap_Model.drop sm_null stays (mksval [] 0 0) (sm_sstep cmp)
    (sm_made cmp) (sm_slegal cmp) sm_cloneable sm_cloned sm_objs (sm_rep cmp)) with (sgiven := fun (_ : sval K V) (_ : Smap_Model.op K V) => @nil (Smap_Model.destroyed K V)) (n := n) (ops := ops) as (s & R & SD & P & GV & Z0); auto.
  - split; [exists Smap_Tree.E, []; apply Smap_Proofs3.wf_init|]. unfold Smap_Proofs3.room; cbn. unfold Smap_Spec.max_unreserved. lia.
  - exact (sm_step_ok cmp CO).
  - exact (sm_clone_ok cmp).
  - intros c a ((T & ds & W) & RM & RV & HP). apply (Smap_Proofs4.drop_ok cmp c T).
    + apply (Smap_Proofs4.wf_readable cmp c T ds); [exact W|]. eapply Smap_Proofs4.room_head; [exact RM|lia].
    + intro. eapply Smap_Proofs4.wf_cap0; eauto.
  - exact (sm_null_ok cmp).
  - intros c a o r _ _ S. unfold sm_step in S. destruct (Smap_Model.step cmp c o); [|discriminate]. injection S as <-. reflexivity.
  - exists s. split; [exact R|]. split; [|split; [exact P|split; [rewrite GV; apply vgiven_nil|exact Z0]]]. eapply sound_weaken; [|exact SD].
    intros c a ((T & ds & W) & RM & RV & HP). pose proof (Smap_Proofs4.room_head _ _ RM ltac:(lia)).
    split; [rewrite (Smap_Proofs3.w_size _ _ _ _ _ W); symmetry; exact (Smap_Proofs.ents_zlen _ _ _ (Smap_Proofs3.w_ents _ _ _ _ _ W))|].
    split; [|apply W]. apply (Smap_Proofs4.each_ok cmp c T). eapply Smap_Proofs4.wf_readable; eauto.
Qed.

(** * The rules are needed *)
(** A second drop reads a freed block; so does an operation on a dropped variable; a variable
    overwritten by move or init while it owns elements loses its block. *)
Theorem C103_illegal_programs_refuted : forall stays,
  dq_vrun (A:=Z) stays (start 2) [VInit 0; VOp 0 (Deque_Model.PushBack 1); VDrop 0; VDrop 0] = Err UseAfterFree /\
  dq_vrun (A:=Z) stays (start 2) [VInit 0; VOp 0 (Deque_Model.PushBack 1); VDrop 0; VOp 0 (Deque_Model.PushBack 2)] = Err UseAfterFree /\
  dq_vrun (A:=Z) stays (start 2) [VOp 0 (Deque_Model.PushBack 1)] = Err Uninit /\
  (exists s c, dq_vrun (A:=Z) stays (start 2)
     [VInit 0; VInit 1; VOp 0 (Deque_Model.PushBack 1); VOp 1 (Deque_Model.PushBack 2); VMove 0 1; VDrop 0; VDrop 1] = Ok s /\
     gone s = [1] /\ aget (heap s) 1 = Ok (Some c)) /\
  (exists s c, dq_vrun (A:=Z) stays (start 2) [VInit 0; VOp 0 (Deque_Model.PushBack 1); VInit 0; VDrop 0] = Ok s /\
     gone s = [] /\ aget (heap s) 0 = Ok (Some c)).
Proof.
  intro stays. split; [vm_compute; reflexivity|]. split; [vm_compute; reflexivity|]. split; [vm_compute; reflexivity|].
  split; do 2 eexists; (split; [vm_compute; reflexivity|]); split; reflexivity.
Qed.

(** * Programs that meet the hypotheses *)
(** Moves, takes (also from itself), clones, copies (also to itself) and drops, then reuse. *)
Definition prog {Op} (o1 o2 o3 : Op) : list (vop Op) :=
  [VInit 0; VInit 1; VOp 0 o1; VOp 0 o2; VClone 0 2; VOp 2 o3; VMove 2 3; VOp 2 o3; VTake 1 3; VCopy 1 0; VCopy 0 0;
   VTake 0 0; VOp 1 o3; VDrop 0; VMove 1 0; VDrop 0; VDrop 1; VDrop 3; VDrop 2].
Ltac legal_prog := repeat match goal with
  | |- _ /\ _ => split
  | |- True => exact Logic.I
  | |- exists _, _ => eexists
  | |- _ = _ => reflexivity
  | |- _ <> _ => discriminate
  | |- _ = _ -> False => discriminate
  | |- _ \/ _ => first [left; reflexivity|right; reflexivity]
  end.
Example C103_deque_met :
  dq_legal (repeat None 4) (prog (Deque_Model.PushBack 1) (Deque_Model.PushFront 2) (Deque_Model.PushBack 3)) /\
  fst (dq_spec (repeat None 4) (firstn 13 (prog (Deque_Model.PushBack 1) (Deque_Model.PushFront 2) (Deque_Model.PushBack 3)))) =
    [Some [2; 1]; Some [2; 1; 3]; Some [3]; Some []].
Proof. split; [|vm_compute; reflexivity]. cbv -[Z.lt Z.le Z.pow]. legal_prog; try lia. Qed.
Definition hm_prog := prog (Hmap_Model.Insert 1 10) (Hmap_Model.InsertOrAssign 1 20) (Hmap_Model.Insert 2 30).
Example C103_hmap_met : Hmap_Spec.key_ok (fun k => k) Z.eqb /\ hm_legal (fun k : Z => k) Z.eqb (repeat None 4) hm_prog /\
  fst (hm_spec Z.eqb (repeat None 4) (firstn 13 hm_prog)) =
    [Some [(1, 20)]; Some [(2, 30); (1, 20)]; Some [(2, 30)]; Some []].
Proof.
  split; [constructor; intros; repeat match goal with H : (_ =? _) = true |- _ => apply Z.eqb_eq in H end; subst; auto using Z.eqb_refl|]. split; [|vm_compute; reflexivity].
  cbv -[Z.lt Z.le Z.pow Hmap_Spec.spread]. legal_prog; lazymatch goal with |- Hmap_Spec.spread _ _ => apply Hmap_Proofs3.spread_small; cbv; discriminate | _ => cbv; first [reflexivity|discriminate] end.
Qed.
Definition sm_prog := prog (Smap_Model.Insert 2 10) (Smap_Model.Reserve 9) (Smap_Model.InsertOrAssign 1 20).
Example C103_smap_met : Smap_Spec.cmp_ok Z.sub /\ sm_legal Z.sub (repeat None 4) sm_prog /\
  fst (sm_spec Z.sub (repeat None 4) (firstn 13 sm_prog)) =
    [Some (mksval [(2, 10)] 9 1); Some (mksval [(1, 20); (2, 10)] 1 2); Some (mksval [(1, 20)] 0 1); Some (mksval [] 0 0)].
Proof.
  split; [constructor; intros; lia|]. split; [|vm_compute; reflexivity].
  cbv -[Z.lt Z.le Z.pow sm_slegal sm_cloneable]. legal_prog; cbv; legal_prog; first [reflexivity|discriminate].
Qed.
Print Assumptions C103_deque_variables.
Print Assumptions C103_hmap_variables.
Print Assumptions C103_smap_variables.
Print Assumptions C103_illegal_programs_refuted.
