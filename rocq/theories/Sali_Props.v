(** smap with raw arguments that point into the map itself: C101. *)
From Verif Require Import Base Slots Smap_Model Smap_Spec Smap_Tree Smap_Sim Smap_Proofs Smap_Proofs3 Smap_Proofs4 Smap_Proofs5 Sraw_Model Sraw_Spec Sraw_Proofs Sali_Model.

Section SaliProofs.
Context {K V RK : Type}.
Implicit Types (d : slots (node K V)).

(** Relinking nodes leaves every value where it is. *)
Definition keeps d d' : Prop := forall j, vof d' j = vof d j.
Lemma keeps_trans d1 d2 d3 : keeps d1 d2 -> keeps d2 d3 -> keeps d1 d3.
Proof. intros A B j. now rewrite B. Qed.
Lemma keeps_wr d i n n' d' : rd d i = Ok n -> val n' = val n -> wr d i n' = Ok d' -> keeps d d'.
Proof.
  unfold rd, wr. intros R E W j. destruct (aget d i) as [[m|]|] eqn:G; cbn in R; try discriminate. injection R as ->. unfold vof.
  destruct (Z.eq_dec j i) as [->|N].
  - now rewrite (aget_aset_same _ _ _ _ W), G.
  - now rewrite (aget_aset_other _ _ _ _ j W N).
Qed.
Lemma keeps_link d i b x d' : set_link d i b x = Ok d' -> keeps d d'.
Proof. unfold set_link. destruct (rd d i) as [n|] eqn:R; cbn [bind]; [|discriminate]. apply (keeps_wr _ _ _ _ _ R). now destruct b. Qed.
Lemma keeps_lev d i x d' : set_lev d i x = Ok d' -> keeps d d'.
Proof. unfold set_lev. destruct (rd d i) as [n|] eqn:R; cbn [bind]; [|discriminate]. apply (keeps_wr _ _ _ _ _ R). reflexivity. Qed.
Lemma keeps_refl d : keeps d d. Proof. intros j. reflexivity. Qed.
Lemma keeps_skew d t r : skew d t = Ok r -> keeps d (fst r).
Proof.
  unfold skew. destruct (t =? 0); [intros H; injection H as <-; apply keeps_refl|].
  destruct (rd d t) as [n|]; cbn [bind]; [|discriminate]. destruct (rd d (lk0 n)) as [m|]; cbn [bind]; [|discriminate].
  destruct (lev m =? lev n); [|intros H; injection H as <-; apply keeps_refl].
  destruct (set_link d t false (lk1 m)) as [d1|] eqn:E1; cbn [bind]; [|discriminate]. destruct (set_link d1 (lk0 n) true t) as [d2|] eqn:E2; cbn [bind]; [|discriminate].
  intros H. injection H as <-. exact (keeps_trans _ _ _ (keeps_link _ _ _ _ _ E1) (keeps_link _ _ _ _ _ E2)).
Qed.
Lemma keeps_split d t r : split d t = Ok r -> keeps d (fst r).
Proof.
  unfold split. destruct (rd d t) as [n|]; cbn [bind]; [|discriminate]. destruct (rd d (lk1 n)) as [m|]; cbn [bind]; [|discriminate].
  destruct (rd d (lk1 m)) as [p|]; cbn [bind]; [|discriminate]. destruct (lev p =? lev n); [|intros H; injection H as <-; apply keeps_refl].
  destruct (set_link d t true (lk0 m)) as [d1|] eqn:E1; cbn [bind]; [|discriminate]. destruct (set_link d1 (lk1 n) false t) as [d2|] eqn:E2; cbn [bind]; [|discriminate].
  destruct (rd d2 (lk1 n)) as [q|]; cbn [bind]; [|discriminate]. destruct (set_lev d2 (lk1 n) (lev q + 1)) as [d3|] eqn:E3; cbn [bind]; [|discriminate].
  intros H. injection H as <-. exact (keeps_trans _ _ _ (keeps_trans _ _ _ (keeps_link _ _ _ _ _ E1) (keeps_link _ _ _ _ _ E2)) (keeps_lev _ _ _ _ E3)).
Qed.
Lemma keeps_fix up : forall d r, fix_loop d up = Ok r -> keeps d (fst r).
Proof.
  induction up as [|x up IH]; intros d r H; [discriminate|]. cbn [fix_loop] in H.
  match goal with H : bind ?x _ = _ |- _ => destruct x as [dir|] end; cbn [bind] in H; [|discriminate].
  destruct (skew d x) as [r1|] eqn:E1; cbn [bind] in H; [|discriminate]. destruct (split (fst r1) (snd r1)) as [r2|] eqn:E2; cbn [bind] in H; [|discriminate].
  pose proof (keeps_trans _ _ _ (keeps_skew _ _ _ E1) (keeps_split _ _ _ E2)) as KK.
  destruct up as [|u up]; [now injection H as <-|]. destruct (set_link (fst r2) u dir (snd r2)) as [d'|] eqn:E3; cbn [bind] in H; [|discriminate].
  exact (keeps_trans _ _ _ KK (keeps_trans _ _ _ (keeps_link _ _ _ _ _ E3) (IH _ _ H))).
Qed.
Variable cmp : K -> K -> Z.
(** Insertion leaves the values of all entries in their nodes. *)
Lemma insert_keeps (s : smap K V) T ds es rv k s1 i b : wf cmp s T ds es -> room s rv -> zlen es + 1 <= Z.max rv max_unreserved ->
  insert_entry cmp s k = Ok (s1, i, b) -> forall j, In j (inord T) -> vof (nodes s1) j = vof (nodes s) j.
Proof.
  intros W RM L H j Hj. unfold insert_entry in H. destruct (descend cmp 65 (nodes s) (root s) k [] false) as [[t|[up dir]]|]; cbn [bind] in H; [now injection H as <- _ _| |discriminate].
  destruct (new_node_ok s (inord T) ds rv 1 (w_base _ _ _ _ _ W) RM) as (s2 & p & ds1 & F & _ & _ & _ & _ & _ & FR & _).
  { pose proof (ents_zlen _ _ _ (w_ents _ _ _ _ _ W)). lia. }
  rewrite F in H. cbn [bind fst snd] in H. destruct (p =? 0); [discriminate|]. destruct up as [|u up].
  - injection H as <- _ _. cbn [nodes]. apply vof_aget. auto.
  - destruct (set_link (nodes s2) u dir p) as [d1|] eqn:E1; cbn [bind] in H; [|discriminate].
    destruct (fix_loop d1 (u :: up)) as [r|] eqn:E2; cbn [bind] in H; [|discriminate]. injection H as <- _ _. cbn [nodes].
    rewrite (keeps_fix _ _ _ E2 j), (keeps_link _ _ _ _ _ E1 j). apply vof_aget. auto.
Qed.
End SaliProofs.

Section SaliHist.
Context {K V RK RV : Type}.
Variable toraw : K -> RK.
Variable kfrom : RK -> K.
Variable vfrom : RV -> V.
Variable vraw : V -> RV.
Variable cmp : RK -> RK -> Z.
Hypothesis RO : raw_ok toraw kfrom cmp.

(** After a history, the node of a present key. *)
Lemma hist_node (ops : list (rop K V RK RV)) : legal_r toraw kfrom vfrom cmp 0 [] ops ->
  exists s outs T ds rv, run_r toraw kfrom vfrom cmp init ops = Ok (s, outs) /\
    let l := fst (rmap_run toraw kfrom vfrom cmp [] ops) in
    wf (kcmp toraw cmp) s T ds l /\ room s rv /\ 0 <= rv /\
    forall r e, rlookup toraw cmp r l = Some e ->
      exists j, node_of toraw cmp s r = Ok j /\ In j (inord T) /\ vof (nodes s) j = Some e /\ insert_entry_r toraw cmp s r = Ok (s, j, false).
Proof.
  intros LG. pose proof (kcmp_ok toraw kfrom cmp RO) as CO. apply (legal_eq toraw kfrom vfrom cmp RO) in LG.
  destruct (hist _ CO _ LG) as (s & T & ds & outs & rv & F & SO & W & RM & Hrv & HP & H31 & RD & HS).
  rewrite (run_eq toraw kfrom vfrom cmp RO), F, (rrun_eq toraw kfrom vfrom cmp RO). cbn [bind fst snd].
  exists s, (with_made kfrom vfrom ops outs), T, ds, rv. split; [reflexivity|]. split; [exact W|]. split; [exact RM|]. split; [lia|].
  intros r e H. pose proof (stands_from toraw kfrom cmp RO r) as S. rewrite (rlookup_eq toraw cmp _ r _ S) in H.
  pose proof (insert_entry_ok _ CO s T ds _ (kfrom r) rv W RM H31) as IE. rewrite H in IE. destruct IE as (i & E & I & VI).
  exists i. rewrite (insert_entry_eq toraw cmp _ r s S). split; [|auto].
  unfold node_of. rewrite (descend_eq toraw cmp _ r S). unfold insert_entry in E.
  destruct (descend (kcmp toraw cmp) 65 (nodes s) (root s) (kfrom r) [] false) as [[t|[up dir]]|]; cbn [bind] in *; [now injection E as ->| |discriminate].
  destruct (new_node s 1) as [[s1 p]|]; cbn [bind fst snd] in E; [|discriminate]. destruct (p =? 0); [discriminate|]. destruct up as [|u up]; [discriminate|].
  destruct (set_link (nodes s1) u dir p); cbn [bind] in E; [|discriminate]. destruct (fix_loop _ (u :: up)); cbn [bind] in E; discriminate.
Qed.
Lemma descend_found r : forall fuel (d : slots (node K V)) tx up dir i, descend_r toraw cmp fuel d tx r up dir = Ok (inl i) ->
  exists e, get_val d i = Ok e /\ cmp (toraw (fst e)) r = 0.
Proof.
  induction fuel as [|fuel IH]; intros d tx up dir i H; [discriminate|]. cbn [descend_r] in H. destruct (tx =? 0); [discriminate|]. destruct (64 <=? zlen up); [discriminate|].
  destruct (rd d tx) as [n|]; cbn [bind] in H; [|discriminate]. destruct (get_val d tx) as [e|] eqn:G; cbn [bind] in H; [|discriminate].
  destruct (Z.eqb_spec (cmp (toraw (fst e)) r) 0) as [Q|Q]; [|exact (IH _ _ _ _ _ H)]. injection H as <-. eauto.
Qed.
Lemma entry_found r (s s1 : smap K V) i : insert_entry_r toraw cmp s r = Ok (s1, i, false) -> exists e, get_val (nodes s1) i = Ok e /\ cmp (toraw (fst e)) r = 0.
Proof.
  unfold insert_entry_r. destruct (descend_r toraw cmp 65 (nodes s) (root s) r [] false) as [[t|[up dir]]|] eqn:D; cbn [bind]; [| |discriminate].
  - intros H. injection H as <- <-. exact (descend_found _ _ _ _ _ _ _ D).
  - destruct (new_node s 1) as [[s2 p]|]; cbn [bind fst snd]; [|discriminate]. destruct (p =? 0); [discriminate|]. destruct up as [|u up]; [discriminate|].
    destruct (set_link (nodes s2) u dir p); cbn [bind]; [|discriminate]. destruct (fix_loop _ (u :: up)); cbn [bind]; discriminate.
Qed.
Lemma cmp_zero a b c : cmp_ok cmp -> cmp a b = 0 -> cmp b c = 0 -> cmp a c = 0.
Proof.
  intros CO H1 H2. pose proof (co_opp _ CO a c). pose proof (co_opp _ CO c a). pose proof (co_opp _ CO b c). pose proof (co_opp _ CO c b). pose proof (co_opp _ CO a b). pose proof (co_opp _ CO b a).
  pose proof (co_eq_l _ CO b a c). pose proof (co_eq_r _ CO c a b). lia.
Qed.
Lemma cmp_sym a b : cmp_ok cmp -> cmp a b = 0 -> cmp b a = 0.
Proof. intros CO H. pose proof (co_opp _ CO a b). pose proof (co_opp _ CO b a). lia. Qed.
End SaliHist.

(** C101.  After any legal history, emplace with a raw value that points to a block owned by a
    stored value does what it does with a copy; put as well, unless the value is that of the
    key itself. *)
Theorem C101_smap_own_value {K V RK RV} (toraw : K -> RK) kfrom (vfrom : RV -> V) (vraw : V -> RV) cmp (ops : list (rop K V RK RV)) rk r e :
  raw_ok toraw kfrom cmp -> legal_r toraw kfrom vfrom cmp 0 [] ops ->
  rlookup toraw cmp r (fst (rmap_run toraw kfrom vfrom cmp [] ops)) = Some e ->
  exists s outs, run_r toraw kfrom vfrom cmp init ops = Ok (s, outs) /\
    emplace_own toraw kfrom vfrom vraw cmp s rk (VHeap r) = emplace_r toraw kfrom vfrom cmp s rk (vraw (snd e)) /\
    (cmp (toraw (fst e)) rk <> 0 ->
     emplace_or_assign_own toraw kfrom vfrom vraw cmp s rk (VHeap r) = emplace_or_assign_r toraw kfrom vfrom cmp s rk (vraw (snd e))).
Proof.
  intros RO LG L. destruct (hist_node toraw kfrom vfrom cmp RO ops LG) as (s & outs & T & ds & rv & F & W & RM & Hrv & N). destruct (N r e L) as (j & NJ & IJ & VJ & _).
  exists s, outs. split; [exact F|]. unfold emplace_own, emplace_or_assign_own, emplace_r, emplace_or_assign_r, read_val. rewrite NJ. cbn [bind].
  rewrite (get_val_ok _ _ _ VJ). cbn [bind]. destruct (insert_entry_r toraw cmp s rk) as [[[s1 i] ins]|] eqn:IE; cbn [bind]; [|auto]. split; [reflexivity|]. intros NE.
  destruct ins; [reflexivity|]. destruct (entry_found _ _ _ _ _ _ IE) as (e' & G & Q). rewrite G. cbn [bind].
  destruct (Z.eqb_spec (cmp (toraw (fst e)) (toraw (fst e'))) 0) as [X|X]; [|reflexivity]. elim NE. apply (cmp_zero _ _ _ _ (ro_cmp _ _ _ RO) X Q).
Qed.

(** C101.  Putting under a key the value it already has, through a pointer to a block of that
    value, reads it after it has been destroyed: after every legal history, for every key. *)
Theorem C101_smap_put_self_refuted {K V RK RV} (toraw : K -> RK) kfrom (vfrom : RV -> V) (vraw : V -> RV) cmp (ops : list (rop K V RK RV)) r e :
  raw_ok toraw kfrom cmp -> legal_r toraw kfrom vfrom cmp 0 [] ops ->
  rlookup toraw cmp r (fst (rmap_run toraw kfrom vfrom cmp [] ops)) = Some e ->
  exists s outs, run_r toraw kfrom vfrom cmp init ops = Ok (s, outs) /\
    emplace_or_assign_own toraw kfrom vfrom vraw cmp s r (VHeap r) = Err UseAfterFree.
Proof.
  intros RO LG L. destruct (hist_node toraw kfrom vfrom cmp RO ops LG) as (s & outs & T & ds & rv & F & W & RM & Hrv & N). destruct (N r e L) as (j & NJ & IJ & VJ & IE).
  exists s, outs. split; [exact F|]. unfold emplace_or_assign_own, read_val. rewrite IE, NJ. cbn [bind]. rewrite (get_val_ok _ _ _ VJ). cbn [bind].
  now rewrite (co_refl _ (ro_cmp _ _ _ RO)).
Qed.

(** C101.  A raw value that points into a stored value object is read correctly when the
    insertion does not have to enlarge the array of nodes ... *)
Theorem C101_smap_own_short_value {K V RK RV} (toraw : K -> RK) kfrom (vfrom : RV -> V) (vraw : V -> RV) cmp (ops : list (rop K V RK RV)) rk r e :
  raw_ok toraw kfrom cmp -> legal_r toraw kfrom vfrom cmp 0 [] ops ->
  let l := fst (rmap_run toraw kfrom vfrom cmp [] ops) in
  rlookup toraw cmp r l = Some e -> zlen l < max_unreserved ->
  exists s outs, run_r toraw kfrom vfrom cmp init ops = Ok (s, outs) /\
    forall s1 i b, insert_entry_r toraw cmp s rk = Ok (s1, i, b) ->
    (cap s1 = cap s ->
     emplace_own toraw kfrom vfrom vraw cmp s rk (VInplace r) = emplace_r toraw kfrom vfrom cmp s rk (vraw (snd e)) /\
     emplace_or_assign_own toraw kfrom vfrom vraw cmp s rk (VInplace r) = emplace_or_assign_r toraw kfrom vfrom cmp s rk (vraw (snd e))) /\
    (cap s1 <> cap s -> b = true -> emplace_own toraw kfrom vfrom vraw cmp s rk (VInplace r) = Err UseAfterFree).
Proof.
  intros RO LG l L LN. destruct (hist_node toraw kfrom vfrom cmp RO ops LG) as (s & outs & T & ds & rv & F & W & RM & Hrv & N). destruct (N r e L) as (j & NJ & IJ & VJ & _).
  exists s, outs. split; [exact F|]. intros s1 i b IE.
  assert (KP : get_val (nodes s1) j = Ok e).
  { apply get_val_ok. rewrite <- VJ. pose proof (stands_from toraw kfrom cmp RO rk) as S. rewrite (insert_entry_eq toraw cmp _ rk s S) in IE.
    apply (insert_keeps _ s T ds _ rv (kfrom rk) s1 i b W RM); auto. fold l. lia. }
  unfold emplace_own, emplace_or_assign_own, emplace_r, emplace_or_assign_r, read_val. rewrite IE, NJ. cbn [bind]. split.
  - intros ->. rewrite Z.eqb_refl. cbn [negb]. rewrite KP. cbn [bind]. split; [reflexivity|]. destruct b; [reflexivity|]. destruct (get_val (nodes s1) i); reflexivity.
  - intros NE ->. destruct (Z.eqb_spec (cap s1) (cap s)); [contradiction|]. reflexivity.
Qed.

(** C101.  A key of the map can be passed to an insertion: it is found, nothing is allocated. *)
Theorem C101_smap_own_key {K V RK RV} (toraw : K -> RK) kfrom (vfrom : RV -> V) cmp (ops : list (rop K V RK RV)) e :
  raw_ok toraw kfrom cmp -> legal_r toraw kfrom vfrom cmp 0 [] ops ->
  rlookup toraw cmp (toraw (fst e)) (fst (rmap_run toraw kfrom vfrom cmp [] ops)) = Some e ->
  exists s outs j, run_r toraw kfrom vfrom cmp init ops = Ok (s, outs) /\
    insert_entry_r toraw cmp s (toraw (fst e)) = Ok (s, j, false) /\ get_val (nodes s) j = Ok e.
Proof.
  intros RO LG L. destruct (hist_node toraw kfrom vfrom cmp RO ops LG) as (s & outs & T & ds & rv & F & W & RM & Hrv & N). destruct (N _ e L) as (j & NJ & IJ & VJ & IE).
  exists s, outs, j. split; [exact F|]. split; [exact IE|]. now apply get_val_ok.
Qed.

(** C101.  ... and from the freed array when it has: four entries fill the first array. *)
Theorem C101_smap_own_short_value_refuted :
  let id := fun x : Z => x in let cmp := fun a b : Z => a - b in
  (let* r := run_r id id id cmp init [REmplace 1 10; REmplace 2 20; REmplace 3 30; REmplace 4 40] in
   emplace_own id id id id cmp (fst r) 5 (VInplace 3)) = Err UseAfterFree.
Proof. vm_compute. reflexivity. Qed.

Example C101_smap_met :
  let id := fun x : Z => x in let cmp := fun a b : Z => a - b in
  let ops := [REmplace 1 10; REmplace 2 20; REmplace 3 30] in
  raw_ok id id cmp /\ legal_r id id id cmp 0 [] ops /\ rlookup id cmp 3 (fst (rmap_run id id id cmp [] ops)) = Some (3, 30) /\
  (let* r := run_r id id id cmp init ops in
   let* q := emplace_own id id id id cmp (fst r) 5 (VInplace 3) in
   let '(s, d, m, b) := q in let* l := each s in Ok (d, m, b, l)) = Ok ([], [DKey 5; DVal 30], true, [(1, 10); (2, 20); (3, 30); (5, 30)]) /\
  (let* r := run_r id id id cmp init ops in emplace_or_assign_own id id id id cmp (fst r) 3 (VHeap 3)) = Err UseAfterFree.
Proof.
  cbn zeta. split; [constructor; [constructor; intros; lia|intros r; lia]|].
  split; [cbn [legal_r]; repeat split; vm_compute; discriminate|]. split; [vm_compute; reflexivity|]. split; vm_compute; reflexivity.
Qed.
Print Assumptions C101_smap_own_value.
Print Assumptions C101_smap_put_self_refuted.
Print Assumptions C101_smap_own_short_value.
Print Assumptions C101_smap_own_key.
Print Assumptions C101_smap_own_short_value_refuted.
