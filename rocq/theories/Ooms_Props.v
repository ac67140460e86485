(** smap and sset when memory runs out: C99. *)
From Verif Require Import Base Slots Smap_Model Smap_Spec Smap_Tree Smap_Sim Smap_Proofs Smap_Proofs2 Smap_Proofs3 Smap_Proofs4 Smap_Proofs5 Ooms_Model.

(** Whether a map has a node for one more entry. *)
Definition has_node {K V} (s : smap K V) : bool := negb (disp s =? 0) || negb (head s =? cap s).
(** The key of an operation that stores, and what it destroys if it cannot. *)
Definition stores_key {K V} (o : op K V) : option K :=
  match o with Insert k _ | Emplace k _ | InsertOrAssign k _ | EmplaceOrAssign k _ => Some k | _ => None end.
Definition refused {K V} (o : op K V) : list (destroyed K V) :=
  match o with Insert k v | InsertOrAssign k v => [DKey k; DVal v] | _ => [] end.

Lemma entry_f {K V} (cmp : K -> K -> Z) (CO : cmp_ok cmp) a (s : smap K V) T ds es k : wf cmp s T ds es -> head s < 2 ^ 31 ->
  match lookup cmp k es with
  | Some _ => exists i, 0 < i /\ insert_entry cmp s k = Ok (s, i, false) /\ insert_entry_f cmp a s k = Ok (s, i, false)
  | None => (has_node s = true \/ a = true -> forall s1 i b, insert_entry cmp s k = Ok (s1, i, b) -> insert_entry_f cmp a s k = Ok (s1, i, b) /\ i <> 0) /\
      (has_node s = false -> a = false -> head s * 3 < 2 ^ 31 -> insert_entry_f cmp a s k = Ok (mksmap (nodes s) 0 (disp s) (head s) (size s) (cap s), 0, false))
  end.
Proof.
  intros W H31. unfold insert_entry, insert_entry_f. destruct (wf_height _ _ _ _ _ W H31) as (HL & HH).
  rewrite (w_root _ _ _ _ _ W). rewrite (descend_ok cmp (nodes s) k 65 T [] false es); try apply W; [|cbn; lia|lia]. cbn [bind].
  pose proof (locate_ok cmp CO (nodes s) T k es (w_ents _ _ _ _ _ W) (w_inc _ _ _ _ _ W)) as LO.
  destruct (locate (kc cmp (nodes s) k) T) as [i|] eqn:EL.
  { destruct LO as (Hi & e & He & _ & ->). exists i. split; [exact (proj1 (reps_pos _ _ _ (w_reps _ _ _ _ _ W) Hi))|auto]. }
  rewrite LO. unfold new_node_f, has_node. split.
  - intros H s1 i b F.
    assert (X : (disp s =? 0) && (head s =? cap s) && negb a = false).
    { destruct H as [H| ->]; [|now rewrite andb_false_r]. now destruct (disp s =? 0), (head s =? cap s). }
    rewrite X. destruct (new_node s 1) as [[s0 tx]|e]; cbn [bind fst snd] in *; [|discriminate].
    destruct (Z.eqb_spec tx 0); [discriminate|]. split; [exact F|]. destruct (path _ T []) as [|u up].
    + injection F as _ <- _. assumption.
    + destruct (set_link (nodes s0) u _ tx) as [d|]; cbn [bind] in F; [|discriminate]. destruct (fix_loop d (u :: up)) as [f|]; cbn [bind] in F; [|discriminate].
      injection F as _ <- _. assumption.
  - intros H -> Hh. destruct (disp s =? 0); [|discriminate]. destruct (head s =? cap s); [|discriminate]. cbn [andb negb].
    destruct (Z.leb_spec (2 ^ 31) (head s * 3)); [lia|]. reflexivity.
Qed.

(** C99.  After any legal history, an operation that finds its key or a free node for a new
    entry does what it does on a map with all the memory it wants, whatever the allocator
    answers. *)
Theorem C99_smap_room_partial {K V} (cmp : K -> K -> Z) (ops : list (op K V)) (o : op K V) k a :
  cmp_ok cmp -> legal cmp 0 [] ops -> stores_key o = Some k ->
  exists s outs, run cmp init ops = Ok (s, outs) /\
    (has_node s = true \/ a = true \/ lookup cmp k (fst (map_run cmp [] ops)) <> None ->
     forall r, step cmp s o = Ok r -> step_f cmp a s o = Ok r).
Proof.
  intros CO LG SK. destruct (hist cmp CO ops LG) as (s & T & ds & outs & rv & F & SO & W & RM & Hrv & HP & H31 & RD & HS).
  exists s, outs. split; [exact F|]. intros H r E. pose proof (entry_f cmp CO a s T ds _ k W H31) as EF.
  assert (X : forall s1 i b, insert_entry cmp s k = Ok (s1, i, b) -> insert_entry_f cmp a s k = Ok (s1, i, b) /\ i <> 0).
  { destruct (lookup cmp k (fst (map_run cmp [] ops))) as [e|].
    - destruct EF as (i & P & E1 & E2). intros s1 j b E3. rewrite E1 in E3. injection E3 as <- <- <-. split; [exact E2|lia].
    - apply EF. tauto. }
  clear EF. destruct o as [k' v|k' v|k' v|k' v| | | |]; cbn in SK; try discriminate; injection SK as ->; cbn [step step_f] in *;
    unfold insert, emplace, insert_or_assign, emplace_or_assign in E; (destruct (insert_entry cmp s k) as [[[s1 i] b]|e]; cbn [bind] in E; [|discriminate]);
    destruct (X _ _ _ eq_refl) as (-> & N); cbn [bind]; try exact E; destruct b; try exact E; (destruct (Z.eqb_spec i 0); [contradiction|exact E]).
Qed.

(** Insertions 1 to 4 fill the four nodes of the first allocation; 5 needs another one unless
    an entry is erased before. *)
Example C99_smap_room_met :
  let ops := map (fun k => Insert k (k * 10)) [1; 2; 3; 4] ++ [Erase 2] in
  legal Z.sub 0 [] ops /\ exists s outs s', run Z.sub init ops = Ok (s, outs) /\ has_node s = true /\
    step Z.sub s (Insert 5 50) = Ok (s', [], true) /\ step_f Z.sub false s (Insert 5 50) = Ok (s', [], true) /\
    each s' = Ok [(1, 10); (3, 30); (4, 40); (5, 50)].
Proof.
  cbn zeta. split; [vm_compute; repeat split; discriminate|].
  match goal with |- exists s outs s', ?r = _ /\ _ => let v := eval vm_compute in r in match v with Ok (?a, ?b) => exists a, b end end.
  eexists. split; [vm_compute; reflexivity|]. split; [reflexivity|]. split; [vm_compute; reflexivity|]. split; vm_compute; reflexivity.
Qed.

(** C99.  Otherwise - new key, no free node, allocation refused - the map loses everything:
    the root becomes 0, so that no entry is found, iterated over or destroyed any more, while
    the size stays. *)
Theorem C99_smap_loses_all {K V} (cmp : K -> K -> Z) (ops : list (op K V)) (o : op K V) k :
  cmp_ok cmp -> legal cmp 0 [] ops -> stores_key o = Some k -> 3 * peak cmp 0 [] ops < 2 ^ 31 ->
  lookup cmp k (fst (map_run cmp [] ops)) = None ->
  exists s outs, run cmp init ops = Ok (s, outs) /\
    (has_node s = false -> exists s', step_f cmp false s o = Ok (s', refused o, false) /\
       size s' = zlen (fst (map_run cmp [] ops)) /\ each s' = Ok [] /\ (forall k', get cmp s' k' = Ok None) /\ drop s' = Ok []).
Proof.
  intros CO LG SK HP3 LK. destruct (hist cmp CO ops LG) as (s & T & ds & outs & rv & F & SO & W & RM & Hrv & HP & H31 & RD & HS).
  exists s, outs. split; [exact F|]. intros H. pose proof (entry_f cmp CO false s T ds _ k W H31) as EF. rewrite LK in EF.
  destruct EF as (_ & EF). specialize (EF H eq_refl ltac:(lia)). eexists. split.
  { destruct o as [k' v|k' v|k' v|k' v| | | |]; cbn in SK; try discriminate; injection SK as ->; cbn [step_f]; rewrite EF; reflexivity. }
  cbn [size]. split; [exact HS|]. split; [reflexivity|]. split; [reflexivity|].
  unfold drop. cbn [cap root nodes]. destruct (cap s =? 0); reflexivity.
Qed.
Theorem C99_smap_insert_refuted : exists s outs s' s'' d,
  run Z.sub init (map (fun k => Insert k (k * 10)) [1; 2; 3; 4]) = Ok (s, outs) /\ each s = Ok [(1, 10); (2, 20); (3, 30); (4, 40)] /\
  step_f Z.sub false s (Insert 5 50) = Ok (s', [DKey 5; DVal 50], false) /\ each s' = Ok [] /\ size s' = 4 /\ drop s' = Ok [] /\
  step_f Z.sub true s' (Insert 6 60) = Ok (s'', d, true) /\ each s'' = Ok [(6, 60)] /\ size s'' = 5 /\ drop s'' = Ok [DKey 6; DVal 60].
Proof.
  match goal with |- exists s outs s' s'' d, ?r = _ /\ _ => let v := eval vm_compute in r in match v with Ok (?a, ?b) => exists a, b end end.
  match goal with |- exists s' s'' d, _ /\ _ /\ ?r = _ /\ _ => let v := eval vm_compute in r in match v with Ok (?a, _, _) => exists a end end.
  match goal with |- exists s'' d, _ /\ _ /\ _ /\ _ /\ _ /\ _ /\ ?r = _ /\ _ => let v := eval vm_compute in r in match v with Ok (?a, ?d, _) => exists a, d end end.
  repeat (split; [vm_compute; reflexivity|]). vm_compute. reflexivity.
Qed.

(** C99.  Cloning a map with entries without memory writes to a null pointer. *)
Theorem C99_smap_clone_refuted {K V} (cmp : K -> K -> Z) (ops : list (op K V)) al :
  cmp_ok cmp -> legal cmp 0 [] ops -> fst (map_run cmp [] ops) <> [] ->
  exists s outs, run cmp init ops = Ok (s, outs) /\ clone_f (false :: false :: al) s = Err NullDeref.
Proof.
  intros CO LG NE. destruct (hist cmp CO ops LG) as (s & T & ds & outs & rv & F & SO & W & RM & Hrv & HP & H31 & RD & HS).
  exists s, outs. split; [exact F|]. unfold clone_f, reserve_f. cbn [hd tl cap init negb andb].
  assert (0 < size s). { rewrite HS. destruct (fst (map_run cmp [] ops)); [contradiction|]. rewrite zlen_cons. pose proof (zlen_nonneg l). lia. }
  cbn [cap init]. destruct (Z.leb_spec (size s) 0); [lia|]. cbn [negb andb bind fst clone_r_f].
  pose proof (w_reps _ _ _ _ _ W) as R. rewrite (w_root _ _ _ _ _ W). pose proof (w_ents _ _ _ _ _ W) as EN.
  destruct T as [|i lv l r].
  { rewrite (w_size _ _ _ _ _ W) in *. cbn in *. lia. }
  destruct (reps_rd _ _ _ _ _ R) as (o & E1 & _). destruct R as (P & _). cbn [rt]. destruct (Z.eqb_spec i 0); [lia|]. rewrite E1.
  cbn [inord] in EN. apply ents_mid in EN as (el & e & er & _ & _ & He & _). cbn. rewrite (get_val_ok _ _ _ He). reflexivity.
Qed.
Example C99_smap_clone_met : legal Z.sub 0 [] [Insert 1 10] /\ fst (map_run Z.sub [] [Insert 1 10]) <> [].
Proof. split; [vm_compute; repeat split; discriminate|discriminate]. Qed.
Print Assumptions C99_smap_room_partial.
Print Assumptions C99_smap_loses_all.
Print Assumptions C99_smap_insert_refuted.
Print Assumptions C99_smap_clone_refuted.
