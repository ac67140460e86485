(** Proofs about the linked list model. *)
From Verif Require Import Base Order Sort_Model Sort_Proofs List_Model List_Spec.

Section P.
Context {A : Type}.
Implicit Types (h : heap A) (cs c r w : list (Z * A)) (x y z : A) (p q a e n : Z).

(** ** lists of cells *)
Lemma addrs_app c1 c2 : addrs (c1 ++ c2) = addrs c1 ++ addrs c2.
Proof. apply map_app. Qed.
Lemma first_addr_app c1 c2 q : first_addr (c1 ++ c2) q = first_addr c1 (first_addr c2 q).
Proof. destruct c1 as [|[a x] c1]; reflexivity. Qed.
Lemma last_addr_app cs p x : last_addr (cs ++ [(p, x)]) = p.
Proof. unfold last_addr. rewrite addrs_app. apply last_last. Qed.
Lemma first_addr_ne cs q q' : cs <> [] -> first_addr cs q = first_addr cs q'.
Proof. destruct cs as [|[a x] cs]; [congruence|reflexivity]. Qed.
Lemma first_addr_In cs q : cs <> [] -> In (first_addr cs q) (addrs cs).
Proof. destruct cs as [|[a x] cs]; [congruence|left; reflexivity]. Qed.
Lemma last_addr_In cs : cs <> [] -> In (last_addr cs) (addrs cs).
Proof.
  intros H. destruct (exists_last H) as (r & [p x] & ->). rewrite last_addr_app, addrs_app. apply in_or_app. right. left. reflexivity.
Qed.

Lemma linked_app h c1 c2 q : linked h (c1 ++ c2) q <-> linked h c1 (first_addr c2 q) /\ linked h c2 q.
Proof.
  induction c1 as [|[a x] c1 IH]; cbn [app linked]; [tauto|]. rewrite first_addr_app, IH. tauto.
Qed.
Lemma linked_ext h h' cs q : (forall a, In a (addrs cs) -> node h' a = node h a) -> linked h cs q -> linked h' cs q.
Proof.
  induction cs as [|[a x] cs IH]; cbn [linked]; [auto|]. intros He [H1 H2].
  split; [rewrite He; [exact H1|left; reflexivity]|]. apply IH; auto. intros b Hb. apply He. right. exact Hb.
Qed.
Lemma linked_live h cs q a : linked h cs q -> In a (addrs cs) -> live h a.
Proof.
  induction cs as [|[b x] cs IH]; cbn; [tauto|]. intros [H1 H2] [<-|Hin]; [unfold live; congruence|auto].
Qed.
Lemma linked_node h c1 a x c2 q : linked h (c1 ++ (a, x) :: c2) q -> node h a = Some (x, first_addr c2 q).
Proof. rewrite linked_app. cbn. tauto. Qed.

(** the cycle, up to rotation *)
Definition cyc h cs : Prop := linked h cs (first_addr cs 0).
Lemma cyc_rot h c1 c2 : cyc h (c1 ++ c2) -> cyc h (c2 ++ c1).
Proof.
  unfold cyc. rewrite !linked_app, !first_addr_app. intros [H1 H2].
  destruct c1 as [|b c1]; [cbn in *; auto|]. destruct c2 as [|b2 c2]; [cbn in *; auto|].
  split; [|].
  - rewrite (first_addr_ne (b :: c1) 0 (first_addr (b2 :: c2) 0)) by discriminate. exact H2.
  - rewrite (first_addr_ne (b2 :: c2) (first_addr (b :: c1) 0) (first_addr (b :: c1) (first_addr (b2 :: c2) 0))) by discriminate. exact H1.
Qed.
Lemma cyc_ext h h' cs : (forall a, In a (addrs cs) -> node h' a = node h a) -> cyc h cs -> cyc h' cs.
Proof. apply linked_ext. Qed.

Lemma addrs_rot c1 c2 : Permutation (addrs (c1 ++ c2)) (addrs (c2 ++ c1)).
Proof. rewrite !addrs_app. apply Permutation_app_comm. Qed.
Lemma nodup_rot c1 c2 : NoDup (addrs (c1 ++ c2)) -> NoDup (addrs (c2 ++ c1)).
Proof. apply Permutation_NoDup. apply addrs_rot. Qed.
Lemma in_rot c1 c2 a : In a (addrs (c1 ++ c2)) <-> In a (addrs (c2 ++ c1)).
Proof. split; apply Permutation_in; apply addrs_rot. Qed.

(** ** memory *)
Lemma load_some h p (c : A * Z) : p <> 0 -> node h p = Some c -> load h p = Ok c.
Proof. intros Hp Hc. unfold load. destruct (Z.eqb_spec p 0); [lia|]. now rewrite Hc. Qed.
Lemma next_of_some h p x q : p <> 0 -> node h p = Some (x, q) -> next_of h p = Ok q.
Proof. intros Hp Hc. unfold next_of. rewrite (load_some h p _ Hp Hc). reflexivity. Qed.
Lemma val_of_some h p x q : p <> 0 -> node h p = Some (x, q) -> val_of h p = Ok x.
Proof. intros Hp Hc. unfold val_of. rewrite (load_some h p _ Hp Hc). reflexivity. Qed.
Lemma set_next_some h p x q q' : p <> 0 -> node h p = Some (x, q) -> set_next h p q' = Ok (setn h p (Some (x, q'))).
Proof. intros Hp Hc. unfold set_next, store. rewrite (load_some h p _ Hp Hc). reflexivity. Qed.
Lemma set_val_some h p x q y : p <> 0 -> node h p = Some (x, q) -> set_val h p y = Ok (setn h p (Some (y, q))).
Proof. intros Hp Hc. unfold set_val, store. rewrite (load_some h p _ Hp Hc). reflexivity. Qed.
Lemma free_some h p (c : A * Z) : p <> 0 -> node h p = Some c -> free h p = Ok (setn h p None).
Proof. intros Hp Hc. unfold free. rewrite (load_some h p _ Hp Hc). reflexivity. Qed.
Lemma node_setn h p (c : option (A * Z)) a : node (setn h p c) a = if a =? p then c else node h a.
Proof. reflexivity. Qed.
Lemma node_setn_same h p (c : option (A * Z)) : node (setn h p c) p = c.
Proof. cbn. now rewrite Z.eqb_refl. Qed.
Lemma node_setn_other h p (c : option (A * Z)) a : a <> p -> node (setn h p c) a = node h a.
Proof. intros H. cbn. destruct (Z.eqb_spec a p); congruence. Qed.

Lemma heap_ok_setn h p (c : option (A * Z)) : heap_ok h -> live h p -> heap_ok (setn h p c).
Proof.
  intros [Hb Ho] Hp. split; [exact Hb|]. intros a Ha. unfold live in *. rewrite node_setn in Ha.
  destruct (Z.eqb_spec a p); [subst; apply Ho; exact Hp|apply Ho; exact Ha].
Qed.
Lemma heap_ok_brk h a : heap_ok h -> live h a -> a <> 0 /\ a <> brk h.
Proof. intros [_ Ho] Ha. specialize (Ho a Ha). lia. Qed.
Lemma heap_ok_fresh h : heap_ok h -> node h (brk h) = None.
Proof. intros [_ Ho]. destruct (node h (brk h)) eqn:E; [|reflexivity]. specialize (Ho (brk h)). unfold live in Ho. rewrite E in Ho. specialize (Ho ltac:(discriminate)). lia. Qed.

(** number of nodes versus fuel *)
Lemma nodup_bound (l : list Z) b : NoDup l -> (forall a, In a l -> 0 < a < b) -> (length l < S (Z.to_nat b))%nat.
Proof.
  intros Hnd Hb. assert (H : incl l (map Z.of_nat (seq 0 (Z.to_nat b)))).
  { intros a Ha. specialize (Hb a Ha). apply in_map_iff. exists (Z.to_nat a). split; [lia|]. apply in_seq. lia. }
  pose proof (NoDup_incl_length Hnd H) as Hl. rewrite map_length, seq_length in Hl. lia.
Qed.
Lemma linked_fuel h cs q : heap_ok h -> NoDup (addrs cs) -> linked h cs q -> (length cs < fuel_of h)%nat.
Proof.
  intros [Hb Ho] Hnd Hl. pose proof (nodup_bound (addrs cs) (brk h) Hnd) as H. unfold addrs in H at 2. rewrite map_length in H.
  unfold fuel_of. assert (length cs < S (Z.to_nat (brk h)))%nat; [|lia]. apply H. intros a Ha. apply Ho. now apply (linked_live h cs q).
Qed.

(** ** frames *)
Lemma only_refl h as1 : (forall a, In a as1 -> live h a) -> only h as1 h as1.
Proof.
  intros _. split; [auto|]. intros a Ha. destruct (in_dec Z.eq_dec a as1); auto.
Qed.
Lemma only_trans h1 as1 h2 as2 h3 as3 : only h1 as1 h2 as2 -> only h2 as2 h3 as3 -> only h1 as1 h3 as3.
Proof.
  intros [H1 G1] [H2 G2]. split.
  - intros a Ha Hn. destruct (H1 a Ha Hn) as [E1 N1]. destruct (H2 a) as [E2 N2]; auto; [unfold live in *; congruence|].
    split; [congruence|exact N2].
  - intros a Ha. destruct (G2 a Ha) as [?|[L N]]; auto. destruct (G1 a L) as [?|?]; auto. tauto.
Qed.
Lemma only_perm h as1 as1' h' as2 as2' : (forall a, In a as1 <-> In a as1') -> (forall a, In a as2 <-> In a as2') ->
  only h as1 h' as2 -> only h as1' h' as2'.
Proof.
  intros P1 P2 [H G]. split.
  - intros a Ha Hn. destruct (H a Ha) as [E N]; [now rewrite P1|]. split; auto. now rewrite <- P2.
  - intros a Ha. rewrite <- P1, <- P2. auto.
Qed.
Lemma only_setn_in h p (c : option (A * Z)) as1 : In p as1 -> c <> None -> only h as1 (setn h p c) as1.
Proof.
  intros Hp Hc. split.
  - intros a Ha Hn. split; [|exact Hn]. apply node_setn_other. intros ->. auto.
  - intros a Ha. unfold live in *. rewrite node_setn in Ha. destruct (Z.eqb_spec a p); [subst; auto|].
    destruct (in_dec Z.eq_dec a as1); auto.
Qed.

(** ** insertion after a node *)
Lemma insert_entry_after_spec h r p y x : heap_ok h -> NoDup (addrs (r ++ [(p, y)])) -> cyc h (r ++ [(p, y)]) ->
  exists h', insert_entry_after h p x = Ok (h', brk h) /\ heap_ok h' /\ cyc h' (r ++ [(p, y); (brk h, x)]) /\
    NoDup (addrs (r ++ [(p, y); (brk h, x)])) /\ 0 < brk h /\
    only h (addrs (r ++ [(p, y)])) h' (addrs (r ++ [(p, y); (brk h, x)])).
Proof.
  intros Ho Hnd Hc. set (e := brk h).
  assert (Hlive : forall a, In a (addrs (r ++ [(p, y)])) -> live h a) by (intros a; apply (linked_live h _ _ a Hc)).
  assert (Hp : live h p) by (apply Hlive; rewrite addrs_app; apply in_or_app; right; left; reflexivity).
  destruct (heap_ok_brk h p Ho Hp) as [Hp0 Hpe].
  assert (Hnp : node h p = Some (y, first_addr (r ++ [(p, y)]) 0)).
  { apply (linked_node h r p y [] (first_addr (r ++ [(p, y)]) 0)). exact Hc. }
  unfold insert_entry_after. destruct (Z.eqb_spec p 0); [lia|].
  rewrite (next_of_some h p y _ Hp0 Hnp). cbn [bind alloc].
  set (f := first_addr (r ++ [(p, y)]) 0) in *.
  set (h1 := mkheap (fun q => if q =? brk h then Some (x, f) else node h q) (brk h + 1)).
  assert (Hn1 : node h1 p = Some (y, f)) by (cbn; destruct (Z.eqb_spec p (brk h)); [lia|exact Hnp]).
  unfold alloc. fold h1. rewrite (set_next_some h1 p y f _ Hp0 Hn1). cbn [bind].
  set (h2 := setn h1 p (Some (y, brk h))). exists h2. split; [reflexivity|].
  assert (N2 : forall a, node h2 a = if a =? p then Some (y, e) else if a =? e then Some (x, f) else node h a) by reflexivity.
  assert (Hnotin : ~ In e (addrs (r ++ [(p, y)]))) by (intros Hin; destruct (heap_ok_brk h e Ho (Hlive _ Hin)) as [_ He]; apply He; reflexivity).
  pose proof Ho as [Hb Hob].
  split; [|split; [|split; [|split]]].
  - split; [cbn; lia|]. intros a Ha. unfold live in Ha. rewrite N2 in Ha. cbn [brk h2 setn h1].
    destruct (Z.eqb_spec a p) as [Ea|]; [subst a|]; [specialize (Hob p Hp); lia|]. destruct (Z.eqb_spec a e) as [Ea|]; [subst a|]; [unfold e; lia|].
    specialize (Hob a Ha). lia.
  - unfold cyc. rewrite first_addr_app. change (r ++ [(p, y); (e, x)]) with (r ++ ([(p, y)] ++ [(e, x)])).
    rewrite app_assoc in *. rewrite linked_app.
    assert (Hf : first_addr r (first_addr [(p, y); (e, x)] 0) = f) by (unfold f; rewrite first_addr_app; reflexivity).
    rewrite Hf. rewrite linked_app. cbn [linked first_addr].
    unfold cyc in Hc. rewrite linked_app in Hc. destruct Hc as [Hc1 Hc2].
    rewrite addrs_app in Hnd, Hnotin. apply NoDup_remove_2 in Hnd. rewrite app_nil_r in Hnd.
    split; [split|].
    + apply (linked_ext h); [|exact Hc1]. intros a Ha. rewrite N2.
      destruct (Z.eqb_spec a p) as [Ea|]; [subst a|]; [tauto|]. destruct (Z.eqb_spec a e) as [Ea|]; [subst a|]; [|reflexivity].
      exfalso. apply Hnotin. apply in_or_app. auto.
    + split; [|exact I]. rewrite N2, Z.eqb_refl. reflexivity.
    + split; [|exact I]. rewrite N2, Z.eqb_refl. destruct (Z.eqb_spec e p) as [E|]; [unfold e in E; lia|]. reflexivity.
  - change (r ++ [(p, y); (e, x)]) with (r ++ ([(p, y)] ++ [(e, x)])). rewrite app_assoc, addrs_app.
    apply (Permutation_NoDup (Permutation_app_comm [e] _)). constructor; [exact Hnotin|exact Hnd].
  - exact Hb.
  - change (r ++ [(p, y); (e, x)]) with (r ++ ([(p, y)] ++ [(e, x)])). rewrite app_assoc, (addrs_app _ [(e, x)]).
    split.
    + intros a Ha Hn. destruct (heap_ok_brk h a Ho Ha) as [_ He]. split.
      * rewrite N2. destruct (Z.eqb_spec a p) as [Ea|]; [subst a|]; [exfalso; apply Hn; rewrite addrs_app; apply in_or_app; right; left; reflexivity|].
        destruct (Z.eqb_spec a e); [unfold e in *; lia|reflexivity].
      * intros Hin. apply in_app_or in Hin as [Hin|[Hin|[]]]; [auto|cbn in Hin; unfold e in *; lia].
    + intros a Ha. unfold live in Ha. rewrite N2 in Ha. rewrite in_app_iff.
      destruct (Z.eqb_spec a p) as [Ea|]; [subst a|]; [left; left; rewrite addrs_app; apply in_or_app; right; left; reflexivity|].
      destruct (Z.eqb_spec a e) as [Ea|]; [subst a|]; [left; right; left; reflexivity|].
      destruct (in_dec Z.eq_dec a (addrs (r ++ [(p, y)]))); [auto|]. right. split; auto.
Qed.

Lemma insert_first_spec h x : heap_ok h ->
  exists h', insert_entry_after h 0 x = Ok (h', brk h) /\ heap_ok h' /\ cyc h' [(brk h, x)] /\ 0 < brk h /\
    only h [] h' (addrs [(brk h, x)]).
Proof.
  intros Ho. unfold insert_entry_after. cbn [Z.eqb]. eexists. split; [reflexivity|]. pose proof Ho as [Hb Hob].
  split; [|split; [|split; [exact Hb|]]].
  - split; [cbn; lia|]. intros a Ha. unfold live in Ha. cbn in Ha |- *. destruct (Z.eqb_spec a (brk h)) as [Ea|]; [subst a|]; [lia|].
    specialize (Hob a Ha). lia.
  - unfold cyc. cbn. rewrite Z.eqb_refl. auto.
  - split.
    + intros a Ha _. destruct (heap_ok_brk h a Ho Ha) as [_ He]. cbn. destruct (Z.eqb_spec a (brk h)); [lia|]. split; [reflexivity|]. intros [?|[]]; lia.
    + intros a Ha. unfold live in Ha. cbn in *. destruct (Z.eqb_spec a (brk h)); auto.
Qed.

(** ** unlinking the node after [p] *)
Lemma unlink_spec h n x r p y last : heap_ok h -> let cs := (n, x) :: r ++ [(p, y)] in
  NoDup (addrs cs) -> cyc h cs ->
  exists h', unlink_after_node h last p = Ok (h', if n =? last then p else last, n) /\ heap_ok h' /\ cyc h' (r ++ [(p, y)]) /\
    NoDup (addrs (r ++ [(p, y)])) /\ (exists q, node h' n = Some (x, q)) /\ n <> 0 /\ n <> p /\ ~ In n (addrs (r ++ [(p, y)])) /\
    (forall a, a <> p -> node h' a = node h a) /\ live h' p /\ brk h' = brk h.
Proof.
  intros Ho cs Hnd Hc. subst cs.
  assert (Hlive : forall a, In a (addrs ((n, x) :: r ++ [(p, y)])) -> live h a) by (intros a; apply (linked_live h _ _ a Hc)).
  assert (Hp : live h p) by (apply Hlive; right; rewrite addrs_app; apply in_or_app; right; left; reflexivity).
  assert (Hn : live h n) by (apply Hlive; left; reflexivity).
  destruct (heap_ok_brk h p Ho Hp) as [Hp0 _]. destruct (heap_ok_brk h n Ho Hn) as [Hn0 _].
  cbn [addrs map fst] in Hnd. apply NoDup_cons_iff in Hnd as [Hnin Hnd]. fold (addrs (r ++ [(p, y)])) in *.
  assert (Hnp : n <> p).
  { intros ->. apply Hnin. rewrite addrs_app. apply in_or_app. right. left. reflexivity. }
  unfold cyc in Hc. cbn [first_addr linked] in Hc. destruct Hc as [Hc1 Hc2].
  pose proof (linked_node h r p y [] n Hc2) as Np. cbn [first_addr] in Np.
  set (f := first_addr (r ++ [(p, y)]) n) in *.
  unfold unlink_after_node. rewrite (next_of_some h p y n Hp0 Np). cbn [bind].
  rewrite (next_of_some h n x f Hn0 Hc1). cbn [bind]. rewrite (set_next_some h p y n f Hp0 Np). cbn [bind].
  assert (Hnf : n =? f = false).
  { apply Z.eqb_neq. intros E. apply Hnin. rewrite E. unfold f. apply first_addr_In. destruct r; discriminate. }
  rewrite Hnf. eexists. split; [reflexivity|]. split; [now apply heap_ok_setn|].
  split; [|split; [exact Hnd|]; split; [exists f; rewrite node_setn_other by exact Hnp; exact Hc1|]; split; [exact Hn0|]; split; [exact Hnp|]; split; [exact Hnin|]].
  - unfold cyc. rewrite linked_app in Hc2 |- *. destruct Hc2 as [H1 H2]. split.
    + apply (linked_ext h); [|exact H1]. intros a Ha. apply node_setn_other. intros ->.
      rewrite addrs_app in Hnd. apply NoDup_remove_2 in Hnd. rewrite app_nil_r in Hnd. auto.
    + cbn [linked first_addr]. split; [|exact I]. rewrite node_setn_same. unfold f. do 2 f_equal. apply first_addr_ne. destruct r; discriminate.
  - split; [intros a Ha; now apply node_setn_other|]. split; [unfold live; rewrite node_setn_same; discriminate|reflexivity].
Qed.

Lemma unlink_single h n x last : heap_ok h -> cyc h [(n, x)] ->
  exists h', unlink_after_node h last n = Ok (h', 0, n) /\ heap_ok h' /\ (exists q, node h' n = Some (x, q)) /\ n <> 0 /\
    (forall a, a <> n -> node h' a = node h a) /\ brk h' = brk h.
Proof.
  intros Ho Hc. assert (Hn : live h n) by (apply (linked_live h _ _ n Hc); left; reflexivity).
  destruct (heap_ok_brk h n Ho Hn) as [Hn0 _]. unfold cyc in Hc. cbn [linked first_addr] in Hc. destruct Hc as [Hc _].
  unfold unlink_after_node. rewrite !(next_of_some h n x n Hn0 Hc). cbn [bind]. rewrite (next_of_some h n x n Hn0 Hc). cbn [bind].
  rewrite (set_next_some h n x n n Hn0 Hc). cbn [bind]. rewrite Z.eqb_refl.
  eexists. split; [reflexivity|]. split; [now apply heap_ok_setn|]. split; [exists n; apply node_setn_same|]. split; [exact Hn0|].
  split; [intros a Ha; now apply node_setn_other|reflexivity].
Qed.

Lemma heap_ok_free h n : heap_ok h -> live h n -> heap_ok (setn h n None).
Proof. intros; now apply heap_ok_setn. Qed.

Lemma erase_after_spec h n x r p y last : heap_ok h -> let cs := (n, x) :: r ++ [(p, y)] in
  NoDup (addrs cs) -> cyc h cs ->
  exists h', erase_after_node h last p = Ok (h', if n =? last then p else last, x) /\ heap_ok h' /\ cyc h' (r ++ [(p, y)]) /\
    NoDup (addrs (r ++ [(p, y)])) /\ ~ In n (addrs (r ++ [(p, y)])) /\ p <> 0 /\ brk h' = brk h /\
    only h (addrs cs) h' (addrs (r ++ [(p, y)])).
Proof.
  intros Ho cs Hnd Hc. destruct (unlink_spec h n x r p y last Ho Hnd Hc) as (h1 & E1 & Ho1 & Hc1 & Hnd1 & [q Hq] & Hn0 & Hnp & Hnin & Hfr & Hlp & Hbrk).
  unfold erase_after_node. rewrite E1. cbn [bind]. rewrite (val_of_some h1 n x q Hn0 Hq). cbn [bind].
  rewrite (free_some h1 n _ Hn0 Hq). cbn [bind]. eexists. split; [reflexivity|].
  assert (Hln : live h1 n) by (unfold live; congruence).
  split; [now apply heap_ok_setn|]. split.
  { apply (cyc_ext h1); [|exact Hc1]. intros a Ha. apply node_setn_other. intros ->. auto. }
  split; [exact Hnd1|]. split; [exact Hnin|]. split; [apply (heap_ok_brk h1 p Ho1 Hlp)|]. split; [exact Hbrk|].
  assert (Hpin : In p (addrs (r ++ [(p, y)]))) by (rewrite addrs_app; apply in_or_app; right; left; reflexivity).
  subst cs. cbn [addrs map fst]. fold (addrs (r ++ [(p, y)])). split.
  - intros a Ha Hn. cbn [In] in Hn. split; [|tauto]. rewrite node_setn_other by (intros ->; tauto). apply Hfr. intros ->. tauto.
  - intros a Ha. unfold live in Ha. rewrite node_setn in Ha. destruct (Z.eqb_spec a n) as [Ea|]; [subst a|]; [congruence|].
    destruct (in_dec Z.eq_dec a (addrs (r ++ [(p, y)]))) as [|Hni]; [auto|]. right. cbn [In]. split; [|intros [?|?]; auto].
    rewrite Hfr in Ha; [exact Ha|]. intros ->. auto.
Qed.

Lemma erase_single_spec h n x last : heap_ok h -> cyc h [(n, x)] ->
  exists h', erase_after_node h last n = Ok (h', 0, x) /\ heap_ok h' /\ brk h' = brk h /\ only h [n] h' [].
Proof.
  intros Ho Hc. destruct (unlink_single h n x last Ho Hc) as (h1 & E1 & Ho1 & [q Hq] & Hn0 & Hfr & Hbrk).
  unfold erase_after_node. rewrite E1. cbn [bind]. rewrite (val_of_some h1 n x q Hn0 Hq). cbn [bind].
  rewrite (free_some h1 n _ Hn0 Hq). cbn [bind]. eexists. split; [reflexivity|].
  split; [apply heap_ok_setn; [exact Ho1|unfold live; congruence]|]. split; [exact Hbrk|]. split.
  - intros a Ha Hn. cbn [In] in *. split; [|tauto]. rewrite node_setn_other by (intros ->; tauto). apply Hfr. intros ->. tauto.
  - intros a Ha. unfold live in Ha. rewrite node_setn in Ha. destruct (Z.eqb_spec a n) as [Ea|]; [subst a|]; [congruence|]. right.
    rewrite Hfr in Ha by assumption. split; [exact Ha|]. cbn. intuition congruence.
Qed.

(** ** lists: [circular] plus heap well-formedness *)
Lemma lst_nil h : heap_ok h -> lst h 0 [].
Proof. intros Ho. split; [exact Ho|]. split; [constructor|]. split; [exact I|reflexivity]. Qed.
Lemma lst_nil_inv h last : lst h last [] -> last = 0.
Proof. intros (_ & _ & _ & ->). reflexivity. Qed.
Lemma lst_live h last cs a : lst h last cs -> In a (addrs cs) -> live h a.
Proof. intros (_ & _ & Hl & _). intros Ha; exact (linked_live h cs _ a Hl Ha). Qed.
Lemma lst_last_ne h last cs : lst h last cs -> cs <> [] -> last <> 0.
Proof.
  intros H Hne. destruct (heap_ok_brk h last (proj1 H)) as [? _]; [|assumption]. apply (lst_live h last cs); [exact H|].
  destruct H as (_ & _ & _ & ->). now apply last_addr_In.
Qed.
Lemma lst_zero h last cs : lst h last cs -> (last =? 0) = match cs with [] => true | _ => false end.
Proof.
  intros H. destruct cs as [|c cs]; [rewrite (lst_nil_inv _ _ H); reflexivity|].
  apply Z.eqb_neq. apply (lst_last_ne h last (c :: cs)); auto. discriminate.
Qed.
Lemma lst_fuel h last cs : lst h last cs -> (length cs < fuel_of h)%nat.
Proof. intros (Ho & Hnd & Hl & _). now apply (linked_fuel h cs (first_addr cs 0)). Qed.

(** the address before position |c1| *)
Definition pred c1 cs : Z := match c1 with [] => last_addr cs | _ => last_addr c1 end.
Lemma pred_rot c1 c2 : c1 ++ c2 <> [] -> exists r z, c2 ++ c1 = r ++ [(pred c1 (c1 ++ c2), z)].
Proof.
  intros Hne. destruct c1 as [|b c1].
  - cbn [app pred] in *. rewrite app_nil_r. destruct (exists_last Hne) as (r & [p z] & ->). exists r, z. now rewrite last_addr_app.
  - unfold pred. destruct (@exists_last _ (b :: c1) ltac:(discriminate)) as (r & [p z] & E). rewrite E, last_addr_app.
    exists (c2 ++ r), z. now rewrite app_assoc.
Qed.
Lemma lst_cyc h last cs : lst h last cs -> cyc h cs.
Proof. intros (_ & _ & H & _). exact H. Qed.
Lemma lst_nodup h last cs : lst h last cs -> NoDup (addrs cs).
Proof. intros (_ & H & _). exact H. Qed.

Lemma last_addr_ins c1 x e c2 : c2 <> [] -> last_addr (c1 ++ (e, x) :: c2) = last_addr (c1 ++ c2).
Proof.
  intros Hne. destruct (exists_last Hne) as (r & [p z] & ->).
  rewrite !app_comm_cons, !app_assoc, !last_addr_app. reflexivity.
Qed.
Lemma last_addr_app2 c1 c2 : c2 <> [] -> last_addr (c1 ++ c2) = last_addr c2.
Proof. intros Hne. destruct (exists_last Hne) as (r & [p z] & ->). rewrite app_assoc, !last_addr_app. reflexivity. Qed.

(** insertion after the predecessor of position |c1| *)
Lemma insert_mid h last c1 c2 x : lst h last (c1 ++ c2) -> c1 ++ c2 <> [] ->
  exists h', insert_entry_after h (pred c1 (c1 ++ c2)) x = Ok (h', brk h) /\
    heap_ok h' /\ cyc h' (c1 ++ (brk h, x) :: c2) /\ NoDup (addrs (c1 ++ (brk h, x) :: c2)) /\ 0 < brk h /\
    only h (addrs (c1 ++ c2)) h' (addrs (c1 ++ (brk h, x) :: c2)).
Proof.
  intros H Hne. pose proof H as (Ho & Hnd & Hc & Hl). destruct (pred_rot c1 c2 Hne) as (r & z & E).
  destruct (insert_entry_after_spec h r (pred c1 (c1 ++ c2)) z x Ho) as (h' & Eh & Ho' & Hc' & Hnd' & Hb & Hon).
  { rewrite <- E. now apply nodup_rot. } { rewrite <- E. now apply cyc_rot. }
  exists h'. split; [exact Eh|]. split; [exact Ho'|].
  change (r ++ [(pred c1 (c1 ++ c2), z); (brk h, x)]) with (r ++ [(pred c1 (c1 ++ c2), z)] ++ [(brk h, x)]) in *.
  rewrite app_assoc, <- E, <- app_assoc in *.
  assert (Hi : forall a, In a (addrs (c2 ++ c1 ++ [(brk h, x)])) <-> In a (addrs (c1 ++ (brk h, x) :: c2))).
  { intros a. rewrite in_rot. rewrite <- app_assoc. reflexivity. }
  split; [apply cyc_rot in Hc'; rewrite <- app_assoc in Hc'; exact Hc'|].
  split; [apply nodup_rot in Hnd'; rewrite <- app_assoc in Hnd'; exact Hnd'|]. split; [exact Hb|].
  revert Hon. apply only_perm; [|exact Hi]. intros a. apply in_rot.
Qed.

Lemma push_back_spec h last cs x : lst h last cs ->
  exists h', push_back h last x = Ok (h', brk h) /\ lst h' (brk h) (cs ++ [(brk h, x)]) /\
   only h (addrs cs) h' (addrs (cs ++ [(brk h, x)])).
Proof.
  intros H. unfold push_back. destruct cs as [|c cs].
  - rewrite (lst_nil_inv _ _ H). destruct (insert_first_spec h x (proj1 H)) as (h' & E & Ho & Hc & Hb & Hon).
    exists h'. split; [exact E|]. split; [|exact Hon]. split; [exact Ho|]. split; [repeat constructor; auto|]. split; [exact Hc|reflexivity].
  - destruct (insert_mid h last (c :: cs) [] x) as (h' & E & Ho & Hc & Hnd & Hb & Hon); [now rewrite app_nil_r|discriminate|].
    rewrite app_nil_r in *. cbn [pred] in E. destruct H as (_ & _ & _ & Hl). rewrite <- Hl in E.
    exists h'. split; [exact E|]. split; [|exact Hon]. split; [exact Ho|]. split; [exact Hnd|]. split; [exact Hc|].
    symmetry. apply last_addr_app.
Qed.

Lemma push_front_spec h last cs x : lst h last cs ->
  exists h' last', push_front h last x = Ok (h', last') /\ lst h' last' ((brk h, x) :: cs) /\
   only h (addrs cs) h' (addrs ((brk h, x) :: cs)).
Proof.
  intros H. unfold push_front. rewrite (lst_zero _ _ _ H). destruct cs as [|c cs].
  - rewrite (lst_nil_inv _ _ H). destruct (insert_first_spec h x (proj1 H)) as (h' & E & Ho & Hc & Hb & Hon).
    rewrite E. cbn [bind fst snd]. do 2 eexists. split; [reflexivity|]. split; [|exact Hon].
    split; [exact Ho|]. split; [repeat constructor; auto|]. split; [exact Hc|reflexivity].
  - destruct (insert_mid h last [] (c :: cs) x) as (h' & E & Ho & Hc & Hnd & Hb & Hon); [exact H|discriminate|].
    cbn [app pred] in *. pose proof H as (_ & _ & _ & Hl). rewrite <- Hl in E. rewrite E. cbn [bind fst snd].
    do 2 eexists. split; [reflexivity|]. split; [|exact Hon]. split; [exact Ho|]. split; [exact Hnd|]. split; [exact Hc|].
    rewrite Hl. symmetry. apply (last_addr_ins [] x (brk h) (c :: cs)). discriminate.
Qed.

(** ** iterators *)
(** the iterator at the split c1 | c2 *)
Definition it_at c1 c2 : iter := mkit (first_addr c2 0) (pred c1 (c1 ++ c2)) true.

Lemma cyc_node h c1 a x c2 : cyc h (c1 ++ (a, x) :: c2) -> exists q, node h a = Some (x, q).
Proof. intros H. eexists. apply (linked_node h c1 a x c2 _ H). Qed.

Lemma begin_spec h last cs : lst h last cs -> begin h last = Ok (it_at [] cs).
Proof.
  intros H. unfold begin, it_at. cbn [app pred]. rewrite (lst_zero _ _ _ H). pose proof H as (Ho & Hnd & Hc & Hl).
  destruct cs as [|c cs]; [cbn in *; now rewrite Hl|].
  destruct (@exists_last _ (c :: cs) ltac:(discriminate)) as (r & [p z] & E). rewrite E in *.
  pose proof (linked_node h r p z [] _ Hc) as Np. cbn [first_addr] in Np. rewrite last_addr_app in *. subst last.
  rewrite (next_of_some h p z _ (lst_last_ne _ _ _ H ltac:(destruct r; discriminate)) Np). reflexivity.
Qed.

Lemma next_spec h last c1 a x c2 : lst h last (c1 ++ (a, x) :: c2) ->
  next h last (it_at c1 ((a, x) :: c2)) = Ok (it_at (c1 ++ [(a, x)]) c2).
Proof.
  intros H. unfold next, it_at. cbn [haslast negb ref first_addr]. pose proof H as (Ho & Hnd & Hc & Hl).
  assert (Hpr : pred (c1 ++ [(a, x)]) ((c1 ++ [(a, x)]) ++ c2) = a).
  { unfold pred. destruct (c1 ++ [(a, x)]) eqn:E; [destruct c1; discriminate|]. rewrite <- E. apply last_addr_app. }
  rewrite Hpr. destruct c2 as [|[b y] c2].
  - rewrite Hl, last_addr_app, Z.eqb_refl. reflexivity.
  - assert (a <> last).
    { rewrite Hl. rewrite last_addr_app2 by discriminate. change ((a, x) :: (b, y) :: c2) with ([(a, x)] ++ (b, y) :: c2).
      rewrite last_addr_app2 by discriminate. intros E. rewrite addrs_app in Hnd. cbn [addrs map fst] in Hnd.
      apply NoDup_remove_2 in Hnd. apply Hnd. apply in_or_app. right. rewrite E. apply (last_addr_In ((b, y) :: c2)). discriminate. }
    destruct (Z.eqb_spec a last); [lia|].
    pose proof (linked_node h c1 a x ((b, y) :: c2) _ Hc) as Na.
    rewrite (next_of_some h a x _ ltac:(apply (heap_ok_brk h a Ho); unfold live; congruence) Na). reflexivity.
Qed.

Lemma advance_spec h last cs : lst h last cs -> forall (n : nat) c1 c2, cs = c1 ++ c2 -> (n <= length c2)%nat ->
  advance h last (it_at c1 c2) n = Ok (it_at (c1 ++ firstn n c2) (skipn n c2)).
Proof.
  intros H n. induction n as [|n IH]; intros c1 c2 E Hn; cbn [advance].
  - now rewrite app_nil_r.
  - destruct c2 as [|[a x] c2]; [cbn in Hn; lia|]. cbn [it_at ref first_addr].
    assert (a <> 0). { apply (heap_ok_brk h a (proj1 H)). apply (lst_live h last cs a H). subst cs. rewrite addrs_app. apply in_or_app. right. left. reflexivity. }
    destruct (Z.eqb_spec a 0); [lia|]. subst cs. fold (it_at c1 ((a, x) :: c2)).
    change (mkit a (pred c1 (c1 ++ (a, x) :: c2)) true) with (it_at c1 ((a, x) :: c2)).
    rewrite (next_spec h last c1 a x c2 H). cbn [bind].
    rewrite IH; [|now rewrite <- app_assoc|cbn in Hn; lia].
    cbn [firstn skipn]. now rewrite <- app_assoc.
Qed.

Lemma at_index_spec h last cs i : lst h last cs -> (i <= length cs)%nat ->
  at_index h last i = Ok (it_at (firstn i cs) (skipn i cs)).
Proof.
  intros H Hi. unfold at_index. rewrite (begin_spec h last cs H). cbn [bind]. now rewrite (advance_spec h last cs H i [] cs).
Qed.

Lemma each_loop_spec h last cs fuel : lst h last cs -> forall c1 c2, cs = c1 ++ c2 -> (length c2 < fuel)%nat ->
  each_loop fuel h last (it_at c1 c2) = Ok (map snd c2).
Proof.
  intros H. induction fuel as [|fuel IH]; intros c1 c2 E Hf; [lia|]. cbn [each_loop]. destruct c2 as [|[a x] c2]; [reflexivity|].
  cbn [it_at ref first_addr].
  assert (a <> 0). { apply (heap_ok_brk h a (proj1 H)). apply (lst_live h last cs a H). subst cs. rewrite addrs_app. apply in_or_app. right. left. reflexivity. }
  destruct (Z.eqb_spec a 0); [lia|]. subst cs.
  destruct (cyc_node h c1 a x c2 (lst_cyc _ _ _ H)) as [q Hq]. rewrite (val_of_some h a x q) by assumption. cbn [bind].
  change (mkit a (pred c1 (c1 ++ (a, x) :: c2)) true) with (it_at c1 ((a, x) :: c2)).
  rewrite (next_spec h last c1 a x c2 H). cbn [bind].
  rewrite IH; [reflexivity|now rewrite <- app_assoc|cbn in Hf; lia].
Qed.
Lemma each_spec h last cs : lst h last cs -> each h last = Ok (map snd cs).
Proof.
  intros H. unfold each. rewrite (begin_spec h last cs H). cbn [bind]. apply (each_loop_spec h last cs); auto. now apply (lst_fuel h last).
Qed.

Lemma insert_at_spec h last c1 c2 x : lst h last (c1 ++ c2) ->
  exists h' last' , insert_at h last (it_at c1 c2) x = Ok (h', last', mkit (brk h) (if first_addr c2 0 =? 0 then (if last =? 0 then brk h else last) else pred c1 (c1 ++ c2)) true) /\
   lst h' last' (c1 ++ (brk h, x) :: c2) /\ only h (addrs (c1 ++ c2)) h' (addrs (c1 ++ (brk h, x) :: c2)).
Proof.
  intros H. pose proof H as (Ho & Hnd & Hc & Hl). unfold insert_at, it_at. cbn [ref prev haslast].
  destruct c2 as [|[a y] c2].
  - cbn [first_addr Z.eqb]. rewrite app_nil_r in *. destruct (push_back_spec h last c1 x H) as (h' & E & Hr & Hon). unfold push_back in E.
    rewrite E. cbn [bind]. rewrite orb_true_r. do 2 eexists. split; [reflexivity|]. auto.
  - cbn [first_addr]. assert (Ha : a <> 0). { apply (heap_ok_brk h a Ho). apply (lst_live h last _ a H). rewrite addrs_app. apply in_or_app. right. left. reflexivity. }
    destruct (Z.eqb_spec a 0); [lia|].
    destruct (insert_mid h last c1 ((a, y) :: c2) x H) as (h' & E & Ho' & Hc' & Hnd' & Hb & Hon); [destruct c1; discriminate|].
    rewrite E. cbn [bind]. rewrite (lst_zero _ _ _ H).
    assert (match c1 ++ (a, y) :: c2 with [] => true | _ => false end = false) as -> by (destruct c1; reflexivity).
    cbn [orb]. do 2 eexists. split; [reflexivity|]. split; [|exact Hon]. split; [exact Ho'|]. split; [exact Hnd'|]. split; [exact Hc'|].
    rewrite Hl. symmetry. apply last_addr_ins. discriminate.
Qed.

(** erasing the node after the predecessor of position |c1| *)
Lemma erase_mid h last c1 a x c2 : lst h last (c1 ++ (a, x) :: c2) ->
  exists h' last', erase_after_node h last (pred c1 (c1 ++ (a, x) :: c2)) = Ok (h', last', x) /\ lst h' last' (c1 ++ c2) /\
    brk h' = brk h /\ ~ In a (addrs (c1 ++ c2)) /\ only h (addrs (c1 ++ (a, x) :: c2)) h' (addrs (c1 ++ c2)).
Proof.
  intros H. pose proof H as (Ho & Hnd & Hc & Hl).
  assert (Hna : ~ In a (addrs (c1 ++ c2))).
  { rewrite addrs_app in *. cbn [addrs map fst] in Hnd. now apply NoDup_remove_2 in Hnd. }
  assert (Hdec : c2 ++ c1 = [] \/ c2 ++ c1 <> []) by (destruct (c2 ++ c1); [left; reflexivity|right; discriminate]).
  destruct Hdec as [En|En].
  - apply app_eq_nil in En as [-> ->]. cbn [app pred] in *. unfold last_addr. cbn [addrs map fst List.last].
    destruct (erase_single_spec h a x last Ho Hc) as (h' & E & Ho' & Hb & Hon). do 2 eexists. split; [exact E|].
    split; [now apply lst_nil|]. auto.
  - assert (Hpr : exists r z, c2 ++ c1 = r ++ [(pred c1 (c1 ++ (a, x) :: c2), z)]).
    { destruct c1 as [|b c1].
      - cbn [app pred] in *. rewrite app_nil_r in *. destruct (exists_last En) as (r & [p z] & ->). exists r, z.
        rewrite app_comm_cons, last_addr_app. reflexivity.
      - unfold pred. destruct (@exists_last _ (b :: c1) ltac:(discriminate)) as (r & [p z] & E). rewrite E, last_addr_app.
        exists (c2 ++ r), z. now rewrite app_assoc. }
    destruct Hpr as (r & z & E). set (p := pred c1 (c1 ++ (a, x) :: c2)) in *.
    destruct (erase_after_spec h a x r p z last Ho) as (h' & Eh & Ho' & Hc' & Hnd' & Hnin & Hp0 & Hb & Hon).
    { rewrite <- E. rewrite app_comm_cons. now apply nodup_rot. } { rewrite <- E. rewrite app_comm_cons. now apply cyc_rot. }
    do 2 eexists. split; [exact Eh|]. rewrite <- E in *.
    split; [|split; [exact Hb|split; [exact Hna|]]].
    + split; [exact Ho'|]. split; [now apply nodup_rot|]. split; [now apply cyc_rot|].
      destruct c2 as [|c c2].
      * rewrite Hl, last_addr_app, Z.eqb_refl, app_nil_r. unfold p. destruct c1 as [|b c1]; [cbn in En; congruence|reflexivity].
      * rewrite last_addr_ins in Hl by discriminate. rewrite Hl. destruct (Z.eqb_spec a (last_addr (c1 ++ c :: c2))) as [Ea|]; [|reflexivity].
        exfalso. apply Hna. rewrite Ea. apply last_addr_In. destruct c1; discriminate.
    + revert Hon. apply only_perm; intros b; [rewrite app_comm_cons|]; apply in_rot.
Qed.

Lemma pred_app c1 c2 c2' : c1 <> [] -> pred c1 (c1 ++ c2) = pred c1 (c1 ++ c2').
Proof. destruct c1; [congruence|reflexivity]. Qed.

Lemma erase_at_spec h last c1 a x c2 : lst h last (c1 ++ (a, x) :: c2) ->
  exists h' last', erase_at h last (it_at c1 ((a, x) :: c2)) = Ok (h', last', x, mkit (first_addr c2 0) (pred c1 (c1 ++ (a, x) :: c2)) true) /\
    lst h' last' (c1 ++ c2) /\ only h (addrs (c1 ++ (a, x) :: c2)) h' (addrs (c1 ++ c2)).
Proof.
  intros H. pose proof H as (Ho & Hnd & Hc & Hl). unfold erase_at, it_at. cbn [ref prev haslast first_addr].
  pose proof (linked_node h c1 a x c2 _ Hc) as Na.
  assert (Ha : a <> 0) by (apply (heap_ok_brk h a Ho); unfold live; congruence).
  rewrite (load_some h a _ Ha Na). cbn [bind snd].
  destruct (erase_mid h last c1 a x c2 H) as (h' & last' & E & Hr & _ & Hna & Hon). rewrite E. cbn [bind].
  do 2 eexists. split; [|split; [exact Hr|exact Hon]]. do 2 f_equal. f_equal.
  destruct c2 as [|[b y] c2].
  - rewrite Hl, last_addr_app, Z.eqb_refl. reflexivity.
  - cbn [first_addr]. destruct (Z.eqb_spec a last) as [Ea|]; [|reflexivity]. exfalso. apply Hna. rewrite Ea, Hl.
    rewrite last_addr_ins by discriminate. apply last_addr_In. destruct c1; discriminate.
Qed.

Lemma pop_front_spec h last a x cs : lst h last ((a, x) :: cs) ->
  exists h' last', pop_front h last = Ok (h', last', x) /\ lst h' last' cs /\ only h (addrs ((a, x) :: cs)) h' (addrs cs).
Proof.
  intros H. unfold pop_front. rewrite (lst_zero _ _ _ H).
  destruct (erase_mid h last [] a x cs H) as (h' & last' & E & Hr & _ & _ & Hon). cbn [app pred] in *.
  pose proof H as (_ & _ & _ & Hl). rewrite <- Hl in E. eauto.
Qed.

Lemma drop_loop_spec fuel : forall h last cs, lst h last cs -> (length cs < fuel)%nat ->
  exists h', drop_loop fuel h last = Ok (h', map snd cs) /\ heap_ok h' /\ only h (addrs cs) h' [].
Proof.
  induction fuel as [|fuel IH]; intros h last cs H Hf; [lia|]. cbn [drop_loop]. rewrite (lst_zero _ _ _ H).
  destruct cs as [|[a x] cs].
  - exists h. split; [reflexivity|]. split; [exact (proj1 H)|]. apply (only_refl h []). intros a [].
  - destruct (erase_mid h last [] a x cs H) as (h1 & last1 & E & Hr & _ & _ & Hon). cbn [app pred] in *.
    pose proof H as (_ & _ & _ & Hl). rewrite <- Hl in E. rewrite E. cbn [bind].
    destruct (IH h1 last1 cs Hr) as (h2 & E2 & Ho2 & Hon2); [cbn in Hf; lia|]. rewrite E2. cbn [bind fst snd].
    exists h2. split; [reflexivity|]. split; [exact Ho2|]. exact (only_trans _ _ _ _ _ _ Hon Hon2).
Qed.
Lemma drop_spec h last cs : lst h last cs ->
  exists h', drop h last = Ok (h', map snd cs) /\ heap_ok h' /\ only h (addrs cs) h' [].
Proof. intros H. apply drop_loop_spec; [exact H|now apply (lst_fuel h last)]. Qed.

Lemma heap_ok_nz h b : heap_ok h -> live h b -> b = 0 -> False.
Proof. intros Ho Hl. now destruct (heap_ok_brk h b Ho Hl). Qed.

(** ** erase_range *)
Lemma first_addr_cons a x cs q : first_addr ((a, x) :: cs) q = a.
Proof. reflexivity. Qed.

(** erasing [mid] when something else remains *)
Lemma erase_loop_spec fuel c1 c2 : c1 ++ c2 <> [] -> forall h last mid, lst h last (c1 ++ mid ++ c2) -> mid <> [] -> (length mid <= fuel)%nat ->
  exists h' last', erase_loop fuel h last (pred c1 (c1 ++ mid ++ c2)) (first_addr (c2 ++ c1) 0) = Ok (h', last', map snd mid) /\
    lst h' last' (c1 ++ c2) /\ only h (addrs (c1 ++ mid ++ c2)) h' (addrs (c1 ++ c2)).
Proof.
  intros Hne. induction fuel as [|fuel IH]; intros h last mid H Hm Hf; [destruct mid; [congruence|cbn in Hf; lia]|].
  destruct mid as [|[a x] mid]; [congruence|]. cbn [erase_loop app] in *.
  destruct (erase_mid h last c1 a x (mid ++ c2) H) as (h1 & last1 & E & Hr & _ & Hna & Hon). rewrite E. cbn [bind].
  assert (Hne1 : c1 ++ mid ++ c2 <> []) by (destruct c1, mid; cbn in *; congruence).
  rewrite (lst_zero _ _ _ Hr). destruct (c1 ++ mid ++ c2) as [|cc cs0] eqn:Ecs; [congruence|]. rewrite <- Ecs in *. clear cc cs0 Ecs.
  (* the predecessor is unchanged *)
  assert (Hpr : pred c1 (c1 ++ (a, x) :: mid ++ c2) = pred c1 (c1 ++ mid ++ c2)).
  { destruct c1; [|reflexivity]. cbn [app pred]. apply (last_addr_ins [] x a). cbn in Hne1. exact Hne1. }
  rewrite Hpr in *. destruct (pred_rot c1 (mid ++ c2) Hne1) as (r & z & Er). set (p := pred c1 (c1 ++ mid ++ c2)) in *.
  pose proof Hr as (Ho1 & Hnd1 & Hc1 & Hl1).
  apply (cyc_rot h1 c1 (mid ++ c2)) in Hc1. 
  assert (Hnx : next_of h1 p = Ok (first_addr (mid ++ c2 ++ c1) 0)).
  { rewrite app_assoc. rewrite Er in *. apply (next_of_some h1 p z).
    - apply (heap_ok_brk h1 p Ho1). apply (linked_live h1 _ _ p Hc1). rewrite addrs_app. apply in_or_app. right. left. reflexivity.
    - exact (linked_node h1 r p z [] _ Hc1). }
  rewrite Hnx. cbn [bind]. destruct mid as [|[b y] mid].
  - cbn [app]. rewrite Z.eqb_refl. do 2 eexists. split; [reflexivity|]. split; [exact Hr|exact Hon].
  - cbn [app first_addr]. destruct (Z.eqb_spec b (first_addr (c2 ++ c1) 0)) as [Eb|].
    { exfalso. apply nodup_rot in Hnd1. cbn [app addrs map fst] in Hnd1. apply NoDup_cons_iff in Hnd1 as [Hn _]. apply Hn.
      rewrite Eb. rewrite <- app_assoc, map_app. apply in_or_app. right. apply (first_addr_In (c2 ++ c1) 0).
      intros En. apply app_eq_nil in En as [-> ->]. apply Hne. reflexivity. }
    destruct (IH h1 last1 ((b, y) :: mid) Hr) as (h2 & last2 & E2 & Hr2 & Hon2); [discriminate|cbn in *; lia|].
    change (pred c1 (c1 ++ ((b, y) :: mid) ++ c2)) with p in E2. rewrite E2. cbn [bind]. do 2 eexists. split; [reflexivity|]. split; [exact Hr2|].
    exact (only_trans _ _ _ _ _ _ Hon Hon2).
Qed.

(** erasing everything: the loop ends when the list becomes empty *)
Lemma erase_loop_all fuel e : forall h last mid, lst h last mid -> mid <> [] -> ~ In e (tl (addrs mid)) -> (length mid <= fuel)%nat ->
  exists h', erase_loop fuel h last last e = Ok (h', 0, map snd mid) /\ heap_ok h' /\ only h (addrs mid) h' [].
Proof.
  induction fuel as [|fuel IH]; intros h last mid H Hm He Hf; [destruct mid; [congruence|cbn in Hf; lia]|].
  destruct mid as [|[a x] mid]; [congruence|]. cbn [erase_loop].
  pose proof H as (Ho & Hnd & Hc & Hl).
  destruct (erase_mid h last [] a x mid H) as (h1 & last1 & E & Hr & _ & Hna & Hon). cbn [app pred] in *. rewrite <- Hl in E.
  rewrite E. cbn [bind]. rewrite (lst_zero _ _ _ Hr). destruct mid as [|[b y] mid].
  - rewrite (lst_nil_inv _ _ Hr). exists h1. split; [reflexivity|]. split; [apply Hr|exact Hon].
  - assert (last1 = last) as ->.
    { destruct Hr as (_ & _ & _ & ->). rewrite Hl. symmetry. apply (last_addr_ins [] x a). discriminate. }
    pose proof (begin_spec h1 last _ Hr) as Hb. unfold begin in Hb. rewrite (lst_zero _ _ _ Hr) in Hb.
    destruct (next_of h1 last) as [nx|er]; cbn [bind] in Hb |- *; [|discriminate].
    assert (nx = b) as -> by (injection Hb; auto).
    destruct (Z.eqb_spec b e) as [Eb|]; [exfalso; apply He; cbn; auto|].
    destruct (IH h1 last ((b, y) :: mid) Hr) as (h2 & E2 & Ho2 & Hon2); [discriminate| |cbn in *; lia|].
    { cbn in *. tauto. }
    rewrite E2. cbn [bind]. exists h2. split; [reflexivity|]. split; [exact Ho2|]. exact (only_trans _ _ _ _ _ _ Hon Hon2).
Qed.

Lemma erase_range_spec h last c1 mid c2 : lst h last (c1 ++ mid ++ c2) -> c1 ++ mid ++ c2 <> [] ->
  exists h' last', erase_range h last (it_at c1 (mid ++ c2)) (it_at (c1 ++ mid) c2) = Ok (h', last', map snd mid, it_at (c1 ++ mid) c2) /\
    lst h' last' (c1 ++ c2) /\ only h (addrs (c1 ++ mid ++ c2)) h' (addrs (c1 ++ c2)).
Proof.
  intros H Hne. pose proof H as (Ho & Hnd & Hc & Hl). unfold erase_range. cbn [it_at ref prev].
  assert (Hz : forall b, In b (addrs (c1 ++ mid ++ c2)) -> b <> 0).
  { intros b Hb. apply (heap_ok_brk h b Ho). now apply (lst_live h last _ b H). }
  assert (Hhd : next_of h last = Ok (first_addr (c1 ++ mid ++ c2) 0)).
  { pose proof (begin_spec h last _ H) as Hb. unfold begin in Hb. rewrite (lst_zero _ _ _ H) in Hb.
    destruct (c1 ++ mid ++ c2) as [|cc cs0] eqn:E; [congruence|]. destruct (next_of h last) as [nx|er]; cbn [bind] in Hb; [|discriminate].
    injection Hb as ->. reflexivity. }
  assert (He : (if first_addr c2 0 =? 0 then next_of h last else Ok (first_addr c2 0)) = Ok (first_addr (c2 ++ c1 ++ mid) 0)).
  { destruct c2 as [|[b y] c2]; cbn [first_addr app].
    - cbn [Z.eqb]. rewrite Hhd. now rewrite app_nil_r.
    - destruct (Z.eqb_spec b 0); [|reflexivity]. exfalso. apply (Hz b); [|assumption]. rewrite !addrs_app. apply in_or_app. right. apply in_or_app. right. left. reflexivity. }
  rewrite He. cbn [bind].
  destruct mid as [|[a x] mid].
  - cbn [app]. rewrite Z.eqb_refl. do 2 eexists. split; [reflexivity|]. split; [exact H|]. apply only_refl. intros b Hb. now apply (lst_live h last _ b H).
  - cbn [app first_addr].
    destruct (Z.eqb_spec a (first_addr c2 0)) as [Ea|].
    { exfalso. destruct c2 as [|[b y] c2]; cbn [first_addr] in Ea.
      - apply (Hz a); [|exact Ea]. rewrite addrs_app. apply in_or_app. right. left. reflexivity.
      - rewrite addrs_app in Hnd. cbn [addrs map fst app] in Hnd. apply NoDup_remove_2 in Hnd. apply Hnd. apply in_or_app. right.
        rewrite map_app. apply in_or_app. right. left. cbn. congruence. }
    assert (Hdec : c1 ++ c2 = [] \/ c1 ++ c2 <> []) by (destruct (c1 ++ c2); [left; reflexivity|right; discriminate]).
    destruct Hdec as [En|En].
    + apply app_eq_nil in En as [-> ->]. cbn [app pred] in *. rewrite app_nil_r in *.
      destruct (erase_loop_all (fuel_of h) a h last ((a, x) :: mid) H) as (h' & E & Ho' & Hon); [discriminate| |now apply Nat.lt_le_incl, (lst_fuel h last)|].
      { cbn [addrs map tl]. cbn [addrs map fst] in Hnd. now apply NoDup_cons_iff in Hnd as [? _]. }
      rewrite Hl in E at 2. cbn [first_addr]. rewrite E. cbn [bind]. do 2 eexists. split; [reflexivity|]. split; [now apply lst_nil|exact Hon].
    + assert (Hfa : first_addr (c2 ++ c1 ++ (a, x) :: mid) 0 = first_addr (c2 ++ c1) 0).
      { rewrite app_assoc, first_addr_app. apply first_addr_ne. intros En'. apply app_eq_nil in En' as [-> ->]. apply En. reflexivity. }
      rewrite Hfa.
      destruct (erase_loop_spec (fuel_of h) c1 c2 En h last ((a, x) :: mid) H) as (h' & last' & E & Hr & Hon); [discriminate| |].
      { pose proof (lst_fuel _ _ _ H) as Hf. rewrite !app_length in Hf. lia. }
      cbn [app] in E. rewrite E. cbn [bind]. do 2 eexists. split; [reflexivity|]. split; [exact Hr|exact Hon].
Qed.

(** ** two lists in one heap *)
Lemma last_addr_nil_inv h cs : heap_ok h -> cyc h cs -> (last_addr cs =? 0) = match cs with [] => true | _ => false end.
Proof.
  intros Ho Hc. destruct cs as [|c0 cs]; [reflexivity|]. apply Z.eqb_neq. apply (heap_ok_brk h _ Ho).
  apply (linked_live h (c0 :: cs) _ _ Hc). apply last_addr_In. discriminate.
Qed.

Lemma setn_last_linked h r p y q q' : NoDup (addrs (r ++ [(p, y)])) -> linked h (r ++ [(p, y)]) q ->
  linked (setn h p (Some (y, q'))) (r ++ [(p, y)]) q'.
Proof.
  intros Hnd. rewrite !linked_app. intros [H1 H2]. cbn [first_addr linked] in *. split.
  - apply (linked_ext h); [|exact H1]. intros a Ha. apply node_setn_other. intros ->.
    rewrite addrs_app in Hnd. apply NoDup_remove_2 in Hnd. rewrite app_nil_r in Hnd. auto.
  - split; [apply node_setn_same|exact I].
Qed.

Lemma NoDup_app_l {B} (l1 l2 : list B) : NoDup (l1 ++ l2) -> NoDup l1.
Proof. induction l1 as [|b l1 IH]; cbn; [constructor|]. intros H. apply NoDup_cons_iff in H as [H1 H2]. constructor; auto. intros Hin. apply H1. apply in_or_app. auto. Qed.
Lemma NoDup_app_r {B} (l1 l2 : list B) : NoDup (l1 ++ l2) -> NoDup l2.
Proof. induction l1 as [|b l1 IH]; cbn; auto. intros H. apply NoDup_cons_iff in H as [H1 H2]. auto. Qed.
Lemma NoDup_app_disj {B} (l1 l2 : list B) b : NoDup (l1 ++ l2) -> In b l1 -> ~ In b l2.
Proof.
  induction l1 as [|c0 l1 IH]; cbn; [tauto|]. intros H. apply NoDup_cons_iff in H as [H1 H2]. intros [->|Hin] Hb; [|now apply IH].
  apply H1. apply in_or_app. auto.
Qed.

Lemma insert_node_spec h rlast rcs n x : heap_ok h -> circular h rlast rcs -> (exists q, node h n = Some (x, q)) -> ~ In n (addrs rcs) ->
  exists h' rlast', insert_after_node h rlast rlast n = Ok (h', rlast') /\ heap_ok h' /\ circular h' rlast' ((n, x) :: rcs) /\
    brk h' = brk h /\ (forall a, ~ In a (n :: addrs rcs) -> node h' a = node h a) /\ (forall a, live h' a <-> live h a).
Proof.
  intros Ho Hr [q Hq] Hn. pose proof Hr as (Hnd & Hc & Hl). assert (Hln : live h n) by (unfold live; congruence).
  destruct (heap_ok_brk h n Ho Hln) as [Hn0 _].
  unfold insert_after_node, insert_after_node_. rewrite Hl, (last_addr_nil_inv h rcs Ho Hc). destruct rcs as [|c0 rcs].
  - rewrite (set_next_some h n x q n Hn0 Hq). cbn [bind]. do 2 eexists. split; [reflexivity|]. split; [now apply heap_ok_setn|].
    split; [split; [repeat constructor; auto|]; split; [|reflexivity]; cbn [linked first_addr]; split; [apply node_setn_same|exact I]|].
    split; [reflexivity|]. split.
    + intros a Ha. apply node_setn_other. intros ->. apply Ha. left. reflexivity.
    + intros a. unfold live. rewrite node_setn. destruct (Z.eqb_spec a n) as [Ea|]; [subst a|tauto]. unfold live in Hln. split; [auto|discriminate].
  - destruct (@exists_last _ (c0 :: rcs) ltac:(discriminate)) as (r & [p y] & E). rewrite E in *. clear E c0 rcs.
    rewrite last_addr_app in *. subst rlast. pose proof (linked_node h r p y [] _ Hc) as Np. cbn [first_addr] in Np.
    set (f := first_addr (r ++ [(p, y)]) 0) in *.
    assert (Hlp : live h p) by (unfold live; congruence). destruct (heap_ok_brk h p Ho Hlp) as [Hp0 _].
    assert (Hpn : p <> n). { intros ->. apply Hn. rewrite addrs_app. apply in_or_app. right. left. reflexivity. }
    rewrite (next_of_some h p y f Hp0 Np). cbn [bind]. rewrite (set_next_some h n x q f Hn0 Hq). cbn [bind].
    assert (Np1 : node (setn h n (Some (x, f))) p = Some (y, f)) by (rewrite node_setn_other by exact Hpn; exact Np).
    rewrite (set_next_some _ p y f n Hp0 Np1). cbn [bind]. do 2 eexists. split; [reflexivity|].
    split; [apply heap_ok_setn; [now apply heap_ok_setn|unfold live; congruence]|].
    split; [|split; [reflexivity|split]].
    + split; [constructor; auto|]. split.
      * cbn [linked first_addr]. split.
        -- rewrite node_setn_other by auto. rewrite node_setn_same. unfold f. do 2 f_equal. apply first_addr_ne. destruct r; discriminate.
        -- apply (setn_last_linked _ r p y f n); [exact Hnd|]. apply (linked_ext h); [|exact Hc].
           intros a Ha. apply node_setn_other. intros ->. auto.
      * unfold last_addr. rewrite app_comm_cons. rewrite addrs_app. symmetry. apply last_last.
    + intros a Ha. cbn [In] in Ha. rewrite !node_setn_other; [reflexivity|intros ->; tauto|].
      intros ->. apply Ha. right. rewrite addrs_app. apply in_or_app. right. left. reflexivity.
    + intros a. unfold live. rewrite !node_setn. destruct (Z.eqb_spec a p) as [Ea|]; [subst a; split; [auto|discriminate]|].
      destruct (Z.eqb_spec a n) as [Ea|]; [subst a; split; [auto|discriminate]|tauto].
Qed.

Lemma reverse_loop_spec fuel : forall h last rlast cs rcs,
  heap_ok h -> circular h last cs -> circular h rlast rcs -> NoDup (addrs cs ++ addrs rcs) -> (length cs < fuel)%nat ->
  exists h' last', reverse_loop fuel h last rlast = Ok (h', last') /\ lst h' last' (rev cs ++ rcs) /\
    (forall a, ~ In a (addrs cs ++ addrs rcs) -> node h' a = node h a) /\ (forall a, live h' a <-> live h a).
Proof.
  induction fuel as [|fuel IH]; intros h last rlast cs rcs Ho Hc Hr Hnd Hf; [lia|]. cbn [reverse_loop].
  pose proof Hc as (Hnd1 & Hl1 & El). rewrite El, (last_addr_nil_inv h cs Ho Hl1). destruct cs as [|[n x] cs].
  - do 2 eexists. split; [reflexivity|]. split; [split; [exact Ho|exact Hr]|]. split; intros; [reflexivity|tauto].
  - cbn [rev]. rewrite <- app_assoc. cbn [app].
    assert (Hu : exists h1 last1, unlink_after_node h (last_addr ((n, x) :: cs)) (last_addr ((n, x) :: cs)) = Ok (h1, last1, n) /\
       heap_ok h1 /\ circular h1 last1 cs /\ (exists q, node h1 n = Some (x, q)) /\
       (forall a, ~ In a (addrs ((n, x) :: cs)) -> node h1 a = node h a) /\ (forall a, live h1 a <-> live h a)).
    { destruct cs as [|c0 cs].
      - destruct (unlink_single h n x (last_addr [(n, x)]) Ho Hl1) as (h1 & E1 & Ho1 & Hq & Hn0 & Hfr & Hb).
        cbn [last_addr addrs map fst List.last] in *. do 2 eexists. split; [exact E1|]. split; [exact Ho1|].
        split; [split; [constructor|split; [exact I|reflexivity]]|]. split; [exact Hq|]. split.
        + intros a Ha. apply Hfr. intros ->. apply Ha. left. reflexivity.
        + intros a. destruct (Z.eq_dec a n) as [->|Hne]; [|unfold live; rewrite Hfr by exact Hne; tauto].
          destruct Hq as [q Hq]. destruct Hl1 as [Hl1 _]. unfold live. rewrite Hq, Hl1. split; discriminate.
      - destruct (@exists_last _ (c0 :: cs) ltac:(discriminate)) as (r & [p y] & E). rewrite E in *.
        rewrite app_comm_cons, last_addr_app in *. 
        destruct (unlink_spec h n x r p y p Ho Hnd1 Hl1) as (h1 & E1 & Ho1 & Hc1 & Hnd1' & Hq & Hn0 & Hnp & Hnin & Hfr & Hlp & Hb).
        destruct (Z.eqb_spec n p) as [|_]; [lia|].
        do 2 eexists. split; [exact E1|]. split; [exact Ho1|]. split; [split; [exact Hnd1'|split; [exact Hc1|now rewrite last_addr_app]]|].
        split; [exact Hq|].
        assert (Hpl : live h p). { apply (linked_live h _ _ p Hl1). right. rewrite addrs_app. apply in_or_app. right. left. reflexivity. }
        split.
        + intros a Ha. apply Hfr. intros ->. apply Ha. right. rewrite addrs_app. apply in_or_app. right. left. reflexivity.
        + intros a. destruct (Z.eq_dec a p) as [->|Hne]; [tauto|]. unfold live. rewrite Hfr by exact Hne. tauto. }
    destruct Hu as (h1 & last1 & E1 & Ho1 & Hc1 & Hq & Hfr & Hlv). rewrite E1. cbn [bind].
    cbn [addrs map fst app] in Hnd. apply NoDup_cons_iff in Hnd as [Hn1 Hnd]. fold (addrs cs) in *. fold (addrs rcs) in *.
    assert (Hnr : ~ In n (addrs rcs)) by (intros Hin; apply Hn1; apply in_or_app; auto).
    assert (Hr1 : circular h1 rlast rcs).
    { destruct Hr as (Ra & Rb & Rc). split; [exact Ra|]. split; [|exact Rc]. apply (linked_ext h); [|exact Rb]. intros a Ha. apply Hfr.
      intros [Hin|Hin]; [cbn in Hin; subst a; auto|]. revert Ha. now apply (NoDup_app_disj _ _ a Hnd). }
    destruct (insert_node_spec h1 rlast rcs n x Ho1 Hr1 Hq Hnr) as (h2 & rlast2 & E2 & Ho2 & Hr2 & Hb2 & Hfr2 & Hlv2).
    rewrite E2. cbn [bind fst snd].
    assert (Hncs : ~ In n (addrs cs)) by (intros Hin; apply Hn1; apply in_or_app; auto).
    assert (Hc2 : circular h2 last1 cs).
    { destruct Hc1 as (Ra & Rb & Rc). split; [exact Ra|]. split; [|exact Rc]. apply (linked_ext h1); [|exact Rb]. intros a Ha. apply Hfr2.
      intros [Hin|Hin]; [subst a; auto|]. revert Hin. now apply (NoDup_app_disj _ _ a Hnd). }
    destruct (IH h2 last1 rlast2 cs ((n, x) :: rcs) Ho2 Hc2 Hr2) as (h3 & last3 & E3 & Hr3 & Hfr3 & Hlv3); [|cbn in Hf; lia|].
    { cbn [addrs map fst]. apply (Permutation_NoDup (Permutation_middle _ _ _)). constructor; [exact Hn1|exact Hnd]. }
    exists h3, last3. split; [exact E3|]. split; [exact Hr3|]. split.
    + intros a Ha. cbn [addrs map fst app In] in Ha. fold (addrs cs) (addrs rcs) in Ha. rewrite in_app_iff in Ha.
      rewrite Hfr3; [|rewrite in_app_iff; cbn [addrs map fst In]; fold (addrs rcs); tauto].
      rewrite Hfr2 by (cbn [In]; tauto). apply Hfr. cbn [addrs map fst In]. fold (addrs cs). tauto.
    + intros a. rewrite Hlv3, Hlv2, Hlv. tauto.
Qed.

Lemma addrs_rev cs : addrs (rev cs) = rev (addrs cs).
Proof. unfold addrs. apply map_rev. Qed.

Lemma only_same_nodes h h' as1 as2 : (forall a, In a as1 <-> In a as2) -> (forall a, ~ In a as1 -> node h' a = node h a) ->
  (forall a, live h' a <-> live h a) -> only h as1 h' as2.
Proof.
  intros P H L. split.
  - intros a Ha Hn. split; [now apply H|now rewrite <- P].
  - intros a Ha. apply L in Ha. destruct (in_dec Z.eq_dec a as2); [auto|right; rewrite P; auto].
Qed.

Lemma reverse_spec h last cs : lst h last cs ->
  exists h' last', reverse h last = Ok (h', last') /\ lst h' last' (rev cs) /\ only h (addrs cs) h' (addrs (rev cs)).
Proof.
  intros H. pose proof H as (Ho & Hc). unfold reverse.
  destruct (reverse_loop_spec (fuel_of h) h last 0 cs [] Ho Hc) as (h' & last' & E & Hr & Hfr & Hlv).
  - split; [constructor|]. split; [exact I|reflexivity].
  - cbn [addrs map]. rewrite app_nil_r. apply Hc.
  - now apply (lst_fuel h last).
  - rewrite app_nil_r in *. do 2 eexists. split; [exact E|]. split; [exact Hr|]. apply only_same_nodes; auto.
    intros a. rewrite addrs_rev. apply in_rev.
Qed.

(** ** splice *)
Lemma splice_spec h last c1 c2 olast ocs : two h last (c1 ++ c2) olast ocs ->
  exists h' last' it', splice h last (it_at c1 c2) olast = Ok (h', last', 0, it') /\ lst h' last' (c1 ++ ocs ++ c2) /\
    only h (addrs (c1 ++ c2) ++ addrs ocs) h' (addrs (c1 ++ ocs ++ c2)).
Proof.
  intros (Ho & Hc & Hoc & Hnd). pose proof Hc as (Hnd1 & Hl1 & E1). pose proof Hoc as (Hnd2 & Hl2 & E2).
  pose proof (last_addr_nil_inv h _ Ho Hl1) as Z1. pose proof (last_addr_nil_inv h _ Ho Hl2) as Z2. rewrite <- E1 in Z1. rewrite <- E2 in Z2.
  unfold splice. rewrite Z1, Z2. clear Z1 Z2.
  assert (Hin : forall a, In a (addrs (c1 ++ c2) ++ addrs ocs) <-> In a (addrs (c1 ++ ocs ++ c2))).
  { intros a. rewrite !addrs_app, !in_app_iff. tauto. }
  destruct (c1 ++ c2) as [|cc cs0] eqn:Ecs.
  - apply app_eq_nil in Ecs as [-> ->]. do 3 eexists. split; [reflexivity|]. cbn [app] in *. rewrite app_nil_r in *.
    split; [split; [exact Ho|exact Hoc]|]. apply only_same_nodes; auto; intros; tauto.
  - assert (Hne : c1 ++ c2 <> []) by (rewrite Ecs; discriminate). rewrite <- Ecs in *. clear Ecs cc cs0.
    destruct ocs as [|cc ocs0] eqn:Eo.
    { do 3 eexists. split; [reflexivity|]. cbn [app] in *. split; [split; [exact Ho|exact Hc]|].
      apply only_same_nodes; auto; intros; tauto. }
    assert (Hone : ocs <> []) by (rewrite Eo; discriminate). rewrite <- Eo in *. clear Eo cc ocs0.
    destruct (pred_rot c1 c2 Hne) as (r & z & Er). cbn [it_at ref prev haslast].
    set (p := pred c1 (c1 ++ c2)) in *.
    destruct (exists_last Hone) as (ro & [po zo] & Eo). rewrite Eo in E2. rewrite last_addr_app in E2. subst olast.
    assert (Hp : (if first_addr c2 0 =? 0 then last else p) = p).
    { destruct c2 as [|[b y] c2]; cbn [first_addr].
      - cbn [Z.eqb]. unfold p. rewrite E1, app_nil_r in *. destruct c1; [congruence|reflexivity].
      - destruct (Z.eqb_spec b 0) as [Eb|]; [|reflexivity]. exfalso. apply (heap_ok_nz h b Ho); [|exact Eb].
        apply (linked_live h _ _ b Hl1). rewrite addrs_app. apply in_or_app. right. left. reflexivity. }
    rewrite Hp. apply (cyc_rot h c1 c2) in Hl1 as Hcr. rewrite Er in Hcr.
    pose proof (linked_node h r p z [] _ Hcr) as Np. cbn [first_addr] in Np.
    pose proof Hl2 as Hl2'. rewrite Eo in Hl2'. pose proof (linked_node h ro po zo [] _ Hl2') as Npo. cbn [first_addr] in Npo.
    assert (Hlp : live h p) by (unfold live; congruence). assert (Hlpo : live h po) by (unfold live; congruence).
    destruct (heap_ok_brk h p Ho Hlp) as [Hp0 _]. destruct (heap_ok_brk h po Ho Hlpo) as [Hpo0 _].
    assert (Hpin : In p (addrs (c1 ++ c2))). { apply in_rot. rewrite Er, addrs_app. apply in_or_app. right. left. reflexivity. }
    assert (Hpoin : In po (addrs ocs)). { rewrite Eo, addrs_app. apply in_or_app. right. left. reflexivity. }
    assert (Hpp : po <> p). { intros ->. apply (NoDup_app_disj _ _ p Hnd Hpin). exact Hpoin. }
    set (f := first_addr (r ++ [(p, z)]) 0) in *. set (fo := first_addr (ro ++ [(po, zo)]) 0) in *.
    rewrite (next_of_some h p z f Hp0 Np). cbn [bind]. rewrite (next_of_some h po zo fo Hpo0 Npo). cbn [bind].
    rewrite (set_next_some h p z f fo Hp0 Np). cbn [bind].
    assert (Npo1 : node (setn h p (Some (z, fo))) po = Some (zo, fo)) by (rewrite node_setn_other by exact Hpp; exact Npo).
    rewrite (set_next_some _ po zo fo f Hpo0 Npo1). cbn [bind].
    set (h2 := setn (setn h p (Some (z, fo))) po (Some (zo, f))).
    assert (Hcyc : cyc h2 ((c2 ++ c1) ++ ocs)).
    { unfold cyc. rewrite linked_app, first_addr_app. rewrite Er, Eo.
      assert (Hf1 : first_addr (r ++ [(p, z)]) (first_addr (ro ++ [(po, zo)]) 0) = f) by (apply first_addr_ne; destruct r; discriminate).
      rewrite Hf1. split.
      - assert (Hf2 : first_addr (ro ++ [(po, zo)]) f = fo) by (apply first_addr_ne; destruct ro; discriminate). rewrite Hf2.
        apply (linked_ext (setn h p (Some (z, fo)))).
        + intros a Ha. apply node_setn_other. intros ->. apply (NoDup_app_disj _ _ po Hnd); [|exact Hpoin]. apply in_rot. now rewrite Er.
        + apply (setn_last_linked h r p z f fo); [|exact Hcr]. rewrite <- Er. now apply nodup_rot.
      - apply (setn_last_linked _ ro po zo fo f); [now rewrite <- Eo|]. apply (linked_ext h); [|exact Hl2'].
        intros a Ha. apply node_setn_other. intros ->. apply (NoDup_app_disj _ _ p Hnd Hpin). now rewrite Eo. }
    do 3 eexists. split; [reflexivity|]. fold h2.
    assert (Hlive2 : forall a, live h2 a <-> live h a).
    { intros a. unfold live, h2. rewrite !node_setn. destruct (Z.eqb_spec a po) as [Ea|]; [subst a; split; [auto|discriminate]|].
      destruct (Z.eqb_spec a p) as [Ea|]; [subst a; split; [auto|discriminate]|tauto]. }
    split.
    + split; [apply heap_ok_setn; [now apply heap_ok_setn|unfold live; congruence]|].
      split; [|split].
      * rewrite !addrs_app in *. apply (Permutation_NoDup (l := (addrs c1 ++ addrs c2) ++ addrs ocs)); [|exact Hnd].
        rewrite <- app_assoc. apply Permutation_app_head. apply Permutation_app_comm.
      * rewrite <- app_assoc in Hcyc. apply cyc_rot in Hcyc. rewrite <- app_assoc in Hcyc. exact Hcyc.
      * destruct c2 as [|[b y] c2]; cbn [first_addr].
        -- cbn [Z.eqb]. rewrite app_nil_r, Eo, app_assoc, last_addr_app. reflexivity.
        -- destruct (Z.eqb_spec b 0) as [Eb|]; [exfalso; apply (heap_ok_nz h b Ho); [|exact Eb];
             apply (linked_live h _ _ b Hl1); rewrite addrs_app; apply in_or_app; right; left; reflexivity|].
           rewrite E1, app_assoc, !(last_addr_app2 _ ((b, y) :: c2)) by discriminate. reflexivity.
    + apply only_same_nodes; auto. intros a Ha. unfold h2. rewrite in_app_iff in Ha.
      rewrite !node_setn_other; [reflexivity|intros ->; tauto|intros ->; tauto].
Qed.

(** ** split_off *)
Lemma split_off_spec h last c1 mid c2 : lst h last (c1 ++ mid ++ c2) ->
  exists h' last' olast, split_off h last (it_at c1 (mid ++ c2)) (it_at (c1 ++ mid) c2) = Ok (h', last', olast) /\
    two h' last' (c1 ++ c2) olast mid /\ only h (addrs (c1 ++ mid ++ c2)) h' (addrs (c1 ++ c2) ++ addrs mid).
Proof.
  intros H. pose proof H as (Ho & Hnd & Hc & Hl). unfold split_off. cbn [it_at ref prev].
  assert (Hin : forall a, In a (addrs (c1 ++ mid ++ c2)) <-> In a (addrs (c1 ++ c2) ++ addrs mid)).
  { intros a. rewrite !addrs_app, !in_app_iff. tauto. }
  assert (Hz : forall b, In b (addrs (c1 ++ mid ++ c2)) -> b <> 0).
  { intros b Hb. apply (heap_ok_brk h b Ho). now apply (lst_live h last _ b H). }
  destruct mid as [|[a x] mid0] eqn:Em.
  { cbn [app]. rewrite Z.eqb_refl. do 3 eexists. split; [reflexivity|]. cbn [app] in *.
    split; [|apply only_same_nodes; auto; intros; tauto]. split; [exact Ho|]. split; [exact (proj2 H)|]. split.
    - split; [constructor|split; [exact I|reflexivity]].
    - cbn [addrs map]. now rewrite app_nil_r. }
  assert (Hmne : mid <> []) by (rewrite Em; discriminate).
  assert (Hfm : first_addr mid 0 = a) by (rewrite Em; reflexivity).
  rewrite <- Em in *. clear Em.
  rewrite first_addr_app, (first_addr_ne mid (first_addr c2 0) 0 Hmne), Hfm.
  assert (Ham : In a (addrs mid)) by (rewrite <- Hfm; now apply first_addr_In).
  destruct (Z.eqb_spec a (first_addr c2 0)) as [Ea|].
  { exfalso. destruct c2 as [|[b y] c2]; cbn [first_addr] in Ea.
    - apply (Hz a); [|exact Ea]. rewrite !addrs_app. apply in_or_app. right. apply in_or_app. auto.
    - rewrite addrs_app in Hnd. apply NoDup_app_r in Hnd. rewrite addrs_app in Hnd. apply (NoDup_app_disj _ _ a Hnd Ham). left. symmetry. exact Ea. }
  destruct (exists_last Hmne) as (rm & [p2 z2] & Erm).
  assert (Hp2 : (if first_addr c2 0 =? 0 then last else pred (c1 ++ mid) ((c1 ++ mid) ++ c2)) = p2).
  { destruct c2 as [|[b y] c2]; cbn [first_addr].
    - cbn [Z.eqb]. rewrite Hl, app_nil_r, Erm, app_assoc, last_addr_app. reflexivity.
    - destruct (Z.eqb_spec b 0) as [Eb|]; [exfalso; apply (Hz b); [|exact Eb]; rewrite !addrs_app; apply in_or_app; right; apply in_or_app; right; left; reflexivity|].
      unfold pred. rewrite Erm. rewrite !app_assoc. destruct ((c1 ++ rm) ++ [(p2, z2)]) eqn:E; [destruct (c1 ++ rm); discriminate|]. rewrite <- E. apply last_addr_app. }
  rewrite Hp2.
  assert (Hdec : c1 ++ c2 = [] \/ c1 ++ c2 <> []) by (destruct (c1 ++ c2); [left; reflexivity|right; discriminate]).
  destruct Hdec as [En|En].
  - apply app_eq_nil in En as [-> ->]. cbn [app pred] in *. rewrite app_nil_r in *.
    rewrite Erm in *. rewrite last_addr_app in *. subst last.
    pose proof (linked_node h rm p2 z2 [] _ Hc) as N2. cbn [first_addr] in N2.
    assert (Hl2 : live h p2) by (unfold live; congruence). destruct (heap_ok_brk h p2 Ho Hl2) as [Hp20 _].
    set (f := first_addr (rm ++ [(p2, z2)]) 0) in *. assert (f = a) by (exact Hfm). 
    rewrite (next_of_some h p2 z2 f Hp20 N2). cbn [bind]. rewrite (set_next_some h p2 z2 f f Hp20 N2). cbn [bind].
    assert (N2' : node (setn h p2 (Some (z2, f))) p2 = Some (z2, f)) by apply node_setn_same.
    rewrite (set_next_some _ p2 z2 f a Hp20 N2'). cbn [bind]. rewrite !Z.eqb_refl. do 3 eexists. split; [reflexivity|].
    assert (Hsame : forall b, node (setn (setn h p2 (Some (z2, f))) p2 (Some (z2, a))) b = node h b).
    { intros b. rewrite !node_setn. destruct (Z.eqb_spec b p2) as [Eb|]; [subst b; congruence|reflexivity]. }
    split.
    + split; [apply heap_ok_setn; [now apply heap_ok_setn|unfold live; congruence]|].
      split; [split; [constructor|split; [exact I|reflexivity]]|]. split; [|exact Hnd].
      split; [exact Hnd|]. split; [|now rewrite last_addr_app]. apply (linked_ext h); [|exact Hc]. intros b _. apply Hsame.
    + apply only_same_nodes; [intros; cbn; tauto|intros; apply Hsame|intros b; unfold live; rewrite Hsame; tauto].
  - assert (Hpr : exists r z, c2 ++ c1 = r ++ [(pred c1 (c1 ++ mid ++ c2), z)]).
    { destruct c1 as [|b c1].
      - cbn [app pred] in *. rewrite app_nil_r in *. destruct (exists_last En) as (r & [p z] & ->). exists r, z.
        rewrite app_assoc, last_addr_app. reflexivity.
      - unfold pred. destruct (@exists_last _ (b :: c1) ltac:(discriminate)) as (r & [p z] & E). rewrite E, last_addr_app.
        exists (c2 ++ r), z. now rewrite app_assoc. }
    destruct Hpr as (r & z & Er). set (p1 := pred c1 (c1 ++ mid ++ c2)) in *.
    assert (Hcr : cyc h (mid ++ r ++ [(p1, z)])). { rewrite <- Er. rewrite app_assoc. apply cyc_rot. exact Hc. }
    assert (Hndr : NoDup (addrs (mid ++ r ++ [(p1, z)]))). { rewrite <- Er. rewrite app_assoc. apply nodup_rot. exact Hnd. }
    unfold cyc in Hcr. rewrite linked_app in Hcr. destruct Hcr as [Hm1 Hm2].
    rewrite (first_addr_app mid), (first_addr_ne mid _ 0 Hmne), Hfm in Hm1, Hm2.
    set (f := first_addr (r ++ [(p1, z)]) a) in *.
    rewrite Erm in Hm1. pose proof (linked_node h rm p2 z2 [] f Hm1) as N2. cbn [first_addr] in N2.
    pose proof (linked_node h r p1 z [] a Hm2) as N1. cbn [first_addr] in N1.
    assert (Hl2 : live h p2) by (unfold live; congruence). destruct (heap_ok_brk h p2 Ho Hl2) as [Hp20 _].
    assert (Hl1 : live h p1) by (unfold live; congruence). destruct (heap_ok_brk h p1 Ho Hl1) as [Hp10 _].
    assert (Hp2m : In p2 (addrs mid)) by (rewrite Erm, addrs_app; apply in_or_app; right; left; reflexivity).
    assert (Hp1r : In p1 (addrs (r ++ [(p1, z)]))) by (rewrite addrs_app; apply in_or_app; right; left; reflexivity).
    rewrite addrs_app in Hndr.
    assert (H12 : p1 <> p2). { intros E. apply (NoDup_app_disj _ _ p2 Hndr Hp2m). rewrite <- E. exact Hp1r. }
    rewrite (next_of_some h p2 z2 f Hp20 N2). cbn [bind]. rewrite (set_next_some h p1 z a f Hp10 N1). cbn [bind].
    assert (N2' : node (setn h p1 (Some (z, f))) p2 = Some (z2, f)) by (rewrite node_setn_other by auto; exact N2).
    rewrite (set_next_some _ p2 z2 f a Hp20 N2'). cbn [bind].
    set (h2 := setn (setn h p1 (Some (z, f))) p2 (Some (z2, a))).
    do 3 eexists. split; [reflexivity|]. fold h2.
    assert (Hcm : circular h2 p2 mid).
    { split; [apply NoDup_app_l in Hndr; exact Hndr|]. split; [|rewrite Erm, last_addr_app; reflexivity].
      rewrite Hfm. rewrite Erm. apply (setn_last_linked _ rm p2 z2 f a); [apply NoDup_app_l in Hndr; rewrite <- Erm; exact Hndr|].
      apply (linked_ext h); [|exact Hm1]. intros b Hb. apply node_setn_other. intros ->. apply (NoDup_app_disj _ _ p1 Hndr); [|exact Hp1r].
      now rewrite Erm. }
    assert (Hcyc2 : cyc h2 (c2 ++ c1)).
    { rewrite Er. unfold cyc. assert (Hf : first_addr (r ++ [(p1, z)]) 0 = f) by (apply first_addr_ne; destruct r; discriminate). rewrite Hf.
      apply (linked_ext (setn h p1 (Some (z, f)))).
      - intros b Hb. apply node_setn_other. intros ->. now apply (NoDup_app_disj _ _ p2 Hndr Hp2m).
      - apply (setn_last_linked h r p1 z a f); [|exact Hm2]. now apply NoDup_app_r in Hndr. }
    split.
    + split; [apply heap_ok_setn; [now apply heap_ok_setn|unfold live; congruence]|]. split; [|split; [exact Hcm|]].
      * split; [apply nodup_rot; rewrite Er; now apply NoDup_app_r in Hndr|]. split; [now apply cyc_rot|].
        destruct c2 as [|[b y] c2].
        -- rewrite app_nil_r in *. rewrite Hl. rewrite Erm, !app_assoc, last_addr_app, Z.eqb_refl.
           destruct (Z.eqb_spec p1 p2); [congruence|]. unfold p1. destruct c1; [congruence|reflexivity].
        -- destruct (Z.eqb_spec last p2) as [El|].
           { exfalso. rewrite Hl, app_assoc, last_addr_app2 in El by discriminate.
             apply (NoDup_app_disj _ _ p2 Hndr Hp2m). rewrite <- Er, addrs_app. apply in_or_app. left. rewrite <- El.
             apply (last_addr_In ((b, y) :: c2)). discriminate. }
           rewrite Hl, app_assoc, !(last_addr_app2 _ ((b, y) :: c2)) by discriminate. reflexivity.
      * rewrite !addrs_app in *. apply (Permutation_NoDup (l := addrs c1 ++ addrs mid ++ addrs c2)); [|exact Hnd].
        rewrite <- app_assoc. apply Permutation_app_head. apply Permutation_app_comm.
    + apply only_same_nodes; auto.
      * intros b Hb. unfold h2. rewrite Hin, in_app_iff in Hb.
        assert (Hp1in : In p1 (addrs (c1 ++ c2))). { apply in_rot. now rewrite Er. }
        rewrite !node_setn_other; [reflexivity|intros ->; tauto|intros ->; tauto].
      * intros b. unfold live, h2. rewrite !node_setn. destruct (Z.eqb_spec b p2) as [Eb|]; [subst b; split; [auto|discriminate]|].
        destruct (Z.eqb_spec b p1) as [Eb|]; [subst b; split; [auto|discriminate]|tauto].
Qed.
End P.
