(** A sorted map with raw keys runs as the map of Smap_Model.v over the converted keys. *)
From Verif Require Import Base Slots Smap_Model Smap_Spec Smap_Proofs Smap_Proofs3 Smap_Proofs4 Smap_Proofs5 Sraw_Model Sraw_Spec.
From Coq Require Import Sorted.

Section SrawProofs.
Context {K V RK RV : Type}.
Variable toraw : K -> RK.
Variable kfrom : RK -> K.
Variable vfrom : RV -> V.
Variable cmp : RK -> RK -> Z.
Hypothesis RO : raw_ok toraw kfrom cmp.
Implicit Types (s : smap K V) (l : list (K * V)).

Definition kcmp (a b : K) : Z := cmp (toraw a) (toraw b).
Lemma kcmp_ok : cmp_ok kcmp.
Proof. destruct RO as [[A B C D E] _]. unfold kcmp. constructor; eauto. Qed.

(** [k] stands for the raw key [r]: every stored key compares to both alike. *)
Definition stands (k : K) (r : RK) : Prop := forall x, Z.sgn (cmp (toraw x) r) = Z.sgn (kcmp x k).
Lemma stands_raw k : stands k (toraw k). Proof. intros x. reflexivity. Qed.
Lemma stands_from r : stands (kfrom r) r.
Proof.
  destruct RO as [CO F]. specialize (F r). intros x. unfold kcmp. set (y := toraw (kfrom r)) in *. set (z := toraw x).
  assert (F' : cmp r y = 0).
  { pose proof (co_opp _ CO y r). pose proof (co_opp _ CO r y). lia. }
  pose proof (co_opp _ CO z y). pose proof (co_opp _ CO y z). pose proof (co_opp _ CO z r). pose proof (co_opp _ CO r z).
  pose proof (co_eq_r _ CO z y r). pose proof (co_eq_r _ CO z r y). pose proof (co_eq_l _ CO r y z). pose proof (co_eq_l _ CO y r z). lia.
Qed.
Lemma sgn_eqb a b : Z.sgn a = Z.sgn b -> (a =? 0) = (b =? 0). Proof. intros. apply Bool.eq_iff_eq_true. rewrite !Z.eqb_eq. lia. Qed.
Lemma sgn_ltb a b : Z.sgn a = Z.sgn b -> (a <? 0) = (b <? 0). Proof. intros. apply Bool.eq_iff_eq_true. rewrite !Z.ltb_lt. lia. Qed.
Lemma sgn_gtb a b : Z.sgn a = Z.sgn b -> (0 <? a) = (0 <? b). Proof. intros. apply Bool.eq_iff_eq_true. rewrite !Z.ltb_lt. lia. Qed.
Lemma stands_eqb k r x : stands k r -> (cmp (toraw x) r =? 0) = (kcmp x k =? 0). Proof. intros S. now apply sgn_eqb. Qed.
Lemma stands_ltb k r x : stands k r -> (cmp (toraw x) r <? 0) = (kcmp x k <? 0). Proof. intros S. now apply sgn_ltb. Qed.
Lemma stands_gtb k r x : stands k r -> (0 <? cmp (toraw x) r) = (0 <? kcmp x k). Proof. intros S. now apply sgn_gtb. Qed.

Lemma descend_eq k r : stands k r -> forall fuel (d : slots (node K V)) tx up dir, descend_r toraw cmp fuel d tx r up dir = descend kcmp fuel d tx k up dir.
Proof.
  intros S. induction fuel as [|fuel IH]; intros; [reflexivity|]. cbn [descend_r descend]. destruct (tx =? 0); [reflexivity|]. destruct (64 <=? zlen up); [reflexivity|].
  destruct (rd d tx) as [n|]; cbn [bind]; [|reflexivity]. destruct (get_val d tx) as [e|]; cbn [bind]; [|reflexivity].
  rewrite (stands_eqb k r _ S), (stands_ltb k r _ S), IH. reflexivity.
Qed.
Lemma insert_entry_eq k r s : stands k r -> insert_entry_r toraw cmp s r = insert_entry kcmp s k.
Proof. intros S. unfold insert_entry_r, insert_entry. now rewrite (descend_eq k r S). Qed.
Lemma erase_loop_eq : forall fuel k r, stands k r -> forall (d : slots (node K V)) dp tn er, erase_loop_r toraw cmp fuel d dp tn r er = erase_r kcmp fuel d dp tn k er.
Proof.
  induction fuel as [|fuel IH]; intros k r S; intros; [reflexivity|]. cbn [erase_loop_r erase_r]. destruct (tn =? 0); [reflexivity|].
  destruct (rd d tn) as [n|]; cbn [bind]; [|reflexivity]. destruct (get_val d tn) as [e|]; cbn [bind]; [|reflexivity].
  rewrite (stands_eqb k r _ S), (stands_ltb k r _ S), (IH k r S). f_equal. destruct (kcmp (fst e) k =? 0); cbn [negb]; [|reflexivity].
  destruct (negb (lk0 n =? 0) && negb (lk1 n =? 0)); [|reflexivity]. destruct (go_right (length d) d (lk0 n)) as [tx|]; cbn [bind]; [|reflexivity].
  destruct (get_val d tx) as [v|]; cbn [bind]; [|reflexivity]. destruct (set_val d tn v) as [d1|]; cbn [bind]; [|reflexivity].
  now rewrite (IH (fst v) (toraw (fst v)) (stands_raw _)).
Qed.
Lemma find_loop_eq k r : stands k r -> forall fuel (d : slots (node K V)) t stk, find_loop_r toraw cmp fuel d t r stk = find_loop kcmp fuel d t k stk.
Proof.
  intros S. induction fuel as [|fuel IH]; intros; [reflexivity|]. cbn [find_loop_r find_loop]. destruct (t =? 0); [reflexivity|].
  destruct (rd d t) as [n|]; cbn [bind]; [|reflexivity]. destruct (get_val d t) as [e|]; cbn [bind]; [|reflexivity].
  rewrite !Z.gtb_ltb, (stands_ltb k r _ S), (stands_gtb k r _ S), !IH. reflexivity.
Qed.
Lemma find_it_eq k r s : stands k r -> find_it_r toraw cmp s r = find_it kcmp s k.
Proof. intros S. now apply find_loop_eq. Qed.
Lemma get_eq k r s : stands k r -> get_r toraw cmp s r = get kcmp s k.
Proof. intros S. unfold get_r, get. now rewrite (find_it_eq k r s S). Qed.
Lemma lower_bound_eq k r s : stands k r -> lower_bound_r toraw cmp s r = lower_bound kcmp s k.
Proof. intros S. unfold lower_bound_r, lower_bound. now rewrite (find_it_eq k r s S). Qed.

(** The operation on converted keys, and what it makes. *)
Definition conv (o : rop K V RK RV) : op K V :=
  match o with
  | RInsert k v => Insert k v
  | REmplace r rv => Emplace (kfrom r) (vfrom rv)
  | RInsertOrAssign k v => InsertOrAssign k v
  | REmplaceOrAssign r rv => EmplaceOrAssign (kfrom r) (vfrom rv)
  | RErase r => Erase (kfrom r)
  | RClear => Clear
  | RReserve c => Reserve c
  end.
Definition makes (o : rop K V RK RV) (b : bool) : list (destroyed K V) :=
  match o with
  | REmplace r rv => if b then [DKey (kfrom r); DVal (vfrom rv)] else []
  | REmplaceOrAssign r rv => if b then [DKey (kfrom r); DVal (vfrom rv)] else [DVal (vfrom rv)]
  | _ => []
  end.
Lemma step_eq s o : step_r toraw kfrom vfrom cmp s o =
  (let* r := step kcmp s (conv o) in let '(s1, d, b) := r in Ok (s1, d, makes o b, b)).
Proof.
  destruct o as [k v|r rv|k v|r rv|r| |c]; cbn [step_r step conv makes].
  - unfold insert_r, insert. rewrite (insert_entry_eq k _ s (stands_raw k)). destruct (insert_entry kcmp s k) as [[[s1 i] [|]]|]; cbn [bind]; [|reflexivity|reflexivity].
    destruct (put_val s1 i (k, v)); reflexivity.
  - unfold emplace_r, emplace. rewrite (insert_entry_eq _ _ s (stands_from r)). destruct (insert_entry kcmp s (kfrom r)) as [[[s1 i] [|]]|]; cbn [bind]; [|reflexivity|reflexivity].
    destruct (put_val s1 i _); reflexivity.
  - unfold insert_or_assign_r, insert_or_assign. rewrite (insert_entry_eq k _ s (stands_raw k)). destruct (insert_entry kcmp s k) as [[[s1 i] [|]]|]; cbn [bind]; [| |reflexivity].
    + destruct (put_val s1 i (k, v)); reflexivity.
    + destruct (get_val (nodes s1) i) as [e|]; cbn [bind]; [|reflexivity]. destruct (put_val s1 i _); reflexivity.
  - unfold emplace_or_assign_r, emplace_or_assign. rewrite (insert_entry_eq _ _ s (stands_from r)). destruct (insert_entry kcmp s (kfrom r)) as [[[s1 i] [|]]|]; cbn [bind]; [| |reflexivity].
    + destruct (put_val s1 i _); reflexivity.
    + destruct (get_val (nodes s1) i) as [e|]; cbn [bind]; [|reflexivity]. destruct (put_val s1 i _); reflexivity.
  - unfold erase_key_r, erase. rewrite (erase_loop_eq _ _ _ (stands_from r)).
    destruct (erase_r kcmp (S (length (nodes s))) (nodes s) (disp s) (root s) (kfrom r) 0) as [[[[[d dp] t] er] ds]|]; cbn [bind]; [|reflexivity]. destruct (er =? 0); reflexivity.
  - destruct (clear s); reflexivity.
  - destruct (reserve s c); reflexivity.
Qed.
Definition pair_made (o : rop K V RK RV) (x : list (destroyed K V) * bool) : list (destroyed K V) * list (destroyed K V) * bool :=
  (fst x, makes o (snd x), snd x).
Fixpoint with_made (ops : list (rop K V RK RV)) (outs : list (list (destroyed K V) * bool)) : list (list (destroyed K V) * list (destroyed K V) * bool) :=
  match ops, outs with
  | o :: ops, x :: outs => pair_made o x :: with_made ops outs
  | _, _ => []
  end.
Lemma run_eq ops : forall s, run_r toraw kfrom vfrom cmp s ops =
  (let* r := run kcmp s (map conv ops) in Ok (fst r, with_made ops (snd r))).
Proof.
  induction ops as [|o ops IH]; intros s; [reflexivity|]. cbn [run_r run map]. rewrite step_eq.
  destruct (step kcmp s (conv o)) as [[[s1 d] b]|]; cbn [bind]; [|reflexivity]. rewrite IH.
  destruct (run kcmp s1 (map conv ops)) as [q|]; reflexivity.
Qed.

Lemma rlookup_eq k r l : stands k r -> rlookup toraw cmp r l = lookup kcmp k l.
Proof. intros S. unfold rlookup, lookup. induction l as [|e l IH]; [reflexivity|]. cbn. rewrite (stands_eqb k r _ S). now destruct (kcmp (fst e) k =? 0). Qed.
Lemma rassign_eq k r v l : stands k r -> rassign toraw cmp r v l = assign kcmp k v l.
Proof. intros S. unfold rassign, assign. apply map_ext. intros e. now rewrite (stands_eqb k r _ S). Qed.
Lemma rremove_eq k r l : stands k r -> rremove toraw cmp r l = remove kcmp k l.
Proof. intros S. unfold rremove, remove. apply filter_ext. intros e. now rewrite (stands_eqb k r _ S). Qed.
Lemma radd_eq k v l : radd toraw cmp k v l = add kcmp k v l.
Proof. reflexivity. Qed.
Lemma rstep_eq l o : rmap_step toraw kfrom vfrom cmp l o =
  (let '(l1, d, b) := map_step kcmp l (conv o) in (l1, d, makes o b, b)).
Proof.
  destruct o as [k v|r rv|k v|r rv|r| |c]; cbn [rmap_step map_step conv makes]; try reflexivity.
  - rewrite (rlookup_eq k _ l (stands_raw k)). now destruct (lookup kcmp k l).
  - rewrite (rlookup_eq _ _ l (stands_from r)). now destruct (lookup kcmp (kfrom r) l).
  - rewrite (rlookup_eq k _ l (stands_raw k)), (rassign_eq k _ v l (stands_raw k)). now destruct (lookup kcmp k l).
  - rewrite (rlookup_eq _ _ l (stands_from r)), (rassign_eq _ _ (vfrom rv) l (stands_from r)). now destruct (lookup kcmp (kfrom r) l).
  - rewrite (rlookup_eq _ _ l (stands_from r)), (rremove_eq _ _ l (stands_from r)). now destruct (lookup kcmp (kfrom r) l).
Qed.
Lemma rrun_eq ops : forall l, rmap_run toraw kfrom vfrom cmp l ops =
  (fst (map_run kcmp l (map conv ops)), with_made ops (snd (map_run kcmp l (map conv ops)))).
Proof.
  induction ops as [|o ops IH]; intros l; [reflexivity|]. cbn [rmap_run map_run map]. rewrite rstep_eq.
  destruct (map_step kcmp l (conv o)) as [[l1 d] b]. rewrite IH. reflexivity.
Qed.
Lemma legal_eq ops : forall n l, legal_r toraw kfrom vfrom cmp n l ops -> legal kcmp n l (map conv ops).
Proof.
  induction ops as [|o ops IH]; intros n l H; [exact Logic.I|]. cbn [legal_r legal map] in *. rewrite rstep_eq in H.
  destruct (map_step kcmp l (conv o)) as [[l1 d] b]. cbn [fst snd] in *. destruct H as (A & B & C).
  split; [destruct o; exact A|]. split; [exact B|]. destruct o; apply IH; exact C.
Qed.
Lemma same_made ops : forall a c, same_outs a c -> same_outs_r (with_made ops a) (with_made ops c).
Proof.
  induction ops as [|o ops IH]; intros a c H; [constructor|]. destruct H as [|x y a c (P & E) H]; [constructor|]. cbn [with_made].
  constructor; [|exact (IH _ _ H)]. unfold pair_made. cbn. rewrite E. auto.
Qed.

(** * Ownership on the specification *)
Lemma lookup_split k l e : lookup kcmp k l = Some e -> exists el er, l = el ++ e :: er /\ kcmp (fst e) k = 0.
Proof.
  induction l as [|a l IH]; cbn; [discriminate|]. destruct (Z.eqb_spec (kcmp (fst a) k) 0) as [Q|Q].
  - intros H. injection H as <-. now exists [], l.
  - intros H. destruct (IH H) as (el & er & -> & Q2). now exists (a :: el), er.
Qed.
Lemma partition_perm k l : lookup kcmp k l = None ->
  Permutation (filter (fun e => kcmp (fst e) k <? 0) l ++ filter (fun e => 0 <? kcmp (fst e) k) l) l.
Proof.
  induction l as [|a l IH]; cbn; [constructor|]. destruct (Z.eqb_spec (kcmp (fst a) k) 0) as [Q|Q]; [discriminate|]. intros H. specialize (IH H).
  destruct (Z.ltb_spec (kcmp (fst a) k) 0), (Z.ltb_spec 0 (kcmp (fst a) k)); try lia.
  - cbn. now constructor.
  - rewrite <- Permutation_middle. now constructor.
Qed.
Notation objs := (flat_map (@destroy_entry K V)).
Lemma objs_add k v l : lookup kcmp k l = None -> Permutation (objs (add kcmp k v l)) (DKey k :: DVal v :: objs l).
Proof.
  intros H. unfold add, below, above. rewrite <- Permutation_middle. cbn [flat_map destroy_entry fst snd app]. do 2 constructor.
  apply Permutation_flat_map. now apply partition_perm.
Qed.
Lemma objs_assign k v l e : increasing kcmp l -> lookup kcmp k l = Some e -> Permutation (DVal (snd e) :: objs (assign kcmp k v l)) (DVal v :: objs l).
Proof.
  intros I H. destruct (lookup_split _ _ _ H) as (el & er & -> & Q). rewrite (assign_m kcmp kcmp_ok el er e k I v Q).
  rewrite <- !Permutation_middle. cbn [flat_map destroy_entry fst snd app].
  etransitivity; [apply perm_swap|]. etransitivity; [|apply perm_swap]. constructor. apply perm_swap.
Qed.
Lemma objs_remove k l e : increasing kcmp l -> lookup kcmp k l = Some e -> Permutation (objs (remove kcmp k l) ++ destroy_entry e) (objs l).
Proof.
  intros I H. destruct (lookup_split _ _ _ H) as (el & er & -> & Q). rewrite (remove_m kcmp kcmp_ok el er e k I Q).
  rewrite <- Permutation_middle. cbn [flat_map]. apply Permutation_app_comm.
Qed.
Lemma step_inc l o : increasing kcmp l -> increasing kcmp (fst (fst (map_step kcmp l (conv o)))).
Proof.
  intros I. destruct o as [k v|r rv|k v|r rv|r| |c]; cbn [map_step conv];
    try (destruct (lookup kcmp _ l) eqn:L; cbn [fst snd]); auto using inc_assign, inc_add, kcmp_ok.
  - unfold remove. now apply inc_filter.
  - constructor.
Qed.
Lemma step_owns l o : increasing kcmp l ->
  let r := rmap_step toraw kfrom vfrom cmp l o in
  Permutation (objs (fst (fst (fst r))) ++ snd (fst (fst r))) (objs l ++ snd (fst r) ++ handed o).
Proof.
  intros I. cbn zeta. rewrite rstep_eq. destruct o as [k v|r rv|k v|r rv|r| |c]; cbn [map_step conv handed makes]; try (destruct (lookup kcmp _ l) as [e|] eqn:L; cbn [fst snd makes]);
    rewrite ?app_nil_r; try reflexivity.
  - rewrite objs_add by exact L. etransitivity; [apply (Permutation_app_comm [_; _])|reflexivity].
  - rewrite objs_add by exact L. etransitivity; [apply (Permutation_app_comm [_; _])|reflexivity].
  - etransitivity; [apply Permutation_app_comm|]. cbn [app]. rewrite (objs_assign k v l e I L). apply (Permutation_app_comm [_; _]).
  - rewrite objs_add by exact L. etransitivity; [apply (Permutation_app_comm [_; _])|reflexivity].
  - rewrite Permutation_app_comm. cbn [app]. rewrite (objs_assign _ _ l e I L). apply (Permutation_app_comm [_]).
  - rewrite objs_add by exact L. etransitivity; [apply (Permutation_app_comm [_; _])|reflexivity].
  - now apply objs_remove.
Qed.
Lemma run_inc ops : forall l, increasing kcmp l -> increasing kcmp (fst (rmap_run toraw kfrom vfrom cmp l ops)).
Proof.
  induction ops as [|o ops IH]; intros l I; [exact I|]. cbn [rmap_run]. pose proof (step_inc l o I) as I1. rewrite rstep_eq.
  destruct (map_step kcmp l (conv o)) as [[l1 d] b]. cbn [fst snd] in *. now apply IH.
Qed.
Lemma run_owns ops : forall l, increasing kcmp l ->
  let r := rmap_run toraw kfrom vfrom cmp l ops in
  Permutation (objs (fst r) ++ flat_map (fun x => fst (fst x)) (snd r)) (objs l ++ flat_map (fun x => snd (fst x)) (snd r) ++ flat_map (@handed K V RK RV) ops).
Proof.
  induction ops as [|o ops IH]; intros l I; cbn zeta; [reflexivity|]. cbn [rmap_run]. pose proof (step_inc l o I) as I1. pose proof (step_owns l o I) as P. cbn zeta in P. rewrite rstep_eq in *.
  destruct (map_step kcmp l (conv o)) as [[l1 d] b]. cbn [fst snd flat_map] in *. specialize (IH l1 I1). cbn zeta in IH.
  set (R := rmap_run toraw kfrom vfrom cmp l1 ops) in *.
  set (D := flat_map (fun x => fst (fst x)) (snd R)) in *. set (M := flat_map (fun x => snd (fst x)) (snd R)) in *. set (H := flat_map (@handed K V RK RV) ops) in *.
  etransitivity; [apply Permutation_app_swap_app|]. rewrite IH. etransitivity; [apply Permutation_app_swap_app|]. rewrite app_assoc, P. rewrite <- !app_assoc.
  apply Permutation_app_head, Permutation_app_head. apply Permutation_app_swap_app.
Qed.
Lemma outs_fst (a c : list (list (destroyed K V) * list (destroyed K V) * bool)) : same_outs_r a c ->
  Permutation (flat_map (fun x => fst (fst x)) a) (flat_map (fun x => fst (fst x)) c) /\ flat_map (fun x => snd (fst x)) a = flat_map (fun x => snd (fst x)) c.
Proof. induction 1 as [|x y a c (P & E & _) H (IH1 & IH2)]; cbn; [auto|]. split; [now apply Permutation_app|congruence]. Qed.
End SrawProofs.
