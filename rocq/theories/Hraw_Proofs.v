(** A map with raw keys runs as the map of Hmap_Model.v over the converted keys. *)
From Verif Require Import Base Slots Pow2 Float32 Hmap_Model Hmap_Spec Hmap_Proofs Hmap_Proofs2 Hmap_Proofs3 Hraw_Model Hraw_Spec.

Section HrawProofs.
Context {K V RK RV : Type}.
Variable toraw : K -> RK.
Variable kfrom : RK -> K.
Variable vfrom : RV -> V.
Variable hash : RK -> Z.
Variable eqb : RK -> RK -> bool.
Hypothesis RO : raw_ok toraw kfrom hash eqb.
Implicit Types (h : hmap K V) (l : list (K * V)).

Definition khash (k : K) : Z := hash (toraw k).
Definition keqb (a b : K) : bool := eqb (toraw a) (toraw b).
Lemma kkey_ok : key_ok khash keqb.
Proof. destruct RO as [[A B C D] _]. unfold khash, keqb. constructor; eauto. Qed.

(** [k] stands for the raw key [r]. *)
Definition stands (k : K) (r : RK) : Prop := hash r = khash k /\ forall x, eqb (toraw x) r = keqb x k.
Lemma stands_raw k : stands k (toraw k). Proof. split; reflexivity. Qed.
Lemma stands_from r : stands (kfrom r) r.
Proof.
  destruct RO as [[A B C D] F]. specialize (F r). split; [unfold khash; symmetry; auto|]. intros x. unfold keqb.
  destruct (eqb (toraw x) r) eqn:E; symmetry.
  - exact (C _ _ _ E (B _ _ F)).
  - destruct (eqb (toraw x) (toraw (kfrom r))) eqn:E2; [|reflexivity]. rewrite (C _ _ _ E2 F) in E. discriminate.
Qed.

Lemma lookup_loop_eq k r : stands k r -> forall fuel h idx hx d, lookup_loop_r toraw eqb fuel h r idx hx d = lookup_loop keqb fuel h k idx hx d.
Proof.
  intros (_ & S). induction fuel as [|fuel IH]; intros; [reflexivity|]. cbn [lookup_loop_r lookup_loop].
  destruct (aget (metas h) idx) as [m|]; cbn [bind]; [|reflexivity]. destruct (d <=? dist m); [|reflexivity]. rewrite IH.
  destruct (hashx m =? hx); [|reflexivity]. destruct (rd (table h) idx); cbn [bind]; [|reflexivity]. now rewrite S.
Qed.
Lemma bucket_lookup_eq k r h : stands k r -> bucket_lookup_r toraw hash eqb h r = bucket_lookup khash keqb h k.
Proof. intros S. unfold bucket_lookup_r, bucket_lookup. rewrite (proj1 S). destruct (bcount h =? 0); [reflexivity|]. now apply lookup_loop_eq. Qed.
Lemma bucket_insert_eq k r h : stands k r -> bucket_insert_r toraw hash eqb h r = bucket_insert khash keqb h k.
Proof. intros S. unfold bucket_insert_r, bucket_insert. now rewrite (bucket_lookup_eq k r h S). Qed.
Lemma rehash_eq : forall fuel (old new : hmap K V) i, rehash_loop_r toraw hash eqb fuel old new i = rehash_loop khash keqb fuel old new i.
Proof.
  induction fuel as [|fuel IH]; intros; [reflexivity|]. cbn [rehash_loop_r rehash_loop]. destruct (i <? bcount old); [|reflexivity].
  destruct (aget (metas old) i) as [m|]; cbn [bind]; [|reflexivity]. destruct (negb (dist m =? 0)); [|apply IH].
  destruct (rd (table old) i) as [d|]; cbn [bind]; [|reflexivity]. rewrite (bucket_insert_eq (fst d) (toraw (fst d)) new (stands_raw _)).
  destruct (bucket_insert khash keqb new (fst d)) as [q|]; cbn [bind]; [|reflexivity]. destruct (r_ref (snd q)); [|reflexivity].
  destruct (put_ref (fst q) z d); cbn [bind]; [apply IH|reflexivity].
Qed.
Lemma reserve_eq h c : reserve_r toraw hash eqb h c = reserve khash keqb h c.
Proof. unfold reserve_r, reserve. destruct (_ || _); [reflexivity|]. match goal with |- context [aset ?a ?b ?c] => destruct (aset a b c) end; cbn [bind]; [|reflexivity]. apply rehash_eq. Qed.
Lemma insert_entry_eq k r h : stands k r -> insert_entry_r toraw hash eqb h r = insert_entry khash keqb h k.
Proof.
  intros S. unfold insert_entry_r, insert_entry. rewrite reserve_eq. match goal with |- context [bind ?x _] => destruct x as [h1|] end; cbn [bind]; [|reflexivity].
  now rewrite (bucket_insert_eq k r h1 S).
Qed.
Lemma get_eq k r h : stands k r -> get_r toraw hash eqb h r = get khash keqb h k.
Proof. intros S. unfold get_r, get. now rewrite (bucket_lookup_eq k r h S). Qed.

(** The operation on converted keys, and what it makes. *)
Definition conv (o : rop K V RK RV) : op K V :=
  match o with
  | RInsert k v => Insert k v
  | REmplace r rv => Emplace (kfrom r) (vfrom rv)
  | RInsertOrAssign k v => InsertOrAssign k v
  | REmplaceOrAssign r rv => EmplaceOrAssign (kfrom r) (vfrom rv)
  | RErase r => Erase (kfrom r)
  | RClear => Clear
  | RReserve c => Reserve c
  end.
Definition makes (o : rop K V RK RV) (b : bool) : list (destroyed K V) :=
  match o with
  | REmplace r rv => if b then [DKey (kfrom r); DVal (vfrom rv)] else []
  | REmplaceOrAssign r rv => if b then [DKey (kfrom r); DVal (vfrom rv)] else [DVal (vfrom rv)]
  | _ => []
  end.
Lemma step_eq h o : step_r toraw kfrom vfrom hash eqb h o =
  (let* r := step khash keqb h (conv o) in let '(h1, d, b) := r in Ok (h1, d, makes o b, b)).
Proof.
  destruct o as [k v|r rv|k v|r rv|r| |c]; cbn [step_r step conv makes].
  - unfold insert_r, insert. rewrite (insert_entry_eq k _ h (stands_raw k)). destruct (insert_entry khash keqb h k) as [q|]; cbn [bind]; [|reflexivity].
    destruct (r_inserted (snd q)); [|reflexivity]. destruct (the_ref (snd q)) as [i|]; cbn [bind]; [|reflexivity]. destruct (put_ref (fst q) i (k, v)); reflexivity.
  - unfold emplace_r, emplace. rewrite (insert_entry_eq _ _ h (stands_from r)). destruct (insert_entry khash keqb h (kfrom r)) as [q|]; cbn [bind]; [|reflexivity].
    destruct (r_inserted (snd q)); [|reflexivity]. destruct (the_ref (snd q)) as [i|]; cbn [bind]; [|reflexivity]. destruct (put_ref (fst q) i _); reflexivity.
  - unfold insert_or_assign_r, insert_or_assign. rewrite (insert_entry_eq k _ h (stands_raw k)). destruct (insert_entry khash keqb h k) as [q|]; cbn [bind]; [|reflexivity].
    destruct (the_ref (snd q)) as [i|]; cbn [bind]; [|reflexivity]. destruct (r_inserted (snd q)).
    + destruct (put_ref (fst q) i (k, v)); reflexivity.
    + destruct (rd (table (fst q)) i) as [e|]; cbn [bind]; [|reflexivity]. destruct (put_ref (fst q) i _); reflexivity.
  - unfold emplace_or_assign_r, emplace_or_assign. rewrite (insert_entry_eq _ _ h (stands_from r)). destruct (insert_entry khash keqb h (kfrom r)) as [q|]; cbn [bind]; [|reflexivity].
    destruct (the_ref (snd q)) as [i|]; cbn [bind]; [|reflexivity]. destruct (r_inserted (snd q)).
    + destruct (put_ref (fst q) i _); reflexivity.
    + destruct (rd (table (fst q)) i) as [e|]; cbn [bind]; [|reflexivity]. destruct (put_ref (fst q) i _); reflexivity.
  - unfold erase_r, erase. destruct (size h =? 0); [reflexivity|]. rewrite (bucket_lookup_eq _ _ h (stands_from r)).
    destruct (bucket_lookup khash keqb h (kfrom r)) as [q|]; cbn [bind]; [|reflexivity]. destruct (r_ref q) as [i|]; [|reflexivity].
    destruct (erase_entry h i); reflexivity.
  - destruct (clear h); reflexivity.
  - rewrite reserve_eq. destruct (reserve khash keqb h c); reflexivity.
Qed.
Definition pair_made (o : rop K V RK RV) (x : list (destroyed K V) * bool) : list (destroyed K V) * list (destroyed K V) * bool :=
  (fst x, makes o (snd x), snd x).
Fixpoint with_made (ops : list (rop K V RK RV)) (outs : list (list (destroyed K V) * bool)) : list (list (destroyed K V) * list (destroyed K V) * bool) :=
  match ops, outs with
  | o :: ops, x :: outs => pair_made o x :: with_made ops outs
  | _, _ => []
  end.
Lemma run_eq ops : forall h, run_r toraw kfrom vfrom hash eqb h ops =
  (let* r := run khash keqb h (map conv ops) in Ok (fst r, with_made ops (snd r))).
Proof.
  induction ops as [|o ops IH]; intros h; [reflexivity|]. cbn [run_r run map]. rewrite step_eq.
  destruct (step khash keqb h (conv o)) as [[[h1 d] b]|]; cbn [bind]; [|reflexivity]. rewrite IH.
  destruct (run khash keqb h1 (map conv ops)) as [q|]; reflexivity.
Qed.

Lemma rlookup_eq k r l : stands k r -> rlookup toraw eqb r l = lookup keqb k l.
Proof. intros (_ & S). unfold rlookup, lookup. induction l as [|e l IH]; [reflexivity|]. cbn. rewrite S. now destruct (keqb (fst e) k). Qed.
Lemma rassign_eq k r v l : stands k r -> rassign toraw eqb r v l = assign keqb k v l.
Proof. intros (_ & S). unfold rassign, assign. apply map_ext. intros e. now rewrite S. Qed.
Lemma rremove_eq k r l : stands k r -> rremove toraw eqb r l = remove keqb k l.
Proof. intros (_ & S). unfold rremove, remove. apply filter_ext. intros e. now rewrite S. Qed.
Lemma rstep_eq l o : rmap_step toraw kfrom vfrom eqb l o =
  (let '(l1, d, b) := map_step keqb l (conv o) in (l1, d, makes o b, b)).
Proof.
  destruct o as [k v|r rv|k v|r rv|r| |c]; cbn [rmap_step map_step conv makes]; try reflexivity.
  - rewrite (rlookup_eq k _ l (stands_raw k)). now destruct (lookup keqb k l).
  - rewrite (rlookup_eq _ _ l (stands_from r)). now destruct (lookup keqb (kfrom r) l).
  - rewrite (rlookup_eq k _ l (stands_raw k)), (rassign_eq k _ v l (stands_raw k)). now destruct (lookup keqb k l).
  - rewrite (rlookup_eq _ _ l (stands_from r)), (rassign_eq _ _ (vfrom rv) l (stands_from r)). now destruct (lookup keqb (kfrom r) l).
  - rewrite (rlookup_eq _ _ l (stands_from r)), (rremove_eq _ _ l (stands_from r)). now destruct (lookup keqb (kfrom r) l).
Qed.
Lemma rrun_eq ops : forall l, rmap_run toraw kfrom vfrom eqb l ops =
  (fst (map_run keqb l (map conv ops)), with_made ops (snd (map_run keqb l (map conv ops)))).
Proof.
  induction ops as [|o ops IH]; intros l; [reflexivity|]. cbn [rmap_run map_run map]. rewrite rstep_eq.
  destruct (map_step keqb l (conv o)) as [[l1 d] b]. rewrite IH. reflexivity.
Qed.
Lemma legal_eq ops : forall l, legal_r toraw kfrom vfrom hash eqb l ops -> legal khash keqb l (map conv ops).
Proof.
  induction ops as [|o ops IH]; intros l H; [exact I|]. cbn [legal_r legal map] in *. rewrite rstep_eq in H.
  destruct (map_step keqb l (conv o)) as [[l1 d] b]. cbn [fst snd] in *. destruct H as (A & B & C). split; [|split; auto].
  unfold legal_op. destruct o; exact A.
Qed.
Lemma same_made ops : forall a c, same_outs a c -> same_outs_r (with_made ops a) (with_made ops c).
Proof.
  induction ops as [|o ops IH]; intros a c H; [constructor|]. destruct H as [|x y a c (P & E) H]; [constructor|]. cbn [with_made].
  constructor; [|exact (IH _ _ H)]. unfold pair_made. cbn. rewrite E. auto.
Qed.
Lemma moved_made ops : forall l, Permutation (moved_in_all keqb l (map conv ops))
  (flat_map (fun x => snd (fst x)) (with_made ops (snd (map_run keqb l (map conv ops)))) ++ flat_map (@handed K V RK RV) ops).
Proof.
  induction ops as [|o ops IH]; intros l; [constructor|]. cbn [map moved_in_all map_run with_made flat_map].
  specialize (IH (fst (fst (map_step keqb l (conv o))))). destruct (map_step keqb l (conv o)) as [[l1 d] b] eqn:E. cbn [fst snd] in *.
  assert (X : Permutation (moved_in keqb l (conv o)) (makes o b ++ handed o)).
  { destruct o as [k v|r rv|k v|r rv|r| |c]; cbn [conv moved_in makes handed map_step] in *; try constructor; try apply Permutation_refl.
    - destruct (lookup keqb (kfrom r) l); injection E as _ _ <-; apply Permutation_refl.
    - destruct (lookup keqb (kfrom r) l); injection E as _ _ <-; apply Permutation_refl. }
  rewrite IH, X. cbn [with_made flat_map pair_made fst snd]. rewrite <- !app_assoc. apply Permutation_app_head. rewrite !app_assoc. apply Permutation_app_tail. apply Permutation_app_comm.
Qed.
Lemma with_made_fst ops : forall outs, length outs = length ops -> flat_map (fun x => fst (fst x)) (with_made ops outs) = flat_map fst outs.
Proof. induction ops as [|o ops IH]; intros [|x outs] H; try discriminate; [reflexivity|]. cbn. f_equal. apply IH. now injection H. Qed.
Lemma with_made_snd ops : forall a c, same_outs a c -> flat_map (fun x => snd (fst x)) (with_made ops a) = flat_map (fun x => snd (fst x)) (with_made ops c).
Proof.
  induction ops as [|o ops IH]; intros a c H; [reflexivity|]. destruct H as [|x y a c (P & E) H]; [reflexivity|]. cbn [with_made flat_map pair_made fst snd]. rewrite E. f_equal. auto.
Qed.
Lemma run_length ops : forall h h' outs, run khash keqb h ops = Ok (h', outs) -> length outs = length ops.
Proof.
  induction ops as [|o ops IH]; intros h h' outs H; [now injection H as _ <-|]. cbn [run] in H. destruct (step khash keqb h o) as [[[h1 d] b]|]; cbn [bind] in H; [|discriminate].
  destruct (run khash keqb h1 ops) as [[h2 o2]|] eqn:E; cbn [bind] in H; [|discriminate]. injection H as _ <-. cbn. f_equal. eauto.
Qed.
End HrawProofs.
