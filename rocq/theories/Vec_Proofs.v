(** Proofs about the vec model. *)
From Verif Require Import Base Slots Vec_Model Vec_Spec.
Ltac Zify.zify_post_hook ::= Z.div_mod_to_equations.

Section P.
Context {A : Type}.
Implicit Types (v : vec A) (l : list A).

Lemma stored_holds v l : stored v l <-> size v = zlen l /\ holds (buf v) l.
Proof. reflexivity. Qed.

Lemma stored_init : stored (@init A) [].
Proof. split; [reflexivity|]. now exists []. Qed.

Lemma stored_cap v l : stored v l -> zlen l <= capacity v.
Proof. intros [_ H]. apply (holds_zlen (buf v) l H). Qed.

Lemma stored_inj v l1 l2 : stored v l1 -> stored v l2 -> l1 = l2.
Proof. intros [H1 E1] [H2 E2]. apply (holds_inj (buf v)); auto. congruence. Qed.

Lemma reserve_spec v l cap : stored v l -> 0 <= cap ->
  stored (fst (reserve v cap)) l /\ capacity (fst (reserve v cap)) >= cap /\
  snd (reserve v cap) = negb (capacity (fst (reserve v cap)) =? 0).
Proof.
  intros [Hs Hh] Hc. unfold reserve. cbn [fst snd]. split; [|split; [|reflexivity]];
  destruct (Z.gtb_spec cap (capacity v)); cbn [orb].
  - split; [exact Hs|]. cbn [buf]. apply holds_realloc; [exact Hh|].
    pose proof (holds_zlen (buf v) l Hh). unfold capacity in *. lia.
  - destruct (Z.eqb_spec cap 0), (Z.eqb_spec cap (size v)); cbn [negb andb]; try (now split).
    split; [exact Hs|]. cbn [buf]. apply holds_realloc; [exact Hh|]. lia.
  - unfold capacity. cbn [buf]. rewrite zlen_realloc by lia. lia.
  - destruct (Z.eqb_spec cap 0), (Z.eqb_spec cap (size v)); cbn [negb andb]; try lia.
    unfold capacity. cbn [buf]. rewrite zlen_realloc by lia. lia.
Qed.

Lemma push_spec v l x : stored v l ->
  exists v', push v x = Ok (v', Some (zlen l)) /\ stored v' (l ++ [x]).
Proof.
  intros Hst. pose proof (zlen_nonneg l). pose proof (stored_cap _ _ Hst) as Hcap. pose proof Hst as [Hs Hh].
  unfold push.
  destruct (Z.eqb_spec (size v) (capacity v)).
  - pose proof (reserve_spec v l (size v * 2 + 4) Hst ltac:(lia)) as (H1 & H2 & H3).
    destruct (reserve v (size v * 2 + 4)) as [v1 ok]. cbn [fst snd] in *.
    rewrite H3. destruct (Z.eqb_spec (capacity v1) 0); [lia|]. cbn [negb].
    destruct H1 as [Hs1 Hh1]. rewrite Hs1.
    destruct (holds_wr_end (buf v1) l x Hh1) as (s & W & Hs' & Z'); [unfold capacity in *; lia|].
    rewrite W. cbn [bind]. eexists. split; [reflexivity|]. split; [|exact Hs'].
    cbn [size]. rewrite zlen_app. reflexivity.
  - rewrite Hs. destruct (holds_wr_end (buf v) l x Hh) as (s & W & Hs' & Z'); [unfold capacity in *; lia|].
    rewrite W. cbn [bind]. eexists. split; [reflexivity|]. split; [|exact Hs'].
    cbn [size]. rewrite zlen_app. reflexivity.
Qed.

Lemma last_split l : l <> [] -> exists l0 x, l = l0 ++ [x].
Proof. intros H. destruct (exists_last H) as (l0 & z & ->). eauto. Qed.

Lemma stored_prefix v l l1 : stored v (l ++ l1) -> stored (mkvec (buf v) (zlen l)) l.
Proof. intros [Hs Hh]. split; [reflexivity|]. cbn [buf]. eapply holds_app; eauto. Qed.

Lemma pop_spec v l x : stored v (l ++ [x]) ->
  pop v = Ok (mkvec (buf v) (zlen l), x) /\ pull v = Ok (mkvec (buf v) (zlen l), x) /\
  stored (mkvec (buf v) (zlen l)) l.
Proof.
  intros Hst. pose proof Hst as [Hs Hh]. pose proof (zlen_nonneg l).
  rewrite zlen_app in Hs. change (zlen [x]) with 1 in Hs.
  assert (rd (buf v) (size v - 1) = Ok x) as Hr.
  { rewrite (holds_rd _ (l ++ [x])) by (auto; rewrite zlen_app; change (zlen [x]) with 1; lia).
    rewrite aget_app2 by lia. replace (size v - 1 - zlen l) with 0 by lia. reflexivity. }
  unfold pop, pull. destruct (Z.eqb_spec (size v) 0); [lia|]. rewrite Hr. cbn [bind].
  replace (size v - 1) with (zlen l) by lia. split; [reflexivity|]. split; [reflexivity|].
  eapply stored_prefix; eauto.
Qed.

Lemma insert_n_spec v l idx xs : stored v l -> 0 <= idx <= zlen l ->
  exists v' o, insert_n v idx xs = Ok (v', o) /\
    stored v' (firstn (Z.to_nat idx) l ++ xs ++ skipn (Z.to_nat idx) l) /\
    (o = Some idx \/ o = None /\ xs = []).
Proof.
  intros Hst Hi. pose proof (zlen_nonneg l). pose proof (zlen_nonneg xs).
  unfold insert_n, insert_uninit.
  set (p := if size v + zlen xs >=? capacity v then reserve v (size v * 3 / 2 + zlen xs) else (v, true)).
  assert (Hp : stored (fst p) l /\ zlen l + zlen xs <= capacity (fst p) /\
               (snd p = true \/ (snd p = false /\ xs = [] /\ l = []))).
  { pose proof Hst as [Hs Hh]. unfold p. destruct (Z.geb_spec (size v + zlen xs) (capacity v)).
    - pose proof (reserve_spec v l (size v * 3 / 2 + zlen xs) Hst ltac:(lia)) as (H1' & H2' & H3').
      split; [exact H1'|]. split; [lia|]. rewrite H3'.
      destruct (Z.eqb_spec (capacity (fst (reserve v (size v * 3 / 2 + zlen xs)))) 0); cbn [negb]; [right|now left].
      split; [reflexivity|].
      assert (zlen xs = 0 /\ zlen l = 0) as [Hx Hl] by lia.
      split; [destruct xs; [reflexivity|rewrite zlen_cons in Hx; pose proof (zlen_nonneg xs); lia]|].
      destruct l; [reflexivity|rewrite zlen_cons in Hl; pose proof (zlen_nonneg l); lia].
    - cbn [fst snd]. repeat split; auto; lia. }
  destruct p as [v1 ok]. cbn [fst snd] in Hp. destruct Hp as (Hst1 & Hc & [->|(-> & -> & ->)]).
  - destruct Hst1 as [Hs1 Hh1]. rewrite Hs1.
    destruct (holds_insert (buf v1) l idx xs Hh1 Hi Hc) as (s1 & s2 & M1 & W2 & Hh2 & Z1 & Z2).
    rewrite M1. cbn [bind fst snd buf]. rewrite W2. cbn [bind]. do 2 eexists. split; [reflexivity|].
    split; [|now left]. split; [|exact Hh2]. cbn [size]. rewrite !zlen_app, zlen_firstn, zlen_skipn by lia. lia.
  - cbn [bind snd]. do 2 eexists. split; [reflexivity|].
    split; [|now right]. rewrite firstn_nil, skipn_nil. exact Hst1.
Qed.

Lemma erase_n_spec v l idx n : stored v l -> 0 <= idx -> 0 <= n -> idx + n <= zlen l ->
  exists v', erase_n v idx n = Ok (v', firstn (Z.to_nat n) (skipn (Z.to_nat idx) l),
                                   if idx + n =? zlen l then None else Some idx) /\
    stored v' (firstn (Z.to_nat idx) l ++ skipn (Z.to_nat (idx + n)) l) /\ capacity v' = capacity v.
Proof.
  intros [Hs Hh] Hi Hn Hle. unfold erase_n. rewrite Hs.
  destruct (Z.leb_spec (idx + n) (zlen l)); [|lia]. cbn [negb].
  rewrite (holds_rds _ l) by auto. cbn [bind].
  destruct (holds_remove (buf v) l idx n Hh Hi Hn Hle) as (s1 & M & Hh1 & Z1).
  rewrite M. cbn [bind]. eexists. split; [reflexivity|]. split; [|exact Z1]. split; [|exact Hh1].
  cbn [size]. rewrite zlen_app, zlen_firstn, zlen_skipn by lia. lia.
Qed.

Lemma holds_append s l xs : holds s l -> zlen l + zlen xs <= zlen s ->
  exists s', wrs s (zlen l) xs = Ok s' /\ holds s' (l ++ xs) /\ zlen s' = zlen s.
Proof.
  intros Hh Hc. pose proof (zlen_nonneg l).
  destruct (ablit_some s (zlen l) (map Some xs)) as [s' H1]; [lia|rewrite zlen_map; lia|].
  exists s'. split; [exact H1|]. apply ablit_inv in H1 as (_ & _ & Z1 & G1). split; [|exact Z1].
  apply holds_of; [rewrite zlen_app; lia|].
  intros i x Hx. rewrite G1, zlen_map. pose proof (aget_ok_range _ _ _ Hx) as Ri. rewrite zlen_app in Ri.
  rewrite aget_app in Hx by lia. destruct (Z.ltb_spec i (zlen l)).
  - destruct (Z.leb_spec (zlen l) i); [lia|]. cbn [andb]. eapply holds_aget; eauto.
  - destruct (Z.leb_spec (zlen l) i); [|lia]. destruct (Z.ltb_spec i (zlen l + zlen xs)); [|lia]. cbn [andb].
    rewrite aget_map, Hx. reflexivity.
Qed.

Lemma resize_spec v l len null : stored v l -> 0 <= len ->
  exists v' ok, resize v len null = Ok (v', skipn (Z.to_nat len) l, ok) /\
    stored v' (firstn (Z.to_nat len) l ++ repeat null (Z.to_nat len - length l)) /\
    (ok = true \/ ok = false /\ len = 0 /\ l = []).
Proof.
  intros Hst Hl. unfold resize. pose proof (zlen_nonneg l).
  pose proof (reserve_spec v l len Hst Hl) as (Hst1 & Hc & Hok).
  destruct (reserve v len) as [v1 ok]. cbn [fst snd] in *. subst ok.
  pose proof (stored_cap _ _ Hst1) as Hcap1.
  destruct (Z.eqb_spec (capacity v1) 0); cbn [negb].
  - assert (len = 0 /\ zlen l = 0) as [-> Hl0] by lia.
    assert (l = []) as -> by (destruct l; [reflexivity|rewrite zlen_cons in Hl0; pose proof (zlen_nonneg l); lia]).
    do 2 eexists. split; [reflexivity|]. split; [exact Hst1|]. now right.
  - destruct Hst1 as [Hs1 Hh1]. rewrite Hs1.
    assert (E1 : (if len <? zlen l then rds (buf v1) len (zlen l - len) else Ok []) = Ok (skipn (Z.to_nat len) l)).
    { destruct (Z.ltb_spec len (zlen l)).
      - rewrite (holds_rds _ l) by (auto; lia). f_equal. apply firstn_all2. rewrite skipn_length. unfold zlen. lia.
      - f_equal. symmetry. apply skipn_all2. unfold zlen in *. lia. }
    rewrite E1. cbn [bind].
    destruct (Z.ltb_spec (zlen l) len).
    + destruct (holds_append (buf v1) l (repeat null (Z.to_nat (len - zlen l))) Hh1) as (s' & W & Hh' & Z').
      { rewrite zlen_repeat by lia. unfold capacity in Hc. lia. }
      rewrite W. cbn [bind]. do 2 eexists. split; [reflexivity|]. split; [|now left].
      rewrite firstn_all2 by (unfold zlen in *; lia).
      replace (Z.to_nat len - length l)%nat with (Z.to_nat (len - zlen l)) by (unfold zlen; lia).
      split; [|exact Hh']. cbn [size]. rewrite zlen_app, zlen_repeat by lia. lia.
    + cbn [bind]. do 2 eexists. split; [reflexivity|]. split; [|now left].
      replace (Z.to_nat len - length l)%nat with 0%nat by (unfold zlen in *; lia). cbn [repeat]. rewrite app_nil_r.
      split; [|now apply holds_firstn]. cbn [size]. rewrite zlen_firstn by lia. lia.
Qed.

Lemma firstn_S_aget l (k : nat) x : aget l (Z.of_nat k) = Ok x -> firstn (S k) l = firstn k l ++ [x].
Proof.
  intros [_ Hx]%aget_nth. rewrite Nat2Z.id in Hx.
  revert l Hx. induction k as [|k IH]; intros [|h t] Hx; cbn in Hx; try discriminate.
  - injection Hx as ->. reflexivity.
  - change (h :: firstn (S k) t = h :: (firstn k t ++ [x])). now rewrite (IH t Hx).
Qed.

Lemma clear_loop_spec k s l : holds s l -> Z.of_nat k <= zlen l ->
  clear_loop k s = Ok (rev (firstn k l)).
Proof.
  intros Hs. induction k as [|k IH]; intros Hk; [reflexivity|]. cbn [clear_loop].
  rewrite (holds_rd s l) by (auto; lia).
  destruct (aget_some l (Z.of_nat k)) as [x Hx]; [lia|]. rewrite Hx. cbn [bind].
  rewrite IH by lia. cbn [bind]. rewrite (firstn_S_aget _ _ _ Hx), rev_app_distr. reflexivity.
Qed.

Lemma clear_spec v l : stored v l -> clear v = Ok (mkvec (buf v) 0, rev l) /\ stored (mkvec (buf v) 0) [].
Proof.
  intros [Hs Hh]. pose proof (zlen_nonneg l). unfold clear.
  rewrite (clear_loop_spec _ _ l Hh) by lia. rewrite Hs. rewrite firstn_all2 by (unfold zlen; lia). cbn [bind].
  split; [reflexivity|]. split; [reflexivity|]. apply holds_nil.
Qed.

Lemma drop_spec v l : stored v l -> drop v = Ok (rev l).
Proof.
  intros Hst. unfold drop. pose proof (stored_cap _ _ Hst). pose proof (zlen_nonneg l).
  destruct (Z.eqb_spec (capacity v) 0).
  - destruct l; [reflexivity|rewrite zlen_cons in *; pose proof (zlen_nonneg l); lia].
  - destruct (clear_spec v l Hst) as [-> _]. reflexivity.
Qed.

Lemma rds_all v l : stored v l -> rds (buf v) 0 (size v) = Ok l.
Proof.
  intros [Hs Hh]. rewrite Hs. pose proof (zlen_nonneg l).
  rewrite (holds_rds _ l) by (auto; lia). cbn [skipn Z.to_nat]. rewrite firstn_all2; [reflexivity|unfold zlen; lia].
Qed.

Lemma clone_spec v l : stored v l -> exists w, clone v = Ok w /\ stored w l.
Proof.
  intros Hst. unfold clone. rewrite (rds_all v l Hst). cbn [bind].
  destruct (insert_n_spec init [] 0 l stored_init) as (w & o & E & Hw & _); [cbn; lia|].
  rewrite E. cbn [bind]. exists w. split; [reflexivity|].
  cbn [firstn skipn Z.to_nat app] in Hw. now rewrite app_nil_r in Hw.
Qed.

Lemma copy_spec v l w m : stored v l -> stored w m -> exists v', copy v w = Ok (v', rev l) /\ stored v' m.
Proof.
  intros Hv Hw. unfold copy. destruct (clear_spec v l Hv) as [-> Hst]. cbn [bind fst snd].
  rewrite (rds_all w m Hw). cbn [bind].
  destruct (insert_n_spec _ [] 0 m Hst) as (v' & o & E & Hv' & _); [cbn; lia|].
  rewrite E. cbn [bind]. exists v'. split; [reflexivity|].
  cbn [firstn skipn Z.to_nat app] in Hv'. now rewrite app_nil_r in Hv'.
Qed.

Lemma step_spec v l o : stored v l -> legal_op l o ->
  exists v', step v o = Ok (v', snd (seq_step l o)) /\ stored v' (fst (seq_step l o)).
Proof.
  intros Hst Hl. destruct o; cbn [step seq_step fst snd legal_op] in *.
  - destruct (push_spec v l x Hst) as (v' & -> & H). cbn. eauto.
  - destruct (last_split l Hl) as (l0 & x & ->). destruct (pop_spec v l0 x Hst) as (-> & _ & H). cbn [bind fst snd].
    rewrite app_length. cbn [length]. replace (length l0 + 1 - 1)%nat with (length l0 + 0)%nat by lia.
    rewrite skipn_app, (skipn_all2 l0) by lia. replace (length l0 + 0 - length l0)%nat with 0%nat by lia.
    rewrite removelast_last. eauto.
  - destruct (last_split l Hl) as (l0 & x & ->). destruct (pop_spec v l0 x Hst) as (_ & -> & H). cbn [bind fst snd].
    rewrite app_length. cbn [length]. replace (length l0 + 1 - 1)%nat with (length l0 + 0)%nat by lia.
    rewrite skipn_app, (skipn_all2 l0) by lia. replace (length l0 + 0 - length l0)%nat with 0%nat by lia.
    rewrite removelast_last. eauto.
  - destruct (insert_n_spec v l idx xs Hst Hl) as (v' & o & -> & H & _). cbn. eauto.
  - destruct Hl as (H1 & H2 & H3). destruct (erase_n_spec v l idx n Hst H1 H2 H3) as (v' & -> & H & _). cbn. eauto.
  - destruct (resize_spec v l len null Hst Hl) as (v' & ok & -> & H & _). cbn. eauto.
  - destruct (reserve_spec v l cap Hst Hl) as (H & _). eauto.
  - unfold shrink_to_fit. pose proof Hst as [Hs _]. pose proof (zlen_nonneg l).
    destruct (reserve_spec v l (size v) Hst ltac:(lia)) as (H0 & _). eauto.
  - destruct (clear_spec v l Hst) as [-> H]. cbn. eauto.
Qed.

Lemma run_spec ops v l : stored v l -> legal l ops ->
  exists v', run v ops = Ok (v', snd (seq_run l ops)) /\ stored v' (fst (seq_run l ops)).
Proof.
  revert v l. induction ops as [|o ops IH]; intros v l Hst Hl; cbn [run seq_run fst snd].
  - eauto.
  - destruct Hl as [Ho Hl]. destruct (step_spec v l o Hst Ho) as (v1 & -> & H1). cbn [bind fst snd].
    destruct (IH v1 _ H1 Hl) as (v2 & -> & H2). cbn [bind fst snd]. eauto.
Qed.

(** ownership *)
Lemma step_owner l o : legal_op l o ->
  Permutation (l ++ moved_in l o)
    (fst (seq_step l o) ++ fst (snd (seq_step l o)) ++ snd (snd (seq_step l o))).
Proof.
  intros Hl. destruct o; cbn [seq_step fst snd moved_in legal_op] in *; rewrite ?app_nil_r; try apply Permutation_refl.
  - rewrite removelast_firstn_len. replace (Nat.pred (length l)) with (length l - 1)%nat by lia.
    now rewrite firstn_skipn.
  - cbn [app]. rewrite removelast_firstn_len. replace (Nat.pred (length l)) with (length l - 1)%nat by lia.
    now rewrite firstn_skipn.
  - rewrite <- (firstn_skipn (Z.to_nat idx) l) at 1. rewrite <- app_assoc. apply Permutation_app_head.
    apply Permutation_app_comm.
  - destruct Hl as (H1 & H2 & H3). rewrite <- (firstn_skipn (Z.to_nat idx) l) at 1. rewrite <- app_assoc.
    apply Permutation_app_head. rewrite <- (firstn_skipn (Z.to_nat n) (skipn (Z.to_nat idx) l)) at 1.
    rewrite skipn_skipn. replace (Z.to_nat n + Z.to_nat idx)%nat with (Z.to_nat (idx + n)) by lia.
    apply Permutation_app_comm.
  - rewrite <- (firstn_skipn (Z.to_nat len) l) at 1. rewrite <- !app_assoc. apply Permutation_app_head.
    apply Permutation_app_comm.
  - cbn [app]. apply Permutation_rev.
Qed.

Definition dropped_all (outs : list (list A * list A)) : list A := concat (map fst outs).
Definition given_all (outs : list (list A * list A)) : list A := concat (map snd outs).

Lemma run_owner ops l : legal l ops ->
  Permutation (l ++ moved_in_all l ops)
    (fst (seq_run l ops) ++ dropped_all (snd (seq_run l ops)) ++ given_all (snd (seq_run l ops))).
Proof.
  revert l. induction ops as [|o ops IH]; intros l Hl; cbn [seq_run moved_in_all fst snd].
  - cbn. rewrite !app_nil_r. apply Permutation_refl.
  - destruct Hl as [Ho Hl]. specialize (IH _ Hl). pose proof (step_owner l o Ho) as P1.
    set (l1 := fst (seq_step l o)) in *. set (out := snd (seq_step l o)) in *.
    set (R := seq_run l1 ops) in *. unfold dropped_all, given_all in *. cbn [map concat].
    rewrite app_assoc, P1. rewrite <- app_assoc.
    transitivity ((l1 ++ moved_in_all l1 ops) ++ fst out ++ snd out).
    { rewrite <- !app_assoc. apply Permutation_app_head. rewrite (app_assoc (fst out)). apply Permutation_app_comm. }
    rewrite IH. rewrite <- !app_assoc. apply Permutation_app_head.
    set (D := concat (map fst (snd R))). set (G := concat (map snd (snd R))).
    transitivity ((fst out ++ D) ++ (snd out ++ G)).
    + transitivity ((D ++ fst out) ++ (G ++ snd out)).
      * rewrite <- !app_assoc. apply Permutation_app_head. rewrite !app_assoc. apply Permutation_app_tail. apply Permutation_app_comm.
      * apply Permutation_app; apply Permutation_app_comm.
    + rewrite <- !app_assoc. apply Permutation_refl.
Qed.

(** iteration *)
Lemma each_loop_spec k fuel s l it : holds s l -> (k < length l)%nat ->
  ref it = Some (Z.of_nat k) -> iend it = Some (zlen l) -> (length l - k < fuel)%nat ->
  each_loop next fuel s it = Ok (skipn k l).
Proof.
  intros Hh. revert k it. induction fuel as [|fuel IH]; intros k it Hk Hr He Hf; [lia|].
  cbn [each_loop]. rewrite Hr. rewrite (holds_rd s l) by (auto; unfold zlen; lia).
  destruct (aget_some l (Z.of_nat k)) as [x Hx]; [unfold zlen; lia|]. rewrite Hx. cbn [bind].
  assert (Hsk : skipn k l = x :: skipn (S k) l).
  { apply aget_nth in Hx as [_ Hx]. rewrite Nat2Z.id in Hx. clear - Hx. revert l Hx.
    induction k as [|k IH]; intros [|h t] Hx; cbn in Hx; try discriminate.
    - injection Hx as ->. reflexivity.
    - change (skipn k t = x :: skipn (S k) t). now apply IH. }
  unfold next. rewrite Hr, He. cbn [oeqb]. destruct (Z.eqb_spec (Z.of_nat k + 1) (zlen l)) as [E|E].
  - destruct fuel; [lia|]. cbn [each_loop ref bind]. rewrite Hsk. rewrite (skipn_all2 l); [reflexivity|unfold zlen in E; lia].
  - rewrite (IH (S k)); cbn [ref iend bind]; auto; try (unfold zlen in E; lia); try (f_equal; lia). now rewrite Hsk.
Qed.

Lemma each_spec v l : stored v l -> (l <> [] \/ capacity v = 0) -> each v = Ok l.
Proof.
  intros Hst Hor. pose proof (stored_cap _ _ Hst) as Hc. pose proof Hst as [Hs Hh].
  unfold each, begin, is_null. pose proof (zlen_nonneg l).
  destruct (Z.eqb_spec (capacity v) 0).
  - cbn. destruct l; [reflexivity|rewrite zlen_cons in *; pose proof (zlen_nonneg l); lia].
  - destruct Hor as [Hne|]; [|lia].
    rewrite (each_loop_spec 0 _ (buf v) l); auto; cbn [ref iend]; try (now rewrite Hs).
    + destruct l; [congruence|cbn; lia].
    + unfold zlen in *. lia.
Qed.

Lemma rev_loop_spec k fuel s l it : holds s l -> (k < length l)%nat ->
  ref it = Some (Z.of_nat k) -> iend it = Some (-1) -> (S k < fuel)%nat ->
  each_loop rnext fuel s it = Ok (rev (firstn (S k) l)).
Proof.
  intros Hh. revert k it. induction fuel as [|fuel IH]; intros k it Hk Hr He Hf; [lia|].
  cbn [each_loop]. rewrite Hr. rewrite (holds_rd s l) by (auto; unfold zlen; lia).
  destruct (aget_some l (Z.of_nat k)) as [x Hx]; [unfold zlen; lia|]. rewrite Hx. cbn [bind].
  rewrite (firstn_S_aget _ _ _ Hx), rev_app_distr. cbn [rev app].
  unfold rnext. rewrite Hr, He. cbn [oeqb]. destruct (Z.eqb_spec (Z.of_nat k - 1) (-1)) as [E|E].
  - destruct fuel; [lia|]. cbn [each_loop ref bind]. assert (k = 0%nat) by lia. subst k. reflexivity.
  - destruct k as [|k]; [lia|]. rewrite (IH k); cbn [ref iend bind]; auto; try lia; try (f_equal; lia).
Qed.

Lemma each_reverse_spec v l : stored v l -> (l <> [] \/ capacity v = 0) -> each_reverse v = Ok (rev l).
Proof.
  intros Hst Hor. pose proof (stored_cap _ _ Hst) as Hc. pose proof Hst as [Hs Hh].
  unfold each_reverse, rbegin, is_null. pose proof (zlen_nonneg l).
  destruct (Z.eqb_spec (capacity v) 0).
  - cbn. destruct l; [reflexivity|rewrite zlen_cons in *; pose proof (zlen_nonneg l); lia].
  - destruct Hor as [Hne|]; [|lia].
    assert (0 < length l)%nat by (destruct l; [congruence|cbn; lia]).
    rewrite (rev_loop_spec (length l - 1) _ (buf v) l); auto; cbn [ref iend]; try lia.
    + f_equal. f_equal. apply firstn_all2. lia.
    + f_equal. unfold zlen in *. lia.
    + unfold zlen in *. lia.
Qed.

(** equality *)
Lemma eq_loop_spec eqb k fuel s t l m : holds s l -> holds t m -> zlen l = zlen m ->
  (k <= length l)%nat -> (length l - k < fuel)%nat ->
  exists b, eq_loop eqb fuel s t (Z.of_nat k) (zlen l) = Ok b /\
    (b = true <-> forall i x y, Z.of_nat k <= i -> aget l i = Ok x -> aget m i = Ok y -> eqb x y = true).
Proof.
  intros Hs Ht Hz. revert k. induction fuel as [|fuel IH]; intros k Hk Hf; [lia|].
  cbn [eq_loop]. destruct (Z.ltb_spec (Z.of_nat k) (zlen l)) as [Hlt|Hge].
  - rewrite (holds_rd s l), (holds_rd t m) by (auto; lia).
    destruct (aget_some l (Z.of_nat k)) as [x Hx]; [lia|]. destruct (aget_some m (Z.of_nat k)) as [y Hy]; [lia|].
    rewrite Hx, Hy. cbn [bind]. destruct (eqb x y) eqn:E; cbn [negb].
    + replace (Z.of_nat k + 1) with (Z.of_nat (S k)) by lia.
      destruct (IH (S k)) as (b & Eb & Hb); [unfold zlen in Hlt; lia|unfold zlen in Hlt; lia|].
      exists b. split; [exact Eb|]. rewrite Hb. split; intros H i x0 y0 Hi Hx0 Hy0; [|apply (H i); auto; lia].
      destruct (Z.eq_dec i (Z.of_nat k)) as [->|]; [congruence|]. apply (H i); auto. lia.
    + exists false. split; [reflexivity|]. split; [discriminate|]. intros H.
      rewrite <- E. apply (H (Z.of_nat k)); auto. lia.
  - exists true. split; [reflexivity|]. split; auto. intros _ i x y Hi Hx. pose proof (aget_ok_range _ _ _ Hx). lia.
Qed.

Lemma eq_spec eqb v w l m : stored v l -> stored w m ->
  exists b, eq eqb v w = Ok b /\ (b = true <-> Forall2 (fun x y => eqb x y = true) l m).
Proof.
  intros [Hs Hh] [Hs' Hh']. unfold eq. rewrite Hs, Hs'.
  destruct (Z.eqb_spec (zlen l) (zlen m)) as [E|E]; cbn [negb].
  - destruct (eq_loop_spec eqb 0 (S (Z.to_nat (zlen l))) (buf v) (buf w) l m) as (b & Eb & Hb); auto; [lia|unfold zlen; lia|].
    exists b. split; [exact Eb|]. rewrite Hb. clear - E. split.
    + revert m E. induction l as [|x l IH]; intros [|y m] E H.
      * constructor.
      * rewrite zlen_cons, zlen_nil in E. pose proof (zlen_nonneg m). lia.
      * rewrite zlen_cons, zlen_nil in E. pose proof (zlen_nonneg l). lia.
      * constructor; [apply (H 0); [lia|reflexivity|reflexivity]|]. apply IH; [rewrite !zlen_cons in E; lia|].
        intros i a b Hi Ha Hb. apply (H (i + 1)); [lia| |]; rewrite aget_cons; destruct (Z.eqb_spec (i + 1) 0); try lia;
        now replace (i + 1 - 1) with i by lia.
    + intros HF. induction HF as [|x y l m Hxy HF IH]; intros i a b Hi Ha Hb.
      * pose proof (aget_ok_range _ _ _ Ha). cbn in H. lia.
      * rewrite aget_cons in Ha, Hb. destruct (Z.eqb_spec i 0); [congruence|].
        apply (IH ltac:(rewrite !zlen_cons in E; lia) (i - 1)); auto. lia.
  - exists false. split; [reflexivity|]. split; [discriminate|]. intros HF.
    exfalso. apply E. clear - HF. induction HF; rewrite ?zlen_cons; lia.
Qed.

(** search *)
Lemma find_loop_spec eqb k fuel s l raw : holds s l -> (k <= length l)%nat -> (length l - k < fuel)%nat ->
  exists o, find_loop eqb fuel s (Some (Z.of_nat k)) (Some (zlen l)) raw = Ok o /\
   match o with
   | Some i => Z.of_nat k <= i /\ (exists x, aget l i = Ok x /\ eqb raw x = true) /\
               forall j y, Z.of_nat k <= j < i -> aget l j = Ok y -> eqb raw y = false
   | None => forall j y, Z.of_nat k <= j -> aget l j = Ok y -> eqb raw y = false
   end.
Proof.
  intros Hs. revert k. induction fuel as [|fuel IH]; intros k Hk Hf; [lia|].
  cbn [find_loop oeqb]. destruct (Z.eqb_spec (Z.of_nat k) (zlen l)) as [E|E].
  - exists None. split; [reflexivity|]. intros j y Hj Hy. pose proof (aget_ok_range _ _ _ Hy). lia.
  - rewrite (holds_rd s l) by (auto; unfold zlen in *; lia).
    destruct (aget_some l (Z.of_nat k)) as [x Hx]; [unfold zlen in *; lia|]. rewrite Hx. cbn [bind].
    destruct (eqb raw x) eqn:Ex.
    + exists (Some (Z.of_nat k)). split; [reflexivity|]. split; [lia|]. split; [eauto|]. intros j y Hj. lia.
    + replace (Z.of_nat k + 1) with (Z.of_nat (S k)) by lia.
      destruct (IH (S k)) as (o & Eo & Ho); [unfold zlen in *; lia|unfold zlen in *; lia|].
      exists o. split; [exact Eo|]. destruct o as [i|].
      * destruct Ho as (H1 & H2 & H3). split; [lia|]. split; [exact H2|]. intros j y Hj Hy.
        destruct (Z.eq_dec j (Z.of_nat k)) as [->|]; [congruence|]. apply (H3 j); auto. lia.
      * intros j y Hj Hy. destruct (Z.eq_dec j (Z.of_nat k)) as [->|]; [congruence|]. apply (Ho j); auto. lia.
Qed.

Lemma find_spec eqb v l raw : stored v l ->
  exists o, find eqb v raw = Ok o /\
   match o with
   | Some i => (exists x, aget l i = Ok x /\ eqb raw x = true) /\
               forall j y, 0 <= j < i -> aget l j = Ok y -> eqb raw y = false
   | None => forall x, In x l -> eqb raw x = false
   end.
Proof.
  intros Hst. pose proof (stored_cap _ _ Hst) as Hc. pose proof Hst as [Hs Hh]. pose proof (zlen_nonneg l).
  unfold find, find_in, begin, is_null. destruct (Z.eqb_spec (capacity v) 0).
  - exists None. split; [reflexivity|]. destruct l; [cbn; tauto|rewrite zlen_cons in *; pose proof (zlen_nonneg l); lia].
  - cbn [ref it2_ptr end_ iend].
    destruct (find_loop_spec eqb 0 (S (S (Z.to_nat (capacity v)))) (buf v) l raw) as (o & Eo & Ho); auto; [lia|unfold zlen in *; lia|].
    rewrite Hs. exists o. split; [exact Eo|]. destruct o as [i|].
    + destruct Ho as (_ & H2 & H3). split; auto.
    + intros x Hx. apply In_aget in Hx as (i & Hi & Hx). apply (Ho i); auto; lia.
Qed.
End P.
