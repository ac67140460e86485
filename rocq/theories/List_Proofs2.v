(** Proofs about list.h: remove, clone, equality, find, count, sort, histories. *)
From Verif Require Import Base Order Sort_Model Sort_Proofs List_Model List_Spec List_Proofs.

Set Default Proof Using "Type".
Section P.
Context {A : Type}.
Implicit Types (h : heap A) (c cs : list (Z * A)).
Variable eqb : A -> A -> bool.

Lemma lst_rot_next h last c1 a x c2 : lst h last (c1 ++ (a, x) :: c2) -> next_of h (pred c1 (c1 ++ (a, x) :: c2)) = Ok a /\ val_of h a = Ok x /\
   ((a =? last) = match c2 with [] => true | _ => false end).
Proof. clear eqb.
  intros H. pose proof H as (Ho & Hnd & Hc & Hl). destruct (pred_rot c1 ((a, x) :: c2)) as (r & z & Er); [destruct c1; discriminate|].
  set (p := pred c1 (c1 ++ (a, x) :: c2)) in *. pose proof (linked_node h c1 a x c2 _ Hc) as Na.
  assert (Hla : live h a) by (unfold live; congruence). destruct (heap_ok_brk h a Ho Hla) as [Ha0 _].
  apply (cyc_rot h c1) in Hc. assert (Hpl : live h p).
  { apply (linked_live h _ _ p Hc). rewrite Er, addrs_app. apply in_or_app. right. left. reflexivity. }
  destruct (heap_ok_brk h p Ho Hpl) as [Hp0 _]. split; [|split].
  - apply (next_of_some h p z); [exact Hp0|]. unfold cyc in Hc. cbn [app first_addr] in Hc. cbn [app] in Er. rewrite Er in Hc.
    exact (linked_node h r p z [] _ Hc).
  - eapply val_of_some; eauto.
  - destruct c2 as [|c0 c2].
    + rewrite Hl, last_addr_app. apply Z.eqb_refl.
    + apply Z.eqb_neq. intros Ea. rewrite addrs_app in Hnd. cbn [addrs map fst] in Hnd. apply NoDup_remove_2 in Hnd. apply Hnd.
      apply in_or_app. right. rewrite Ea, Hl. change ((a, x) :: c0 :: c2) with ([(a, x)] ++ c0 :: c2).
      rewrite app_assoc, last_addr_app2 by discriminate. apply (last_addr_In (c0 :: c2)). discriminate.
Qed.

Lemma remove_keep fuel raw n : forall h last c1 c2, lst h last (c1 ++ c2) -> c2 <> [] ->
  (forall x, In x (map snd c2) -> eqb x raw = false) -> (length c2 <= fuel)%nat ->
  remove_loop eqb fuel h last (pred c1 (c1 ++ c2)) raw n = Ok (h, last, [], n).
Proof.
  induction fuel as [|fuel IH]; intros h last c1 c2 H Hne Hk Hf; [destruct c2; [congruence|cbn in Hf; lia]|].
  destruct c2 as [|[a x] c2]; [congruence|]. destruct (lst_rot_next h last c1 a x c2 H) as (E1 & E2 & E3).
  cbn [remove_loop]. rewrite E1. cbn [bind]. rewrite E2. cbn [bind]. rewrite (Hk x) by (left; reflexivity). rewrite E3.
  destruct c2 as [|c0 c2]; [reflexivity|].
  pose proof (IH h last (c1 ++ [(a, x)]) (c0 :: c2)) as G. rewrite <- app_assoc in G. cbn [app] in G.
  assert (Hp : pred (c1 ++ [(a, x)]) (c1 ++ (a, x) :: c0 :: c2) = a).
  { unfold pred. destruct (c1 ++ [(a, x)]) eqn:E; [destruct c1; discriminate|]. rewrite <- E. apply last_addr_app. }
  rewrite Hp in G. apply G; auto; [discriminate|intros y Hy; apply Hk; right; exact Hy|cbn in *; lia].
Qed.

Lemma remove_loop_spec fuel raw : forall h last n c1 c2, lst h last (c1 ++ c2) -> c1 ++ c2 <> [] ->
  (forall x, In x (map snd c1) -> eqb x raw = false) -> (length c2 + length (c1 ++ c2) <= fuel)%nat ->
  let c2' := filter (fun nd => negb (eqb (snd nd) raw)) c2 in
  let ys := filter (fun x => eqb x raw) (map snd c2) in
  exists h' last', remove_loop eqb fuel h last (pred c1 (c1 ++ c2)) raw n = Ok (h', last', ys, n + zlen ys) /\
    lst h' last' (c1 ++ c2') /\ only h (addrs (c1 ++ c2)) h' (addrs (c1 ++ c2')).
Proof.
  induction fuel as [|fuel IH]; intros h last n c1 c2 H Hne Hk Hf.
  { destruct (c1 ++ c2); [congruence|cbn in Hf; lia]. }
  destruct c2 as [|[a x] c2].
  - cbn [filter map]. cbn zeta. rewrite app_nil_r in *. change (zlen (@nil A)) with 0. rewrite Z.add_0_r.
    assert (Hp : pred c1 c1 = pred [] ([] ++ c1)) by (destruct c1; reflexivity). rewrite Hp.
    rewrite (remove_keep (S fuel) raw n h last [] c1 H Hne Hk) by (cbn in Hf; lia).
    do 2 eexists. split; [reflexivity|]. split; [exact H|]. apply only_refl. intros b Hb. now apply (lst_live h last c1).
  - destruct (lst_rot_next h last c1 a x c2 H) as (E1 & E2 & E3).
    cbn [remove_loop]. rewrite E1. cbn [bind]. rewrite E2. cbn [bind filter map snd].
    destruct (eqb x raw) eqn:Ex; cbn [negb].
    + destruct (erase_mid h last c1 a x c2 H) as (h1 & last1 & E & Hr & _ & Hna & Hon). rewrite E. cbn [bind].
      rewrite (lst_zero _ _ _ Hr).
      assert (Hdec : c1 ++ c2 = [] \/ c1 ++ c2 <> []) by (destruct (c1 ++ c2); [left; reflexivity|right; discriminate]).
      destruct Hdec as [En|En].
      * rewrite En. apply app_eq_nil in En as [-> ->]. cbn [filter map app] in *. do 2 eexists. split; [reflexivity|]. split; [exact Hr|exact Hon].
      * assert (Em : match c1 ++ c2 with [] => true | _ => false end = false) by (destruct (c1 ++ c2); congruence). rewrite Em.
        destruct (Z.eqb_spec a last1) as [Ea|].
        { exfalso. apply Hna. rewrite Ea. destruct Hr as (_ & _ & _ & ->). now apply last_addr_In. }
        assert (Hp : pred c1 (c1 ++ (a, x) :: c2) = pred c1 (c1 ++ c2)).
        { destruct c1; [|reflexivity]. cbn [app pred]. apply (last_addr_ins [] x a). exact En. }
        rewrite Hp. destruct (IH h1 last1 (n + 1) c1 c2 Hr En Hk) as (h2 & last2 & E4 & Hr2 & Hon2).
        { rewrite !app_length in *. cbn in Hf. lia. }
        rewrite E4. cbn [bind]. do 2 eexists. split; [rewrite zlen_cons; do 2 f_equal; lia|]. split; [exact Hr2|].
        exact (only_trans _ _ _ _ _ _ Hon Hon2).
    + rewrite E3. destruct c2 as [|c0 c2].
      * cbn [filter map]. change (zlen (@nil A)) with 0. rewrite Z.add_0_r. do 2 eexists. split; [reflexivity|]. split; [exact H|].
        apply only_refl. intros b Hb. now apply (lst_live h last _ b H).
      * destruct (IH h last n (c1 ++ [(a, x)]) (c0 :: c2)) as (h2 & last2 & E4 & Hr2 & Hon2).
        -- now rewrite <- app_assoc.
        -- destruct c1; discriminate.
        -- intros y. rewrite map_app, in_app_iff. intros [Hy|[<-|[]]]; [now apply Hk|exact Ex].
        -- rewrite !app_length in *. cbn in *. lia.
        -- assert (Hp : pred (c1 ++ [(a, x)]) ((c1 ++ [(a, x)]) ++ c0 :: c2) = a).
           { unfold pred. destruct (c1 ++ [(a, x)]) eqn:E; [destruct c1; discriminate|]. rewrite <- E. apply last_addr_app. }
           rewrite Hp in E4. rewrite <- !app_assoc in *. cbn [app] in *. eauto.
Qed.

Lemma filter_snd (f : A -> bool) cs : filter f (map snd cs) = map snd (filter (fun nd => f (snd nd)) cs).
Proof. clear eqb. induction cs as [|[a x] cs IH]; cbn; [reflexivity|]. destruct (f x); cbn; now rewrite IH. Qed.

Lemma remove_spec h last cs raw : lst h last cs ->
  exists h' last', remove eqb h last raw = Ok (h', last', filter (fun x => eqb x raw) (map snd cs), zlen (filter (fun x => eqb x raw) (map snd cs))) /\
    lst h' last' (filter (fun nd => negb (eqb (snd nd) raw)) cs) /\ only h (addrs cs) h' (addrs (filter (fun nd => negb (eqb (snd nd) raw)) cs)).
Proof.
  intros H. unfold remove. rewrite (lst_zero _ _ _ H). destruct cs as [|c0 cs].
  - do 2 eexists. split; [reflexivity|]. split; [exact H|]. apply only_refl. intros a [].
  - pose proof H as (_ & _ & _ & Hl). pose proof (lst_fuel _ _ _ H) as Hf.
    destruct (remove_loop_spec (fuel_of h + fuel_of h) raw h last 0 [] (c0 :: cs) H) as (h' & last' & E & Hr & Hon); [discriminate|intros x []|cbn [app] in *; lia|].
    cbn [app pred] in *. rewrite <- Hl in E. eauto.
Qed.

(** ** clone *)
Lemma push_all_spec xs : forall h last cs, lst h last cs ->
  exists h' last' new, push_all h last xs = Ok (h', last') /\ lst h' last' (cs ++ new) /\ map snd new = xs /\ only h (addrs cs) h' (addrs (cs ++ new)).
Proof. clear eqb.
  induction xs as [|x xs IH]; intros h last cs H; cbn [push_all].
  - exists h, last, []. rewrite app_nil_r. split; [reflexivity|]. split; [exact H|]. split; [reflexivity|]. apply only_refl. intros a Ha. now apply (lst_live h last cs).
  - destruct (push_back_spec h last cs x H) as (h1 & E & Hr & Hon). rewrite E. cbn [bind fst snd].
    destruct (IH h1 (brk h) _ Hr) as (h2 & last2 & new & E2 & Hr2 & Hm & Hon2).
    exists h2, last2, ((brk h, x) :: new). rewrite <- app_assoc in *. cbn [app map snd] in *. split; [exact E2|]. split; [exact Hr2|].
    split; [now rewrite Hm|]. exact (only_trans _ _ _ _ _ _ Hon Hon2).
Qed.

Lemma clone_spec h last cs : lst h last cs ->
  exists h' last' new, clone h last = Ok (h', last') /\ two h' last cs last' new /\ map snd new = map snd cs /\ only h [] h' (addrs new).
Proof. clear eqb.
  intros H. unfold clone. rewrite (each_spec h last cs H). cbn [bind].
  destruct (push_all_spec (map snd cs) h 0 [] (lst_nil h (proj1 H))) as (h' & last' & new & E & Hr & Hm & Hon).
  cbn [app] in *. exists h', last', new. split; [exact E|]. split; [|split; [exact Hm|exact Hon]].
  destruct Hr as [Ho' Hr]. pose proof H as (Ho & Hnd & Hc & Hl).
  assert (Hfr : forall a, In a (addrs cs) -> node h' a = node h a /\ ~ In a (addrs new)).
  { intros a Ha. apply (proj1 Hon a); [now apply (lst_live h last cs)|intros []]. }
  split; [exact Ho'|]. split; [|split; [exact Hr|]].
  - split; [exact Hnd|]. split; [|exact Hl]. apply (linked_ext h); [|exact Hc]. intros a Ha. now apply Hfr.
  - assert (Hnd2 : NoDup (addrs new)) by apply Hr. revert Hnd Hfr. generalize (addrs cs) as l. clear - Hnd2.
    induction l as [|a l IH]; intros Hnd Hfr; cbn [app]; [exact Hnd2|]. apply NoDup_cons_iff in Hnd as [H1 H2]. constructor.
    + rewrite in_app_iff. intros [Hi|Hi]; [auto|]. revert Hi. apply Hfr. left. reflexivity.
    + apply IH; auto. intros b Hb. apply Hfr. right. exact Hb.
Qed.

(** ** equality and find *)
Fixpoint seq_eqb (l1 l2 : list A) : bool :=
  match l1, l2 with
  | [], [] => true
  | x :: r1, y :: r2 => eqb x y && seq_eqb r1 r2
  | _, _ => false
  end.

Lemma it_at_ref c1 c2 h last : lst h last (c1 ++ c2) -> (ref (it_at c1 c2) =? 0) = match c2 with [] => true | _ => false end.
Proof. clear eqb.
  intros H. destruct c2 as [|[a x] c2]; [reflexivity|]. cbn [it_at ref first_addr]. apply Z.eqb_neq. 
  apply (heap_ok_brk h a (proj1 H)). apply (lst_live h last _ a H). rewrite addrs_app. apply in_or_app. right. left. reflexivity.
Qed.
Lemma it_at_val h last c1 a x c2 : lst h last (c1 ++ (a, x) :: c2) -> val_of h (ref (it_at c1 ((a, x) :: c2))) = Ok x.
Proof. clear eqb. intros H. apply (lst_rot_next h last c1 a x c2 H). Qed.

Lemma eq_loop_spec fuel h l1 l2 : forall c1 c2 d1 d2, lst h l1 (c1 ++ c2) -> lst h l2 (d1 ++ d2) -> (length c2 < fuel)%nat ->
  eq_loop eqb fuel h l1 l2 (it_at c1 c2) (it_at d1 d2) = Ok (seq_eqb (map snd c2) (map snd d2)).
Proof.
  induction fuel as [|fuel IH]; intros c1 c2 d1 d2 H1 H2 Hf; [lia|]. cbn [eq_loop].
  rewrite (it_at_ref c1 c2 h l1 H1), (it_at_ref d1 d2 h l2 H2).
  destruct c2 as [|[a x] c2]; destruct d2 as [|[b y] d2]; try reflexivity. cbn [negb andb].
  rewrite (it_at_val h l1 c1 a x c2 H1). cbn [bind]. rewrite (it_at_val h l2 d1 b y d2 H2). cbn [bind map snd seq_eqb].
  destruct (eqb x y); cbn [negb andb]; [|reflexivity].
  rewrite (next_spec h l1 c1 a x c2 H1). cbn [bind]. rewrite (next_spec h l2 d1 b y d2 H2). cbn [bind].
  apply IH; [rewrite <- app_assoc; exact H1|rewrite <- app_assoc; exact H2|cbn in Hf; lia].
Qed.
Lemma eq_spec h l1 l2 cs1 cs2 : lst h l1 cs1 -> lst h l2 cs2 -> eq eqb h l1 l2 = Ok (seq_eqb (map snd cs1) (map snd cs2)).
Proof.
  intros H1 H2. unfold eq. rewrite (begin_spec h l1 cs1 H1). cbn [bind]. rewrite (begin_spec h l2 cs2 H2). cbn [bind].
  apply eq_loop_spec; auto. now apply (lst_fuel h l1).
Qed.

Lemma find_loop_spec fuel h last raw : forall c1 c2, lst h last (c1 ++ c2) -> (length c2 < fuel)%nat ->
  exists it, find_loop eqb fuel h last (it_at c1 c2) raw = Ok it /\
    ((it = end_ /\ forall x, In x (map snd c2) -> eqb x raw = false) \/
     (exists m a x r, c2 = m ++ (a, x) :: r /\ it = it_at (c1 ++ m) ((a, x) :: r) /\ eqb x raw = true /\ forall y, In y (map snd m) -> eqb y raw = false)).
Proof.
  induction fuel as [|fuel IH]; intros c1 c2 H Hf; [lia|]. cbn [find_loop]. rewrite (it_at_ref c1 c2 h last H).
  destruct c2 as [|[a x] c2]; [eexists; split; [reflexivity|left; split; [reflexivity|intros y []]]|].
  rewrite (it_at_val h last c1 a x c2 H). cbn [bind]. destruct (eqb x raw) eqn:Ex.
  - eexists. split; [reflexivity|]. right. exists [], a, x, c2. rewrite app_nil_r. repeat split; auto. intros y [].
  - rewrite (next_spec h last c1 a x c2 H). cbn [bind].
    destruct (IH (c1 ++ [(a, x)]) c2) as (it & E & Hit); [rewrite <- app_assoc; exact H|cbn in Hf; lia|].
    exists it. split; [exact E|]. destruct Hit as [[-> Hn]|(m & b & y & r & -> & -> & Ey & Hm)].
    + left. split; [reflexivity|]. intros z [<-|Hz]; [exact Ex|auto].
    + right. exists ((a, x) :: m), b, y, r. rewrite <- app_assoc. repeat split; auto. intros z [<-|Hz]; [exact Ex|auto].
Qed.
Lemma find_spec h last cs raw : lst h last cs ->
  exists it, find eqb h last raw = Ok it /\
    ((it = end_ /\ forall x, In x (map snd cs) -> eqb x raw = false) \/
     (exists m a x r, cs = m ++ (a, x) :: r /\ it = it_at m ((a, x) :: r) /\ eqb x raw = true /\ forall y, In y (map snd m) -> eqb y raw = false)).
Proof.
  intros H. unfold find. rewrite (begin_spec h last cs H). cbn [bind]. apply (find_loop_spec (fuel_of h) h last raw [] cs); auto. now apply (lst_fuel h last).
Qed.

(** ** count, front, back *)
Lemma count_loop_spec fuel : forall h last n c1 c2, lst h last (c1 ++ c2) -> c2 <> [] -> (length c2 <= fuel)%nat ->
  count_loop fuel h last (pred c1 (c1 ++ c2)) n = Ok (n + zlen c2 - 1).
Proof. clear eqb.
  induction fuel as [|fuel IH]; intros h last n c1 c2 H Hne Hf; [destruct c2; [congruence|cbn in Hf; lia]|].
  destruct c2 as [|[a x] c2]; [congruence|]. destruct (lst_rot_next h last c1 a x c2 H) as (E1 & E2 & E3).
  cbn [count_loop]. rewrite E1. cbn [bind]. rewrite E3. rewrite zlen_cons. destruct c2 as [|c0 c2].
  - f_equal. change (zlen (@nil (Z * A))) with 0. lia.
  - pose proof (IH h last (n + 1) (c1 ++ [(a, x)]) (c0 :: c2)) as G. rewrite <- app_assoc in G. cbn [app] in G.
    assert (Hp : pred (c1 ++ [(a, x)]) (c1 ++ (a, x) :: c0 :: c2) = a).
    { unfold pred. destruct (c1 ++ [(a, x)]) eqn:E; [destruct c1; discriminate|]. rewrite <- E. apply last_addr_app. }
    rewrite Hp in G. rewrite G; auto; [f_equal; lia|discriminate|cbn in *; lia].
Qed.
Lemma count_spec h last cs : lst h last cs -> count h last = Ok (zlen cs).
Proof. clear eqb.
  intros H. unfold count. rewrite (lst_zero _ _ _ H). destruct cs as [|c0 cs]; [reflexivity|].
  pose proof H as (_ & _ & _ & Hl). rewrite Hl at 2.
  change (last_addr (c0 :: cs)) with (pred [] ([] ++ c0 :: cs)).
  rewrite count_loop_spec; [f_equal; lia|exact H|discriminate|now apply Nat.lt_le_incl, (lst_fuel h last)].
Qed.
Lemma front_spec h last a x cs : lst h last ((a, x) :: cs) -> front h last = Ok x.
Proof. clear eqb.
  intros H. destruct (lst_rot_next h last [] a x cs H) as (E1 & E2 & _). cbn [app pred] in E1.
  unfold front. destruct H as (_ & _ & _ & ->). rewrite E1. exact E2.
Qed.
Lemma back_spec h last a x cs : lst h last (cs ++ [(a, x)]) -> back h last = Ok x.
Proof. clear eqb.
  intros H. destruct (lst_rot_next h last cs a x [] H) as (E1 & E2 & _).
  unfold back. destruct H as (_ & _ & _ & ->). rewrite last_addr_app. exact E2.
Qed.

(** ** sort *)
Lemma write_loop_spec fuel : forall h last c1 c2 ys, lst h last (c1 ++ c2) -> length ys = length c2 -> (length c2 < fuel)%nat ->
  exists h', write_loop fuel h last (it_at c1 c2) ys = Ok h' /\ lst h' last (c1 ++ combine (addrs c2) ys) /\
    only h (addrs (c1 ++ c2)) h' (addrs (c1 ++ combine (addrs c2) ys)).
Proof. clear eqb.
  induction fuel as [|fuel IH]; intros h last c1 c2 ys H Hlen Hf; [lia|]. cbn [write_loop]. rewrite (it_at_ref c1 c2 h last H).
  destruct c2 as [|[a x] c2].
  - exists h. cbn [addrs map combine]. split; [reflexivity|]. split; [exact H|]. apply only_refl. intros b Hb. now apply (lst_live h last _ b H).
  - destruct ys as [|y ys]; [discriminate|]. pose proof H as (Ho & Hnd & Hc & Hl). pose proof (linked_node h c1 a x c2 _ Hc) as Na.
    assert (Hla : live h a) by (unfold live; congruence). destruct (heap_ok_brk h a Ho Hla) as [Ha0 _].
    cbn [it_at ref first_addr]. rewrite (set_val_some h a x _ y Ha0 Na). cbn [bind].
    set (h1 := setn h a (Some (y, first_addr c2 (first_addr (c1 ++ (a, x) :: c2) 0)))).
    assert (Had : addrs (c1 ++ (a, y) :: c2) = addrs (c1 ++ (a, x) :: c2)) by (rewrite !addrs_app; reflexivity).
    assert (Hfa : first_addr (c1 ++ (a, y) :: c2) 0 = first_addr (c1 ++ (a, x) :: c2) 0) by (rewrite !first_addr_app; reflexivity).
    assert (H1 : lst h1 last (c1 ++ (a, y) :: c2)).
    { split; [apply heap_ok_setn; auto|]. split; [rewrite Had; exact Hnd|]. split; [|unfold last_addr; rewrite Had; exact Hl].
      rewrite Hfa. rewrite addrs_app in Hnd. cbn [addrs map fst] in Hnd. apply NoDup_remove_2 in Hnd. rewrite in_app_iff in Hnd.
      rewrite linked_app in Hc |- *. destruct Hc as [Hc1 Hc2]. cbn [linked first_addr] in *. split.
      - apply (linked_ext h); [|exact Hc1]. intros b Hb. apply node_setn_other. intros ->. apply Hnd. left. exact Hb.
      - split; [apply node_setn_same|]. apply (linked_ext h); [|apply Hc2]. intros b Hb. apply node_setn_other. intros ->. apply Hnd. right. exact Hb. }
    pose proof (next_spec h1 last c1 a y c2 H1) as E. unfold it_at at 1 in E. cbn [first_addr] in E.
    assert (Hp : pred c1 (c1 ++ (a, y) :: c2) = pred c1 (c1 ++ (a, x) :: c2)).
    { unfold pred. destruct c1; [|reflexivity]. unfold last_addr. now rewrite Had. }
    rewrite Hp in E. unfold it_at at 1. cbn [first_addr]. rewrite E. cbn [bind].
    destruct (IH h1 last (c1 ++ [(a, y)]) c2 ys) as (h2 & E2 & Hr2 & Hon2); [rewrite <- app_assoc; exact H1|cbn in Hlen; lia|cbn in Hf; lia|].
    exists h2. rewrite <- !app_assoc in *. cbn [app addrs map fst combine] in *. split; [exact E2|]. split; [exact Hr2|].
    eapply only_trans; [|exact Hon2]. rewrite Had. apply only_setn_in; [|discriminate]. rewrite addrs_app. apply in_or_app. right. left. reflexivity.
Qed.

Lemma combine_fst {B C} (l1 : list B) : forall l2 : list C, length l2 = length l1 -> map fst (combine l1 l2) = l1.
Proof. clear eqb. induction l1 as [|b l1 IH]; intros [|c0 l2]; cbn; intros; try discriminate; [reflexivity|]. f_equal. apply IH. lia. Qed.
Lemma combine_snd {B C} (l1 : list B) : forall l2 : list C, length l2 = length l1 -> map snd (combine l1 l2) = l2.
Proof. clear eqb. induction l1 as [|b l1 IH]; intros [|c0 l2]; cbn; intros; try discriminate; [reflexivity|]. f_equal. apply IH. lia. Qed.

Lemma list_sort_spec less h last cs : strict_weak_order less -> lst h last cs ->
  exists h' ys, sort less h last = Ok (h', negb (last =? 0)) /\ Permutation (map snd cs) ys /\ sorted_by less ys /\
    lst h' last (combine (addrs cs) ys) /\ map snd (combine (addrs cs) ys) = ys /\ only h (addrs cs) h' (addrs cs).
Proof. clear eqb.
  intros Hs H. unfold sort. rewrite (each_spec h last cs H). cbn [bind].
  destruct (sort_correct less Hs (map snd cs)) as (ys & E & P & S). rewrite E. cbn [bind].
  rewrite (begin_spec h last cs H). cbn [bind].
  assert (Hlen : length ys = length cs). { apply Permutation_length in P. rewrite map_length in P. lia. }
  destruct (write_loop_spec (fuel_of h) h last [] cs ys H Hlen) as (h' & E2 & Hr & Hon); [now apply (lst_fuel h last)|].
  cbn [app] in *. rewrite E2. cbn [bind]. exists h', ys.
  assert (Hl2 : length ys = length (addrs cs)) by (unfold addrs; rewrite map_length; exact Hlen).
  split; [reflexivity|]. split; [exact P|]. split; [exact S|]. split; [exact Hr|]. split; [now apply combine_snd|].
  unfold addrs in Hon at 2. rewrite combine_fst in Hon by exact Hl2. exact Hon.
Qed.

(** ** histories *)
Lemma map_firstn {B C} (f : B -> C) n l : map f (firstn n l) = firstn n (map f l).
Proof. clear eqb. revert l; induction n as [|n IH]; intros [|b l]; cbn; try reflexivity. now rewrite IH. Qed.
Lemma map_skipn {B C} (f : B -> C) n l : map f (skipn n l) = skipn n (map f l).
Proof. clear eqb. revert l; induction n as [|n IH]; intros [|b l]; cbn; try reflexivity. apply IH. Qed.
Lemma skipn_S_tl {B} n (l : list B) : skipn (S n) l = tl (skipn n l).
Proof. clear eqb. revert l; induction n as [|n IH]; intros [|b l]; try reflexivity. cbn [skipn] in *. rewrite <- IH. reflexivity. Qed.

Lemma step_spec h last cs o : lst h last cs -> legal_op (map snd cs) o ->
  exists h' last' cs', step eqb h last o = Ok (h', last', snd (seq_step eqb (map snd cs) o)) /\
    lst h' last' cs' /\ map snd cs' = fst (seq_step eqb (map snd cs) o) /\ only h (addrs cs) h' (addrs cs').
Proof.
  intros H Hl. destruct o as [x|x|i x|i|i j| | | |raw]; cbn [step seq_step legal_op fst snd] in *.
  - destruct (push_back_spec h last cs x H) as (h' & E & Hr & Hon). rewrite E. cbn [bind fst snd].
    do 3 eexists. split; [reflexivity|]. split; [exact Hr|]. split; [now rewrite map_app|exact Hon].
  - destruct (push_front_spec h last cs x H) as (h' & last' & E & Hr & Hon). rewrite E. cbn [bind fst snd].
    do 3 eexists. split; [reflexivity|]. split; [exact Hr|]. split; [reflexivity|exact Hon].
  - rewrite map_length in Hl. rewrite (at_index_spec h last cs i H Hl). cbn [bind].
    assert (H' : lst h last (firstn i cs ++ skipn i cs)) by now rewrite firstn_skipn.
    destruct (insert_at_spec h last _ _ x H') as (h' & last' & E & Hr & Hon). rewrite E. cbn [bind].
    rewrite firstn_skipn in Hon. do 3 eexists. split; [reflexivity|]. split; [exact Hr|]. split; [|exact Hon].
    now rewrite map_app, map_firstn; cbn [map snd]; rewrite map_skipn.
  - rewrite map_length in Hl. rewrite (at_index_spec h last cs i H) by lia. cbn [bind].
    assert (H' : lst h last (firstn i cs ++ skipn i cs)) by now rewrite firstn_skipn.
    rewrite <- !map_skipn, <- map_firstn. rewrite (skipn_S_tl i cs). pose proof (firstn_skipn i cs) as Ecs.
    assert (Hs : skipn i cs <> []). { intros E. apply (f_equal (@length _)) in E. rewrite skipn_length in E. cbn in E. lia. }
    destruct (skipn i cs) as [|[a x] c2]; [congruence|].
    destruct (erase_at_spec h last _ a x c2 H') as (h' & last' & E & Hr & Hon). rewrite E. cbn [bind tl map snd firstn].
    rewrite Ecs in Hon. do 3 eexists. split; [reflexivity|]. split; [exact Hr|]. split; [now rewrite map_app, map_firstn|exact Hon].
  - rewrite map_length in Hl. destruct Hl as [Hl Hne]. rewrite (at_index_spec h last cs i H) by lia. cbn [bind].
    rewrite (at_index_spec h last cs j H) by lia. cbn [bind].
    set (c1 := firstn i cs). set (mid := firstn (j - i) (skipn i cs)). set (c2 := skipn j cs).
    assert (E1 : skipn i cs = mid ++ c2).
    { unfold mid, c2. rewrite <- (firstn_skipn (j - i) (skipn i cs)) at 1. rewrite skipn_skipn. do 2 f_equal. lia. }
    assert (E2 : firstn j cs = c1 ++ mid).
    { unfold c1, mid. replace j with (i + (j - i))%nat at 1 by lia.
      rewrite <- (firstn_skipn i cs) at 1. rewrite firstn_app, firstn_firstn, firstn_length.
      f_equal; f_equal; lia. }
    assert (Ecs : cs = c1 ++ mid ++ c2) by (rewrite <- E1; unfold c1; now rewrite firstn_skipn).
    rewrite E1, E2. fold c1. pose proof H as H'. rewrite Ecs in H'.
    destruct (erase_range_spec h last c1 mid c2 H') as (h' & last' & E & Hr & Hon).
    { rewrite <- Ecs. intros ->. apply Hne. reflexivity. }
    rewrite E. cbn [bind]. rewrite <- Ecs in Hon. do 3 eexists. split; [|split; [exact Hr|split; [|exact Hon]]].
    + unfold mid. rewrite <- map_skipn, <- map_firstn. reflexivity.
    + rewrite map_app. unfold c1, c2. now rewrite map_firstn, map_skipn.
  - destruct cs as [|[a x] cs]; [cbn in Hl; congruence|].
    destruct (pop_front_spec h last a x cs H) as (h' & last' & E & Hr & Hon). rewrite E. cbn [bind map snd tl firstn].
    do 3 eexists. split; [reflexivity|]. split; [exact Hr|]. split; [reflexivity|exact Hon].
  - destruct (drop_spec h last cs H) as (h' & E & Ho & Hon). rewrite E. cbn [bind fst snd].
    exists h', 0, []. split; [reflexivity|]. split; [now apply lst_nil|]. split; [reflexivity|exact Hon].
  - destruct (reverse_spec h last cs H) as (h' & last' & E & Hr & Hon). rewrite E. cbn [bind fst snd].
    do 3 eexists. split; [reflexivity|]. split; [exact Hr|]. split; [now rewrite map_rev|exact Hon].
  - destruct (remove_spec h last cs raw H) as (h' & last' & E & Hr & Hon). rewrite E. cbn [bind].
    do 3 eexists. split; [reflexivity|]. split; [exact Hr|]. split; [|exact Hon]. symmetry. exact (filter_snd (fun x => negb (eqb x raw)) cs).
Qed.

Lemma run_spec ops : forall h last cs, lst h last cs -> legal eqb (map snd cs) ops ->
  exists h' last' cs', run eqb h last ops = Ok (h', last', snd (seq_run eqb (map snd cs) ops)) /\
    lst h' last' cs' /\ map snd cs' = fst (seq_run eqb (map snd cs) ops) /\ only h (addrs cs) h' (addrs cs').
Proof.
  induction ops as [|o ops IH]; intros h last cs H Hl; cbn [run seq_run legal] in *.
  - exists h, last, cs. split; [reflexivity|]. split; [exact H|]. split; [reflexivity|]. apply only_refl. intros a Ha. now apply (lst_live h last cs).
  - destruct Hl as [Hl1 Hl2]. destruct (step_spec h last cs o H Hl1) as (h1 & last1 & cs1 & E & Hr & Hm & Hon).
    rewrite E. cbn [bind]. rewrite <- Hm in *. destruct (IH h1 last1 cs1 Hr Hl2) as (h2 & last2 & cs2 & E2 & Hr2 & Hm2 & Hon2).
    rewrite E2. cbn [bind fst snd]. exists h2, last2, cs2. split; [reflexivity|]. split; [exact Hr2|]. split; [exact Hm2|].
    exact (only_trans _ _ _ _ _ _ Hon Hon2).
Qed.

(** ** iterators returned by insert_at and erase_at *)
Lemma each_loop_end fuel h last it : ref it = 0 -> (0 < fuel)%nat -> each_loop fuel h last it = Ok [].
Proof. clear eqb. intros E Hf. destruct fuel; [lia|]. cbn [each_loop]. rewrite E. reflexivity. Qed.

Lemma insert_at_index h last cs i x : lst h last cs -> (i <= length cs)%nat ->
  exists it h' last' it' cs', at_index h last i = Ok it /\ insert_at h last it x = Ok (h', last', it') /\ lst h' last' cs' /\
    map snd cs' = firstn i (map snd cs) ++ x :: skipn i (map snd cs) /\
    each_loop (fuel_of h') h' last' it' = Ok (x :: skipn i (map snd cs)) /\ only h (addrs cs) h' (addrs cs').
Proof. clear eqb.
  intros H Hi. exists (it_at (firstn i cs) (skipn i cs)). rewrite (at_index_spec h last cs i H Hi).
  pose proof H as H0. rewrite <- (firstn_skipn i cs) in H0. destruct (insert_at_spec h last _ _ x H0) as (h' & last' & E & Hr & Hon).
  do 4 eexists. split; [reflexivity|]. split; [exact E|]. split; [exact Hr|].
  split; [now rewrite map_app, map_firstn; cbn [map snd]; rewrite map_skipn|]. rewrite firstn_skipn in Hon. split; [|exact Hon].
  assert (Hit : mkit (brk h) (if first_addr (skipn i cs) 0 =? 0 then if last =? 0 then brk h else last else pred (firstn i cs) (firstn i cs ++ skipn i cs)) true
    = it_at (firstn i cs) ((brk h, x) :: skipn i cs)).
  { unfold it_at. f_equal. pose proof H0 as (Ho & _ & _ & Hl). rewrite (lst_zero h last cs H). 
    pose proof (it_at_ref _ _ h last H0) as Ez. cbn [it_at ref] in Ez. rewrite Ez.
    destruct (skipn i cs) as [|c0 c2] eqn:Es.
    - rewrite app_nil_r in Hl. assert (Ei : firstn i cs = cs) by (rewrite <- (firstn_skipn i cs) at 2; rewrite Es; now rewrite app_nil_r).
      rewrite Ei in *. destruct cs; [reflexivity|exact Hl].
    - destruct (firstn i cs); [|reflexivity]. cbn [app pred]. symmetry. apply (last_addr_ins [] x (brk h)). discriminate. }
  rewrite Hit, (each_loop_spec h' last' _ (fuel_of h') Hr (firstn i cs) ((brk h, x) :: skipn i cs) (Logic.eq_refl _)).
  - cbn [map snd]. now rewrite map_skipn.
  - pose proof (lst_fuel _ _ _ Hr) as Hf. rewrite app_length in Hf. lia.
Qed.

Lemma erase_at_index h last cs i : lst h last cs -> (i < length cs)%nat ->
  exists it h' last' y it' cs', at_index h last i = Ok it /\ erase_at h last it = Ok (h', last', y, it') /\ lst h' last' cs' /\
    nth_error (map snd cs) i = Some y /\ map snd cs' = firstn i (map snd cs) ++ skipn (S i) (map snd cs) /\
    each_loop (fuel_of h') h' last' it' = Ok (skipn (S i) (map snd cs)) /\ only h (addrs cs) h' (addrs cs').
Proof. clear eqb.
  intros H Hi. exists (it_at (firstn i cs) (skipn i cs)). rewrite (at_index_spec h last cs i H) by lia.
  rewrite <- map_skipn, <- map_firstn, (skipn_S_tl i cs). pose proof (firstn_skipn i cs) as Ecs.
  assert (Hli : length (firstn i cs) = i) by (rewrite firstn_length; lia). 
  destruct (skipn i cs) as [|[a x] c2] eqn:Es.
  { apply (f_equal (@length _)) in Es. rewrite skipn_length in Es. cbn in Es. lia. }
  pose proof H as H0. rewrite <- Ecs in H0. destruct (erase_at_spec h last _ a x c2 H0) as (h' & last' & E & Hr & Hon).
  rewrite Ecs in Hon. do 5 eexists. split; [reflexivity|]. split; [exact E|]. split; [exact Hr|].
  split; [|split; [now rewrite map_app|split; [|exact Hon]]].
  - rewrite <- Ecs at 1. rewrite map_app, nth_error_app2; rewrite map_length; [|lia]. rewrite Hli, Nat.sub_diag. reflexivity.
  - cbn [tl]. destruct c2 as [|c0 c2].
    + apply each_loop_end; [reflexivity|unfold fuel_of; lia].
    + assert (Hit : mkit (first_addr (c0 :: c2) 0) (pred (firstn i cs) (firstn i cs ++ (a, x) :: c0 :: c2)) true = it_at (firstn i cs) (c0 :: c2)).
      { unfold it_at. f_equal. destruct (firstn i cs); [|reflexivity]. cbn [app pred]. apply (last_addr_ins [] x a). discriminate. }
      rewrite Hit. apply (each_loop_spec h' last' _ (fuel_of h') Hr (firstn i cs) (c0 :: c2) (Logic.eq_refl _)).
      pose proof (lst_fuel _ _ _ Hr) as Hf. rewrite app_length in Hf. lia.
Qed.

(** ** positions of two-list operations *)
Lemma two_lst1 h l1 cs1 l2 cs2 : two h l1 cs1 l2 cs2 -> lst h l1 cs1.
Proof. clear eqb. intros (H1 & H2 & _). split; auto. Qed.
Lemma two_lst2 h l1 cs1 l2 cs2 : two h l1 cs1 l2 cs2 -> lst h l2 cs2.
Proof. clear eqb. intros (H1 & _ & H2 & _). split; auto. Qed.

Lemma cut_range {B} (l : list B) i j : (i <= j <= length l)%nat ->
  l = firstn i l ++ firstn (j - i) (skipn i l) ++ skipn j l /\ skipn i l = firstn (j - i) (skipn i l) ++ skipn j l /\
  firstn j l = firstn i l ++ firstn (j - i) (skipn i l).
Proof. clear eqb.
  intros H. assert (E1 : skipn i l = firstn (j - i) (skipn i l) ++ skipn j l).
  { rewrite <- (firstn_skipn (j - i) (skipn i l)) at 1. rewrite skipn_skipn. do 2 f_equal. lia. }
  split; [|split; [exact E1|]].
  - rewrite <- E1. now rewrite firstn_skipn.
  - replace j with (i + (j - i))%nat at 1 by lia. rewrite <- (firstn_skipn i l) at 1. rewrite firstn_app, firstn_firstn, firstn_length. f_equal; f_equal; lia.
Qed.

Lemma circular_frame h h' last cs as1 as2 : circular h last cs -> only h as1 h' as2 -> (forall a, In a (addrs cs) -> ~ In a as1) ->
  circular h' last cs /\ (forall a, In a (addrs cs) -> ~ In a as2).
Proof. clear eqb.
  intros (Hnd & Hc & Hl) [Hf _] Hd. assert (G : forall a, In a (addrs cs) -> node h' a = node h a /\ ~ In a as2).
  { intros a Ha. apply Hf; [exact (linked_live h cs _ a Hc Ha)|auto]. }
  split; [|intros a Ha; now apply G]. split; [exact Hnd|]. split; [|exact Hl]. apply (linked_ext h); [|exact Hc]. intros a Ha. now apply G.
Qed.

Lemma nodup_app_intro {B} (l1 l2 : list B) : NoDup l1 -> NoDup l2 -> (forall a, In a l1 -> ~ In a l2) -> NoDup (l1 ++ l2).
Proof. clear eqb.
  induction l1 as [|b l1 IH]; cbn; [auto|]. intros H1 H2 Hd. apply NoDup_cons_iff in H1 as [Hn H1]. constructor.
  - rewrite in_app_iff. intros [Hi|Hi]; [auto|]. exact (Hd b (or_introl Logic.eq_refl) Hi).
  - apply IH; auto.
Qed.

Lemma splice_range_spec h last cs olast ocs k i j : two h last cs olast ocs -> (k <= length cs)%nat -> (i <= j <= length ocs)%nat ->
  exists it it1 it2 h' last' olast' it',
    at_index h last k = Ok it /\ at_index h olast i = Ok it1 /\ at_index h olast j = Ok it2 /\
    splice_range h last it olast it1 it2 = Ok (h', last', olast', it') /\
    two h' last' (firstn k cs ++ firstn (j - i) (skipn i ocs) ++ skipn k cs) olast' (firstn i ocs ++ skipn j ocs) /\
    only h (addrs cs ++ addrs ocs) h' (addrs cs ++ addrs ocs).
Proof. clear eqb.
  intros H Hk Hij. pose proof (two_lst1 _ _ _ _ _ H) as H1. pose proof (two_lst2 _ _ _ _ _ H) as H2.
  destruct (cut_range ocs i j Hij) as (E1 & E2 & E3).
  set (o1 := firstn i ocs) in *. set (mid := firstn (j - i) (skipn i ocs)) in *. set (o2 := skipn j ocs) in *.
  exists (it_at (firstn k cs) (skipn k cs)), (it_at o1 (mid ++ o2)), (it_at (o1 ++ mid) o2).
  rewrite (at_index_spec h last cs k H1 Hk), (at_index_spec h olast ocs i H2), (at_index_spec h olast ocs j H2) by lia.
  fold o1 o2. rewrite E2, E3. unfold splice_range. pose proof H2 as H2'. rewrite E1 in H2'.
  destruct (split_off_spec h olast o1 mid o2 H2') as (h1 & ol1 & tl1 & Es & Ht & Hon). rewrite Es. cbn [bind].
  destruct H as (Ho & Hc & Hoc & Hnd). destruct Ht as (Ho1 & Hc12 & Hcm & Hnd1).
  assert (Hd : forall a, In a (addrs cs) -> ~ In a (addrs (o1 ++ mid ++ o2))) by (rewrite <- E1; intros a; now apply NoDup_app_disj).
  destruct (circular_frame _ _ _ _ _ _ Hc Hon Hd) as [Hc' Hd'].
  assert (Ht2 : two h1 last (firstn k cs ++ skipn k cs) tl1 mid).
  { rewrite firstn_skipn. split; [exact Ho1|]. split; [exact Hc'|]. split; [exact Hcm|]. apply nodup_app_intro; [apply Hc|apply Hcm|].
    intros a Ha Hm. apply (Hd' a Ha). apply in_or_app. auto. }
  destruct (splice_spec h1 last _ _ tl1 mid Ht2) as (h2 & last2 & it2 & Ep & [Ho2 Hr2] & Hon2). rewrite Ep. cbn [bind].
  do 4 eexists. do 4 (split; [reflexivity|]).
  assert (Hd2 : forall a, In a (addrs (o1 ++ o2)) -> ~ In a (addrs (firstn k cs ++ skipn k cs) ++ addrs mid)).
  { intros a Ha. rewrite firstn_skipn, in_app_iff. intros [Hx|Hx].
    - apply (Hd' a Hx). apply in_or_app. auto.
    - exact (NoDup_app_disj _ _ a Hnd1 Ha Hx). }
  destruct (circular_frame _ _ _ _ _ _ Hc12 Hon2 Hd2) as [Hc12' Hd2'].
  split.
  - split; [exact Ho2|]. split; [exact Hr2|]. split; [exact Hc12'|]. apply nodup_app_intro; [apply Hr2|apply Hc12|].
    intros a Ha Hb. exact (Hd2' a Hb Ha).
  - destruct Hon as [F1 L1]. destruct Hon2 as [F2 L2]. rewrite firstn_skipn in F2, L2.
    assert (Hin : forall a, In a (addrs ocs) <-> In a (addrs o1) \/ In a (addrs mid) \/ In a (addrs o2)).
    { intros a. rewrite E1 at 1. rewrite !addrs_app, !in_app_iff. tauto. }
    assert (Hin2 : forall a, In a (addrs (firstn k cs ++ mid ++ skipn k cs)) <-> In a (addrs cs) \/ In a (addrs mid)).
    { intros a. rewrite <- (firstn_skipn k cs) at 3. rewrite !addrs_app, !in_app_iff. tauto. }
    split.
    + intros a Ha Hn. split; [|exact Hn]. rewrite in_app_iff, Hin in Hn.
      destruct (F1 a Ha) as [G1 G2]; [rewrite !addrs_app, !in_app_iff; tauto|].
      destruct (F2 a) as [G3 _]; [unfold live in *; congruence|rewrite in_app_iff; tauto|congruence].
    + intros a Ha. destruct (L2 a Ha) as [Hi|[Hl Hn]].
      * left. apply Hin2 in Hi. rewrite in_app_iff, Hin. tauto.
      * destruct (L1 a Hl) as [Hi|[Hl1 Hn1]].
        -- left. rewrite in_app_iff, Hin. rewrite addrs_app, !in_app_iff in Hi. tauto.
        -- right. split; [exact Hl1|]. rewrite in_app_iff in *. rewrite Hin. rewrite !addrs_app, !in_app_iff in Hn1. tauto.
Qed.
End P.
