(** smap and sset with raw keys and values: C100. *)
From Verif Require Import Base Slots Smap_Model Smap_Spec Smap_Proofs Smap_Proofs3 Smap_Proofs4 Smap_Proofs5 Sraw_Model Sraw_Spec Sraw_Proofs.
From Coq Require Import Sorted.

(** C100.  Any legal history of a sorted map whose keys are compared through raw values: each
    operation does, destroys and makes what it should on an ordered finite map, entries are
    visited in increasing order of their raw keys, and an entry is found by every raw key equal
    to the raw form of its key. *)
Theorem C100_smap_raw {K V RK RV} (toraw : K -> RK) kfrom (vfrom : RV -> V) cmp (ops : list (rop K V RK RV)) :
  raw_ok toraw kfrom cmp -> legal_r toraw kfrom vfrom cmp 0 [] ops ->
  exists s outs, run_r toraw kfrom vfrom cmp init ops = Ok (s, outs) /\
    let l := fst (rmap_run toraw kfrom vfrom cmp [] ops) in
    same_outs_r outs (snd (rmap_run toraw kfrom vfrom cmp [] ops)) /\ size s = zlen l /\ each s = Ok l /\ rincreasing toraw cmp l /\
    (forall r, get_r toraw cmp s r = Ok (rlookup toraw cmp r l)).
Proof.
  intros RO LG. pose proof (kcmp_ok toraw kfrom cmp RO) as CO. apply (legal_eq toraw kfrom vfrom cmp RO) in LG.
  destruct (history_ok _ CO _ LG) as (s & outs & E & SO & SZ & G). destruct (order_ok _ CO _ LG) as (s' & outs' & E' & EA & INC & _).
  rewrite E in E'. injection E' as <- <-.
  rewrite (run_eq toraw kfrom vfrom cmp RO), E, (rrun_eq toraw kfrom vfrom cmp RO). cbn [bind fst snd].
  exists s, (with_made kfrom vfrom ops outs). split; [reflexivity|]. split; [now apply same_made|]. split; [exact SZ|]. split; [exact EA|]. split; [exact INC|].
  intros r. pose proof (stands_from toraw kfrom cmp RO r) as S. rewrite (get_eq toraw cmp _ r s S), (rlookup_eq toraw cmp _ r _ S). apply G.
Qed.

(** C100.  lower_bound by a raw key starts the iteration at the first entry whose raw key is
    not below it. *)
Theorem C100_smap_lower_bound {K V RK RV} (toraw : K -> RK) kfrom (vfrom : RV -> V) cmp (ops : list (rop K V RK RV)) (r : RK) :
  raw_ok toraw kfrom cmp -> legal_r toraw kfrom vfrom cmp 0 [] ops ->
  exists s outs it, run_r toraw kfrom vfrom cmp init ops = Ok (s, outs) /\ lower_bound_r toraw cmp s r = Ok it /\
    each_from s it = Ok (filter (fun e => 0 <=? cmp (toraw (fst e)) r) (fst (rmap_run toraw kfrom vfrom cmp [] ops))).
Proof.
  intros RO LG. pose proof (kcmp_ok toraw kfrom cmp RO) as CO. apply (legal_eq toraw kfrom vfrom cmp RO) in LG.
  destruct (order_ok _ CO _ LG) as (s & outs & E & _ & _ & LB & _). destruct (LB (kfrom r)) as (it & E2 & E3).
  rewrite (run_eq toraw kfrom vfrom cmp RO), E, (rrun_eq toraw kfrom vfrom cmp RO). cbn [bind fst snd].
  pose proof (stands_from toraw kfrom cmp RO r) as S.
  exists s, (with_made kfrom vfrom ops outs), it. split; [reflexivity|]. split; [now rewrite (lower_bound_eq toraw cmp _ r s S)|]. rewrite E3. f_equal.
  apply filter_ext. intros e. specialize (S (fst e)). apply Bool.eq_iff_eq_true. rewrite !Z.leb_le. lia.
Qed.

(** C100.  What the history and the final drop destroy is what the caller handed over and what
    was made from raw values, each once. *)
Theorem C100_smap_raw_owns {K V RK RV} (toraw : K -> RK) kfrom (vfrom : RV -> V) cmp (ops : list (rop K V RK RV)) :
  raw_ok toraw kfrom cmp -> legal_r toraw kfrom vfrom cmp 0 [] ops ->
  exists s outs d, run_r toraw kfrom vfrom cmp init ops = Ok (s, outs) /\ drop s = Ok d /\
    Permutation (d ++ flat_map (fun x => fst (fst x)) outs) (flat_map (fun x => snd (fst x)) outs ++ flat_map handed ops).
Proof.
  intros RO LG. pose proof (kcmp_ok toraw kfrom cmp RO) as CO. pose proof (legal_eq toraw kfrom vfrom cmp RO _ _ _ LG) as LG'.
  destruct (C100_smap_raw toraw kfrom vfrom cmp ops RO LG) as (s & outs & E & SO & _).
  destruct (drop_hist _ CO _ LG') as (s' & outs' & dr & E' & F & P).
  pose proof (run_eq toraw kfrom vfrom cmp RO ops init) as Q. rewrite E, E' in Q. cbn [bind fst snd] in Q. injection Q as <- _.
  exists s, outs, dr. split; [exact E|]. split; [exact F|]. destruct (outs_fst _ _ SO) as (P1 & P2).
  pose proof (run_owns toraw kfrom vfrom cmp RO ops [] (SSorted_nil _)) as W. cbn zeta in W. rewrite P1, P2, P.
  replace (fst (map_run (kcmp toraw cmp) [] (map (conv kfrom vfrom) ops))) with (fst (rmap_run toraw kfrom vfrom cmp [] ops)) by (now rewrite (rrun_eq toraw kfrom vfrom cmp RO)).
  exact W.
Qed.

(** C100.  put_n and from_n are successive puts. *)
Theorem C100_smap_put_n {K V RK RV} (toraw : K -> RK) kfrom (vfrom : RV -> V) cmp s (raws : list (RK * RV)) :
  put_n_r toraw kfrom vfrom cmp s raws =
    (let* r := run_r toraw kfrom vfrom cmp s (map (fun e => REmplaceOrAssign (fst e) (snd e)) raws) in
     Ok (fst r, flat_map (fun x => fst (fst x)) (snd r), flat_map (fun x => snd (fst x)) (snd r))).
Proof.
  revert s. induction raws as [|e raws IH]; intros s; [reflexivity|]. cbn [put_n_r map run_r step_r].
  destruct (emplace_or_assign_r toraw kfrom vfrom cmp s (fst e) (snd e)) as [[[[s1 d] m] b]|]; cbn [bind]; [|reflexivity]. rewrite IH.
  destruct (run_r toraw kfrom vfrom cmp s1 _) as [[s2 outs]|]; reflexivity.
Qed.

(** Keys are pairs of an identity and a number, their raw form is the number. *)
Example C100_smap_raw_met :
  let kfrom := fun r : Z => (0, r) in let cmp := fun a b : Z => a - b in
  let ops := [REmplace 5 50; RInsert (1, 6) 60; RInsert (2, 5) 70; REmplaceOrAssign 6 61; RInsertOrAssign (3, 6) 62; REmplace 5 51; REmplace 2 20; RErase 5; REmplaceOrAssign 7 71] in
  raw_ok snd kfrom cmp /\ legal_r snd kfrom (fun v => v) cmp 0 [] ops /\
  exists s, run_r snd kfrom (fun v => v) cmp init ops =
    Ok (s, [([], [DKey (0, 5); DVal 50], true); ([], [], true); ([DKey (2, 5); DVal 70], [], false); ([DVal 60], [DVal 61], false);
            ([DKey (3, 6); DVal 61], [], false); ([], [], false); ([], [DKey (0, 2); DVal 20], true); ([DKey (0, 5); DVal 50], [], true);
            ([], [DKey (0, 7); DVal 71], true)]) /\
    each s = Ok [((0, 2), 20); ((1, 6), 62); ((0, 7), 71)] /\ get_r snd cmp s 6 = Ok (Some ((1, 6), 62)) /\ get_r snd cmp s 5 = Ok None.
Proof.
  cbn zeta. split; [|split].
  - constructor; [constructor; intros; lia|intros r; cbn; lia].
  - cbn [legal_r]. repeat split; vm_compute; discriminate.
  - eexists. split; [vm_compute; reflexivity|]. repeat split; vm_compute; reflexivity.
Qed.
Print Assumptions C100_smap_raw.
Print Assumptions C100_smap_lower_bound.
Print Assumptions C100_smap_raw_owns.
Print Assumptions C100_smap_put_n.
