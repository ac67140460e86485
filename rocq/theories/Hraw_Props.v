(** hmap and hset with raw keys and values: C100. *)
From Verif Require Import Base Slots Pow2 Float32 Hmap_Model Hmap_Spec Hmap_Proofs Hmap_Proofs2 Hmap_Proofs3 Hraw_Model Hraw_Spec Hraw_Proofs.

(** C100.  Any legal history of a map whose keys are looked up, emplaced and erased by raw
    values: each operation does, destroys and makes what it should on a finite map, objects are
    made from raw values only to be stored, and an entry is found by every raw key equal to
    the raw form of its key. *)
Theorem C100_hmap_raw {K V RK RV} (toraw : K -> RK) kfrom (vfrom : RV -> V) hash eqb (ops : list (rop K V RK RV)) :
  raw_ok toraw kfrom hash eqb -> legal_r toraw kfrom vfrom hash eqb [] ops ->
  exists h outs es, run_r toraw kfrom vfrom hash eqb init ops = Ok (h, outs) /\ each h = Ok es /\
    let l := fst (rmap_run toraw kfrom vfrom eqb [] ops) in
    same_outs_r outs (snd (rmap_run toraw kfrom vfrom eqb [] ops)) /\ size h = zlen l /\ Permutation es l /\
    (forall r, get_r toraw hash eqb h r = Ok (rlookup toraw eqb r l)).
Proof.
  intros RO LG. pose proof (kkey_ok toraw kfrom hash eqb RO) as KO. apply (legal_eq toraw kfrom vfrom hash eqb RO) in LG.
  destruct (history_ok _ _ KO _ LG) as (h & outs & es & E & E2 & SO & SZ & _ & P & G).
  rewrite (run_eq toraw kfrom vfrom hash eqb RO), E, (rrun_eq toraw kfrom vfrom hash eqb RO). cbn [bind fst snd].
  exists h, (with_made kfrom vfrom ops outs), es. split; [reflexivity|]. split; [exact E2|]. split; [now apply same_made|]. split; [exact SZ|]. split; [exact P|].
  intros r. pose proof (stands_from toraw kfrom hash eqb RO r) as S. rewrite (get_eq toraw hash eqb _ r h S), (rlookup_eq toraw hash eqb _ r _ S). apply G.
Qed.

(** C100.  What the history and the final drop destroy is what the caller handed over and what
    was made from raw values, each once. *)
Theorem C100_hmap_raw_owns {K V RK RV} (toraw : K -> RK) kfrom (vfrom : RV -> V) hash eqb (ops : list (rop K V RK RV)) :
  raw_ok toraw kfrom hash eqb -> legal_r toraw kfrom vfrom hash eqb [] ops ->
  exists h outs d, run_r toraw kfrom vfrom hash eqb init ops = Ok (h, outs) /\ drop h = Ok d /\
    Permutation (d ++ flat_map (fun x => fst (fst x)) outs) (flat_map (fun x => snd (fst x)) outs ++ flat_map handed ops).
Proof.
  intros RO LG. pose proof (kkey_ok toraw kfrom hash eqb RO) as KO. apply (legal_eq toraw kfrom vfrom hash eqb RO) in LG.
  destruct (own_ok _ _ KO _ LG) as (h & outs & d & E & E2 & P). destruct (history_ok _ _ KO _ LG) as (h' & outs' & es & E' & _ & SO & _).
  rewrite E in E'. injection E' as <- <-.
  rewrite (run_eq toraw kfrom vfrom hash eqb RO), E. cbn [bind fst snd].
  exists h, (with_made kfrom vfrom ops outs), d. split; [reflexivity|]. split; [exact E2|].
  rewrite with_made_fst by (rewrite (run_length toraw hash eqb _ _ _ _ E); apply map_length).
  rewrite P, (moved_made toraw kfrom vfrom eqb). now rewrite (with_made_snd kfrom vfrom ops _ _ SO).
Qed.

(** C100.  put_n and from_n are successive puts. *)
Theorem C100_hmap_put_n {K V RK RV} (toraw : K -> RK) kfrom (vfrom : RV -> V) hash eqb h (raws : list (RK * RV)) :
  put_n_r toraw kfrom vfrom hash eqb h raws =
    (let* r := run_r toraw kfrom vfrom hash eqb h (map (fun e => REmplaceOrAssign (fst e) (snd e)) raws) in
     Ok (fst r, flat_map (fun x => fst (fst x)) (snd r), flat_map (fun x => snd (fst x)) (snd r))).
Proof.
  revert h. induction raws as [|e raws IH]; intros h; [reflexivity|]. cbn [put_n_r map run_r step_r].
  destruct (emplace_or_assign_r toraw kfrom vfrom hash eqb h (fst e) (snd e)) as [[[[h1 d] m] b]|]; cbn [bind]; [|reflexivity]. rewrite IH.
  destruct (run_r toraw kfrom vfrom hash eqb h1 _) as [[h2 outs]|]; reflexivity.
Qed.

(** Keys are pairs of an identity and a number, their raw form is the number. *)
Example C100_hmap_raw_met :
  let kfrom := fun r : Z => (0, r) in
  let ops := [REmplace 5 50; RInsert (1, 6) 60; RInsert (2, 5) 70; REmplaceOrAssign 6 61; RInsertOrAssign (3, 6) 62; REmplace 5 51; RErase 5; REmplaceOrAssign 7 71] in
  raw_ok snd kfrom (fun r => r) Z.eqb /\ legal_r snd kfrom (fun v => v) (fun r => r) Z.eqb [] ops /\
  exists h, run_r snd kfrom (fun v => v) (fun r => r) Z.eqb init ops =
    Ok (h, [([], [DKey (0, 5); DVal 50], true); ([], [], true); ([DKey (2, 5); DVal 70], [], false); ([DVal 60], [DVal 61], false);
            ([DKey (3, 6); DVal 61], [], false); ([], [], false); ([DKey (0, 5); DVal 50], [], true); ([], [DKey (0, 7); DVal 71], true)]) /\
    get_r snd (fun r => r) Z.eqb h 6 = Ok (Some ((1, 6), 62)) /\ get_r snd (fun r => r) Z.eqb h 5 = Ok None.
Proof.
  cbn zeta. split; [|split].
  - constructor; [constructor; intros; rewrite ?Z.eqb_eq in *; rewrite ?Z.eqb_refl; auto; congruence|intros r; apply Z.eqb_refl].
  - assert (SP : forall l : list ((Z * Z) * Z), zlen l <= 1023 -> spread (fun k => snd k) l).
    { intros l H. now apply spread_small. }
    cbn -[spread Z.pow]. repeat split; try (apply SP; vm_compute; discriminate); vm_compute; reflexivity.
  - eexists. split; [vm_compute; reflexivity|]. split; vm_compute; reflexivity.
Qed.
Print Assumptions C100_hmap_raw.
Print Assumptions C100_hmap_raw_owns.
Print Assumptions C100_hmap_put_n.
