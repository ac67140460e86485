(** hmap with raw arguments that point into the map itself: C101. *)
From Verif Require Import Base Slots Hmap_Model Hmap_Spec Hraw_Model Hraw_Spec Hali_Model.

Section HaliProofs.
Context {K V RK RV : Type}.
Variable toraw : K -> RK.
Variable kfrom : RK -> K.
Variable vfrom : RV -> V.
Variable vraw : V -> RV.
Variable hash : RK -> Z.
Variable eqb : RK -> RK -> bool.
Implicit Types (h : hmap K V).

Lemma lookup_found r : forall fuel h idx hx d q, lookup_loop_r toraw eqb fuel h r idx hx d = Ok q ->
  r_inserted q = false /\ forall i, r_ref q = Some i -> exists e, rd (table h) i = Ok e /\ eqb (toraw (fst e)) r = true.
Proof.
  induction fuel as [|fuel IH]; intros h idx hx d q H; [discriminate|]. cbn [lookup_loop_r] in H.
  destruct (aget (metas h) idx) as [m|]; cbn [bind] in H; [|discriminate]. destruct (d <=? dist m).
  - destruct (hashx m =? hx); [|exact (IH _ _ _ _ _ H)]. destruct (rd (table h) idx) as [e|] eqn:R; cbn [bind] in H; [|discriminate].
    destruct (eqb (toraw (fst e)) r) eqn:Q; [|exact (IH _ _ _ _ _ H)]. injection H as <-. cbn. split; [reflexivity|]. intros i Hi. injection Hi as <-. eauto.
  - injection H as <-. cbn. split; [reflexivity|discriminate].
Qed.
Lemma bucket_found r h q : bucket_lookup_r toraw hash eqb h r = Ok q ->
  r_inserted q = false /\ forall i, r_ref q = Some i -> exists e, rd (table h) i = Ok e /\ eqb (toraw (fst e)) r = true.
Proof. unfold bucket_lookup_r. destruct (bcount h =? 0); [discriminate|]. apply lookup_found. Qed.
(** A key that was not inserted was found, in the table as it was. *)
Lemma insert_found r h h1 q : bucket_insert_r toraw hash eqb h r = Ok (h1, q) -> r_inserted q = false ->
  h1 = h /\ exists i e, r_ref q = Some i /\ rd (table h) i = Ok e /\ eqb (toraw (fst e)) r = true.
Proof.
  unfold bucket_insert_r. destruct (bucket_lookup_r toraw hash eqb h r) as [p|] eqn:B; cbn [bind]; [|discriminate]. apply bucket_found in B as (B1 & B2).
  destruct (r_ref p) as [i|] eqn:P.
  - intros H I. injection H as <- <-. split; [reflexivity|]. destruct (B2 i eq_refl) as (e & X & Y). eauto.
  - destruct (aget (metas h) (r_idx p)) as [mc|]; cbn [bind]; [|discriminate]. match goal with |- context [aset ?a ?b ?c] => destruct (aset a b c) end; cbn [bind]; [|discriminate].
    destruct (negb (dist mc =? 0)).
    + destruct (rd (table h) (r_idx p)); cbn [bind]; [|discriminate]. match goal with |- context [shift_loop ?a ?b ?c ?d ?e ?f ?g] => destruct (shift_loop a b c d e f g) end; cbn [bind]; [|discriminate].
      intros H I. injection H as <- <-. discriminate.
    + intros H I. injection H as <- <-. discriminate.
Qed.
Lemma entry_found r h h1 q : insert_entry_r toraw hash eqb h r = Ok (h1, q) -> r_inserted q = false ->
  exists i e, r_ref q = Some i /\ rd (table h1) i = Ok e /\ eqb (toraw (fst e)) r = true.
Proof.
  unfold insert_entry_r. match goal with |- context [bind ?x _] => destruct x as [h0|] end; cbn [bind]; [|discriminate].
  destruct (bucket_insert_r toraw hash eqb h0 r) as [[h2 p]|] eqn:B; cbn [bind fst snd]; [|discriminate]. intros H I. injection H as <- <-. cbn [table].
  destruct (insert_found _ _ _ _ B I) as (-> & W). exact W.
Qed.
End HaliProofs.

(** C101.  emplace with a raw value that points to a block owned by a value of the same map does
    what it does with a copy. *)
Theorem C101_hmap_emplace_own_value {K V RK RV} (toraw : K -> RK) kfrom (vfrom : RV -> V) (vraw : V -> RV) hash eqb (h : hmap K V) rk r e :
  get_r toraw hash eqb h r = Ok (Some e) ->
  emplace_own toraw kfrom vfrom vraw hash eqb h rk (VHeap r) = emplace_r toraw kfrom vfrom hash eqb h rk (vraw (snd e)).
Proof. intros G. unfold emplace_own, emplace_r, read_val. rewrite G. reflexivity. Qed.

(** C101.  put as well, unless the value is that of the key itself. *)
Theorem C101_hmap_put_own_value {K V RK RV} (toraw : K -> RK) kfrom (vfrom : RV -> V) (vraw : V -> RV) hash eqb (h : hmap K V) rk r e :
  key_ok hash eqb -> get_r toraw hash eqb h r = Ok (Some e) -> eqb (toraw (fst e)) rk = false ->
  emplace_or_assign_own toraw kfrom vfrom vraw hash eqb h rk (VHeap r) = emplace_or_assign_r toraw kfrom vfrom hash eqb h rk (vraw (snd e)).
Proof.
  intros KO G NE. unfold emplace_or_assign_own, emplace_or_assign_r, read_val.
  destruct (insert_entry_r toraw hash eqb h rk) as [[h1 q]|] eqn:IE; cbn [bind fst snd]; [|reflexivity].
  destruct (r_inserted q) eqn:I; [now rewrite G|]. destruct (entry_found _ _ _ _ _ _ _ IE I) as (i & e' & R & RD & EQ).
  unfold the_ref. rewrite R. cbn [bind]. rewrite RD. cbn [bind]. rewrite G. cbn [bind].
  destruct (eqb (toraw (fst e)) (toraw (fst e'))) eqn:X; [|reflexivity]. destruct KO as [A B C D]. rewrite (C _ _ _ X EQ) in NE. discriminate.
Qed.

(** C101.  Putting under a key the value it already has, through a pointer to that value, reads
    the value after it has been destroyed: in every map, for every present key. *)
Theorem C101_hmap_put_self_refuted {K V RK RV} (toraw : K -> RK) kfrom (vfrom : RV -> V) (vraw : V -> RV) hash eqb (h : hmap K V) rk e h' d m :
  key_ok hash eqb -> get_r toraw hash eqb h rk = Ok (Some e) ->
  emplace_or_assign_r toraw kfrom vfrom hash eqb h rk (vraw (snd e)) = Ok (h', d, m, false) ->
  emplace_or_assign_own toraw kfrom vfrom vraw hash eqb h rk (VHeap rk) = Err UseAfterFree.
Proof.
  intros KO G. unfold emplace_or_assign_own, emplace_or_assign_r, read_val.
  destruct (insert_entry_r toraw hash eqb h rk) as [[h1 q]|] eqn:IE; cbn [bind fst snd]; [|discriminate].
  destruct (r_inserted q) eqn:I.
  - destruct (the_ref q); cbn [bind]; [|discriminate]. match goal with |- context [put_ref ?a ?b ?c] => destruct (put_ref a b c) end; discriminate.
  - intros _. destruct (entry_found _ _ _ _ _ _ _ IE I) as (i & e' & R & RD & EQ). unfold the_ref. rewrite R. cbn [bind]. rewrite RD. cbn [bind]. rewrite G. cbn [bind].
    assert (EE : eqb (toraw (fst e)) rk = true).
    { unfold get_r in G. destruct (size h =? 0); [discriminate|]. destruct (bucket_lookup_r toraw hash eqb h rk) as [p|] eqn:B; cbn [bind] in G; [|discriminate].
      apply bucket_found in B as (_ & B). destruct (r_ref p) as [j|]; [|discriminate]. destruct (B j eq_refl) as (e2 & X & Y). rewrite X in G. cbn [bind] in G. now injection G as ->. }
    destruct KO as [A B C D]. rewrite (C _ _ _ EE (B _ _ EQ)). reflexivity.
Qed.

(** C101.  Emplacing by a key object of the map, whose raw form points into the table, is
    harmless while the table need not grow ... *)
Theorem C101_hmap_own_key {K V RK} (toraw : K -> RK) hash eqb (h : hmap K V) r e :
  get_r toraw hash eqb h r = Ok (Some e) -> size h < load_limit (bcount h) ->
  insert_entry_own_key toraw hash eqb h r = insert_entry_r toraw hash eqb h (toraw (fst e)).
Proof.
  intros G L. unfold insert_entry_own_key, insert_entry_r. rewrite Z.geb_leb, (proj2 (Z.leb_gt _ _) L). cbn [bind].
  unfold get_r in G. destruct (size h =? 0); [discriminate|]. destruct (bucket_lookup_r toraw hash eqb h r) as [p|]; cbn [bind] in *; [|discriminate].
  unfold the_ref. destruct (r_ref p) as [j|]; [|discriminate]. cbn [bind]. rewrite Z.eqb_refl. cbn [negb].
  destruct (rd (table h) j) as [e2|]; cbn [bind] in *; [|discriminate]. now injection G as ->.
Qed.
(** ... and reads the freed table when it grows, although the key is present. *)
Theorem C101_hmap_own_key_refuted {K V RK} (toraw : K -> RK) hash eqb (h h1 : hmap K V) r e :
  get_r toraw hash eqb h r = Ok (Some e) -> load_limit (bcount h) <= size h ->
  reserve_r toraw hash eqb h (size h * 3 / 2 + 2) = Ok h1 -> bcount h1 <> bcount h ->
  insert_entry_own_key toraw hash eqb h r = Err UseAfterFree.
Proof.
  intros G L R NE. unfold insert_entry_own_key. rewrite Z.geb_leb, (proj2 (Z.leb_le _ _) L). rewrite R. cbn [bind].
  unfold get_r in G. destruct (size h =? 0); [discriminate|]. destruct (bucket_lookup_r toraw hash eqb h r) as [p|]; cbn [bind] in *; [|discriminate].
  unfold the_ref. destruct (r_ref p) as [j|]; [|discriminate]. cbn [bind]. destruct (Z.eqb_spec (bcount h1) (bcount h)); [contradiction|reflexivity].
Qed.

(** C101.  emplace with a raw value that points into a value object of the map stores the value
    of another entry: three entries in a row, a fourth pushes two of them on, and the new entry
    under 9 gets 20, the value of key 2, instead of 30, the value of key 3. *)
Theorem C101_hmap_own_short_value_refuted :
  let id := fun x : Z => x in
  (let* r := run_r id id id id Z.eqb init [REmplace 1 10; REmplace 2 20; REmplace 3 30] in
   let* q := emplace_own id id id id id Z.eqb (fst r) 9 (VInplace 3) in
   let '(h', d, m, b) := q in
   let* before := get_r id id Z.eqb (fst r) 3 in
   let* after := get_r id id Z.eqb h' 9 in Ok (d, m, b, before, after)) =
  Ok ([], [DKey 9; DVal 20], true, Some (3, 30), Some (9, 20)).
Proof. vm_compute. reflexivity. Qed.

(** Six entries fill eight buckets: the next insertion grows the table. *)
Example C101_hmap_met :
  let id := fun x : Z => x in
  exists h outs, run_r id id id id Z.eqb init [REmplace 1 10; REmplace 2 20; REmplace 3 30; REmplace 4 40; REmplace 5 50; REmplace 6 60] = Ok (h, outs) /\
    get_r id id Z.eqb h 3 = Ok (Some (3, 30)) /\
    insert_entry_own_key id id Z.eqb h 3 = Err UseAfterFree /\
    emplace_or_assign_own id id id id id Z.eqb h 3 (VHeap 3) = Err UseAfterFree /\
    (exists h1, emplace_or_assign_own id id id id id Z.eqb h 4 (VHeap 3) = Ok (h1, [DVal 40], [DVal 30], false)) /\
    (exists h1, emplace_own id id id id id Z.eqb h 7 (VHeap 3) = Ok (h1, [], [DKey 7; DVal 30], true)) /\
    emplace_own id id id id id Z.eqb h 7 (VInplace 3) = Err UseAfterFree.
Proof.
  cbn zeta. eexists _, _. split; [vm_compute; reflexivity|]. split; [vm_compute; reflexivity|]. split; [vm_compute; reflexivity|]. split; [vm_compute; reflexivity|].
  split; [eexists; vm_compute; reflexivity|]. split; [eexists; vm_compute; reflexivity|]. vm_compute; reflexivity.
Qed.
Print Assumptions C101_hmap_emplace_own_value.
Print Assumptions C101_hmap_put_own_value.
Print Assumptions C101_hmap_put_self_refuted.
Print Assumptions C101_hmap_own_key.
Print Assumptions C101_hmap_own_key_refuted.
Print Assumptions C101_hmap_own_short_value_refuted.
