(** hmap and hset when memory runs out: C99. *)
From Verif Require Import Base Slots Pow2 Float32 Hmap_Model Hmap_Spec Hmap_Proofs Hmap_Proofs2 Hmap_Proofs3 Oomh_Model Oomh_Spec Oomh_Proofs.

(** C99.  Any history from an empty map with an allocator that fails whenever it likes: each
    operation either does what it does on a finite map or reports failure (only if an
    allocation failed) and leaves the map as it was; afterwards the map is the finite map
    that the successful operations made. *)
Theorem C99_hmap_histories {K V} (hash : K -> Z) (eqb : K -> K -> bool) (ops : list (bool * bool * op K V)) :
  key_ok hash eqb -> legal_f hash eqb [] ops ->
  exists h l outs es, run_f hash eqb init ops = Ok (h, outs) /\ run_with eqb [] ops l outs /\
    size h = zlen l /\ distinct_keys eqb l /\ each h = Ok es /\ Permutation es l /\
    (forall k, get hash eqb h k = Ok (lookup eqb k l)).
Proof.
  intros KO Hl. destruct (run_f_ok hash eqb KO ops init [] (init_repr hash eqb) Hl) as (h & l & outs & E & RW & Hr).
  destruct (each_ok hash eqb h l Hr) as (es & E2 & P). exists h, l, outs, es. split; [exact E|]. split; [exact RW|].
  split; [now apply (repr_size hash eqb)|]. split; [now apply (repr_distinct hash eqb h)|]. split; [exact E2|]. split; [exact P|].
  intros k. now apply get_ok.
Qed.

(** C99.  Every object handed over has been destroyed or is in the map, once: what the history
    and the final drop destroy is what was given.  [given] counts the arguments of insert and
    insert_or_assign also if the operation failed. *)
Theorem C99_hmap_owns {K V} (hash : K -> Z) (eqb : K -> K -> bool) (ops : list (bool * bool * op K V)) :
  key_ok hash eqb -> legal_f hash eqb [] ops ->
  exists h outs d, run_f hash eqb init ops = Ok (h, outs) /\ drop h = Ok d /\
    Permutation (given eqb [] ops outs) (flat_map (fun x => fst (fst x)) outs ++ d).
Proof.
  intros KO Hl. destruct (run_f_ok hash eqb KO ops init [] (init_repr hash eqb) Hl) as (h & l & outs & E & RW & Hr).
  destruct (drop_ok hash eqb h l Hr) as (d & E2 & P). exists h, outs, d. split; [exact E|]. split; [exact E2|].
  rewrite P. exact (given_ok hash eqb KO [] ops l outs RW I).
Qed.

(** The first growth is refused, as is the one after six insertions (then even an assignment
    to a stored key fails). *)
Example C99_hmap_met :
  let ops := [((false, true), Insert 1 10); ((true, true), Insert 1 11)] ++ map (fun k => ((false, false), Insert k (k * 10))) [2; 3; 4; 5; 6] ++
             [((true, false), Insert 7 70); ((false, false), InsertOrAssign 1 12); ((false, false), Erase 2); ((false, false), InsertOrAssign 1 13)] in
  legal_f (fun k => k) Z.eqb [] ops /\ exists h, run_f (fun k => k) Z.eqb init ops =
    Ok (h, [([DKey 1; DVal 10], false, false); ([], true, true)] ++ repeat ([], true, true) 5 ++
           [([DKey 7; DVal 70], false, false); ([DKey 1; DVal 12], false, false); ([DKey 2; DVal 20], true, true); ([DKey 1; DVal 11], false, true)]).
Proof.
  cbn zeta. split.
  - apply legal_short; [vm_compute; discriminate|repeat constructor].
  - eexists. vm_compute. reflexivity.
Qed.

(** A clone that got no memory keeps the size of the original but has no table: every lookup
    (also that of an insertion that need not grow) follows a null pointer. *)
Theorem C99_hmap_clone_unusable {K V} (hash : K -> Z) (eqb : K -> K -> bool) a (h : hmap K V) :
  granted a = false -> 0 < size h -> 0 < bcount h ->
  exists c, clone_f a h = Ok c /\ size c = size h /\ bcount c = 0 /\ forall k, get hash eqb c k = Err NullDeref.
Proof.
  intros G Hs Hb. unfold clone_f. destruct (Z.eqb_spec (bcount h) 0); [lia|]. rewrite G. cbn [negb andb].
  eexists. split; [reflexivity|]. split; [reflexivity|]. split; [reflexivity|]. intros k. unfold get. cbn [size].
  destruct (Z.eqb_spec (size h) 0); [lia|]. reflexivity.
Qed.
Theorem C99_hmap_clone_refuted : exists h outs c, run (fun k => k) Z.eqb init [Insert 1 10] = Ok (h, outs) /\
  clone_f (false, true) h = Ok c /\ size c = 1 /\ get (fun k => k) Z.eqb c 1 = Err NullDeref /\ erase (fun k => k) Z.eqb c 1 = Err NullDeref.
Proof.
  match goal with |- exists h outs c, ?r = _ /\ _ => let v := eval vm_compute in r in match v with Ok (?a, ?b) => exists a, b end end.
  eexists. repeat (split; [vm_compute; reflexivity|]). vm_compute. reflexivity.
Qed.
Print Assumptions C99_hmap_histories.
Print Assumptions C99_hmap_owns.
Print Assumptions C99_hmap_clone_unusable.
Print Assumptions C99_hmap_clone_refuted.
