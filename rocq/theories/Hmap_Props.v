(** hmap/hset properties: C18 - C23, C71 - C73 and the hmap part of C03. *)
From Verif Require Import Base Slots Pow2 Float32 Hmap_Model Hmap_Spec Hmap_Proofs Hmap_Proofs2 Hmap_Proofs3 Hmap_Witness Hmap_Safe.

(** C18.  After every legal history from an empty map: the operations returned and destroyed
    what they do on a finite map, size is the number of keys, and each key is looked up as
    in the finite map.  [legal]: capacities below 2^60 and, after each step, no window of
    n >= 1023 consecutive buckets of any table the keys may live in is home to more than n
    of the keys ([spread]). *)
Theorem C18_hmap_is_finite_map {K V} (hash : K -> Z) (eqb : K -> K -> bool) (ops : list (op K V)) :
  key_ok hash eqb -> legal hash eqb [] ops ->
  exists h outs es, run hash eqb init ops = Ok (h, outs) /\ each h = Ok es /\
    let l := fst (map_run eqb [] ops) in
    same_outs outs (snd (map_run eqb [] ops)) /\
    size h = zlen l /\ distinct_keys eqb l /\ Permutation es l /\
    (forall k, get hash eqb h k = Ok (lookup eqb k l)).
Proof. intros KO. exact (history_ok hash eqb KO ops). Qed.
Print Assumptions C18_hmap_is_finite_map.

(** The finite map of the statement: the last value associated with a key and not erased. *)
Theorem C18_finite_map_laws {K V} (hash : K -> Z) (eqb : K -> K -> bool) (l : list (K * V)) k v k' :
  key_ok hash eqb -> distinct_keys eqb l ->
  let l1 := fst (fst (map_step eqb l (InsertOrAssign k v))) in
  let l2 := fst (fst (map_step eqb l (Insert k v))) in
  let l3 := fst (fst (map_step eqb l (Erase k))) in
  option_map snd (lookup eqb k' l1) = (if eqb k k' then Some v else option_map snd (lookup eqb k' l)) /\
  option_map snd (lookup eqb k' l2) =
    (match lookup eqb k l with Some _ => option_map snd (lookup eqb k' l)
     | None => if eqb k k' then Some v else option_map snd (lookup eqb k' l) end) /\
  lookup eqb k' l3 = (if eqb k k' then None else lookup eqb k' l).
Proof. intros KO Hd. exact (finite_map_laws hash eqb KO l k v k' Hd). Qed.
Print Assumptions C18_finite_map_laws.

(** hash = identity, keys 0 .. 5000: legal (so is any history of at most 1023 keys, below). *)
Example C18_legal_example : legal (fun k => k) Z.eqb [] [Reserve 10; Insert 1 10; Insert 1 11; InsertOrAssign 1 12; Insert 17 5; Erase 1; Clear; ShrinkToFit].
Proof. apply small_legal. cbn. unfold zlen. cbn. repeat split; lia. Qed.
Example C18_spread_example : spread (fun k : Z => k) (map (fun i => (Z.of_nat i, tt)) (seq 0 5000)).
Proof. apply spread_identity. Qed.
(** A table that wraps around and displaces: all keys share a bucket near the end. *)
Example C18_run_example :
  let ops := [Insert 3 30; Insert 7 70; Insert 11 110; Erase 3; InsertOrAssign 7 71; Insert 15 150] in
  exists h outs, run (fun k => k) Z.eqb init ops = Ok (h, outs) /\ size h = 3 /\
    get (fun k => k) Z.eqb h 7 = Ok (Some (7, 71)) /\ get (fun k => k) Z.eqb h 3 = Ok None /\
    fst (map_run Z.eqb [] ops) = [(15, 150); (11, 110); (7, 71)].
Proof.
  cbn zeta. match goal with |- exists h outs, ?r = _ /\ _ => let v := eval vm_compute in r in
    match v with Ok (?a, ?b) => exists a, b end end.
  repeat split; vm_compute; reflexivity.
Qed.

(** C19.  Nothing is read or written outside the arrays and all loops end (the history
    returns Ok); the load never exceeds 81%, so an allocated table has an empty bucket. *)
Theorem C19_hmap_total_with_room {K V} (hash : K -> Z) (eqb : K -> K -> bool) (ops : list (op K V)) :
  key_ok hash eqb -> legal hash eqb [] ops ->
  exists h outs, run hash eqb init ops = Ok (h, outs) /\ 100 * size h <= 81 * bcount h /\
    (0 < bcount h -> exists p m, 0 <= p < bcount h /\ aget (metas h) p = Ok m /\ dist m = 0).
Proof. intros KO. exact (room_ok hash eqb KO ops). Qed.
Print Assumptions C19_hmap_total_with_room.

(** C19 for every hash function and key comparison, however many keys collide and even if
    the comparison is not an equivalence: each history of at most 2^60 operations returns
    Ok, as do iteration, destruction and every lookup afterwards. *)
Theorem C19_hmap_safe_any_hash {K V} (hash : K -> Z) (eqb : K -> K -> bool) (ops : list (op K V)) :
  zlen ops <= 2 ^ 60 -> Forall cap_ok ops ->
  exists h outs, run hash eqb init ops = Ok (h, outs) /\ (exists es, each h = Ok es) /\ (exists d, drop h = Ok d) /\
    (forall k, exists o, get hash eqb h k = Ok o) /\
    (0 < bcount h -> exists p m, 0 <= p < bcount h /\ aget (metas h) p = Ok m /\ dist m = 0).
Proof. exact (hist_safe hash eqb ops). Qed.
Print Assumptions C19_hmap_safe_any_hash.

(** The hypotheses are met with a constant hash and a comparison that is never true. *)
Example C19_any_hash_example :
  exists h, run (fun _ => 7) (fun _ _ => false) init (map (fun n => Insert (Z.of_nat n) 0) (seq 0 20)) = Ok (h, repeat ([], true) 20) /\ size h = 20.
Proof. eexists. split; [vm_compute; reflexivity|reflexivity]. Qed.

(** C20 (and C03 for hmap).  A for-each loop visits each entry exactly once: the visited
    entries are a rearrangement of the map's entries, whose keys are pairwise different. *)
Theorem C20_hmap_iteration {K V} (hash : K -> Z) (eqb : K -> K -> bool) (ops : list (op K V)) :
  key_ok hash eqb -> legal hash eqb [] ops ->
  exists h outs es, run hash eqb init ops = Ok (h, outs) /\ each h = Ok es /\
    Permutation es (fst (map_run eqb [] ops)) /\ distinct_keys eqb es.
Proof. intros KO. exact (each_hist_ok hash eqb KO ops). Qed.
Print Assumptions C20_hmap_iteration.

Theorem C03_hmap_each {K V} (hash : K -> Z) (eqb : K -> K -> bool) (ops : list (op K V)) :
  key_ok hash eqb -> legal hash eqb [] ops ->
  exists h outs es, run hash eqb init ops = Ok (h, outs) /\ each h = Ok es /\
    Permutation es (fst (map_run eqb [] ops)) /\ (fst (map_run eqb [] ops) = [] -> es = []).
Proof. intros KO. exact (each_hist_empty_ok hash eqb KO ops). Qed.
Print Assumptions C03_hmap_each.

(** C21.  Erasing while iterating: every entry is examined, exactly those that satisfy the
    predicate are removed and destroyed. *)
Theorem C21_hmap_erase_if {K V} (hash : K -> Z) (eqb : K -> K -> bool) (ops : list (op K V)) (P : K * V -> bool) :
  key_ok hash eqb -> legal hash eqb [] ops ->
  exists h outs h' d seen, run hash eqb init ops = Ok (h, outs) /\ erase_if P h = Ok (h', d, seen) /\
    let l := fst (map_run eqb [] ops) in
    (forall e, In e l <-> In e seen) /\
    size h' = zlen (filter (fun e => negb (P e)) l) /\
    (forall k, get hash eqb h' k = Ok (lookup eqb k (filter (fun e => negb (P e)) l))) /\
    Permutation d (flat_map destroy_entry (filter P l)).
Proof. intros KO. exact (erase_if_hist_ok hash eqb KO ops P). Qed.
Print Assumptions C21_hmap_erase_if.

(** An entry that wrapped around is examined twice (key 15 moves from bucket 0 back to 7):
    "at least once" is the best possible. *)
Example C21_seen_twice :
  exists h outs h' d, run (fun k => k) Z.eqb init [Insert 7 1; Insert 15 2] = Ok (h, outs) /\
    erase_if (fun e => fst e =? 7) h = Ok (h', d, [(15, 2); (7, 1); (15, 2)]).
Proof.
  match goal with |- exists h outs h' d, ?r = _ /\ _ => let v := eval vm_compute in r in
    match v with Ok (?a, ?b) => let w := eval vm_compute in (erase_if (fun e => fst e =? 7) a) in
      match w with Ok (?c, ?d, _) => exists a, b, c, d end end end.
  split; vm_compute; reflexivity.
Qed.

(** C22.  Any hash function, even a constant one, is fine up to 1023 keys ... *)
Theorem C22_hmap_any_hash_partial {K V} (hash : K -> Z) (eqb : K -> K -> bool) (ops : list (op K V)) :
  key_ok hash eqb -> sizes_le eqb 1023 [] ops ->
  exists h outs es, run hash eqb init ops = Ok (h, outs) /\ each h = Ok es /\
    let l := fst (map_run eqb [] ops) in
    same_outs outs (snd (map_run eqb [] ops)) /\
    size h = zlen l /\ distinct_keys eqb l /\ Permutation es l /\
    (forall k, get hash eqb h k = Ok (lookup eqb k l)).
Proof. intros KO HS. exact (history_ok hash eqb KO ops (small_legal hash eqb ops [] HS)). Qed.
Print Assumptions C22_hmap_any_hash_partial.

(** ... but when all keys collide the 1024th key is lost, after whatever history left 1023
    keys: insert reports success and size is 1024, yet the key is not found. *)
Theorem C22_hmap_any_hash_refuted {K V} (hash : K -> Z) (eqb : K -> K -> bool) (ops : list (op K V)) k v :
  key_ok hash eqb -> (forall x, hash x = 0) -> sizes_le eqb 1023 [] ops ->
  zlen (fst (map_run eqb [] ops)) = 1023 -> lookup eqb k (fst (map_run eqb [] ops)) = None ->
  exists h outs h', run hash eqb init ops = Ok (h, outs) /\ insert hash eqb h k v = Ok (h', [], true) /\
    size h' = 1024 /\ get hash eqb h' k = Ok None.
Proof. intros KO. exact (overflow_hist hash eqb KO ops k v). Qed.
Print Assumptions C22_hmap_any_hash_refuted.

Theorem C22_hmap_any_hash_refuted_witness :
  exists (hash : Z -> Z) (ops : list (op Z Z)) h outs h',
    key_ok hash Z.eqb /\ sizes_le Z.eqb 1023 [] ops /\ zlen (fst (map_run Z.eqb [] ops)) = 1023 /\
    run hash Z.eqb init ops = Ok (h, outs) /\ insert hash Z.eqb h (-1) 5 = Ok (h', [], true) /\
    size h' = 1024 /\ get hash Z.eqb h' (-1) = Ok None.
Proof. exact colliding_lost. Qed.
Print Assumptions C22_hmap_any_hash_refuted_witness.

(** C23.  reserve (and shrink_to_fit, which is reserve(size)) keeps every entry; refused
    (capacity below size), it changes nothing; otherwise the table has room for [cap].
    Automatic growth inside insert is covered by C18. *)
Theorem C23_hmap_reserve {K V} (hash : K -> Z) (eqb : K -> K -> bool) (ops : list (op K V)) cap :
  key_ok hash eqb -> legal hash eqb [] ops -> spread hash (fst (map_run eqb [] ops)) -> 0 <= cap <= 2 ^ 60 ->
  exists h outs h', run hash eqb init ops = Ok (h, outs) /\ reserve hash eqb h cap = Ok h' /\
    size h' = size h /\ (forall k, get hash eqb h' k = get hash eqb h k) /\
    (exists es es', each h = Ok es /\ each h' = Ok es' /\ Permutation es' es) /\
    (size h <= cap -> 100 * cap <= 81 * bcount h') /\
    (cap < size h -> h' = h).
Proof. intros KO. exact (reserve_hist_ok hash eqb KO ops cap). Qed.
Print Assumptions C23_hmap_reserve.

(** C71.  Ownership: over a history and a final drop, every key and value given to the map
    (or made by it) is destroyed exactly once. *)
Theorem C71_hmap_destroys_once {K V} (hash : K -> Z) (eqb : K -> K -> bool) (ops : list (op K V)) :
  key_ok hash eqb -> legal hash eqb [] ops ->
  exists h outs d, run hash eqb init ops = Ok (h, outs) /\ drop h = Ok d /\
    Permutation (d ++ flat_map fst outs) (moved_in_all eqb [] ops).
Proof. intros KO. exact (own_ok hash eqb KO ops). Qed.
Print Assumptions C71_hmap_destroys_once.

(** C72.  A clone has the same entries, equals the original and is fully usable. *)
Theorem C72_hmap_clone {K V} (hash : K -> Z) (eqb : K -> K -> bool) (ops : list (op K V)) :
  key_ok hash eqb -> legal hash eqb [] ops ->
  exists h outs h', run hash eqb init ops = Ok (h, outs) /\ clone h = Ok h' /\ eq hash eqb h' h = Ok true /\
    size h' = size h /\ (forall k, get hash eqb h' k = get hash eqb h k) /\
    (forall ops2, legal hash eqb (fst (map_run eqb [] ops)) ops2 ->
      exists h2 outs2, run hash eqb h' ops2 = Ok (h2, outs2) /\
        same_outs outs2 (snd (map_run eqb (fst (map_run eqb [] ops)) ops2)) /\
        forall k, get hash eqb h2 k = Ok (lookup eqb k (fst (map_run eqb (fst (map_run eqb [] ops)) ops2)))).
Proof. intros KO. exact (clone_hist_ok hash eqb KO ops). Qed.
Print Assumptions C72_hmap_clone.

(** C73.  _eq holds exactly when both maps have the same keys, however they were built ... *)
Theorem C73_hmap_eq_is_key_equality {K V} (hash : K -> Z) (eqb : K -> K -> bool) (ops1 ops2 : list (op K V)) :
  key_ok hash eqb -> legal hash eqb [] ops1 -> legal hash eqb [] ops2 ->
  exists h1 o1 h2 o2 c, run hash eqb init ops1 = Ok (h1, o1) /\ run hash eqb init ops2 = Ok (h2, o2) /\
    eq hash eqb h1 h2 = Ok c /\
    (c = true <-> size h1 = size h2 /\
       forall k, (lookup eqb k (fst (map_run eqb [] ops1)) = None <-> lookup eqb k (fst (map_run eqb [] ops2)) = None)).
Proof. intros KO. exact (eq_hist_ok hash eqb KO ops1 ops2). Qed.
Print Assumptions C73_hmap_eq_is_key_equality.

(** ... so two maps with different mapped values compare equal. *)
Theorem C73_hmap_eq_compares_values_refuted :
  exists h1 o1 h2 o2, run (fun k => k) Z.eqb init [Insert 1 10] = Ok (h1, o1) /\
    run (fun k => k) Z.eqb init [Insert 1 20] = Ok (h2, o2) /\
    eq (fun k => k) Z.eqb h1 h2 = Ok true /\
    get (fun k => k) Z.eqb h1 1 <> get (fun k => k) Z.eqb h2 1.
Proof. exact eq_ignores_values. Qed.
Print Assumptions C73_hmap_eq_compares_values_refuted.
