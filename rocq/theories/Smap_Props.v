(** smap/sset properties: C24 - C27, C74, C75 and the smap part of C03. *)
From Verif Require Import Base Slots Smap_Model Smap_Spec Smap_Proofs5.

(** C24.  After every legal history from an empty map: the operations returned and destroyed
    what they do on the ordered finite map, size is the number of keys, each key is looked up
    as in the finite map.  [legal]: at most max(reserved, 715827882) entries are stored at
    any time and reservations are below 2^31. *)
Theorem C24_smap_is_finite_map {K V} (cmp : K -> K -> Z) (ops : list (op K V)) :
  cmp_ok cmp -> legal cmp 0 [] ops ->
  exists s outs, run cmp init ops = Ok (s, outs) /\
    let l := fst (map_run cmp [] ops) in
    same_outs outs (snd (map_run cmp [] ops)) /\ size s = zlen l /\
    (forall k, get cmp s k = Ok (lookup cmp k l) /\
               contains cmp s k = Ok (match lookup cmp k l with Some _ => true | None => false end)).
Proof. intros CO. exact (history_ok cmp CO ops). Qed.
Print Assumptions C24_smap_is_finite_map.

(** The finite map of the statement: the last value associated with a key and not erased;
    insert of a present key keeps the value; one entry per key, in increasing order. *)
Theorem C24_finite_map_laws {K V} (cmp : K -> K -> Z) (l : list (K * V)) k v k' :
  cmp_ok cmp -> increasing cmp l ->
  let l1 := fst (fst (map_step cmp l (InsertOrAssign k v))) in
  let l2 := fst (fst (map_step cmp l (Insert k v))) in
  let l3 := fst (fst (map_step cmp l (Erase k))) in
  option_map snd (lookup cmp k' l1) = (if cmp k k' =? 0 then Some v else option_map snd (lookup cmp k' l)) /\
  option_map snd (lookup cmp k' l2) =
    (match lookup cmp k l with Some _ => option_map snd (lookup cmp k' l)
     | None => if cmp k k' =? 0 then Some v else option_map snd (lookup cmp k' l) end) /\
  lookup cmp k' l3 = (if cmp k k' =? 0 then None else lookup cmp k' l) /\
  increasing cmp l1 /\ increasing cmp l2 /\ increasing cmp l3.
Proof. intros CO. exact (map_laws cmp CO l k v k'). Qed.
Print Assumptions C24_finite_map_laws.

(** at(k) for a present key is its value. *)
Theorem C24_smap_at {K V} (cmp : K -> K -> Z) (ops : list (op K V)) k e :
  cmp_ok cmp -> legal cmp 0 [] ops -> lookup cmp k (fst (map_run cmp [] ops)) = Some e ->
  exists s outs, run cmp init ops = Ok (s, outs) /\ at_ cmp s k = Ok (snd e).
Proof. intros CO. exact (at_hist_ok cmp CO ops k e). Qed.
Print Assumptions C24_smap_at.

(** The hypotheses: the usual comparison of integers; a history with rotations, erasures of
    inner nodes, reuse of nodes and reservation. *)
Definition zcmp (a b : Z) : Z := a - b.
Example zcmp_ok : cmp_ok zcmp.
Proof. constructor; unfold zcmp; intros; lia. Qed.
Definition ops1 : list (op Z Z) :=
  [Insert 1 10; Insert 2 20; Insert 3 30; Insert 4 40; Insert 5 50; Insert 6 60; Insert 7 70; Insert 8 80;
   Erase 4; Erase 9; Insert 2 21; InsertOrAssign 3 31; Emplace 0 1; EmplaceOrAssign 8 81; Reserve 20;
   EraseIf (fun e => fst e =? 6); Insert 4 41].
Example C24_legal_example : legal zcmp 0 [] ops1.
Proof. unfold ops1. vm_compute. repeat split; discriminate. Qed.
Example C24_run_example :
  exists s outs, run zcmp init ops1 = Ok (s, outs) /\ size s = 8 /\
    get zcmp s 3 = Ok (Some (3, 31)) /\ get zcmp s 2 = Ok (Some (2, 20)) /\ get zcmp s 6 = Ok None.
Proof.
  match goal with |- exists h outs, ?r = _ /\ _ => let v := eval vm_compute in r in
    match v with Ok (?a, ?b) => exists a, b end end.
  repeat split; vm_compute; reflexivity.
Qed.

(** C25.  Iteration visits the entries in strictly increasing key order, lower_bound starts
    it at the first key not below k, front and back are the least and greatest entries. *)
Theorem C25_smap_order {K V} (cmp : K -> K -> Z) (ops : list (op K V)) :
  cmp_ok cmp -> legal cmp 0 [] ops ->
  exists s outs, run cmp init ops = Ok (s, outs) /\
    let l := fst (map_run cmp [] ops) in
    each s = Ok l /\ increasing cmp l /\
    (forall k, exists it, lower_bound cmp s k = Ok it /\ each_from s it = Ok (filter (fun e => 0 <=? cmp (fst e) k) l)) /\
    (forall e rest, l = e :: rest -> front s = Ok e) /\ (forall e rest, l = rest ++ [e] -> back s = Ok e).
Proof. intros CO. exact (order_ok cmp CO ops). Qed.
Print Assumptions C25_smap_order.

(** find returns an iterator from which the iteration goes on, or the end iterator;
    advance(begin, n) skips n entries. *)
Theorem C25_smap_find {K V} (cmp : K -> K -> Z) (ops : list (op K V)) k :
  cmp_ok cmp -> legal cmp 0 [] ops ->
  exists s outs it, run cmp init ops = Ok (s, outs) /\ find_it cmp s k = Ok it /\
    let l := fst (map_run cmp [] ops) in
    match lookup cmp k l with
    | Some _ => each_from s it = Ok (filter (fun e => 0 <=? cmp (fst e) k) l)
    | None => ref it = None
    end.
Proof. intros CO. exact (find_each_ok cmp CO ops k). Qed.
Print Assumptions C25_smap_find.
Theorem C25_smap_advance {K V} (cmp : K -> K -> Z) (ops : list (op K V)) n :
  cmp_ok cmp -> legal cmp 0 [] ops ->
  exists s outs it it', run cmp init ops = Ok (s, outs) /\ begin s = Ok it /\ advance (nodes s) it n = Ok it' /\
    each_from s it' = Ok (skipn n (fst (map_run cmp [] ops))).
Proof. intros CO. exact (advance_hist_ok cmp CO ops n). Qed.
Print Assumptions C25_smap_advance.

Theorem C03_smap_each {K V} (cmp : K -> K -> Z) (ops : list (op K V)) :
  cmp_ok cmp -> legal cmp 0 [] ops ->
  exists s outs, run cmp init ops = Ok (s, outs) /\ each s = Ok (fst (map_run cmp [] ops)).
Proof. intros CO H. destruct (order_ok cmp CO ops H) as (s & outs & F & E & _). exists s, outs. auto. Qed.
Print Assumptions C03_smap_each.

Example C25_example :
  exists s outs it, run zcmp init ops1 = Ok (s, outs) /\
    each s = Ok [(0, 1); (1, 10); (2, 20); (3, 31); (4, 41); (5, 50); (7, 70); (8, 81)] /\
    lower_bound zcmp s 6 = Ok it /\ each_from s it = Ok [(7, 70); (8, 81)] /\ front s = Ok (0, 1) /\ back s = Ok (8, 81).
Proof.
  match goal with |- exists h outs it, ?r = _ /\ _ => let v := eval vm_compute in r in
    match v with Ok (?a, ?b) => let w := eval vm_compute in (lower_bound zcmp a 6) in
      match w with Ok ?c => exists a, b, c end end end.
  repeat split; vm_compute; reflexivity.
Qed.

(** C26.  No downward path of a map with n entries has more than 2*log2(n+1) nodes.  That
    the stacks of insertion (64) and iteration (36) suffice is part of C24 and C25: pushing
    onto a full stack is an error of the model, and they return Ok up to 2^31 - 1 entries. *)
Theorem C26_smap_balanced {K V} (cmp : K -> K -> Z) (ops : list (op K V)) :
  cmp_ok cmp -> legal cmp 0 [] ops ->
  exists s outs, run cmp init ops = Ok (s, outs) /\
    forall n, path_from (nodes s) (root s) n -> 2 ^ n <= (size s + 1) ^ 2.
Proof. intros CO. exact (balance_ok cmp CO ops). Qed.
Print Assumptions C26_smap_balanced.

(** 9 keys inserted in increasing order: a path of 4 nodes exists. *)
Example C26_example :
  exists s outs, run zcmp init (map (fun i => Insert (Z.of_nat i) 0) (seq 0 9)) = Ok (s, outs) /\
    path_from (nodes s) (root s) 4 /\ legal zcmp 0 [] (map (fun i => Insert (Z.of_nat i) 0) (seq 0 9)).
Proof.
  match goal with |- exists h outs, ?r = _ /\ _ => let v := eval vm_compute in r in
    match v with Ok (?a, ?b) => exists a, b end end.
  split; [vm_compute; reflexivity|]. split; [|vm_compute; repeat split; discriminate].
  change 4 with (1 + (1 + (1 + (1 + 0)))). cbn [nodes root].
  eapply (path_node _ _ _ true); [discriminate|vm_compute; reflexivity|]. cbn [link lk1].
  eapply (path_node _ _ _ true); [discriminate|vm_compute; reflexivity|]. cbn [link lk1].
  eapply (path_node _ _ _ true); [discriminate|vm_compute; reflexivity|]. cbn [link lk1].
  eapply (path_node _ _ _ true); [discriminate|vm_compute; reflexivity|]. constructor.
Qed.

(** C27.  A clone holds the same entries: iteration, lookup and destruction work on it. *)
Theorem C27_smap_clone_same {K V} (cmp : K -> K -> Z) (ops : list (op K V)) :
  cmp_ok cmp -> legal cmp 0 [] ops ->
  exists s outs c dr, run cmp init ops = Ok (s, outs) /\ clone s = Ok c /\
    let l := fst (map_run cmp [] ops) in
    each c = Ok l /\ size c = zlen l /\ (forall k, get cmp c k = Ok (lookup cmp k l)) /\
    drop c = Ok dr /\ Permutation dr (flat_map destroy_entry l).
Proof. intros CO. exact (clone_read_hist cmp CO ops). Qed.
Print Assumptions C27_smap_clone_same.
(** Every further history on the clone, and on the map after shrink_to_fit, behaves - but
    only if the original never held more entries than when it was cloned. *)
Theorem C27_smap_clone_usable_partial {K V} (cmp : K -> K -> Z) (ops ops2 : list (op K V)) :
  cmp_ok cmp -> legal cmp 0 [] ops ->
  let l := fst (map_run cmp [] ops) in
  peak cmp 0 [] ops = zlen l -> legal cmp (zlen l) l ops2 ->
  exists s outs c c' outs', run cmp init ops = Ok (s, outs) /\ clone s = Ok c /\ run cmp c ops2 = Ok (c', outs') /\
    same_outs outs' (snd (map_run cmp l ops2)) /\ each c' = Ok (fst (map_run cmp l ops2)) /\
    (exists dr, shrink_to_fit s = Ok (c, dr) /\ Permutation dr (flat_map destroy_entry l)).
Proof. intros CO. exact (clone_run_hist cmp CO ops ops2). Qed.
Print Assumptions C27_smap_clone_usable_partial.
(** Otherwise the next insertion of a new key writes outside the clone's storage, whatever
    the key; the same after shrink_to_fit. *)
Theorem C27_smap_clone_after_erase_refuted {K V} (cmp : K -> K -> Z) (ops : list (op K V)) k v :
  cmp_ok cmp -> legal cmp 0 [] ops ->
  let l := fst (map_run cmp [] ops) in
  zlen l < peak cmp 0 [] ops -> lookup cmp k l = None ->
  exists s outs c dr, run cmp init ops = Ok (s, outs) /\ clone s = Ok c /\ insert cmp c k v = Err OOB /\ shrink_to_fit s = Ok (c, dr).
Proof. intros CO. exact (clone_bad cmp CO ops k v). Qed.
Print Assumptions C27_smap_clone_after_erase_refuted.

Example C27_usable_example :
  let ops := [Insert 3 0; Insert 1 0; Erase 1; Insert 2 0] in
  legal zcmp 0 [] ops /\ peak zcmp 0 [] ops = zlen (fst (map_run zcmp [] ops)) /\
  legal zcmp 2 (fst (map_run zcmp [] ops)) [Insert 9 1; Erase 3; Insert 10 2].
Proof. vm_compute. repeat split; discriminate. Qed.
Example C27_refuted_example :
  let ops := [Insert 3 0; Insert 1 0; Erase 1] in
  legal zcmp 0 [] ops /\ zlen (fst (map_run zcmp [] ops)) < peak zcmp 0 [] ops /\ lookup zcmp 5 (fst (map_run zcmp [] ops)) = None.
Proof. vm_compute. repeat split; discriminate. Qed.

(** C74.  erase_at removes the entry of the iterator and returns an iterator to the next
    one; erase_range between two lower bounds removes exactly the entries in between;
    erasing while iterating examines every entry once. *)
Theorem C74_smap_erase_at {K V} (cmp : K -> K -> Z) (ops : list (op K V)) k e rest pre :
  cmp_ok cmp -> legal cmp 0 [] ops -> fst (map_run cmp [] ops) = pre ++ e :: rest -> cmp (fst e) k = 0 ->
  exists s outs it s' it', run cmp init ops = Ok (s, outs) /\ find_it cmp s k = Ok it /\ erase_at cmp s it = Ok (s', destroy_entry e, it') /\
    each s' = Ok (pre ++ rest) /\ size s' = zlen (pre ++ rest) /\ each_from s' it' = Ok rest.
Proof. intros CO. exact (erase_at_hist cmp CO ops k e rest pre). Qed.
Print Assumptions C74_smap_erase_at.
(** [same]: equal object representations; only equivalent keys have them, and each key has
    its own (C compares the key objects with memcmp). *)
Theorem C74_smap_erase_range {K V} (cmp : K -> K -> Z) same (ops : list (op K V)) k1 k2 pre mid rest :
  cmp_ok cmp -> (forall x, same x x = true) -> (forall x y, same x y = true -> cmp x y = 0) ->
  legal cmp 0 [] ops -> fst (map_run cmp [] ops) = pre ++ mid ++ rest ->
  Forall (fun e => cmp (fst e) k1 < 0) pre -> Forall (fun e => 0 <= cmp (fst e) k1 /\ cmp (fst e) k2 < 0) mid ->
  Forall (fun e => 0 <= cmp (fst e) k1 /\ 0 <= cmp (fst e) k2) rest ->
  (forall x, cmp x k1 < 0 -> cmp x k2 < 0) ->
  exists s outs i1 i2 s' dr it', run cmp init ops = Ok (s, outs) /\ lower_bound cmp s k1 = Ok i1 /\ lower_bound cmp s k2 = Ok i2 /\
    erase_range cmp same s i1 i2 = Ok (s', dr, it') /\ dr = flat_map destroy_entry mid /\
    each s' = Ok (pre ++ rest) /\ size s' = zlen (pre ++ rest) /\ each_from s' it' = Ok rest.
Proof. intros CO. exact (erase_range_hist cmp CO same ops k1 k2 pre mid rest). Qed.
Print Assumptions C74_smap_erase_range.
Theorem C74_smap_erase_if {K V} (cmp : K -> K -> Z) (ops : list (op K V)) p :
  cmp_ok cmp -> legal cmp 0 [] ops ->
  exists s outs s' dr, run cmp init ops = Ok (s, outs) /\
    let l := fst (map_run cmp [] ops) in
    erase_if cmp p s = Ok (s', dr, l) /\ each s' = Ok (filter (fun e => negb (p e)) l) /\ dr = flat_map destroy_entry (filter p l).
Proof. intros CO. exact (erase_if_hist cmp CO ops p). Qed.
Print Assumptions C74_smap_erase_if.

Example C74_example :
  fst (map_run zcmp [] ops1) = [(0, 1); (1, 10)] ++ [(2, 20); (3, 31); (4, 41); (5, 50)] ++ [(7, 70); (8, 81)] /\
  Forall (fun e => zcmp (fst e) 2 < 0) [(0, 1); (1, 10)] /\
  Forall (fun e => 0 <= zcmp (fst e) 2 /\ zcmp (fst e) 6 < 0) [(2, 20); (3, 31); (4, 41); (5, 50)] /\
  Forall (fun e => 0 <= zcmp (fst e) 2 /\ 0 <= zcmp (fst e) 6) [(7, 70); (8, 81)] /\
  (forall x, zcmp x 2 < 0 -> zcmp x 6 < 0) /\ (forall x y, (x =? y) = true -> zcmp x y = 0).
Proof.
  split; [vm_compute; reflexivity|]. unfold zcmp. split; [repeat constructor; cbn; lia|]. split; [repeat constructor; cbn; lia|].
  split; [repeat constructor; cbn; lia|]. split; intros; lia.
Qed.

(** C75.  drop destroys the key and value of every entry, each once; smap equality compares
    sizes and keys in order and ignores the values. *)
Theorem C75_smap_drop {K V} (cmp : K -> K -> Z) (ops : list (op K V)) :
  cmp_ok cmp -> legal cmp 0 [] ops ->
  exists s outs dr, run cmp init ops = Ok (s, outs) /\ drop s = Ok dr /\
    Permutation dr (flat_map destroy_entry (fst (map_run cmp [] ops))).
Proof. intros CO. exact (drop_hist cmp CO ops). Qed.
Print Assumptions C75_smap_drop.
Theorem C75_smap_eq_keys_only {K V} (cmp : K -> K -> Z) eq (ops1 ops2 : list (op K V)) :
  cmp_ok cmp -> legal cmp 0 [] ops1 -> legal cmp 0 [] ops2 ->
  exists s1 o1 s2 o2, run cmp init ops1 = Ok (s1, o1) /\ run cmp init ops2 = Ok (s2, o2) /\
    let l1 := fst (map_run cmp [] ops1) in let l2 := fst (map_run cmp [] ops2) in
    exists b, map_eq eq s1 s2 = Ok b /\ (b = true <-> Forall2 (fun a c => eq (fst a) (fst c) = true) l1 l2).
Proof. intros CO. exact (eq_hist cmp CO eq ops1 ops2). Qed.
Print Assumptions C75_smap_eq_keys_only.
Example C75_eq_example :
  exists s1 o1 s2 o2, run zcmp init [Insert 1 10; Insert 2 20] = Ok (s1, o1) /\ run zcmp init [Insert 2 0; Insert 1 0] = Ok (s2, o2) /\
    map_eq Z.eqb s1 s2 = Ok true.
Proof.
  match goal with |- exists s1 o1 s2 o2, ?r = _ /\ ?q = _ /\ _ =>
    let v := eval vm_compute in r in let w := eval vm_compute in q in
    match v with Ok (?a, ?b) => match w with Ok (?c, ?d) => exists a, b, c, d end end end.
  repeat split; vm_compute; reflexivity.
Qed.
