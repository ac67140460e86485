(** random.h properties: C49, C50, C51, C77. *)
From Verif Require Import Base Random_Model Random_Spec Random_Proofs.
From Coq Require Import QArith.
Open Scope Z_scope.

(** C49.  A uniform draw returns a value of [low, high], never anything else: for every
    engine state, stream, and range with fewer than 2^63 (2^31) values.  [fuel] bounds the
    rounds of the rejection loop; running out of it is the only other outcome. *)
Theorem C49_uniform64_in_range fuel e stream lo hi d :
  signed_ok 64 lo = true -> signed_ok 64 hi = true -> lo <= hi -> hi - lo + 1 < 2 ^ 63 ->
  make_uniform 64 lo hi = Ok d -> state 64 e ->
  uniform64 fuel e stream d = Err OutOfFuel \/
  exists e' x, uniform64 fuel e stream d = Ok (e', x) /\ lo <= x <= hi /\ state 64 e'.
Proof.
  intros. apply (uniform_range 64 ltac:(lia) fuel step64 (accept_mul 64) e stream lo hi d); auto.
  intros. apply step_state; auto; lia.
Qed.
Theorem C49_uniform64_mod_in_range fuel e stream lo hi d :
  signed_ok 64 lo = true -> signed_ok 64 hi = true -> lo <= hi -> hi - lo + 1 < 2 ^ 63 ->
  make_uniform 64 lo hi = Ok d -> state 64 e ->
  uniform64_mod fuel e stream d = Err OutOfFuel \/
  exists e' x, uniform64_mod fuel e stream d = Ok (e', x) /\ lo <= x <= hi /\ state 64 e'.
Proof.
  intros. apply (uniform_range 64 ltac:(lia) fuel step64 (accept_mod 64) e stream lo hi d); auto.
  intros. apply step_state; auto; lia.
Qed.
Theorem C49_uniform32_in_range fuel e stream lo hi d :
  signed_ok 32 lo = true -> signed_ok 32 hi = true -> lo <= hi -> hi - lo + 1 < 2 ^ 31 ->
  make_uniform 32 lo hi = Ok d -> state 32 e ->
  uniform32 fuel e stream d = Err OutOfFuel \/
  exists e' x, uniform32 fuel e stream d = Ok (e', x) /\ lo <= x <= hi /\ state 32 e'.
Proof.
  intros. apply (uniform_range 32 ltac:(lia) fuel step32 (accept_mul 32) e stream lo hi d); auto.
  intros. apply step_state; auto; lia.
Qed.

(** No bias: every value of the range is produced by the same number, 2^w / range, of raw
    words (w = 64 or 32 bits; multiplication and remainder version). *)
Theorem C49_uniform_unbiased w lo hi d v : 1 < w -> lo <= hi -> hi - lo + 1 < 2 ^ (w - 1) ->
  make_uniform w lo hi = Ok d -> 0 <= v <= hi - lo ->
  exists l, NoDup l /\ zlen l = 2 ^ w / (hi - lo + 1) /\
    forall raw, In raw l <-> (word w raw /\ accept_mul w d raw = Some v).
Proof.
  intros Hw Hl Hr Hd Hv. rewrite make_uniform_ok in Hd by auto. injection Hd as <-.
  assert (2 ^ w = 2 * 2 ^ (w - 1)) by (rewrite <- Z.pow_succ_r by lia; f_equal; lia).
  apply accept_mul_count; lia.
Qed.
Theorem C49_uniform_mod_unbiased w lo hi d v : 1 < w -> lo <= hi -> hi - lo + 1 < 2 ^ (w - 1) ->
  make_uniform w lo hi = Ok d -> 0 <= v <= hi - lo ->
  exists l, NoDup l /\ zlen l = 2 ^ w / (hi - lo + 1) /\
    forall raw, In raw l <-> (word w raw /\ accept_mod w d raw = Some v).
Proof.
  intros Hw Hl Hr Hd Hv. rewrite make_uniform_ok in Hd by auto. injection Hd as <-.
  assert (2 ^ w = 2 * 2 ^ (w - 1)) by (rewrite <- Z.pow_succ_r by lia; f_equal; lia).
  apply accept_mod_count; lia.
Qed.
(** The loop ends as soon as an accepted word is drawn. *)
Theorem C49_uniform64_stops fuel e stream d n : (n < fuel)%nat ->
  (exists v, accept_mul 64 d (snd (step64 (after n (fun e => fst (step64 e stream)) e) stream)) = Some v) ->
  uniform64 fuel e stream d <> Err OutOfFuel.
Proof. exact (uniform_stops 64 fuel step64 (accept_mul 64) e stream d n). Qed.

(** Ranges of 2^63 values or more overflow signed arithmetic; "all int64" is such a range. *)
Theorem C49_full_range_refuted : make_uniform 64 (- 2 ^ 63) (2 ^ 63 - 1) = Err Overflow /\ make_uniform 64 0 (2 ^ 63 - 1) = Err Overflow.
Proof. split; reflexivity. Qed.

Example C49_example :
  make_uniform 64 (-3) 6 = Ok (mkdist (-3) 10 6) /\ state 64 global64 /\
  (exists e, uniform64 5 global64 1 (mkdist (-3) 10 6) = Ok (e, -3)) /\
  (exists e, uniform32 5 global32 1 (mkdist 10 100 96) = Ok (e, 15)).
Proof. split; [reflexivity|]. split; [unfold state, word; cbn; lia|]. split; eexists; vm_compute; reflexivity. Qed.

(** C50.  One draw is a bijection on engine states, for every stream; with an odd stream no
    state comes back within 2^64 (2^32) draws. *)
Theorem C50_engine64_bijective stream :
  (forall e, state 64 e -> state 64 (fst (step64 e stream)) /\ word 64 (snd (step64 e stream))) /\
  (forall e1 e2, state 64 e1 -> state 64 e2 -> fst (step64 e1 stream) = fst (step64 e2 stream) -> e1 = e2) /\
  (forall e, state 64 e -> exists e', state 64 e' /\ fst (step64 e' stream) = e).
Proof.
  split; [|split]; intros.
  - apply step_state; auto; lia.
  - eapply (step_inj 64 11 24); eauto; lia.
  - apply step_surj; auto; lia.
Qed.
Theorem C50_engine64_period e stream n m : state 64 e -> Z.odd stream = true ->
  (n < m)%nat -> Z.of_nat m - Z.of_nat n < 2 ^ 64 ->
  after n (fun e => fst (step64 e stream)) e <> after m (fun e => fst (step64 e stream)) e.
Proof. apply no_recurrence; lia. Qed.
Theorem C50_engine32_bijective stream :
  (forall e, state 32 e -> state 32 (fst (step32 e stream)) /\ word 32 (snd (step32 e stream))) /\
  (forall e1 e2, state 32 e1 -> state 32 e2 -> fst (step32 e1 stream) = fst (step32 e2 stream) -> e1 = e2) /\
  (forall e, state 32 e -> exists e', state 32 e' /\ fst (step32 e' stream) = e).
Proof.
  split; [|split]; intros.
  - apply step_state; auto; lia.
  - eapply (step_inj 32 9 21); eauto; lia.
  - apply step_surj; auto; lia.
Qed.
Theorem C50_engine32_period e stream n m : state 32 e -> Z.odd stream = true ->
  (n < m)%nat -> Z.of_nat m - Z.of_nat n < 2 ^ 32 ->
  after n (fun e => fst (step32 e stream)) e <> after m (fun e => fst (step32 e stream)) e.
Proof. apply no_recurrence; lia. Qed.
(** Every seed gives a state, different seeds give different states. *)
Theorem C50_seed seed seed' : word 64 seed -> word 64 seed' ->
  state 64 (seed64 seed) /\ (seed64 seed = seed64 seed' -> seed = seed').
Proof. intros H H'. split; [now apply seed_state|]. intros E. exact (f_equal s3 E). Qed.
(** With an even stream the guarantee is lost: stream 0 has a fixed point. *)
Theorem C50_even_stream_counterexample : exists e, state 64 e /\ fst (step64 e 0) = e.
Proof. exists (mkeng 0 0 0 0). split; [unfold state, word; cbn; lia|reflexivity]. Qed.
Example C50_example : state 64 (seed64 42) /\ state 32 (seed32 42) /\ state 32 global32.
Proof. unfold state, word. repeat split; vm_compute; congruence. Qed.

(** C51.  Shuffling permutes, whatever the generator; and every arrangement can come out. *)
Theorem C51_shuffle_permutes {A S} (next : S -> S * Z) s (l : list A) :
  exists l' s', shuffle next (length l - 1) s l = Ok (l', s') /\ Permutation l l'.
Proof. exact (shuffle_all next s l). Qed.
Theorem C51_shuffle64 {A} e (l : list A) : exists l' e', shuffle64 e l = Ok (l', e') /\ Permutation l l'.
Proof. exact (shuffle_all _ e l). Qed.
Theorem C51_shuffle_reaches_all {A} (l l' : list A) : zlen l <= 2 ^ 32 -> Permutation l l' ->
  exists raws, Forall (word 32) raws /\ shuffle feed (length l - 1) raws l = Ok (l', []).
Proof. exact (shuffle_reach l l'). Qed.
(** Reals are in [0,1); the exact value is a double, so the C computation does not round. *)
Theorem C51_real64 raw : word 64 raw -> (0 <= real64 raw)%Q /\ (real64 raw < 1)%Q /\ is_double (real64 raw).
Proof. exact (real64_range raw). Qed.
Theorem C51_real32 raw : word 32 raw -> (0 <= real32 raw)%Q /\ (real32 raw < 1)%Q /\ is_double (real32 raw).
Proof. exact (real32_range raw). Qed.
Example C51_example : exists e, shuffle64 global64 [1; 2; 3; 4; 5; 6] = Ok ([3; 2; 4; 6; 1; 5], e).
Proof. eexists. vm_compute. reflexivity. Qed.

(** C77.  crand64_normal uses both values of each accepted pair, in order ... *)
Theorem C77_normal_pairs_partial {F} (sample : Z -> Z -> option (F * F)) k fuel e stream e' l :
  2 * Z.of_nat k <= 2 ^ 31 - 2 -> pairs sample k fuel e stream = Ok (e', l) ->
  exists d', normals sample (2 * k) fuel e stream normal_init = Ok (e', d', l).
Proof.
  intros Hk H. destruct (normals_pairs sample k fuel e stream normal_init e' l) as (d' & E & _); cbn [has_next normal_init]; auto; try lia.
  exists d'. exact E.
Qed.
(** ... but its call counter is an int: no distribution survives 2^31 calls. *)
Theorem C77_normal_call_limit_refuted {F} (sample : Z -> Z -> option (F * F)) n fuel e stream :
  2 ^ 31 <= Z.of_nat n -> forall r, normals sample n fuel e stream normal_init <> Ok r.
Proof. intros Hn r E. apply normals_limit in E; cbn [has_next normal_init] in *; lia. Qed.
Example C77_example : exists e d, normals (fun a b => if a <? b then Some (a mod 10, b mod 10) else None) 4 20 global64 1 normal_init = Ok (e, d, [8; 0; 8; 7]).
Proof.
  match goal with |- exists h outs, ?r = _ => let v := eval vm_compute in r in
    match v with Ok (?a, ?b, _) => exists a, b end end. vm_compute. reflexivity.
Qed.

Print Assumptions C49_uniform64_in_range.
Print Assumptions C49_uniform64_mod_in_range.
Print Assumptions C49_uniform32_in_range.
Print Assumptions C49_uniform_unbiased.
Print Assumptions C49_uniform_mod_unbiased.
Print Assumptions C49_uniform64_stops.
Print Assumptions C49_full_range_refuted.
Print Assumptions C50_engine64_bijective.
Print Assumptions C50_engine64_period.
Print Assumptions C50_engine32_bijective.
Print Assumptions C50_engine32_period.
Print Assumptions C50_seed.
Print Assumptions C50_even_stream_counterexample.
Print Assumptions C51_shuffle_permutes.
Print Assumptions C51_shuffle64.
Print Assumptions C51_shuffle_reaches_all.
Print Assumptions C51_real64.
Print Assumptions C51_real32.
Print Assumptions C77_normal_pairs_partial.
Print Assumptions C77_normal_call_limit_refuted.
