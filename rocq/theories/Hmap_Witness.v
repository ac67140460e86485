(** A history that leaves 1023 keys, whatever the hash. *)
From Verif Require Import Base Slots Pow2 Float32 Hmap_Model Hmap_Spec Hmap_Proofs Hmap_Proofs2 Hmap_Proofs3.

Definition count_up (n : nat) : list (op Z Z) := map (fun i => Insert (Z.of_nat i) 7) (seq 0 n).

Lemma count_up_run n : Z.of_nat n <= 1023 ->
  sizes_le Z.eqb 1023 [] (count_up n) /\ zlen (fst (map_run Z.eqb [] (count_up n))) = Z.of_nat n /\
  lookup Z.eqb (-1) (fst (map_run Z.eqb [] (count_up n))) = None.
Proof.
  set (f := fun i => @Insert Z Z (Z.of_nat i) 7). unfold count_up. fold f.
  assert (G : forall n s l, zlen l + Z.of_nat n <= 1023 -> (forall e, In e l -> 0 <= fst e < Z.of_nat s) ->
    sizes_le Z.eqb 1023 l (map f (seq s n)) /\ zlen (fst (map_run Z.eqb l (map f (seq s n)))) = zlen l + Z.of_nat n /\
    lookup Z.eqb (-1) (fst (map_run Z.eqb l (map f (seq s n)))) = None).
  { clear. induction n as [|n IH]; intros s l Hl Hin; cbn [seq map sizes_le map_run].
    - split; [exact I|]. cbn [fst]. split; [lia|]. unfold lookup. destruct (List.find _ l) as [e|] eqn:E; [|reflexivity].
      apply find_some in E as [E1 E2]. specialize (Hin e E1). lia.
    - assert (L : lookup Z.eqb (Z.of_nat s) l = None).
      { unfold lookup. destruct (List.find _ l) as [e|] eqn:E; [|reflexivity]. apply find_some in E as [E1 E2]. specialize (Hin e E1). lia. }
      destruct (IH (S s) ((Z.of_nat s, 7) :: l)) as (A & B & C); [rewrite zlen_cons; lia| |].
      { intros e [<-|He]; cbn [fst]; [lia|]. specialize (Hin e He). lia. }
      assert (Ef : map_step Z.eqb l (f s) = ((Z.of_nat s, 7) :: l, [], true)) by (unfold f; cbn [map_step]; now rewrite L).
      rewrite Ef. cbn [fst snd]. rewrite zlen_cons in *.
      split; [split; [cbn [f legal_op]; lia|]; split; [lia|exact A]|]. split; [lia|exact C]. }
  intros Hn. destruct (G n 0%nat []) as (A & B & C); [unfold zlen; cbn; lia|intros e []|]. 
  split; [exact A|]. split; [|exact C]. rewrite B. reflexivity.
Qed.
Lemma colliding_lost :
  exists (hash : Z -> Z) (ops : list (op Z Z)) h outs h',
    key_ok hash Z.eqb /\ sizes_le Z.eqb 1023 [] ops /\ zlen (fst (map_run Z.eqb [] ops)) = 1023 /\
    run hash Z.eqb init ops = Ok (h, outs) /\ insert hash Z.eqb h (-1) 5 = Ok (h', [], true) /\
    size h' = 1024 /\ get hash Z.eqb h' (-1) = Ok None.
Proof.
  exists (fun _ => 0), (count_up (Z.to_nat 1023)).
  destruct (count_up_run (Z.to_nat 1023) ltac:(lia)) as (A & B & C).
  assert (KO : key_ok (fun _ => 0) Z.eqb) by (split; intros; lia).
  rewrite Z2Nat.id in B by lia.
  destruct (overflow_hist (fun _ => 0) Z.eqb KO _ (-1) 5 (fun _ => eq_refl) A B C) as (h & outs & h' & E1 & E2 & E3 & E4).
  exists h, outs, h'. auto 10.
Qed.
