(** stack properties: C04, C03 (stack part). *)
From Verif Require Import Base Slots Stack_Model Stack_Proofs.

(** What one operation must do on a sequence [l] with room for [n] elements in all:
    new sequence, result flag, destroyed elements.  An append succeeds iff it fits. *)
Definition fixed_step {A} (n : Z) (l : list A) (o : op A) : list A * (bool * list A) :=
  match o with
  | Push x => if zlen l <? n then (l ++ [x], (true, [])) else (l, (false, []))
  | Append xs => if zlen l + zlen xs <=? n then (l ++ xs, (true, [])) else (l, (false, []))
  | Pop => (removelast l, (true, skipn (length l - 1) l))
  | Reserve k => (l, (k <=? n, []))
  | Clear => ([], (true, rev l))
  end.
Fixpoint fixed_run {A} (n : Z) (l : list A) (ops : list (op A)) : list A * list (bool * list A) :=
  match ops with
  | [] => (l, [])
  | o :: rest => let r := fixed_step n l o in
                 let r2 := fixed_run n (fst r) rest in (fst r2, snd r :: snd r2)
  end.

(** Legal histories never pop an empty stack; [exact_ok] also excludes an append that fills
    the stack exactly when it already holds two or more elements. *)
Definition legal_op {A} (l : list A) (o : op A) : Prop := match o with Pop => l <> [] | _ => True end.
Definition exact_ok {A} (n : Z) (l : list A) (o : op A) : Prop :=
  match o with Append xs => zlen l + zlen xs = n -> zlen l <= 1 | _ => True end.
Fixpoint legal {A} (n : Z) (extra : list A -> op A -> Prop) (l : list A) (ops : list (op A)) : Prop :=
  match ops with
  | [] => True
  | o :: rest => legal_op l o /\ extra l o /\ legal n extra (fst (fixed_step n l o)) rest
  end.

(** C04, as stated, fails: append_uninit refuses to fill the last free slots. *)
Theorem C04_append_exact_fit_refuted :
  exists (n : Z) (ops : list (op Z)) s outs, legal n (fun _ _ => True) [] ops /\
    run (init_fixed n) ops = Ok (s, outs) /\ outs <> snd (fixed_run n [] ops).
Proof.
  exists 4, [Push 1; Push 2; Append [3; 4]]. do 2 eexists.
  split; [cbn; tauto|]. split; [vm_compute; reflexivity|]. intros H. vm_compute in H. discriminate H.
Qed.

Lemma fixed_step_ok {A} (s : stack A) l o : fixed s = true -> stored s l -> legal_op l o -> exact_ok (capacity s) l o ->
  exists s', step s o = Ok (s', snd (fixed_step (capacity s) l o)) /\ fixed s' = true /\
    capacity s' = capacity s /\ stored s' (fst (fixed_step (capacity s) l o)).
Proof.
  intros Hf Hst Hl He. destruct o; cbn [step fixed_step legal_op exact_ok] in *.
  - destruct (push_fixed s l x Hf Hst) as (s' & -> & H1 & H2 & H3). cbn [bind fst snd].
    destruct (zlen l <? capacity s); cbn [fst snd]; eauto.
  - destruct (exists_last Hl) as (l0 & x & ->). destruct (pop_spec s l0 x Hst) as (-> & _ & H). cbn [bind fst snd].
    rewrite removelast_last, app_length. cbn [length]. replace (length l0 + 1 - 1)%nat with (length l0 + 0)%nat by lia.
    rewrite skipn_app, (skipn_all2 l0) by lia. replace (length l0 + 0 - length l0)%nat with 0%nat by lia.
    eexists. split; [reflexivity|]. auto.
  - destruct (append_fixed s l xs Hf Hst) as (s' & -> & H1 & H2 & H3). cbn [bind fst snd].
    unfold append_ok in *. destruct (Z.leb_spec (zlen l + zlen xs) (capacity s)); cbn [fst snd];
    destruct (Z.ltb_spec (zlen l + zlen xs) (capacity s)), (Z.eqb_spec (zlen l + zlen xs) (capacity s)), (Z.leb_spec (zlen l) 1);
    cbn [orb andb] in *; try lia; eauto.
  - unfold reserve. rewrite Hf. cbn [fst snd]. eauto.
  - destruct (clear_spec s l Hst) as [-> H]. cbn [bind fst snd]. eexists. split; [reflexivity|]. auto.
Qed.

(** C04, the part that holds: every operation behaves as specified, for every capacity
    and history, except appends that exactly fill a stack holding two or more elements.
    No access leaves the [n] inline slots, and their number never changes. *)
Theorem C04_fixed_stack_partial {A} (n : Z) (ops : list (op A)) : 0 <= n ->
  legal n (exact_ok n) [] ops ->
  exists s, run (init_fixed n) ops = Ok (s, snd (fixed_run n [] ops)) /\
    stored s (fst (fixed_run n [] ops)) /\ capacity s = n /\ size s <= n.
Proof.
  intros Hn Hl.
  assert (HH : forall ops (s : stack A) l, fixed s = true -> capacity s = n -> stored s l -> legal n (exact_ok n) l ops ->
    exists s', run s ops = Ok (s', snd (fixed_run n l ops)) /\ stored s' (fst (fixed_run n l ops)) /\ capacity s' = n).
  { clear. induction ops as [|o ops IH]; intros s l Hf Hc Hst Hl; cbn [run fixed_run fst snd].
    - eauto.
    - destruct Hl as (H1 & H2 & H3). rewrite <- Hc in H2.
      destruct (fixed_step_ok s l o Hf Hst H1 H2) as (s1 & -> & Hf1 & Hc1 & Hst1). cbn [bind fst snd].
      rewrite Hc in *. destruct (IH s1 _ Hf1 Hc1 Hst1 H3) as (s2 & -> & Hst2 & Hc2). cbn [bind fst snd]. eauto. }
  destruct (HH ops (init_fixed n) []) as (s & E & Hst & Hc); auto.
  { unfold capacity, init_fixed. cbn [buf]. now apply zlen_repeat. }
  { apply init_fixed_stored. }
  exists s. split; [exact E|]. split; [exact Hst|]. split; [exact Hc|].
  pose proof (stored_cap _ _ Hst). destruct Hst as [-> _]. lia.
Qed.

(** C04: even the refused appends are harmless: whatever the capacity, the history and
    the number of appended elements, an append either stores all of them or changes
    nothing, and it never refuses when room remains after it. *)
Theorem C04_append_all_or_nothing {A} (s : stack A) l xs : fixed s = true -> stored s l ->
  exists s' ok, append s xs = Ok (s', ok) /\ capacity s' = capacity s /\
    stored s' (if ok : bool then l ++ xs else l) /\
    (zlen l + zlen xs < capacity s -> ok = true) /\ (capacity s < zlen l + zlen xs -> ok = false).
Proof.
  intros Hf Hst. destruct (append_fixed s l xs Hf Hst) as (s' & E & H1 & H2 & H3).
  exists s', (append_ok (capacity s) (zlen l) (zlen xs)). repeat (split; [assumption|]).
  unfold append_ok. split; intros H.
  - destruct (Z.ltb_spec (zlen l + zlen xs) (capacity s)); [reflexivity|lia].
  - destruct (Z.ltb_spec (zlen l + zlen xs) (capacity s)); [lia|].
    destruct (Z.eqb_spec (zlen l + zlen xs) (capacity s)); [lia|reflexivity].
Qed.

Example C04_example :
  legal 3 (exact_ok 3) [] [Push 1; Append [2]; Append [5;6]; Push 3; Push 4; Pop; Clear; Append [7;8;9]] /\
  exists s, run (init_fixed 3) [Push 1; Append [2]; Append [5;6]; Push 3; Push 4; Pop; Clear; Append [7;8;9]]
    = Ok (s, [(true,[]); (true,[]); (false,[]); (true,[]); (false,[]); (true,[3]); (true,[2;1]); (true,[])]) /\ stored s [7;8;9].
Proof.
  split; [cbn; intuition (try discriminate; try lia)|]. eexists. split; [vm_compute; reflexivity|].
  split; [reflexivity|]. eexists. reflexivity.
Qed.

(** C03 for stack fails on every empty fixed stack, even a fresh one. *)
Theorem C03_stack_each_empty_refuted :
  exists n, size (@init_fixed Z n) = 0 /\ begin (@init_fixed Z n) = Some 0 /\ each (@init_fixed Z n) <> Ok [].
Proof. exists 3. split; [reflexivity|]. split; [reflexivity|]. vm_compute. discriminate. Qed.

(** C03 for stack: non-empty stacks, and growing stacks without a buffer, are visited
    completely and in order. *)
Theorem C03_stack_each_partial {A} (s : stack A) l :
  stored s l -> l <> [] \/ (fixed s = false /\ capacity s = 0) -> each s = Ok l.
Proof. apply each_spec. Qed.

Example C03_stack_example :
  exists s outs, run (init_fixed 5) [Push 1; Push 2] = Ok (s, outs) /\ stored s [1;2] /\ each s = Ok [1;2].
Proof.
  do 2 eexists. split; [vm_compute; reflexivity|]. split; [split; [reflexivity|eexists; reflexivity]|vm_compute; reflexivity].
Qed.

Print Assumptions C04_append_exact_fit_refuted.
Print Assumptions C04_fixed_stack_partial.
Print Assumptions C04_append_all_or_nothing.
Print Assumptions C03_stack_each_empty_refuted.
Print Assumptions C03_stack_each_partial.
