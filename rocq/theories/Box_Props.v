(** Property C54: unique ownership in box. *)
From Verif Require Import Base Box_Model Box_Spec Box_Proofs Box_Proofs2 Box_Proofs3.

(** Every legal history runs without error (no object is used or destroyed after its death), each
    variable holds the value that value semantics says, each live object has exactly one owner, and
    each object ever made is either live or was destroyed exactly once. *)
Theorem C54_box {A} (keyclone : A -> A) n l r : run keyclone (start n) l = Some r ->
  exists g a, r = Ok g /\ arun keyclone (astart n) l = Some a /\
    Forall2 (holds (heap g)) (vars g) (avars a) /\
    Forall2 (fun p x => p <> 0 /\ exists id, heap g p = Some (id, x)) (raws g) (araws a) /\
    NoDup (owners g) /\ (forall p, In p (owners g) <-> heap g p <> None) /\
    NoDup (gone g) /\
    (forall id, 0 <= id < made g <-> In id (gone g) \/ exists p x, heap g p = Some (id, x)) /\
    (forall p id x, heap g p = Some (id, x) -> ~ In id (gone g)) /\
    (forall p q id x y, heap g p = Some (id, x) -> heap g q = Some (id, y) -> p = q).
Proof.
  intros H. destruct (run_ok keyclone l _ _ _ (sim_start n) H) as (g & a & E & Ea & S). exists g, a. destruct S.
  cbn [fly map flat_map app] in s_core. destruct s_core.
  split; [exact E|]. split; [exact Ea|]. split; [exact s_vars|]. split; [exact s_raws|]. split; [exact c_nodup|]. split; [exact c_iff|].
  split; [exact c_gone|]. split; [|split; assumption]. intros id. destruct (c_ids id). split; assumption.
Qed.

(** When every variable has been dropped or released from and the client has destroyed what it owns,
    nothing is left and every object was destroyed exactly once. *)
Theorem C54_box_end {A} (keyclone : A -> A) n l g : run keyclone (start n) l = Some (Ok g) ->
  (forall v, In v (vars g) -> v = Dead \/ v = Box 0) -> raws g = [] ->
  (forall p, heap g p = None) /\ NoDup (gone g) /\ (forall id, In id (gone g) <-> 0 <= id < made g).
Proof.
  intros H Hv Hr. destruct (C54_box _ _ _ _ H) as (g' & a & E & _ & _ & _ & _ & Ho & Hg & Hi & _). injection E as <-.
  assert (O : owners g = []).
  { unfold owners. rewrite Hr, app_nil_r. clear - Hv. induction (vars g) as [|v t IH]; [reflexivity|]. cbn [flat_map].
    rewrite IH by (intros; apply Hv; right; assumption). destruct (Hv v (or_introl eq_refl)) as [->| ->]; reflexivity. }
  assert (N : forall p, heap g p = None).
  { intros p. destruct (heap g p) eqn:Ep; [|reflexivity]. exfalso. assert (In p (owners g)) as Q by (apply Ho; congruence). rewrite O in Q. exact Q. }
  split; [exact N|]. split; [exact Hg|]. intros id. split.
  - intros Hid. apply Hi. left. exact Hid.
  - intros Hid. apply Hi in Hid. destruct Hid as [?|(p & x & E)]; [assumption|]. rewrite N in E. discriminate.
Qed.

(** A history using every operation, with self-assignment and self-take. *)
Example C54_met :
  let l := [Init 0; Make 1 100 7; Assign 0 1; Assign 0 0; Take 0 0; Drop 1; Clone 1 0 200; Release 0; ResetTo 1 0; New 300 8; Init 2; Drop 2; FromPtr 2 0;
            Move 3 2; Make 4 200 9; Take 4 3; ResetNull 4; Release 1; Free 0; Drop 4] in
  exists g, run (A := Z) (fun x => x + 1) (start 5) l = Some (Ok g) /\ gone g = [1; 3; 2; 0] /\ made g = 4 /\ raws g = [] /\ vars g = [Box 0; Box 0; Box 0; Box 0; Dead].
Proof. eexists. vm_compute. repeat split. Qed.
Print Assumptions C54_box.
Print Assumptions C54_box_end.
