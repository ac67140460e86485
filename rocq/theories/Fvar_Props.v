(** C104: variables of stacks with a fixed capacity. *)
From Verif Require Import Base Slots Stack_Model Stack_Proofs Var_Spec Fvar_Model Fvar_Spec Fvar_Proofs.

(** C104, the part that holds.  In every program that treats a moved-from variable as owning
    nothing, puts no more elements than fit and takes only from other variables: each variable
    holds what it should, and every element is held by one variable, or was destroyed, or is
    with the caller (exactly those pulled or refused by push), once. *)
Theorem C104_fixed_stack_variables_partial {A} N n (ops : list (fop A)) : 0 <= N ->
  flegal_all N (repeat None n) ops ->
  let l := fst (fspec_all N (repeat None n) ops) in
  exists s, frun N (fstart n) ops = Ok s /\
    (forall i a, owns l i = Some a -> exists t, aget (fvars s) i = Ok (Some t) /\
       size t = zlen a /\ zlen a <= N /\ exists unused, buf t = map Some a ++ unused) /\
    fgiven s = freturned N (repeat None n) ops /\
    Permutation (held (fun a => a) l ++ fgone s ++ fgiven s) (snd (fspec_all N (repeat None n) ops)) /\
    ((forall i, vacant l i) -> Permutation (fgone s ++ fgiven s) (snd (fspec_all N (repeat None n) ops))).
Proof.
  intros N0 L l. destruct (frun_ok N N0 ops (fstart n) _ (fstart_inv N n) L) as (s & S & I & G & P). exists s. split; [exact S|].
  rewrite (Var_Proofs.held_start (fun a : list A => a) n) in P. cbn [app fstart fgone fgiven] in P, G. rewrite app_nil_r in P. fold l in P, I.
  split; [|split; [exact G|split; [exact P|]]].
  - intros i a O. destruct (proj2 I i a O) as (t & LD & F & C & St). unfold fload in LD. destruct (aget (fvars s) i) as [[t'|]|]; [|discriminate|discriminate].
    injection LD as ->. exists t. split; [reflexivity|]. pose proof (stored_cap t a St). destruct St as [St1 St2]. split; [exact St1|]. split; [lia|exact St2].
  - intro VC. assert (H0 : held (fun a : list A => a) l = []).
    { unfold held. assert (X : forall o, In o l -> match o with Some a => a | None => [] end = []).
      { intros o Io. apply In_nth_error in Io as (k & E). specialize (VC (Z.of_nat k)). unfold vacant, owns, aget in VC.
        destruct (Z.ltb_spec (Z.of_nat k) 0); [lia|]. rewrite Nat2Z.id, E in VC. destruct VC as [-> | ->]; reflexivity. }
      clear - X. induction l as [|o l IH]; [reflexivity|]. cbn [flat_map]. rewrite (X o) by now left. apply IH. intros; apply X. now right. }
    rewrite H0 in P. exact P.
Qed.

(** Refuted: _move leaves the source as it is, so that dropping both variables destroys the
    element twice. *)
Theorem C104_move_keeps_source_refuted : forall x : Z,
  exists s, frun 4 (fstart 2) [FInit 0; FPush 0 x; FMove 0 1; FDrop 0; FDrop 1] = Ok s /\ fgone s = [x; x] /\ fgiven s = [].
Proof. intro x. eexists. split; [vm_compute; reflexivity|]. split; reflexivity. Qed.
(** Refuted: _take of the variable itself leaves destroyed elements in it. *)
Theorem C104_self_take_refuted : forall x : Z,
  exists s t, frun 4 (fstart 1) [FInit 0; FPush 0 x; FTake 0 0] = Ok s /\ fgone s = [x] /\ aget (fvars s) 0 = Ok (Some t) /\ each t = Ok [x].
Proof. intro x. do 2 eexists. split; [vm_compute; reflexivity|]. split; [reflexivity|]. split; vm_compute; reflexivity. Qed.
(** Refuted: elements that _put_n (and _from_n) make beyond the capacity are neither stored nor
    destroyed. *)
Theorem C104_put_n_full_refuted : forall x y : Z,
  exists s t, frun 1 (fstart 1) [FInit 0; FPutN 0 [x; y]] = Ok s /\ aget (fvars s) 0 = Ok (Some t) /\ each t = Ok [x] /\ fgone s = [] /\ fgiven s = [].
Proof. intros x y. do 2 eexists. split; [vm_compute; reflexivity|]. split; [vm_compute; reflexivity|]. split; [vm_compute; reflexivity|]. split; reflexivity. Qed.

Definition fprog : list (fop Z) :=
  [FInit 0; FInit 1; FPush 0 1; FPutN 0 [2; 3]; FPush 0 4; FPull 0; FMove 0 2; FInit 0; FPush 1 5; FTake 1 2; FPop 1; FMove 1 1; FDrop 1; FDrop 0].
Example C104_met : flegal_all 3 (repeat None 3) fprog /\
  fst (fspec_all 3 (repeat None 3) (firstn 12 fprog)) = [Some []; Some [1]; None] /\
  (forall i, vacant (fst (fspec_all 3 (repeat None 3) fprog)) i) /\
  (exists s, frun 3 (fstart 3) fprog = Ok s /\ fgone s = [5; 2; 1] /\ fgiven s = [4; 3]).
Proof.
  split; [|split; [vm_compute; reflexivity|split]].
  - cbv -[Z.lt Z.le]. repeat match goal with
      | |- _ /\ _ => split
      | |- True => exact Logic.I
      | |- exists _, _ => eexists
      | |- _ = _ => reflexivity
      | |- _ = _ -> False => discriminate
      | |- _ \/ _ => first [left; reflexivity|right; reflexivity|left; left; reflexivity|left; right; reflexivity]
      end; lia.
  - intro i. unfold vacant, owns. destruct (aget _ i) as [o|] eqn:G; [|now left].
    assert (X : In o (fst (fspec_all 3 (repeat None 3) fprog))).
    { unfold aget in G. destruct (i <? 0); [discriminate|]. destruct (nth_error _ (Z.to_nat i)) eqn:E; [|discriminate]. injection G as <-. eapply nth_error_In; eauto. }
    vm_compute in X. intuition.
  - eexists. split; [vm_compute; reflexivity|]. split; reflexivity.
Qed.
Print Assumptions C104_fixed_stack_variables_partial.
Print Assumptions C104_move_keeps_source_refuted.
Print Assumptions C104_self_take_refuted.
Print Assumptions C104_put_n_full_refuted.
