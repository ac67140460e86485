From Verif Require Import Base Slots Cbits_Model Cbits_Spec Var_Spec Var_Proofs Bvar_Model Bvar_Spec Bvar_Proofs.

(** Programs over several cbits variables: no use of freed memory, no double free; each variable
    has its own bits and its own buffer; every live buffer has an owner. *)
Theorem C106_cbits_variables lg rz stays n ops : 0 <= lg -> blegal_all lg rz (repeat None n) ops ->
  exists s, brun lg rz stays (bstart n) ops = Ok s /\ bowned lg s (bspec_all lg rz (repeat None n) ops).
Proof. intro H. exact (program_ok lg H rz stays n ops). Qed.
Theorem C106_all_freed lg rz stays n ops : 0 <= lg -> blegal_all lg rz (repeat None n) ops ->
  (forall i, owns (bspec_all lg rz (repeat None n) ops) i = None) ->
  exists s, brun lg rz stays (bstart n) ops = Ok s /\ forall p c, aget (bheap s) p <> Ok (Some c).
Proof.
  intros H L N. destruct (program_ok lg H rz stays n ops L) as (s & E & W). exists s. split; [exact E|]. intros p c X.
  destruct (bo_live _ _ _ W p c X) as (i & O & _). apply O, N.
Qed.
(** Programs that are not legal go wrong: a second drop, a drop of a variable never set. *)
Theorem C106_illegal_programs_refuted lg rz stays :
  ~ (forall n ops, exists s, brun lg rz stays (bstart n) ops = Ok s) /\
  brun 6 rz stays (bstart 1) [BNew 0 70 true; BDrop 0; BDrop 0] = Err UseAfterFree.
Proof. split; [|vm_compute; reflexivity]. intro H. destruct (H 1%nat [BDrop 0]) as (s & E). discriminate E. Qed.

(** Copies between equal and different sizes, onto itself, into an empty set; moves and takes. *)
Definition busy : list bop :=
  [BNew 0 70 true; BClone 0 1; BZero 2; BCopy 2 1; BOp 1 (OReset 0 3); BCopy 0 1; BCopy 0 0; BOp 2 (OFlip 0 69); BBin 2 1 (OXor 0 1);
   BTakeSelf 2; BTake 1 2; BMove 0 0; BTake 0 0; BCopy 2 2; BOp 2 (OResize 0 5 true); BOp 0 (OResize 0 4 true)].
Ltac blegal1 := lazymatch goal with
  | |- _ /\ _ => split
  | |- True => exact Logic.I
  | |- is_var _ _ => vm_compute; split; congruence
  | |- owns _ _ = None \/ _ => right; reflexivity
  | |- _ <> None => vm_compute; discriminate
  | |- _ <= _ => vm_compute; discriminate
  | |- _ <> _ => discriminate
  | |- _ = _ => vm_compute; reflexivity
  end.
Example C106_met : blegal_all 6 true (repeat None 3) busy /\
  bspec_all 6 true (repeat None 3) busy =
    [Some [true; true; true; false]; Some (repeat false 3 ++ [true] ++ repeat false 65 ++ [true]); Some (repeat true 5)] /\
  exists s, brun 6 true (fun _ _ => true) (bstart 3) busy = Ok s /\ bvars s = [BPtr 0; BPtr 2; BPtr 3].
Proof.
  split; [unfold busy; cbn [blegal_all blegal]; repeat blegal1|]. split; [vm_compute; reflexivity|]. eexists. split; vm_compute; reflexivity.
Qed.
Example C106_all_freed_met : let ops := busy ++ [BTakeNew 1 0 false; BDrop 0; BDrop 1; BDrop 2] in
  blegal_all 6 true (repeat None 3) ops /\ (forall i, owns (bspec_all 6 true (repeat None 3) ops) i = None).
Proof.
  cbv zeta. split; [unfold busy; cbn [app blegal_all blegal]; repeat blegal1|]. intro i.
  replace (bspec_all 6 true (repeat None 3) (busy ++ [BTakeNew 1 0 false; BDrop 0; BDrop 1; BDrop 2])) with (repeat (@None (list bool)) 3) by (vm_compute; reflexivity).
  apply owns_repeat.
Qed.
Print Assumptions C106_cbits_variables.
Print Assumptions C106_all_freed.
Print Assumptions C106_illegal_programs_refuted.
