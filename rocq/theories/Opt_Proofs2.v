(** Proofs about the coption model, continued: one call. *)
From Verif Require Import Base Opt_Model Opt_Spec Opt_Proofs.

Definition ev_of (r : Z) (o : coption) : event := mkev r (oopt o) (optstr o) (oarg o).
(** The call has moved the arguments [M] before the non-options. *)
Definition moved (A N M B : list str) (o' : coption) (argv' : list str) : Prop :=
  argv' = A ++ M ++ N ++ B /\ oi o' = zlen A + zlen N + zlen M /\ opos o' = 0 /\ onargs o' = zlen N /\ oind o' = zlen A + zlen M.

Lemma finish_moved A N M B i0 optc o : zlen A + zlen N = i0 -> onargs o = zlen N -> oi o = i0 + zlen M - 1 -> M <> [] ->
  (opos o < 0 \/ 0 <= opos o /\ exists s, aget (A ++ N ++ M ++ B) (oi o) = Ok s /\ ch s (opos o) = Ok 0) ->
  exists o' argv', finish (A ++ N ++ M ++ B) i0 optc o = Ok (optc, o', argv') /\ moved A N M B o' argv' /\ ev_of optc o' = ev_of optc o.
Proof. intros. rewrite finish_ok by assumption. do 2 eexists. split; [reflexivity|]. split; [repeat split|reflexivity]. Qed.

Lemma short_type_ok sh c : c <> 0 -> nz sh ->
  match short_type sh c with
  | None => strchr sh c = None
  | Some ty => In c sh /\ exists p p1, strchr sh c = Some p /\ ch sh (p + 1) = Ok p1 /\
      match ty with NoArg => p1 <> chColon | _ => p1 = chColon /\ exists p2, ch sh (p + 2) = Ok p2 /\ (p2 =? chColon) = match ty with OptArg => true | _ => false end end
  end.
Proof.
  intros Hc N. pose proof (strchr_ok sh c Hc N) as H. unfold short_type. destruct (after sh c) as [t|]; [|assumption].
  destruct H as (p & Hp & _ & E1 & E2 & Nt & Hi). destruct t as [|a [|b t]]; cbn [hd tl] in *.
  - split; [assumption|]. exists p, 0. repeat split; auto. discriminate.
  - destruct (Z.eqb_spec a chColon) as [->|n]; (split; [assumption|]); exists p; eexists; (split; [assumption|]); (split; [eassumption|]); [|assumption].
    split; [reflexivity|]. exists 0. split; [apply E2; discriminate|reflexivity].
  - destruct (Z.eqb_spec a chColon) as [->|n].
    + specialize (E2 ltac:(discriminate)). destruct (Z.eqb_spec b chColon) as [->|n'];
        (split; [assumption|]); exists p, chColon; (split; [assumption|]); (split; [assumption|]); (split; [reflexivity|]).
      * exists chColon. split; [assumption|reflexivity].
      * exists b. split; [assumption|]. destruct (Z.eqb_spec b chColon); [contradiction|reflexivity].
    + split; [assumption|]. exists p, a. auto.
Qed.

Lemma short_call sh A N a t o pre c cs : nz sh -> ~ In (-1) sh -> strings (a :: t) ->
  a = pre ++ c :: cs -> (opos o = 0 /\ zlen pre = 1 \/ opos o = zlen pre /\ 1 <= zlen pre) ->
  let i := zlen A + zlen N in
  exists r o' argv', get_short o (A ++ N ++ a :: t) (Some sh) i (zlen N) a = Ok (r, o', argv') /\ r <> -1 /\
   (cs <> [] /\ (exists es b, group sh (hd_error t) cs = (es, b) /\ group sh (hd_error t) (c :: cs) = (ev_of r o' :: es, b)) /\
      argv' = A ++ N ++ a :: t /\ oi o' = i /\ onargs o' = zlen N /\ opos o' = zlen pre + 1
    \/ group sh (hd_error t) (c :: cs) = ([ev_of r o'], false) /\ moved A N [a] t o' argv'
    \/ exists n B, t = n :: B /\ group sh (hd_error t) (c :: cs) = ([ev_of r o'], true) /\ moved A N [a; n] B o' argv').
Proof.
  intros Nsh Nm Ns Ea Hpos i. unfold get_short.
  assert (Nt : strings t) by (inversion Ns; assumption). assert (Na : nz a) by (inversion Ns; assumption).
  assert (Hc : c <> 0 /\ nz cs) by (rewrite Ea in Na; apply Forall_app in Na as [_ Na]; inversion Na; auto). destruct Hc as [Hc Ncs].
  set (pos1 := if opos o =? 0 then 1 else opos o).
  assert (P1 : pos1 = zlen pre) by (unfold pos1; destruct (Z.eqb_spec (opos o) 0); lia).
  assert (C1 : ch a pos1 = Ok c) by (rewrite Ea; apply ch_at; assumption). rewrite C1. cbn [bind].
  assert (C2 : ch a (pos1 + 1) = Ok (hd 0 cs)).
  { rewrite Ea. replace (pre ++ c :: cs) with ((pre ++ [c]) ++ cs) by (rewrite <- app_assoc; reflexivity). apply ch_hd. rewrite zlen_app, zlen_cons, zlen_nil. lia. }
  assert (G : aget (A ++ N ++ a :: t) i = Ok a) by (rewrite app_assoc; apply aget_at; rewrite zlen_app; reflexivity).
  (* options without an argument *)
  assert (STEP : forall r, r <> -1 -> (group sh (hd_error t) (c :: cs) = let (es, b) := group sh (hd_error t) cs in (mkev r c (Some [chDash; c]) None :: es, b)) ->
    exists r' o' argv', finish (A ++ N ++ a :: t) i r (mkco (oind o) c (Some [chDash; c]) None i (pos1 + 1) (zlen N)) = Ok (r', o', argv') /\ r' <> -1 /\
     (cs <> [] /\ (exists es b, group sh (hd_error t) cs = (es, b) /\ group sh (hd_error t) (c :: cs) = (ev_of r' o' :: es, b)) /\
      argv' = A ++ N ++ a :: t /\ oi o' = i /\ onargs o' = zlen N /\ opos o' = zlen pre + 1
    \/ group sh (hd_error t) (c :: cs) = ([ev_of r' o'], false) /\ moved A N [a] t o' argv'
    \/ exists n B, t = n :: B /\ group sh (hd_error t) (c :: cs) = ([ev_of r' o'], true) /\ moved A N [a; n] B o' argv')).
  { intros r Hr Hg. destruct cs as [|d cs].
    - destruct (finish_moved A N [a] t i r (mkco (oind o) c (Some [chDash; c]) None i (pos1 + 1) (zlen N))) as (o' & argv' & F & M & E); try reflexivity; try discriminate.
      + cbn [oi]. rewrite zlen_cons, zlen_nil. lia.
      + right. split; [cbn; lia|]. exists a. split; [exact G|exact C2].
      + cbn [app] in F. rewrite F. exists r, o', argv'. split; [reflexivity|]. split; [assumption|]. right. left. split; [|assumption]. rewrite Hg, E. reflexivity.
    - assert (Hd : d <> 0) by (inversion Ncs; assumption). rewrite (finish_stay _ _ _ _ a d); try assumption; [|cbn; lia].
      do 3 eexists. split; [reflexivity|]. split; [assumption|]. left. split; [discriminate|]. split; [|repeat split; cbn; lia].
      destruct (group sh (hd_error t) (d :: cs)) as [es b]. exists es, b. split; [reflexivity|exact Hg]. }
  pose proof (short_type_ok sh c Hc Nsh) as ST. destruct (short_type sh c) as [ty|] eqn:Ety.
  2:{ rewrite ST. apply STEP; [discriminate|]. cbn [group]. rewrite Ety. reflexivity. }
  destruct ST as (Hi & p & p1 & -> & -> & Hty). cbn [bind].
  assert (Hc1 : c <> -1) by congruence.
  destruct ty.
  { destruct (Z.eqb_spec p1 chColon); [contradiction|]. apply STEP; [assumption|]. cbn [group]. rewrite Ety. reflexivity. }
  all: destruct Hty as (-> & p2 & E2 & Hp2); change (chColon =? chColon) with true; cbv iota; rewrite C2; cbn [bind]; rewrite hd_zero by assumption.
  all: destruct cs as [|d cs]; cbn [negb]; cbv iota;
    [rewrite E2; cbn [bind]; rewrite Hp2; cbn [negb]
    |cbn [group]; rewrite Ety;
     destruct (finish_moved A N [a] t i c (mkco (oind o) c (Some [chDash; c]) (Some (suffix a (pos1 + 1))) i (-1) (zlen N))) as (o' & argv' & F & M & E);
      [reflexivity|reflexivity|cbn [oi]; rewrite zlen_cons, zlen_nil; lia|discriminate|left; cbn; lia|];
     cbn [app] in F; rewrite F; exists c, o', argv'; split; [reflexivity|]; split; [assumption|]; right; left; split; [|assumption];
     rewrite E; unfold ev_of; cbn [oopt optstr oarg]; do 4 f_equal;
     unfold suffix; rewrite Ea, P1; replace (Z.to_nat (zlen pre + 1)) with (length (pre ++ [c])) by (rewrite app_length; unfold zlen; cbn [length]; lia);
     replace (pre ++ c :: d :: cs) with ((pre ++ [c]) ++ d :: cs) by (rewrite <- app_assoc; reflexivity);
     rewrite skipn_app, skipn_all, Nat.sub_diag; reflexivity].
  all: cbn [group]; rewrite Ety.
  all: assert (DONE : forall r av, r <> -1 ->
    exists r' o' argv', finish (A ++ N ++ a :: t) i r (mkco (oind o) c (Some [chDash; c]) av i (-1) (zlen N)) = Ok (r', o', argv') /\ r' <> -1 /\
      ev_of r' o' = mkev r c (Some [chDash; c]) av /\ moved A N [a] t o' argv') by
   (intros r av Hr; destruct (finish_moved A N [a] t i r (mkco (oind o) c (Some [chDash; c]) av i (-1) (zlen N))) as (o' & argv' & F & M & E);
      [reflexivity|reflexivity|cbn [oi]; rewrite zlen_cons, zlen_nil; lia|discriminate|left; cbn; lia|];
     cbn [app] in F; rewrite F; exists r, o', argv'; auto).
  all: assert (NEXT : forall n B, t = n :: B -> (i <? zlen (A ++ N ++ a :: t) - 1) = true /\ aget (A ++ N ++ a :: t) (i + 1) = Ok n /\
    exists o' argv', finish (A ++ N ++ a :: t) i c (mkco (oind o) c (Some [chDash; c]) (Some n) (i + 1) (-1) (zlen N)) = Ok (c, o', argv') /\
      ev_of c o' = mkev c c (Some [chDash; c]) (Some n) /\ moved A N [a; n] B o' argv') by
   (intros n B Et; subst t; split; [rewrite !zlen_app, !zlen_cons; pose proof (zlen_nonneg B); unfold i; lia|]; split;
     [replace (A ++ N ++ a :: n :: B) with ((A ++ N ++ [a]) ++ n :: B) by (rewrite <- !app_assoc; reflexivity); apply aget_at; rewrite !zlen_app, zlen_cons, zlen_nil; unfold i; lia|];
     destruct (finish_moved A N [a; n] B i c (mkco (oind o) c (Some [chDash; c]) (Some n) (i + 1) (-1) (zlen N))) as (o' & argv' & F & M & E);
      [reflexivity|reflexivity|cbn [oi]; rewrite !zlen_cons, zlen_nil; lia|discriminate|left; cbn; lia|];
     cbn [app] in F; rewrite F; exists o', argv'; auto).
  all: destruct t as [|n B].
  - (* required, last *)
    replace (i <? zlen (A ++ N ++ [a]) - 1) with false by (rewrite !zlen_app, zlen_cons, zlen_nil; unfold i; lia). cbn [bind hd_error].
    destruct (DONE chColon None ltac:(discriminate)) as (r' & o' & argv' & F & Hr & E & M). rewrite F. exists r', o', argv'. rewrite E. split; [reflexivity|]. split; [exact Hr|]. right. left. split; [reflexivity|exact M].
  - destruct (NEXT n B eq_refl) as (-> & -> & o' & argv' & F & E & M). cbn [bind hd_error]. rewrite F. exists c, o', argv'. rewrite E. split; [reflexivity|]. split; [assumption|].
    right. right. exists n, B. auto.
  - replace (i <? zlen (A ++ N ++ [a]) - 1) with false by (rewrite !zlen_app, zlen_cons, zlen_nil; unfold i; lia). cbn [bind hd_error].
    destruct (DONE c None Hc1) as (r' & o' & argv' & F & Hr & E & M). rewrite F. exists r', o', argv'. rewrite E. split; [reflexivity|]. split; [exact Hr|]. right. left. split; [reflexivity|exact M].
  - destruct (NEXT n B eq_refl) as (-> & -> & o' & argv' & F & E & M). cbn [bind hd_error]. rewrite dashed_ok. cbn [bind]. destruct (dashed n); cbn [negb].
    + destruct (DONE c None Hc1) as (r' & o'' & argv'' & F' & Hr & E' & M'). rewrite F'. exists r', o'', argv''. rewrite E'. split; [reflexivity|]. split; [exact Hr|]. right. left. split; [reflexivity|exact M'].
    + rewrite F. exists c, o', argv'. rewrite E. split; [reflexivity|]. split; [assumption|]. right. right. exists n, B. auto.
Qed.
