(** Proofs about the coption model, continued: long options, and the whole command line. *)
From Verif Require Import Base Opt_Model Opt_Spec Opt_Proofs Opt_Proofs2.

Definition table_ok (los : option (list lopt)) : Prop := match los with None => True | Some ls => Forall (fun l => nz (lname l)) ls end.

Lemma done_call A N a t i r opt os av o : i = zlen A + zlen N -> exists o' argv',
  finish (A ++ N ++ a :: t) i r (mkco (oind o) opt os av i (-1) (zlen N)) = Ok (r, o', argv') /\ ev_of r o' = mkev r opt os av /\ moved A N [a] t o' argv'.
Proof.
  intros Hi. destruct (finish_moved A N [a] t i r (mkco (oind o) opt os av i (-1) (zlen N))) as (o' & argv' & F & M & E);
    [auto|reflexivity|cbn [oi]; rewrite zlen_cons, zlen_nil; lia|discriminate|left; cbn; lia|].
  cbn [app] in F. rewrite F. exists o', argv'. auto.
Qed.
Lemma next_call A N a n B i r opt os av o : i = zlen A + zlen N ->
  (i <? zlen (A ++ N ++ a :: n :: B) - 1) = true /\ aget (A ++ N ++ a :: n :: B) (i + 1) = Ok n /\ exists o' argv',
  finish (A ++ N ++ a :: n :: B) i r (mkco (oind o) opt os av (i + 1) (-1) (zlen N)) = Ok (r, o', argv') /\ ev_of r o' = mkev r opt os av /\ moved A N [a; n] B o' argv'.
Proof.
  intros Hi. split; [rewrite !zlen_app, !zlen_cons; pose proof (zlen_nonneg B); lia|]. split.
  - replace (A ++ N ++ a :: n :: B) with ((A ++ N ++ [a]) ++ n :: B) by (rewrite <- !app_assoc; reflexivity). apply aget_at. rewrite !zlen_app, zlen_cons, zlen_nil. lia.
  - destruct (finish_moved A N [a; n] B i r (mkco (oind o) opt os av (i + 1) (-1) (zlen N))) as (o' & argv' & F & M & E);
      [auto|reflexivity|cbn [oi]; rewrite !zlen_cons, zlen_nil; lia|discriminate|left; cbn; lia|].
    cbn [app] in F. rewrite F. exists o', argv'. auto.
Qed.
Lemma filter_In_one (f : lopt -> bool) ls l : filter f ls = [l] -> In l ls.
Proof. intro E. assert (In l (filter f ls)) as H by (rewrite E; left; reflexivity). apply filter_In in H. apply H. Qed.

Lemma long_call los A N a t o w : table_ok los -> (forall ls l, los = Some ls -> In l ls -> lval l <> -1) -> strings (a :: t) ->
  a = chDash :: chDash :: w ->
  let i := zlen A + zlen N in
  match long los a (hd_error t) with
  | None => get_long o (A ++ N ++ a :: t) los i (zlen N) a = Ok (chQ, mkco (oind o) 0 (Some a) None i (-1) (zlen N), A ++ N ++ a :: t)
  | Some (e, b) => exists r o' argv', get_long o (A ++ N ++ a :: t) los i (zlen N) a = Ok (r, o', argv') /\ r <> -1 /\ ev_of r o' = e /\
      if b then exists n B, t = n :: B /\ moved A N [a; n] B o' argv' else moved A N [a] t o' argv'
  end.
Proof.
  intros Tok Nv Ns Ea i. assert (Na : nz a) by (inversion Ns; assumption).
  assert (Nw : nz w) by (rewrite Ea in Na; inversion Na; inversion H2; assumption).
  unfold long, get_long. destruct los as [ls|].
  2:{ destruct (done_call A N a t i chQ 0 None None o eq_refl) as (o' & argv' & -> & E & M). exists chQ, o', argv'. repeat split; auto; [discriminate|apply M..]. }
  cbn [table_ok] in Tok. replace (skipn 2 a) with w by (rewrite Ea; reflexivity).
  pose proof (split_eq_app w) as Hw. destruct (split_eq w) as [nm v] eqn:Es. cbn [fst snd] in Hw.
  assert (NE : name_end a 2 (length a) = Ok (2 + zlen nm)).
  { rewrite Ea. pose proof (name_end_ok w [chDash; chDash] 2 (length (chDash :: chDash :: w)) Nw eq_refl ltac:(cbn [length]; lia)) as Q. rewrite Es in Q. exact Q. }
  rewrite NE. cbn [bind].
  assert (ML : match_long a (2 + zlen nm) ls 0 0 None None = Ok (zlen (filter (exact nm) ls), zlen (filter (partial nm) ls), last_o (filter (exact nm) ls) None, last_o (filter (partial nm) ls) None)).
  { rewrite Ea, Hw. exact (match_long_ok nm _ ls 0 0 None None Tok). }
  rewrite ML. cbn [bind]. clear ML NE.
  (* the argument of a chosen option *)
  assert (CHOSEN : forall l, In l ls ->
    match (match ltype l, v, hd_error t with
          | NoArg, _, _ => (mkev (lval l) (lval l) (Some a) None, false)
          | _, Some x, _ => (mkev (lval l) (lval l) (Some a) (Some x), false)
          | ReqArg, None, Some n => (mkev (lval l) (lval l) (Some a) (Some n), true)
          | ReqArg, None, None => (mkev chColon (lval l) (Some a) None, false)
          | OptArg, None, Some n => (if dashed n then (mkev (lval l) (lval l) (Some a) None, false) else (mkev (lval l) (lval l) (Some a) (Some n), true))
          | OptArg, None, None => (mkev (lval l) (lval l) (Some a) None, false)
          end) with (e, b) =>
    exists r o' argv',
    (if is_noarg (ltype l) then finish (A ++ N ++ a :: t) i (lval l) (mkco (oind o) (lval l) (Some a) None i (-1) (zlen N)) else
          let* cj := ch a (2 + zlen nm) in
          if cj =? chEq then finish (A ++ N ++ a :: t) i (lval l) (mkco (oind o) (lval l) (Some a) (Some (suffix a (2 + zlen nm + 1))) i (-1) (zlen N)) else
          let* next := if (cj =? 0) && (i <? zlen (A ++ N ++ a :: t) - 1) then
                         (if is_reqarg (ltype l) then Ok true else let* n := aget (A ++ N ++ a :: t) (i + 1) in let* c := ch n 0 in Ok (negb (c =? chDash)))
                       else Ok false in
          if next : bool then
            let* n := aget (A ++ N ++ a :: t) (i + 1) in
            finish (A ++ N ++ a :: t) i (lval l) (mkco (oind o) (lval l) (Some a) (Some n) (i + 1) (-1) (zlen N))
          else if is_reqarg (ltype l) then finish (A ++ N ++ a :: t) i chColon (mkco (oind o) (lval l) (Some a) None i (-1) (zlen N))
          else finish (A ++ N ++ a :: t) i (lval l) (mkco (oind o) (lval l) (Some a) None i (-1) (zlen N))) = Ok (r, o', argv') /\ r <> -1 /\ ev_of r o' = e /\
      if b then exists n B, t = n :: B /\ moved A N [a; n] B o' argv' else moved A N [a] t o' argv' end).
  { intros l Hl. assert (Hv := Nv ls l eq_refl Hl). destruct (is_noarg (ltype l)) eqn:Hno.
    - destruct (ltype l); try discriminate.
      destruct (done_call A N a t i (lval l) (lval l) (Some a) None o eq_refl) as (o' & argv' & -> & E & M). exists (lval l), o', argv'. auto.
    - destruct v as [x|].
      + assert (C : ch a (2 + zlen nm) = Ok chEq).
        { rewrite Ea, Hw. change (chDash :: chDash :: nm ++ chEq :: x) with ((chDash :: chDash :: nm) ++ chEq :: x). apply ch_at. rewrite !zlen_cons. lia. }
        rewrite C. cbn [bind]. change (chEq =? chEq) with true. cbv iota.
        assert (X : suffix a (2 + zlen nm + 1) = x).
        { unfold suffix. rewrite Ea, Hw. change (chDash :: chDash :: nm ++ chEq :: x) with ((chDash :: chDash :: nm) ++ [chEq] ++ x). rewrite app_assoc.
          replace (Z.to_nat (2 + zlen nm + 1)) with (length ((chDash :: chDash :: nm) ++ [chEq])) by (rewrite app_length; unfold zlen; cbn [length]; lia).
          rewrite skipn_app, skipn_all, Nat.sub_diag. reflexivity. }
        rewrite X. destruct (done_call A N a t i (lval l) (lval l) (Some a) (Some x) o eq_refl) as (o' & argv' & F & E & M). rewrite F.
        destruct (ltype l); try discriminate; exists (lval l), o', argv'; auto.
      + assert (C : ch a (2 + zlen nm) = Ok 0) by (rewrite Ea, Hw, app_nil_r; apply ch_end; rewrite !zlen_cons; lia).
        rewrite C. cbn [bind]. change (0 =? chEq) with false. change (0 =? 0) with true. cbn [andb]. cbv iota.
        destruct t as [|n B].
        * replace (i <? zlen (A ++ N ++ [a]) - 1) with false by (rewrite !zlen_app, zlen_cons, zlen_nil; unfold i; lia). cbn [bind hd_error].
          destruct (ltype l); try discriminate; cbn [is_reqarg].
          -- destruct (done_call A N a [] i chColon (lval l) (Some a) None o eq_refl) as (o' & argv' & -> & E & M). exists chColon, o', argv'. repeat split; auto; [discriminate|apply M..].
          -- destruct (done_call A N a [] i (lval l) (lval l) (Some a) None o eq_refl) as (o' & argv' & -> & E & M). exists (lval l), o', argv'. auto.
        * destruct (next_call A N a n B i (lval l) (lval l) (Some a) (Some n) o eq_refl) as (-> & -> & o' & argv' & F & E & M). cbn [bind hd_error].
          destruct (ltype l); try discriminate; cbn [is_reqarg bind].
          -- rewrite F. exists (lval l), o', argv'. repeat split; auto. exists n, B. auto.
          -- rewrite dashed_ok. cbn [bind]. destruct (dashed n); cbn [negb].
             ++ destruct (done_call A N a (n :: B) i (lval l) (lval l) (Some a) None o eq_refl) as (o2 & argv2 & -> & E2 & M2). exists (lval l), o2, argv2. auto.
             ++ rewrite F. exists (lval l), o', argv'. repeat split; auto. exists n, B. auto. }
  assert (MATCH : forall l, (match ltype l, v, hd_error t with
          | NoArg, _, _ => Some (mkev (lval l) (lval l) (Some a) None, false)
          | _, Some x, _ => Some (mkev (lval l) (lval l) (Some a) (Some x), false)
          | ReqArg, None, Some n => Some (mkev (lval l) (lval l) (Some a) (Some n), true)
          | ReqArg, None, None => Some (mkev chColon (lval l) (Some a) None, false)
          | OptArg, None, Some n => Some (if dashed n then (mkev (lval l) (lval l) (Some a) None, false) else (mkev (lval l) (lval l) (Some a) (Some n), true))
          | OptArg, None, None => Some (mkev (lval l) (lval l) (Some a) None, false)
          end) = Some (match ltype l, v, hd_error t with
          | NoArg, _, _ => (mkev (lval l) (lval l) (Some a) None, false)
          | _, Some x, _ => (mkev (lval l) (lval l) (Some a) (Some x), false)
          | ReqArg, None, Some n => (mkev (lval l) (lval l) (Some a) (Some n), true)
          | ReqArg, None, None => (mkev chColon (lval l) (Some a) None, false)
          | OptArg, None, Some n => (if dashed n then (mkev (lval l) (lval l) (Some a) None, false) else (mkev (lval l) (lval l) (Some a) (Some n), true))
          | OptArg, None, None => (mkev (lval l) (lval l) (Some a) None, false)
          end)) by (intro l; destruct (ltype l), v, (hd_error t); reflexivity).
  unfold lookup. destruct (filter (exact nm) ls) as [|l [|l' ex]] eqn:Fe.
  - change (zlen (@nil lopt)) with 0. change (1 <? 0) with false. change (0 =? 0) with true. change (0 =? 1) with false. cbn [orb andb]. cbv iota.
    destruct (filter (partial nm) ls) as [|l [|l' pa]] eqn:Fp.
    + change (zlen (@nil lopt)) with 0. change (1 <? 0) with false. change (0 =? 1) with false. cbv iota.
      destruct (done_call A N a t i chQ 0 (Some a) None o eq_refl) as (o' & argv' & -> & E & M). exists chQ, o', argv'. repeat split; auto; [discriminate|apply M..].
    + change (zlen [l]) with 1. change (1 <? 1) with false. change (1 =? 1) with true. cbn [last_o fold_left]. cbv iota.
      rewrite MATCH. apply CHOSEN. eapply filter_In_one; eauto.
    + replace (1 <? zlen (l :: l' :: pa)) with true by (rewrite !zlen_cons; pose proof (zlen_nonneg pa); lia). reflexivity.
  - change (zlen [l]) with 1. change (1 <? 1) with false. change (1 =? 0) with false. change (1 =? 1) with true. cbn [orb andb last_o fold_left]. cbv iota.
    rewrite MATCH. apply CHOSEN. eapply filter_In_one; eauto.
  - replace (1 <? zlen (l :: l' :: ex)) with true by (rewrite !zlen_cons; pose proof (zlen_nonneg ex); lia). reflexivity.
Qed.
