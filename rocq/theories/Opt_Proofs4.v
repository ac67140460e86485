(** Proofs about the coption model, continued: the whole command line. *)
From Verif Require Import Base Opt_Model Opt_Spec Opt_Proofs Opt_Proofs2 Opt_Proofs3.
From Coq Require Import Permutation.

Section P.
Variables (so : option str) (los : option (list lopt)).
Hypothesis Nso : match so with Some sh => nz sh | None => True end.
Hypothesis Tok : table_ok los.
Hypothesis Nend : no_end so los.

Definition fin (a : str) (t : list str) (r : list event * bool) : outcome :=
  match r with
  | (es, true) => match t with n :: t' => add es [a; n] [] (parse so los t') | [] => add es [a] [] (parse so los t) end
  | (es, false) => add es [a] [] (parse so los t)
  end.
(** What is still to come; [mid] is the rest of a group of short options. *)
Definition Out (l : list str) (mid : option str) : outcome :=
  match mid, so, l with
  | Some cs, Some sh, a :: t => fin a t (group sh (hd_error t) cs)
  | _, _, _ => parse so los l
  end.
Definition size (l : list str) : nat := fold_right (fun s n => S (length s) + n)%nat O l.
Definition measure (l : list str) (mid : option str) : nat :=
  match mid, l with Some cs, _ :: t => length cs + size t | _, _ => size l end.
Record R (o : coption) (argv P N l : list str) (mid : option str) : Prop := mkR {
  r_argv : argv = P ++ N ++ l;
  r_i : oi o = zlen P + zlen N;
  r_n : onargs o = zlen N;
  r_str : strings l;
  r_mid : match mid with
          | None => opos o = 0 \/ exists a t c w, l = a :: t /\ a = chDash :: chDash :: c :: w
          | Some cs => exists sh a t d pre, so = Some sh /\ l = a :: t /\ a = (chDash :: d :: pre) ++ cs /\ d <> chDash /\ cs <> [] /\ opos o = 2 + zlen pre
          end }.

Lemma add_nil x : add [] [] [] x = x.
Proof. destruct x; reflexivity. Qed.
Lemma add_add es ts ns es' ts' ns' x : add es ts ns (add es' ts' ns' x) = add (es ++ es') (ts ++ ts') (ns ++ ns') x.
Proof. unfold add. cbn. rewrite !app_assoc. reflexivity. Qed.
Lemma span l : exists X Y, l = X ++ Y /\ Forall (fun s => plain s = true) X /\ match Y with [] => True | y :: _ => plain y = false end.
Proof.
  induction l as [|a l (X & Y & E & HX & HY)]; [exists [], []; auto|].
  destruct (plain a) eqn:Ea; [exists (a :: X), Y; subst; auto|exists [], (a :: l); auto].
Qed.
Lemma parse_span X Y : posix so = false -> Forall (fun s => plain s = true) X -> parse so los (X ++ Y) = add [] [] X (parse so los Y).
Proof.
  intros Hp. induction 1 as [|x X Hx HX IH]; cbn [app]; [rewrite add_nil; reflexivity|]. cbn [parse]. rewrite Hx, Hp, IH, add_add. reflexivity.
Qed.
Lemma nonplain a : plain a = false -> exists c w, a = chDash :: c :: w.
Proof. destruct a as [|x [|c w]]; cbn; try discriminate. destruct (Z.eqb_spec x chDash) as [->|]; [eauto|discriminate]. Qed.

(** After the non-options: [N'] are all the non-options so far. *)
Lemma skipped o argv P N l mid : R o argv P N l mid ->
  exists X Y, l = X ++ Y /\ Out l mid = add [] [] X (Out Y mid) /\
    (posix so = false -> match Y with [] => True | y :: _ => plain y = false end) /\
    (X <> [] -> opos o = 0 /\ mid = None) /\
    (let* posix := match so with None => Ok false | Some s => let* c := ch s 0 in Ok (c =? chPlus) end in
     if posix : bool then Ok (oi o, onargs o) else skip argv (zlen argv) (oi o) (onargs o) (length argv)) = Ok (zlen P + zlen (N ++ X), zlen (N ++ X)).
Proof.
  intros []. assert (Q : (match so with None => Ok false | Some s => let* c := ch s 0 in Ok (c =? chPlus) end) = Ok (posix so)).
  { unfold posix. destruct so as [s|]; [|reflexivity]. rewrite ch_0. destruct s; reflexivity. }
  rewrite Q. cbn [bind]. destruct (posix so) eqn:Hp.
  - exists [], l. split; [reflexivity|]. split; [rewrite add_nil; reflexivity|]. split; [discriminate|]. split; [congruence|].
    rewrite app_nil_r, r_i0, r_n0. reflexivity.
  - destruct (span l) as (X & Y & E & HX & HY). exists X, Y. split; [assumption|].
    assert (MID : X <> [] -> opos o = 0 /\ mid = None).
    { intro nX. destruct X as [|x X]; [congruence|]. inversion HX; subst. destruct mid as [cs|].
      - destruct r_mid0 as (sh & a & t & d & pre & _ & El & Ea & Hd & Hcs & _). injection El as <- _. rewrite Ea in H1. cbn in H1. discriminate.
      - destruct r_mid0 as [?|(a & t & c & w & El & Ea)]; [auto|]. injection El as <- _. rewrite Ea in H1. discriminate. }
    split; [|split; [auto|split; [exact MID|]]].
    + destruct X as [|x X]; [subst; rewrite add_nil; reflexivity|]. destruct MID as [_ ->]; [discriminate|]. cbn [Out]. rewrite E. apply parse_span; assumption.
    + rewrite r_argv0, E. replace (P ++ N ++ X ++ Y) with ((P ++ N) ++ X ++ Y) by (rewrite <- app_assoc; reflexivity). rewrite r_i0, r_n0.
      rewrite skip_ok; [|rewrite zlen_app; reflexivity|rewrite <- E; assumption|assumption|assumption|rewrite !app_length; lia].
      rewrite zlen_app. do 2 f_equal. lia.
Qed.

Lemma size_cons a t : (size (a :: t) = S (length a) + size t)%nat. Proof. reflexivity. Qed.
Lemma size_app X Y : (size (X ++ Y) = size X + size Y)%nat.
Proof. induction X as [|x X IH]; [reflexivity|]. change (S (length x) + size (X ++ Y) = S (length x) + size X + size Y)%nat. lia. Qed.

Definition final (P N : list str) (x : outcome) (o' : coption) (argv' : list str) : Prop :=
  evs x = [] /\ stuck x = false /\ argv' = P ++ taken x ++ N ++ others x ++ rest x /\ oind o' = zlen P + zlen (taken x).

Lemma call o argv P N l mid : R o argv P N l mid -> exists r o' argv', get o argv so los = Ok (r, o', argv') /\
  (r = -1 /\ final P N (Out l mid) o' argv' \/
   r = chQ /\ stuck (Out l mid) = true /\ evs (Out l mid) = [ev_of r o'] /\ argv' = argv /\
      (exists X Y, R o' argv' P (N ++ X) Y None /\ Out l mid = add [] [] X (Out Y None)) \/
   r <> -1 /\ exists T X Y mid', R o' argv' (P ++ T) (N ++ X) Y mid' /\ Out l mid = add [ev_of r o'] T X (Out Y mid') /\ (measure Y mid' < measure l mid)%nat).
Proof.
  intros HR. destruct (skipped _ _ _ _ _ _ HR) as (X & Y & El & EO & HY & HX & SK). destruct HR.
  unfold get. cbv zeta. match goal with |- context [bind (match so with Some s => _ | None => Ok false end) ?k] => idtac end.
  assert (SK' : forall B (k : Z * Z -> res B), (let* posix := match so with None => Ok false | Some s => let* c := ch s 0 in Ok (c =? chPlus) end in
     let* x := if posix : bool then Ok (oi o, onargs o) else skip argv (zlen argv) (oi o) (onargs o) (length argv) in k x) = k (zlen P + zlen (N ++ X), zlen (N ++ X))).
  { intros B k. revert SK. destruct (match so with None => Ok false | Some s => let* c := ch s 0 in Ok (c =? chPlus) end) as [b|]; cbn [bind]; [|discriminate]. intros ->. reflexivity. }
  rewrite SK'. clear SK SK'. cbv beta iota.
  assert (Ev : argv = P ++ (N ++ X) ++ Y) by (rewrite r_argv0, El, <- app_assoc; reflexivity).
  assert (Nl : strings Y) by (rewrite El in r_str0; apply Forall_app in r_str0; apply r_str0).
  rewrite EO. set (N' := N ++ X) in *. clear EO.
  assert (Hm : (measure Y mid <= measure l mid)%nat).
  { destruct X as [|x X]; [rewrite El; cbn [app]; lia|]. destruct HX as [_ ->]; [discriminate|]. rewrite El. cbn [measure]. rewrite size_app. lia. }
  destruct Y as [|a t].
  { (* no argument left *)
    replace (zlen argv <=? zlen P + zlen N') with true by (rewrite Ev, app_nil_r, zlen_app; lia). cbn [bind].
    do 3 eexists. split; [reflexivity|]. left. split; [reflexivity|].
    assert (Out [] mid = mkout [] [] [] [] false) as -> by (unfold Out; destruct mid, so; reflexivity).
    unfold final. cbn. rewrite !app_nil_r. repeat split; [|lia]. rewrite Ev, app_nil_r. reflexivity. }
  replace (zlen argv <=? zlen P + zlen N') with false by (rewrite Ev, !zlen_app, zlen_cons; pose proof (zlen_nonneg t); lia).
  assert (G : aget argv (zlen P + zlen N') = Ok a) by (rewrite Ev, app_assoc; apply aget_at; rewrite zlen_app; reflexivity).
  rewrite G. cbn [bind]. rewrite nonopt_ok by (inversion Nl; assumption). cbn [bind].
  destruct (plain a) eqn:Pa.
  { (* a non-option in POSIX mode *)
    assert (Hp : posix so = true) by (destruct (posix so); [reflexivity|specialize (HY eq_refl); congruence]).
    assert (mid = None) as ->.
    { destruct mid as [cs|]; [|reflexivity]. exfalso. destruct r_mid0 as (sh & a' & t' & d & pre & _ & El' & Ea & _). destruct X as [|x X].
      - rewrite El in El'. injection El' as <- _. rewrite Ea in Pa. cbn in Pa. discriminate.
      - destruct HX; [discriminate|congruence]. }
    do 3 eexists. split; [reflexivity|]. left. split; [reflexivity|]. cbn [Out parse]. rewrite Pa, Hp. unfold final. cbn. repeat split; [|lia].
    rewrite Ev. unfold N'. rewrite !app_nil_r, <- app_assoc. reflexivity. }
  destruct (nonplain a Pa) as (c & w & Ea).
  assert (C1 : ch a 1 = Ok c) by (rewrite Ea; exact (ch_at [chDash] w c 1 eq_refl)). rewrite C1. cbn [bind].
  assert (FIN : forall T B es o' argv' b, moved P N' T B o' argv' -> strings B -> Out (a :: t) mid = add es T [] (parse so los B) -> es = [b] ->
     (measure B None < measure (a :: t) mid)%nat ->
     exists T0 X0 Y0 mid', R o' argv' (P ++ T0) (N ++ X0) Y0 mid' /\ add [] [] X (Out (a :: t) mid) = add [b] T0 X0 (Out Y0 mid') /\ (measure Y0 mid' < measure l mid)%nat).
  { intros T B es o' argv' b (E1 & E2 & E3 & E4 & E5) NB EO -> Hlt. exists T, X, B, None. split; [|split; [|lia]].
    - constructor; try assumption; [rewrite <- app_assoc; exact E1|rewrite zlen_app; fold N'; lia|left; assumption].
    - rewrite EO, add_add, app_nil_r. reflexivity. }
  destruct (Z.eqb_spec c chDash) as [->|nc].
  - (* long options *)
    assert (mid = None) as ->.
    { destruct mid as [cs|]; [|reflexivity]. exfalso. destruct r_mid0 as (sh & a' & t' & d & pre & _ & El' & Ea' & nd & _). destruct X as [|x X]; [|destruct HX; [discriminate|congruence]].
      rewrite El in El'. injection El' as <- _. rewrite Ea' in Ea. injection Ea as Hd' _. congruence. }
    assert (C2 : ch a 2 = Ok (hd 0 w)) by (rewrite Ea; exact (ch_hd [chDash; chDash] w 2 eq_refl)). rewrite C2. cbn [bind].
    assert (Nw : nz w) by (assert (nz a) as Na by (inversion Nl; assumption); rewrite Ea in Na; inversion Na; inversion H2; assumption).
    rewrite hd_zero by exact Nw. destruct w as [|c2 w].
    + rewrite Ev, permute_ok by reflexivity. cbn [bind]. do 3 eexists. split; [reflexivity|]. left. split; [reflexivity|].
      assert (Out (a :: t) None = mkout [] [a] [] t false) as -> by (cbn [Out parse]; rewrite Pa, Ea; reflexivity).
      unfold final. cbn. rewrite app_nil_r. repeat split; [|lia]. unfold N'. rewrite <- app_assoc. reflexivity.
    + pose proof (long_call los P N' a t o (c2 :: w) Tok (proj1 Nend) Nl Ea) as LC. cbv zeta in LC. rewrite <- Ev in LC.
      assert (EO : Out (a :: t) None = match long los a (hd_error t) with
          | None => mkout [mkev chQ 0 (Some a) None] [] [] (a :: t) true
          | Some (e, true) => match t with n :: t' => add [e] [a; n] [] (parse so los t') | [] => add [e] [a] [] (parse so los t) end
          | Some (e, false) => add [e] [a] [] (parse so los t)
          end).
      { cbn [Out parse]. rewrite Pa. rewrite Ea. reflexivity. }
      destruct (long los a (hd_error t)) as [[e b]|].
      * destruct LC as (r & o' & argv' & E & Hr & He & HM). rewrite E. exists r, o', argv'. split; [reflexivity|]. right. right. split; [assumption|].
        assert (Nt : strings t) by (inversion Nl; assumption).
        destruct b.
        -- destruct HM as (n & B & Et & HM). subst t. eapply FIN; [exact HM|inversion Nt; assumption|exact EO|rewrite He; reflexivity|]. cbn [measure]; rewrite !size_cons; lia.
        -- eapply FIN; [exact HM|exact Nt|exact EO|rewrite He; reflexivity|]. cbn [measure]; rewrite !size_cons; lia.
      * rewrite LC. do 3 eexists. split; [reflexivity|]. right. left. split; [reflexivity|]. rewrite EO. split; [reflexivity|]. split; [reflexivity|]. split; [reflexivity|].
        exists X, (a :: t). split; [|rewrite EO; reflexivity]. constructor; try assumption; try reflexivity.
        right. exists a, t, c2, w. auto.
  - (* short options *)
    destruct so as [sh|] eqn:Eso.
    2:{ assert (mid = None) as ->.
        { destruct mid as [cs|]; [|reflexivity]. exfalso. destruct r_mid0 as (sh & _ & _ & _ & _ & ? & _). discriminate. }
        assert (P0 : opos o = 0).
        { destruct r_mid0 as [?|(a' & t' & c' & w' & El' & Ea')]; [assumption|]. destruct X as [|x X]; [|apply HX; discriminate].
          rewrite El in El'. injection El' as <- _. rewrite Ea' in Ea. injection Ea as Hd' _. congruence. }
        cbn [get_short]. rewrite (finish_stay _ _ _ _ a chDash); cbn [oi opos]; [|assumption|lia|rewrite P0, Ea; reflexivity|discriminate].
        do 3 eexists. split; [reflexivity|]. left. split; [reflexivity|].
        assert (Out (a :: t) None = mkout [] [] [] (a :: t) false) as ->.
        { cbn [Out parse]. rewrite Pa, Ea. unfold is_short. destruct (Z.eqb_spec c chDash); [contradiction|]. cbn [negb]. rewrite Eso. destruct (skipn 2 (chDash :: c :: w)); reflexivity. }
        unfold final. cbn. rewrite app_nil_r. repeat split; [|lia]. unfold N' in Ev. rewrite Ev, <- app_assoc. reflexivity. }
    assert (ALL : exists pre c0 cs, a = pre ++ c0 :: cs /\ (opos o = 0 /\ zlen pre = 1 \/ opos o = zlen pre /\ 1 <= zlen pre) /\
       (exists pre', pre ++ [c0] = chDash :: c :: pre') /\ Out (a :: t) mid = fin a t (group sh (hd_error t) (c0 :: cs)) /\ (length (c0 :: cs) + size t <= measure (a :: t) mid)%nat).
    { destruct mid as [cs|].
      - destruct r_mid0 as (sh' & a' & t' & d & pre & _ & El' & Ea' & nd & ncs & Hp). destruct X as [|x X]; [|destruct HX; [discriminate|congruence]].
        rewrite El in El'. injection El' as <- <-. destruct cs as [|c0 cs]; [congruence|]. exists (chDash :: d :: pre), c0, cs. split; [assumption|].
        rewrite !zlen_cons. pose proof (zlen_nonneg pre). split; [right; lia|]. split; [|split].
        + rewrite Ea' in Ea. injection Ea as <- _. exists (pre ++ [c0]). reflexivity.
        + unfold Out. rewrite Eso. reflexivity.
        + cbn [measure length]. lia.
      - exists [chDash], c, w. split; [exact Ea|]. split; [|split; [exists []; reflexivity|split]].
        + destruct r_mid0 as [?|(a' & t' & c' & w' & El' & Ea')]; [left; split; [assumption|reflexivity]|]. destruct X as [|x X]; [|left; split; [apply HX; discriminate|reflexivity]].
          rewrite El in El'. injection El' as <- _. rewrite Ea' in Ea. injection Ea as Hd' _. congruence.
        + cbn [Out parse]. rewrite Pa, Ea. unfold is_short. destruct (Z.eqb_spec c chDash); [contradiction|]. cbn [negb tl]. unfold fin. rewrite Eso.
          destruct (skipn 2 (chDash :: c :: w)); reflexivity.
        + cbn [measure]. rewrite size_cons, Ea. cbn [length]. lia. }
    destruct ALL as (pre & c0 & cs & Ea0 & Hpos & (pre' & Hpre) & EO & HM0).
    assert (Nm : ~ In (-1) sh) by (apply (proj2 Nend); reflexivity || (rewrite <- Eso; apply (proj2 Nend)); auto).
    destruct (short_call sh P N' a t o pre c0 cs Nso Nm Nl Ea0 Hpos) as (r & o' & argv' & E & Hr & CASES). rewrite <- Ev in E, CASES. rewrite E.
    exists r, o', argv'. split; [reflexivity|]. right. right. split; [assumption|].
    assert (Nt : strings t) by (inversion Nl; assumption).
    destruct CASES as [(ncs & (es & b & Eg & Eg') & E1 & E2 & E3 & E4)|[(Eg & HM)|(n & B & Et & Eg & HM)]].
    + exists [], X, (a :: t), (Some cs). split; [|split].
      * constructor; [rewrite app_nil_r; rewrite E1; exact Ev|rewrite app_nil_r; exact E2|exact E3|assumption|].
        exists sh, a, t, c, pre'. repeat split; auto.
        -- rewrite <- Hpre, <- app_assoc. exact Ea0.
        -- rewrite E4. apply (f_equal zlen) in Hpre. rewrite zlen_app, !zlen_cons, zlen_nil in Hpre. lia.
      * rewrite EO, Eg'. unfold Out, fin. rewrite Eso, Eg. destruct b; [destruct t as [|n B]|]; rewrite !add_add, ?app_nil_r; reflexivity.
      * cbn [measure]. cbn [length] in HM0. lia.
    + eapply FIN; [exact HM|exact Nt|rewrite EO, Eg; unfold fin; rewrite Eso; reflexivity|reflexivity|]. cbn [measure length] in *. lia.
    + subst t. eapply FIN; [exact HM|inversion Nt; assumption|rewrite EO, Eg; unfold fin; rewrite Eso; reflexivity|reflexivity|]. rewrite size_cons in HM0. cbn [measure length] in *. lia.
Qed.

Lemma parse_perm n : forall l, (length l < n)%nat -> Permutation l (taken (parse so los l) ++ others (parse so los l) ++ rest (parse so los l)).
Proof.
  induction n as [|n IH]; intros l Hn; [lia|]. destruct l as [|a t]; [constructor|]. cbn [length] in Hn. cbn [parse].
  assert (ONE : forall es, Permutation (a :: t) (taken (add es [a] [] (parse so los t)) ++ others (add es [a] [] (parse so los t)) ++ rest (add es [a] [] (parse so los t)))).
  { intros es. cbn [add taken others rest app]. apply perm_skip. apply IH. lia. }
  assert (TWO : forall es x B, t = x :: B -> Permutation (a :: t) (taken (add es [a; x] [] (parse so los B)) ++ others (add es [a; x] [] (parse so los B)) ++ rest (add es [a; x] [] (parse so los B)))).
  { intros es x B ->. cbn [add taken others rest app]. do 2 apply perm_skip. apply IH. cbn [length] in Hn. lia. }
  destruct (plain a).
  - destruct (posix so); [reflexivity|]. cbn [add taken others rest app].
    eapply perm_trans; [apply perm_skip; apply IH; lia|]. apply Permutation_middle.
  - assert (SH : Permutation (a :: t) (let x := match so with
          | None => mkout [] [] [] (a :: t) false
          | Some sh =>
              match group sh (hd_error t) (tl a) with
              | (es, true) => match t with n :: t' => add es [a; n] [] (parse so los t') | [] => add es [a] [] (parse so los t) end
              | (es, false) => add es [a] [] (parse so los t)
              end
          end in taken x ++ others x ++ rest x)).
    { destruct so as [sh|]; [|reflexivity]. destruct (group sh (hd_error t) (tl a)) as [es [|]]; [destruct t as [|x B]|]; cbv zeta; auto. }
    assert (LO : Permutation (a :: t) (let x := match long los a (hd_error t) with
          | None => mkout [mkev chQ 0 (Some a) None] [] [] (a :: t) true
          | Some (e, true) => match t with n :: t' => add [e] [a; n] [] (parse so los t') | [] => add [e] [a] [] (parse so los t) end
          | Some (e, false) => add [e] [a] [] (parse so los t)
          end in taken x ++ others x ++ rest x)).
    { destruct (long los a (hd_error t)) as [[e [|]]|]; [destruct t as [|x B]| |]; cbv zeta; auto. }
    destruct (skipn 2 a); destruct (is_short a); try exact SH; try exact LO. reflexivity.
Qed.
Lemma Out_perm l mid : Permutation l (taken (Out l mid) ++ others (Out l mid) ++ rest (Out l mid)).
Proof.
  assert (D : forall l, Permutation l (taken (parse so los l) ++ others (parse so los l) ++ rest (parse so los l))) by (intro; eapply parse_perm; eauto).
  unfold Out. destruct mid as [cs|]; [|apply D]. destruct so as [sh|] eqn:Eso; [|apply D]. destruct l as [|a t]; [apply D|].
  unfold fin. rewrite Eso. destruct (group sh (hd_error t) cs) as [es [|]]; [destruct t as [|x B]|]; cbn [add taken others rest app]; repeat apply perm_skip; apply D.
Qed.
Lemma step_perm l mid P N T X Y mid' es : Out l mid = add es T X (Out Y mid') -> Permutation (P ++ N ++ l) ((P ++ T) ++ (N ++ X) ++ Y).
Proof.
  intros E. pose proof (Out_perm l mid) as H. rewrite E in H. pose proof (Out_perm Y mid') as HY. cbn [add taken others rest] in H.
  rewrite <- !app_assoc. apply Permutation_app_head.
  assert (HL : Permutation l (T ++ X ++ Y)).
  { eapply perm_trans; [exact H|]. rewrite <- !app_assoc. apply Permutation_app_head.
    eapply perm_trans; [|apply Permutation_app_head; symmetry; exact HY]. rewrite !app_assoc. do 2 apply Permutation_app_tail. apply Permutation_app_comm. }
  eapply perm_trans; [apply Permutation_app_head; exact HL|]. rewrite !app_assoc. do 2 apply Permutation_app_tail. apply Permutation_app_comm.
Qed.
Lemma final_perm l mid P N o' argv' : final P N (Out l mid) o' argv' -> Permutation (P ++ N ++ l) argv'.
Proof.
  intros (_ & _ & -> & _). apply Permutation_app_head. eapply perm_trans; [apply Permutation_app_head; apply (Out_perm l mid)|].
  rewrite !app_assoc. do 2 apply Permutation_app_tail. apply Permutation_app_comm.
Qed.

Lemma loop_ok fuel : forall o argv P N l mid, R o argv P N l mid -> stuck (Out l mid) = false -> (length (evs (Out l mid)) < fuel)%nat ->
  exists o' argv', loop o argv so los fuel = Ok (evs (Out l mid), o', argv') /\
    argv' = P ++ taken (Out l mid) ++ N ++ others (Out l mid) ++ rest (Out l mid) /\ oind o' = zlen P + zlen (taken (Out l mid)).
Proof.
  induction fuel as [|fuel IH]; intros o argv P N l mid HR Hst Hf; [lia|]. cbn [loop].
  destruct (call _ _ _ _ _ _ HR) as (r & o' & argv' & -> & [(-> & He & _ & Ha & Hi)|[(_ & Hs & _)|(Hr & T & X & Y & mid' & HR' & EO & _)]]); cbn [bind].
  - exists o', argv'. rewrite He. auto.
  - congruence.
  - destruct (Z.eqb_spec r (-1)); [contradiction|]. rewrite EO in Hst, Hf |- *. cbn [add evs taken others rest stuck app length] in *.
    destruct (IH _ _ _ _ _ _ HR' Hst ltac:(lia)) as (o2 & argv2 & -> & Ha & Hi). cbn [bind]. exists o2, argv2. split; [reflexivity|].
    rewrite zlen_app in *. split; [|lia]. rewrite Ha, <- !app_assoc. reflexivity.
Qed.
Lemma loop_stuck fuel : forall o argv P N l mid, R o argv P N l mid -> stuck (Out l mid) = true -> loop o argv so los fuel = Err OutOfFuel.
Proof.
  induction fuel as [|fuel IH]; intros o argv P N l mid HR Hst; [reflexivity|]. cbn [loop].
  destruct (call _ _ _ _ _ _ HR) as (r & o' & argv' & -> & [(_ & _ & Hs & _)|[(-> & _ & _ & _ & X & Y & HR' & EO)|(Hr & T & X & Y & mid' & HR' & EO & _)]]); cbn [bind].
  - congruence.
  - rewrite (IH _ _ _ _ _ _ HR'); [reflexivity|]. rewrite EO in Hst. exact Hst.
  - destruct (Z.eqb_spec r (-1)); [contradiction|]. rewrite (IH _ _ _ _ _ _ HR'); [reflexivity|]. rewrite EO in Hst. exact Hst.
Qed.
Lemma loop_stop_ok fuel : forall o argv P N l mid, R o argv P N l mid -> (length (evs (Out l mid)) < fuel)%nat ->
  exists o' argv', loop_stop o argv so los fuel = Ok (upto_error (evs (Out l mid)), o', argv') /\ Permutation argv argv'.
Proof.
  induction fuel as [|fuel IH]; intros o argv P N l mid HR Hf; [lia|]. cbn [loop_stop]. pose proof (r_argv _ _ _ _ _ _ HR) as Ea.
  destruct (call _ _ _ _ _ _ HR) as (r & o' & argv' & -> & [(-> & He)|[(-> & _ & He & -> & _)|(Hr & T & X & Y & mid' & HR' & EO & _)]]); cbn [bind].
  - exists o', argv'. pose proof (final_perm _ _ _ _ _ _ He). rewrite Ea. destruct He as (-> & _). auto.
  - exists o', argv. rewrite He. auto.
  - destruct (Z.eqb_spec r (-1)); [contradiction|]. pose proof (step_perm _ _ P N _ _ _ _ _ EO) as HP. rewrite <- Ea, <- (r_argv _ _ _ _ _ _ HR') in HP.
    rewrite EO in Hf |- *. cbn [add evs app length upto_error ev_of eret] in *.
    destruct ((r =? chQ) || (r =? chColon)); [exists o', argv'; auto|].
    destruct (IH _ _ _ _ _ _ HR' ltac:(lia)) as (o2 & argv2 & -> & HP2). cbn [bind]. exists o2, argv2. split; [reflexivity|]. eapply perm_trans; eauto.
Qed.
Lemma calls_ok n : forall o argv P N l mid, R o argv P N l mid -> exists es o' argv', calls o argv so los n = Ok (es, o', argv') /\ Permutation argv argv'.
Proof.
  induction n as [|n IH]; intros o argv P N l mid HR; [do 3 eexists; split; reflexivity|]. cbn [calls]. pose proof (r_argv _ _ _ _ _ _ HR) as Ea.
  destruct (call _ _ _ _ _ _ HR) as (r & o' & argv' & -> & [(-> & He)|[(-> & _ & He & -> & X & Y & HR' & _)|(Hr & T & X & Y & mid' & HR' & EO & _)]]); cbn [bind].
  - do 3 eexists. split; [reflexivity|]. rewrite Ea. eapply final_perm; eauto.
  - destruct (IH _ _ _ _ _ _ HR') as (es & o2 & argv2 & -> & HP). cbn. do 3 eexists. split; [reflexivity|exact HP].
  - destruct (Z.eqb_spec r (-1)); [contradiction|]. pose proof (step_perm _ _ P N _ _ _ _ _ EO) as HP. rewrite <- Ea, <- (r_argv _ _ _ _ _ _ HR') in HP.
    destruct (IH _ _ _ _ _ _ HR') as (es & o2 & argv2 & -> & HP2). cbn [bind]. do 3 eexists. split; [reflexivity|]. eapply perm_trans; eauto.
Qed.
Lemma R_init prog args : strings args -> R coption_init (prog :: args) [prog] [] args None.
Proof. intro H. constructor; try reflexivity; try assumption. left. reflexivity. Qed.
End P.
