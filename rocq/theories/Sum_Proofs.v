(** Proofs about the sum type statements. *)
From Verif Require Import Base Sum_Model Sum_Spec.

Section SumProofs.
Context {P U R : Type}.
Notation stmt := (stmt P U R).
Notation arm := (arm P U R).
Notation item := (item P U R).
Notation state := (state P U).

Lemma for_ptr_once {A} (a : A) (b : A -> stmt) s : for_ptr 2 (Some a) b s = once (b a) s.
Proof. cbn. unfold once. destruct (b a s) as [[s' []]|]; reflexivity. Qed.
Lemma once_once (b : stmt) s : once (once b) s = once b s.
Proof. unfold once. destruct (b s) as [[s' []]|]; reflexivity. Qed.

(** Skipping over the items of arms to a label. *)
Lemma to_case_ors t (ors : list Z) (l : list item) :
  to_case t (flat_map c_or_is ors ++ l) =
  if existsb (Z.eqb t) ors then to_case t (flat_map c_or_is ors ++ l) else to_case t l.
Proof.
  induction ors as [|t' ors IH]; cbn; [reflexivity|].
  destruct (t =? t') eqn:E; cbn; [reflexivity|]. destruct (existsb (Z.eqb t) ors); [reflexivity|exact IH].
Qed.
Lemma run_ors (ors : list Z) (l : list item) s : run (flat_map c_or_is ors ++ l) s = run l s.
Proof. induction ors as [|t ors IH]; cbn; [reflexivity|exact IH]. Qed.
Lemma to_case_ors_run t (ors : list Z) (l : list item) : existsb (Z.eqb t) ors = true ->
  exists r, to_case t (flat_map c_or_is ors ++ l) = Some r /\ forall s, run r s = run l s.
Proof.
  induction ors as [|t' ors IH]; cbn; [discriminate|]. destruct (t =? t') eqn:E; cbn.
  - intros _. eexists. split; [reflexivity|]. apply run_ors.
  - exact IH.
Qed.
Lemma to_default_ors (ors : list Z) (l : list item) : to_default (flat_map c_or_is ors ++ l) = to_default l.
Proof. induction ors as [|t ors IH]; cbn; [reflexivity|exact IH]. Qed.

(** After a body, the next arm begins with break. *)
Definition unbrk (q : res (state * ctl R)) : res (state * ctl R) :=
  let* r := q in Ok (fst r, match snd r with CBreak => CNorm | c => c end).
Lemma run_rest vp (l : list arm) s :
  run (flat_map (arm_items vp) l) s = Ok (s, CNorm) \/ run (flat_map (arm_items vp) l) s = Ok (s, CBreak).
Proof. destruct l as [|[t ors b|t b|b] l]; cbn; auto. Qed.
Lemma run_body vp (b : stmt) (l : list arm) s :
  unbrk (run (Stmt b :: flat_map (arm_items vp) l) s) =
  let* r := b s in Ok (fst r, match snd r with CBreak => CNorm | c => c end).
Proof.
  cbn. destruct (b s) as [[s' c]|]; cbn; [|reflexivity]. destruct c; cbn; try reflexivity.
  destruct (run_rest vp l s') as [-> | ->]; reflexivity.
Qed.

Lemma to_case_arms vp t (l : list arm) :
  match find (names t) l with
  | Some a => exists r, to_case t (flat_map (arm_items vp) l) = Some r /\
      forall s, once (fun s => unbrk (run r s)) s = once (body_of (vp, t) a) s
  | None => to_case t (flat_map (arm_items vp) l) = None
  end.
Proof.
  induction l as [|a l IH]; [reflexivity|]. cbn [find flat_map]. destruct a as [t' ors b|t' b|b].
  - cbn [names arm_items c_is_1 app to_case]. cbn [existsb]. rewrite <- !app_assoc.
    assert (HB : forall s, once (fun s => unbrk (run ([Stmt b] ++ flat_map (arm_items vp) l) s)) s = once b s).
    { intro s. unfold once at 1. cbn [app]. rewrite run_body. unfold once.
      destruct (b s) as [[s' []]|]; reflexivity. }
    destruct (t =? t') eqn:E; cbn [orb].
    + eexists. split; [reflexivity|]. intro s. rewrite <- HB. unfold once. rewrite run_ors. reflexivity.
    + destruct (existsb (Z.eqb t) ors) eqn:EO.
      * destruct (to_case_ors_run t ors ([Stmt b] ++ flat_map (arm_items vp) l) EO) as (r & Er & Hr).
        exists r. split; [exact Er|]. intro s. rewrite <- HB. unfold once. rewrite Hr. reflexivity.
      * rewrite to_case_ors, EO. cbn [app to_case]. exact IH.
  - cbn [names arm_items c_is_2 app to_case]. destruct (t =? t') eqn:E; [|exact IH].
    apply Z.eqb_eq in E. subst t'. eexists. split; [reflexivity|]. intro s. unfold once at 1. rewrite run_body.
    rewrite for_ptr_once. cbn [body_of]. unfold once. destruct (b (vp, t) s) as [[s' []]|]; reflexivity.
  - cbn [names arm_items c_otherwise app to_case]. exact IH.
Qed.
Lemma to_default_arms vp t (l : list arm) :
  match find is_other l with
  | Some a => exists r, to_default (flat_map (arm_items vp) l) = Some r /\
      forall s, once (fun s => unbrk (run r s)) s = once (body_of (vp, t) a) s
  | None => to_default (flat_map (arm_items vp) l) = None
  end.
Proof.
  induction l as [|a l IH]; [reflexivity|]. cbn [find flat_map]. destruct a as [t' ors b|t' b|b].
  - cbn [is_other arm_items c_is_1 app to_default]. rewrite <- !app_assoc, to_default_ors. exact IH.
  - cbn [is_other arm_items c_is_2 app to_default]. exact IH.
  - cbn [is_other arm_items c_otherwise app to_default]. eexists. split; [reflexivity|]. intro s.
    unfold once at 1. rewrite run_body. cbn [body_of]. unfold once. destruct (b s) as [[s' []]|]; reflexivity.
Qed.

Lemma when_arms_ok a t (l : list arm) s : c_tag_index s a = Ok t ->
  when_arms (Some a) l s = when_spec a t l s.
Proof.
  intro Ht. unfold when_arms, c_when. rewrite for_ptr_once. unfold when_spec, chosen.
  unfold once at 1. rewrite Ht. cbn [bind]. unfold switch.
  pose proof (to_case_arms a t l) as HC. pose proof (to_default_arms a t l) as HD.
  destruct (find (names t) l) as [m|].
  - destruct HC as (r & -> & Hr). rewrite <- Hr. reflexivity.
  - rewrite HC. destruct (find is_other l) as [m|].
    + destruct HD as (r & -> & Hr). rewrite <- Hr. reflexivity.
    + rewrite HD. reflexivity.
Qed.
Lemma if_c_is_ok a t t' (thn : Z * Z -> stmt) (els : stmt) s : c_tag_index s a = Ok t ->
  if_c_is (Some a) t' thn els s = is_spec a t t' thn els s.
Proof.
  unfold c_tag_index. intro Ht. unfold if_c_is. rewrite for_ptr_once. unfold is_spec, once at 1.
  unfold c_holds. destruct (aget (mem s) a) as [o|]; [|discriminate]. cbn in Ht. injection Ht as Ht.
  cbn [bind]. rewrite Ht. destruct (t =? t') eqn:E; [|reflexivity].
  apply Z.eqb_eq in E. subst t'. rewrite for_ptr_once. apply (once_once (thn (a, t)) s).
Qed.

(** The tags. *)
Lemma enum_from_In t n x : In x (enum_from t n) <-> t <= x < t + Z.of_nat n.
Proof.
  revert t. induction n as [|n IH]; intro t; cbn [enum_from In]; [lia|]. rewrite IH. lia.
Qed.
Lemma enum_from_NoDup t n : NoDup (enum_from t n).
Proof.
  revert t. induction n as [|n IH]; intro t; cbn; constructor; auto. rewrite enum_from_In. lia.
Qed.
Lemma enum_from_length t n : length (enum_from t n) = n.
Proof. revert t. induction n; intro t; cbn; auto. Qed.
Lemma enum_from_nth t n i : (i < n)%nat -> nth_error (enum_from t n) i = Some (t + Z.of_nat i).
Proof.
  revert t i. induction n as [|n IH]; intros t [|i] H; cbn [enum_from nth_error]; try lia.
  - f_equal. lia.
  - rewrite IH by lia. f_equal. lia.
Qed.
Lemma chosen_named t (l : list arm) :
  (exists m, In m l /\ names t m = true) -> exists m, chosen t l = Some m /\ names t m = true /\ In m l.
Proof.
  intros (m & Hi & Hn). unfold chosen. destruct (find (names t) l) as [m'|] eqn:E.
  - apply find_some in E. exists m'. tauto.
  - exfalso. pose proof (find_none _ _ E _ Hi). congruence.
Qed.
End SumProofs.
