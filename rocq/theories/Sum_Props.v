(** C102: sum types. *)
From Verif Require Import Base Sum_Model Sum_Spec Sum_Proofs.

(** C102.  The tags of a sum type with n variants are 1 to n in order: distinct, and never the
    tag of a zeroed object. *)
Theorem C102_tags n :
  length (enum_tags n) = n /\ NoDup (enum_tags n) /\ ~ In 0 (enum_tags n) /\
  forall i, (i < n)%nat -> nth_error (enum_tags n) i = Some (1 + Z.of_nat i).
Proof.
  unfold enum_tags. split; [apply enum_from_length|]. split; [apply enum_from_NoDup|].
  split; [rewrite enum_from_In; lia|]. intros i Hi. now apply enum_from_nth.
Qed.

(** C102.  An object set with c_variant holds that variant and no other; its payload can be read
    back through its own member and through no other. *)
Theorem C102_variant {P U} (s : state P U) a t v m :
  aset (mem s) a (c_variant t v) = Ok m ->
  let s' := mkstate m (user s) in
  c_tag_index s' a = Ok t /\ (forall t', c_holds s' a t' = Ok (t' =? t)) /\
  forall t', deref s' (a, t') = if t' =? t then Ok v else Err Uninit.
Proof.
  intros E s'. assert (G : aget m a = Ok (c_variant t v)) by (rewrite (aget_aset _ _ _ _ a E), Z.eqb_refl; reflexivity).
  unfold c_tag_index, c_holds, deref, s'. cbn [mem fst snd]. rewrite G. cbn. split; [reflexivity|].
  split; intro t'; rewrite (Z.eqb_sym t t'); reflexivity.
Qed.

(** C102.  c_when runs, once, the body of the arm that names the tag of the object, with a
    pointer to the payload; if there is none the otherwise body, wherever it stands; else
    nothing.  This holds for all bodies: they may change the object, return, break or continue. *)
Theorem C102_when {P U R} (s : state P U) a t (l : list (arm P U R)) :
  c_tag_index s a = Ok t -> when_arms (Some a) l s = when_spec a t l s.
Proof. apply when_arms_ok. Qed.
(** C102.  If the arms name all variants, the body of such an arm is run. *)
Theorem C102_when_all {P U R} (s : state P U) a t n (l : list (arm P U R)) :
  c_tag_index s a = Ok t -> In t (enum_tags n) ->
  (forall t', In t' (enum_tags n) -> exists m, In m l /\ names t' m = true) ->
  exists m, In m l /\ names t m = true /\ when_arms (Some a) l s = once (body_of (a, t) m) s.
Proof.
  intros Ht Hi H. destruct (chosen_named t l (H t Hi)) as (m & E & N & I). exists m. split; [exact I|].
  split; [exact N|]. rewrite (when_arms_ok a t) by exact Ht. unfold when_spec. now rewrite E.
Qed.
(** C102.  A zeroed object runs the otherwise body if there is one, and no other. *)
Theorem C102_when_zero {P U R} (s : state P U) a n (l : list (arm P U R)) :
  c_tag_index s a = Ok 0 -> (forall m t, In m l -> names t m = true -> In t (enum_tags n)) ->
  when_arms (Some a) l s = match find is_other l with Some m => once (body_of (a, 0) m) s | None => Ok (s, CNorm) end.
Proof.
  intros Ht H. rewrite (when_arms_ok a 0) by exact Ht. unfold when_spec, chosen.
  destruct (find (names 0) l) as [m|] eqn:E; [|reflexivity]. exfalso. apply find_some in E.
  destruct (C102_tags n) as (_ & _ & Z & _). apply Z. apply (H m); tauto.
Qed.
(** C102.  The pointer an arm gets leads to the payload the object was made with, and a payload
    assigned through it leaves the variant as it is. *)
Theorem C102_payload {P U R} (s : state P U) a t v m (b : Z * Z -> stmt P U R) (l1 l2 : list (arm P U R)) :
  aset (mem s) a (c_variant t v) = Ok m -> find (names t) l1 = None ->
  let s' := mkstate m (user s) in
  exists x, when_arms (Some a) (l1 ++ AIsX t b :: l2) s' = once (b x) s' /\ deref s' x = Ok v /\
    forall w, exists s'', assign s' x w = Ok s'' /\ deref s'' x = Ok w /\ c_tag_index s'' a = Ok t /\
      forall a', a' <> a -> aget (mem s'') a' = aget (mem s) a'.
Proof.
  intros E F s'. destruct (C102_variant s a t v m E) as (T & _ & D). exists (a, t). split.
  { rewrite (when_arms_ok a t) by exact T. unfold when_spec, chosen.
    assert (FA : find (names t) (l1 ++ AIsX t b :: l2) = Some (AIsX t b)).
    { clear -F. induction l1 as [|q l1 IH]; cbn in *; [now rewrite Z.eqb_refl|]. destruct (names t q); [discriminate|auto]. }
    rewrite FA. reflexivity. }
  split; [specialize (D t); now rewrite Z.eqb_refl in D|]. intro w.
  assert (G : aget m a = Ok (c_variant t v)) by (rewrite (aget_aset _ _ _ _ a E), Z.eqb_refl; reflexivity).
  unfold assign. cbn [fst snd mem s']. rewrite G. cbn [bind otag c_variant user].
  destruct (aset m a (mkobj t t w)) as [m2|] eqn:E2.
  2: { exfalso. unfold aset in E, E2. apply aget_ok_range in G. replace ((0 <=? a) && (a <? zlen m)) with true in E2; [discriminate|].
       symmetry. apply Bool.andb_true_iff. split; [apply Z.leb_le|apply Z.ltb_lt]; lia. }
  cbn [bind]. eexists. split; [reflexivity|].
  assert (G2 : aget m2 a = Ok (mkobj t t w)) by (rewrite (aget_aset _ _ _ _ a E2), Z.eqb_refl; reflexivity).
  unfold deref, c_tag_index. cbn [mem fst snd]. rewrite G2. cbn. rewrite Z.eqb_refl. split; [reflexivity|]. split; [reflexivity|].
  intros a' Ha. rewrite (aget_aset _ _ _ _ a' E2), (aget_aset _ _ _ _ a' E).
  destruct (Z.eqb_spec a' a); [contradiction|reflexivity].
Qed.
(** C102.  if (c_is(p, Tag, x)) body else other: runs one of the two, by the tag. *)
Theorem C102_if_is {P U R} (s : state P U) a t t' (thn : Z * Z -> stmt P U R) (els : stmt P U R) :
  c_tag_index s a = Ok t -> if_c_is (Some a) t' thn els s = is_spec a t t' thn els s.
Proof. apply if_c_is_ok. Qed.
(** C102.  It does the same as a c_when with that arm and an otherwise arm. *)
Theorem C102_if_is_when {P U R} (s : state P U) a t t' (thn : Z * Z -> stmt P U R) (els : stmt P U R) :
  c_tag_index s a = Ok t -> if_c_is (Some a) t' thn els s = when_arms (Some a) [AIsX t' thn; AOther els] s.
Proof.
  intro H. rewrite (if_c_is_ok a t t' thn els s H), (when_arms_ok a t _ s H). unfold is_spec, when_spec, chosen. cbn.
  destruct (Z.eqb_spec t t') as [<-|]; reflexivity.
Qed.
(** C102.  With a null pointer neither statement does anything: no arm, no otherwise, no else. *)
Theorem C102_null {P U R} (s : state P U) t (l : list (arm P U R)) thn (els : stmt P U R) :
  when_arms None l s = Ok (s, CNorm) /\ if_c_is None t thn els s = Ok (s, CNorm).
Proof. split; reflexivity. Qed.
(** C102.  break and continue in a body never reach a loop around the statement. *)
Theorem C102_no_escape {P U R} (s s' : state P U) p t (l : list (arm P U R)) thn (els : stmt P U R) c :
  when_arms p l s = Ok (s', c) \/ if_c_is p t thn els s = Ok (s', c) ->
  c <> CBreak /\ c <> CCont.
Proof.
  assert (O : forall (b : stmt P U R) s, once b s = Ok (s', c) -> c <> CBreak /\ c <> CCont).
  { intros b s0. unfold once. destruct (b s0) as [[s1 k]|]; cbn; [|discriminate]. intros [= _ <-]. destruct k; split; discriminate. }
  destruct p as [a|].
  2: { intros [[= _ <-]|[= _ <-]]; split; discriminate. }
  intros [H|H].
  - unfold when_arms, c_when in H. rewrite for_ptr_once in H. eauto.
  - unfold if_c_is in H. rewrite for_ptr_once in H. eauto.
Qed.
(** C102.  A loop that is to stop at the first object of a kind by [if (c_is(..)) break;] does
    not stop: the statement after it is reached for that object too.  (The documentation warns
    of continue only.) *)
Theorem C102_if_is_break_refuted {P U R} (s : state P U) a t :
  c_tag_index s a = Ok t ->
  if_c_is (R := R) (Some a) t (fun _ => brk) skip s = Ok (s, CNorm).
Proof. intro H. rewrite (if_c_is_ok a t t _ _ s H). unfold is_spec. rewrite Z.eqb_refl. reflexivity. Qed.
(** C102.  c_or_is after a body does not begin an arm of its own: the body before it runs on
    into it. *)
Theorem C102_or_is_after_body_refuted {P U R} (s : state P U) a t t2 (b1 b2 : state P U -> state P U) :
  c_tag_index s a = Ok t ->
  c_when (R := R) (Some a) (fun _ => c_is_1 t ++ [Stmt (fun s => Ok (b1 s, CNorm))] ++ c_or_is t2 ++ [Stmt (fun s => Ok (b2 s, CNorm))]) s =
  Ok (b2 (b1 s), CNorm).
Proof.
  intro H. unfold c_when. rewrite for_ptr_once. unfold once. rewrite H. cbn [bind]. unfold switch. cbn. rewrite Z.eqb_refl.
  reflexivity.
Qed.

(** The program of sumtype.h 29-71: three objects, an arm for each, and what each does is seen
    in the user state; the body of the second breaks, that of the third returns. *)
Definition prog : list (arm Z (list Z) Z) :=
  [ AIsX 1 (fun x s => let* v := deref s x in Ok (mkstate (mem s) (user s ++ [v]), CNorm));
    AOther (fun s => Ok (mkstate (mem s) (user s ++ [0]), CNorm));
    AIs 2 [4] (fun s => Ok (mkstate (mem s) (user s ++ [-2]), CBreak));
    AIsX 3 (fun x s => let* v := deref s x in let* s' := assign s x (v + 1) in Ok (s', CRet v)) ].
Example C102_met :
  let s := mkstate [c_variant 1 10; c_variant 2 20; c_variant 3 30; c_variant 4 40; mkobj 0 0 0] [] in
  c_tag_index s 2 = Ok 3 /\
  when_arms (Some 0) prog s = Ok (mkstate (mem s) [10], CNorm) /\
  when_arms (Some 1) prog s = Ok (mkstate (mem s) [-2], CNorm) /\
  when_arms (Some 2) prog s = Ok (mkstate [c_variant 1 10; c_variant 2 20; c_variant 3 31; c_variant 4 40; mkobj 0 0 0] [], CRet 30) /\
  when_arms (Some 3) prog s = Ok (mkstate (mem s) [-2], CNorm) /\
  when_arms (Some 4) prog s = Ok (mkstate (mem s) [0], CNorm) /\
  deref s (0, 2) = Err Uninit.
Proof. cbn zeta. repeat split; vm_compute; reflexivity. Qed.
Print Assumptions C102_tags.
Print Assumptions C102_variant.
Print Assumptions C102_when.
Print Assumptions C102_when_all.
Print Assumptions C102_when_zero.
Print Assumptions C102_payload.
Print Assumptions C102_if_is.
Print Assumptions C102_if_is_when.
Print Assumptions C102_null.
Print Assumptions C102_no_escape.
Print Assumptions C102_if_is_break_refuted.
Print Assumptions C102_or_is_after_body_refuted.
