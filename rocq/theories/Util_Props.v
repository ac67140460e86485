(** C61: c_eraseremove_if, c_append_if, c_find_if, c_all_of, c_any_of, c_none_of, c_reverse. *)
From Verif Require Import Base Slots Vec_Model Vec_Spec Vec_Proofs Deque_Model Deque_Spec Deque_Proofs Util_Model Util_Spec Util_Proofs Util_Proofs2.

Lemma keep_filter {A} (p : A -> bool) l : keep p l = filter p l.
Proof. induction l as [|x l IH]; cbn; [reflexivity|]. now rewrite IH. Qed.
Lemma nowhere_b {A} (p : A -> bool) l : forallb (fun x => negb (p x)) l = true -> nowhere p l.
Proof. intros H y Hy. rewrite forallb_forall in H. specialize (H y Hy). now apply negb_true_iff in H. Qed.
Lemma everywhere_b {A} (p : A -> bool) l : forallb p l = true <-> everywhere p l.
Proof. rewrite forallb_forall. reflexivity. Qed.
Lemma somewhere_b {A} (p : A -> bool) l : existsb p l = true <-> somewhere p l.
Proof. rewrite existsb_exists. reflexivity. Qed.
Lemma backwards_rev {A} (l : list A) : backwards l (rev l).
Proof.
  assert (L : zlen (rev l) = zlen l) by (unfold zlen; now rewrite rev_length). split; [exact L|]. intros i Hi. destruct (aget_some (rev l) i) as [z Ez]; [lia|]. rewrite Ez. symmetry. apply aget_nth in Ez as [_ Ez]. apply aget_nth. split; [lia|].
  unfold zlen in *. apply nth_error_nth with (d := z) in Ez. rewrite rev_nth in Ez by lia. rewrite nth_error_nth' with (d := z) by lia. f_equal. rewrite <- Ez at 2. f_equal. lia.
Qed.

(** ** vec (stack and pqueue iterate in the same way) *)
(** Missing: a vec that was emptied but keeps its buffer, see C61_vec_emptied_refuted. *)
Theorem C61_vec_eraseremove_partial : forall (A : Type) (v : vec A) (l : list A) (p : A -> bool),
  stored v l -> l <> [] \/ Vec_Model.capacity v = 0 ->
  exists v', vec_eraseremove_if v p = Ok (v', keep p l) /\ stored v' (keep (fun x => negb (p x)) l) /\ Vec_Model.capacity v' = Vec_Model.capacity v.
Proof. intros A v l p H1 H2. rewrite !keep_filter. now apply vec_eraseremove_ok. Qed.

Theorem C61_vec_find_partial : forall (A : Type) (v : vec A) (l : list A) (p : A -> bool),
  stored v l -> l <> [] \/ Vec_Model.capacity v = 0 ->
  (exists it i, vec_find_if v p = Ok (Some it) /\ Vec_Model.ref it = Some i /\ first_at p l i) \/ (vec_find_if v p = Ok None /\ nowhere p l).
Proof.
  intros A v l p H1 H2. pose proof (vec_find_ok v l p H1 H2) as H. destruct (vec_find_if v p) as [[it|]|]; [left|right|destruct H].
  - destruct H as (l1 & x & l2 & E & Ha & Hb & Hc). exists it, (zlen l1). do 2 (split; [auto|]). exists l1, x, l2. repeat (split; [auto; fail|]). split; [|reflexivity]. now apply nowhere_b.
  - split; [reflexivity|]. now apply nowhere_b.
Qed.

Theorem C61_vec_all_any_none_partial : forall (A : Type) (v : vec A) (l : list A) (p : A -> bool),
  stored v l -> l <> [] \/ Vec_Model.capacity v = 0 ->
  exists a b c, vec_all_of v p = Ok a /\ vec_any_of v p = Ok b /\ vec_none_of v p = Ok c /\
    (a = true <-> everywhere p l) /\ (b = true <-> somewhere p l) /\ c = negb b.
Proof.
  intros A v l p H1 H2. exists (forallb p l), (existsb p l), (negb (existsb p l)). pose proof (vec_walk v l H1 H2) as W. pose proof (vec_ptrs v l H1) as P. pose proof (vec_fuel_ok v l H1) as F.
  split; [exact (all_of_ok _ _ p _ l _ _ _ W P F)|]. destruct (any_of_ok _ _ p _ l _ _ _ W P F) as [X Y]. do 2 (split; [assumption|]). split; [apply everywhere_b|]. split; [apply somewhere_b|reflexivity].
Qed.

(** Appending to another vec, or to a deque. *)
Theorem C61_vec_append_if_partial : forall (A : Type) (v out : vec A) (dout : deque A) (l m : list A) (p : A -> bool),
  stored v l -> l <> [] \/ Vec_Model.capacity v = 0 ->
  (stored out m -> exists out', vec_append_if vec_push_out v p out = Ok out' /\ stored out' (m ++ keep p l)) /\
  (ring dout m -> exists d', vec_append_if push_back v p dout = Ok d' /\ ring d' (m ++ keep p l)).
Proof.
  intros A v out dout l m p H1 H2. rewrite keep_filter. split; intros HR.
  - apply (vec_append_ok _ stored v l p out m); auto. apply vec_push_out_ok.
  - apply rg_ring in HR. destruct (vec_append_ok push_back rg v l p dout m) as (d' & E & R'); auto; [apply push_back_spec|]. exists d'. split; [exact E|]. now apply rg_ring.
Qed.

Theorem C61_vec_reverse : forall (A : Type) (v : vec A) (l : list A), stored v l ->
  exists v' m, vec_reverse v = Ok v' /\ stored v' m /\ backwards l m.
Proof. intros A v l H. destruct (vec_reverse_ok v l H) as (v' & E & S'). exists v', (rev l). split; [exact E|]. split; [exact S'|apply backwards_rev]. Qed.

(** A vec holding nothing but keeping its buffer: c_eraseremove_if reads memory past the values. *)
Theorem C61_vec_emptied_refuted : exists v : vec Z, stored v [] /\ forall p, vec_eraseremove_if v p = Err Uninit /\ vec_any_of v p = Err Uninit.
Proof. exists (mkvec [None] 0). split; [split; [reflexivity|exists [None]; reflexivity]|]. intros p. split; reflexivity. Qed.

(** ** deque (queue iterates in the same way) *)
Theorem C61_deque_eraseremove : forall (A : Type) (d : deque A) (l : list A) (p : A -> bool), ring d l ->
  exists d', deque_eraseremove_if d p = Ok (d', keep p l) /\ ring d' (keep (fun x => negb (p x)) l) /\ capmask d' = capmask d.
Proof. intros A d l p H. rewrite !keep_filter. apply rg_ring in H. destruct (deque_eraseremove_ok d l p H) as (d' & E & R' & C'). exists d'. split; [exact E|]. split; [now apply rg_ring|exact C']. Qed.

Theorem C61_deque_find : forall (A : Type) (d : deque A) (l : list A) (p : A -> bool), ring d l ->
  (exists it i, deque_find_if d p = Ok (Some it) /\ Deque_Model.ref it = Some ((start d + i) mod (capmask d + 1)) /\ first_at p l i) \/ (deque_find_if d p = Ok None /\ nowhere p l).
Proof.
  intros A d l p H0. pose proof (proj2 (rg_ring d l) H0) as H1. pose proof (deque_find_ok d l p H1) as H. destruct (deque_find_if d p) as [[it|]|]; [left|right|destruct H].
  - destruct H as (l1 & x & l2 & E & Ha & Hb & Hc). exists it, (zlen l1). split; [auto|]. split.
    + rewrite Hc. f_equal. unfold dpos. fold (cap d). pose proof H1 as (Hw & Hz & _). pose proof (wf_start d Hw). pose proof (zlen_nonneg l1). assert (zlen l1 <= zlen l) by (rewrite E, zlen_app; pose proof (zlen_nonneg (x :: l2)); lia). symmetry. apply nrm_mod; lia.
    + exists l1, x, l2. repeat (split; [auto; fail|]). split; [|reflexivity]. now apply nowhere_b.
  - split; [reflexivity|]. now apply nowhere_b.
Qed.

Theorem C61_deque_all_any_none : forall (A : Type) (d : deque A) (l : list A) (p : A -> bool), ring d l ->
  exists a b c, deque_all_of d p = Ok a /\ deque_any_of d p = Ok b /\ deque_none_of d p = Ok c /\
    (a = true <-> everywhere p l) /\ (b = true <-> somewhere p l) /\ c = negb b.
Proof.
  intros A d l p H. apply rg_ring in H. exists (forallb p l), (existsb p l), (negb (existsb p l)). pose proof (deque_walk d l H) as W. pose proof (deque_ptrs d l H) as P. pose proof (deque_fuel_ok d l H) as F.
  split; [exact (all_of_ok _ _ p _ l _ _ _ W P F)|]. destruct (any_of_ok _ _ p _ l _ _ _ W P F) as [X Y]. do 2 (split; [assumption|]). split; [apply everywhere_b|]. split; [apply somewhere_b|reflexivity].
Qed.

Theorem C61_deque_append_if : forall (A : Type) (d dout : deque A) (out : vec A) (l m : list A) (p : A -> bool), ring d l ->
  (stored out m -> exists out', deque_append_if vec_push_out d p out = Ok out' /\ stored out' (m ++ keep p l)) /\
  (ring dout m -> exists d', deque_append_if push_back d p dout = Ok d' /\ ring d' (m ++ keep p l)).
Proof.
  intros A d dout out l m p H. apply rg_ring in H. rewrite keep_filter. split; intros HR.
  - apply (deque_append_ok _ stored d l p out m); auto. apply vec_push_out_ok.
  - apply rg_ring in HR. destruct (deque_append_ok push_back rg d l p dout m) as (d' & E & R'); auto; [apply push_back_spec|]. exists d'. split; [exact E|]. now apply rg_ring.
Qed.

Theorem C61_deque_reverse : forall (A : Type) (d : deque A) (l : list A), ring d l ->
  exists d' m, deque_reverse d = Ok d' /\ ring d' m /\ backwards l m.
Proof. intros A d l H. apply rg_ring in H. destruct (deque_reverse_ok d l H) as (d' & E & R'). exists d', (rev l). split; [exact E|]. split; [now apply rg_ring|apply backwards_rev]. Qed.

(** Non-trivial cases: a vec with spare room and a ring that wraps around. *)
Example C61_met : let v := mkvec [Some 1; Some 2; Some 3; Some 4; None] 4 in let d := mkdq [Some 3; Some 4; None; None; None; None; Some 1; Some 2] 6 2 7 in
  stored v [1; 2; 3; 4] /\ ring d [1; 2; 3; 4] /\
  vec_eraseremove_if v Z.even = Ok (mkvec [Some 1; Some 3; Some 3; Some 4; None] 2, [2; 4]) /\
  deque_eraseremove_if d Z.even = Ok (mkdq [Some 3; Some 4; None; None; None; None; Some 1; Some 3] 6 0 7, [2; 4]) /\
  deque_reverse d = Ok (mkdq [Some 2; Some 1; None; None; None; None; Some 4; Some 3] 6 2 7) /\ vec_all_of v Z.even = Ok false /\ deque_any_of d Z.even = Ok true.
Proof.
  cbv zeta. split; [split; [reflexivity|exists [None]; reflexivity]|]. split.
  - apply rg_ring. split; [constructor; cbn; [exists 3; lia|lia|lia|left; reflexivity]|]. split; [cbn; lia|]. split; [reflexivity|]. intros i x Hx. pose proof (aget_ok_range _ _ _ Hx) as R. change (zlen [1; 2; 3; 4]) with 4 in R.
    assert (E : i = 0 \/ i = 1 \/ i = 2 \/ i = 3) by lia. destruct E as [->|[->|[->| ->]]]; vm_compute in Hx; injection Hx as <-; reflexivity.
  - repeat split.
Qed.
Print Assumptions C61_vec_eraseremove_partial.
Print Assumptions C61_vec_find_partial.
Print Assumptions C61_vec_all_any_none_partial.
Print Assumptions C61_vec_append_if_partial.
Print Assumptions C61_vec_reverse.
Print Assumptions C61_vec_emptied_refuted.
Print Assumptions C61_deque_eraseremove.
Print Assumptions C61_deque_find.
Print Assumptions C61_deque_all_any_none.
Print Assumptions C61_deque_append_if.
Print Assumptions C61_deque_reverse.
