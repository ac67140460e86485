(** Buffers of possibly uninitialised slots: what [malloc]/[realloc] return.
    [None] is a slot that holds no live object, [Some x] one that holds the bits of [x]. *)
From Verif Require Import Base.

Section Slots.
Context {A : Type}.
Definition slots := list (option A).

(** Read a slot as an object: reading an uninitialised slot is an error. *)
Definition rd (s : slots) (i : Z) : res A :=
  let* o := aget s i in
  match o with Some x => Ok x | None => Err Uninit end.

(** Write an object into a slot. *)
Definition wr (s : slots) (i : Z) (x : A) : res slots := aset s i (Some x).

(** realloc to [cap] slots: keeps the common prefix, the rest is uninitialised.
    Allocation failure is not modelled. *)
Definition realloc (s : slots) (cap : Z) : slots :=
  firstn (Z.to_nat cap) s ++ repeat None (Z.to_nat (cap - zlen s)).

(** The buffer [s] starts with the live objects [l]. *)
Definition holds (s : slots) (l : list A) : Prop := exists r, s = map Some l ++ r.

Lemma zlen_map {B C} (f : B -> C) (l : list B) : zlen (map f l) = zlen l.
Proof. unfold zlen. now rewrite map_length. Qed.

Lemma holds_zlen s l : holds s l -> zlen l <= zlen s.
Proof. intros [r ->]. rewrite zlen_app, zlen_map. pose proof (zlen_nonneg r). lia. Qed.

Lemma holds_rd s l i : holds s l -> i < zlen l -> rd s i = aget l i.
Proof.
  intros [r ->] Hi. unfold rd. rewrite aget_app1 by (rewrite zlen_map; lia).
  rewrite aget_map. destruct (aget l i); reflexivity.
Qed.

Lemma holds_aget s l i x : holds s l -> aget l i = Ok x -> aget s i = Ok (Some x).
Proof.
  intros [r ->] Hi. pose proof (aget_ok_range _ _ _ Hi).
  rewrite aget_app1 by (rewrite zlen_map; lia). rewrite aget_map, Hi. reflexivity.
Qed.

Lemma upd_app1 {B} (l r : list B) (i : nat) x : (i < length l)%nat -> upd (l ++ r) i x = upd l i x ++ r.
Proof.
  revert i; induction l as [|h t IH]; intros [|i] H; cbn in *; try lia; auto.
  f_equal. apply IH. lia.
Qed.

Lemma upd_map {B C} (f : B -> C) (l : list B) (i : nat) x : upd (map f l) i (f x) = map f (upd l i x).
Proof. revert i; induction l as [|h t IH]; intros [|i]; cbn; auto. now rewrite IH. Qed.

Lemma holds_wr s l i x l' : holds s l -> aset l i x = Ok l' ->
  exists s', wr s i x = Ok s' /\ holds s' l' /\ zlen s' = zlen s.
Proof.
  intros [r ->] Hi. pose proof Hi as Hi'. apply aset_inv in Hi' as [Hr ->].
  pose proof (zlen_nonneg r).
  unfold wr. rewrite aset_ok by (rewrite zlen_app, zlen_map; lia).
  eexists. split; [reflexivity|]. split.
  - exists r. rewrite upd_app1, upd_map; [reflexivity|]. rewrite map_length. unfold zlen in Hr. lia.
  - unfold zlen. now rewrite length_upd.
Qed.

Lemma upd_app_cons {B} (l : list B) y r x : upd (l ++ y :: r) (length l) x = l ++ x :: r.
Proof. induction l as [|h t IH]; cbn; auto. now rewrite IH. Qed.

(** Writing the first slot after the live prefix extends it. *)
Lemma holds_wr_end s l x : holds s l -> zlen l < zlen s ->
  exists s', wr s (zlen l) x = Ok s' /\ holds s' (l ++ [x]) /\ zlen s' = zlen s.
Proof.
  intros [r ->] H. pose proof (zlen_nonneg l). rewrite zlen_app, zlen_map in H.
  destruct r as [|y r]; [cbn in H; lia|].
  unfold wr. rewrite aset_ok by (rewrite zlen_app, zlen_map; lia).
  eexists. split; [reflexivity|]. split.
  - exists r. replace (Z.to_nat (zlen l)) with (length (map Some l)) by (rewrite map_length; unfold zlen; lia).
    rewrite upd_app_cons, map_app, <- app_assoc. reflexivity.
  - unfold zlen. now rewrite length_upd.
Qed.

Lemma holds_app s l1 l2 : holds s (l1 ++ l2) -> holds s l1.
Proof. intros [r ->]. exists (map Some l2 ++ r). now rewrite map_app, app_assoc. Qed.

Lemma holds_nil s : holds s [].
Proof. exists s. reflexivity. Qed.

Lemma zlen_realloc s cap : 0 <= cap -> zlen (realloc s cap) = cap.
Proof.
  intros H. unfold realloc. rewrite zlen_app, zlen_firstn by lia.
  destruct (Z.leb_spec cap (zlen s)).
  - replace (Z.to_nat (cap - zlen s)) with 0%nat by lia. cbn. lia.
  - rewrite zlen_repeat by lia. lia.
Qed.

Lemma holds_realloc s l cap : holds s l -> zlen l <= cap -> holds (realloc s cap) l.
Proof.
  intros [r ->] H. pose proof (zlen_nonneg l). unfold realloc.
  rewrite firstn_app. rewrite firstn_all2 by (rewrite map_length; unfold zlen in H; lia).
  rewrite <- app_assoc. eexists. reflexivity.
Qed.

Lemma holds_firstn s l n : holds s l -> holds s (firstn n l).
Proof. intros H. rewrite <- (firstn_skipn n l) in H. eapply holds_app; eauto. Qed.

(** Two descriptions of the same prefix agree. *)
Lemma holds_inj s l1 l2 : holds s l1 -> holds s l2 -> zlen l1 = zlen l2 -> l1 = l2.
Proof.
  intros H1 H2 Hl. apply aget_ext; [exact Hl|]. intros i Hi.
  rewrite <- (holds_rd s l1), <- (holds_rd s l2); auto; lia.
Qed.

Lemma holds_of s l : zlen l <= zlen s ->
  (forall i x, aget l i = Ok x -> aget s i = Ok (Some x)) -> holds s l.
Proof.
  intros Hl H. exists (skipn (Z.to_nat (zlen l)) s).
  rewrite <- (firstn_skipn (Z.to_nat (zlen l)) s) at 1. f_equal.
  pose proof (zlen_nonneg l).
  apply aget_ext; [rewrite zlen_firstn, zlen_map by lia; lia|].
  intros i Hi. rewrite zlen_firstn in Hi by lia. rewrite aget_firstn by lia. rewrite aget_map.
  destruct (aget_some l i) as [x Hx]; [lia|]. rewrite Hx. now apply H.
Qed.

Fixpoint all_some (s : slots) : res (list A) :=
  match s with
  | [] => Ok []
  | Some x :: r => let* l := all_some r in Ok (x :: l)
  | None :: _ => Err Uninit
  end.

(** Read [n] consecutive objects. *)
Definition rds (s : slots) (i n : Z) : res (list A) :=
  let* sl := aslice s i n in all_some sl.

Lemma all_some_map l : all_some (map Some l) = Ok l.
Proof. induction l as [|x l IH]; cbn; auto. now rewrite IH. Qed.

Lemma holds_rds s l i n : holds s l -> 0 <= i -> 0 <= n -> i + n <= zlen l ->
  rds s i n = Ok (firstn (Z.to_nat n) (skipn (Z.to_nat i) l)).
Proof.
  intros Hh Hi Hn H. pose proof (holds_zlen _ _ Hh). unfold rds. rewrite aslice_ok by lia. cbn [bind].
  rewrite <- all_some_map. f_equal. destruct Hh as [r ->].
  rewrite skipn_app, firstn_app, skipn_map, firstn_map.
  rewrite !map_length, skipn_length.
  unfold zlen in *.
  replace (Z.to_nat n - (length l - Z.to_nat i))%nat with 0%nat by lia. cbn [firstn]. apply app_nil_r.
Qed.

(** Write consecutive objects. *)
Definition wrs (s : slots) (i : Z) (xs : list A) : res slots := ablit s i (map Some xs).

(** Insertion by moving the tail up and writing the gap. *)
Lemma holds_insert s l i xs : holds s l -> 0 <= i <= zlen l -> zlen l + zlen xs <= zlen s ->
  exists s1 s2, amove s i (i + zlen xs) (zlen l - i) = Ok s1 /\ wrs s1 i xs = Ok s2 /\
    holds s2 (firstn (Z.to_nat i) l ++ xs ++ skipn (Z.to_nat i) l) /\ zlen s1 = zlen s /\ zlen s2 = zlen s.
Proof.
  intros Hh Hi Hc. pose proof (zlen_nonneg l). pose proof (zlen_nonneg xs).
  destruct (amove_some s i (i + zlen xs) (zlen l - i)) as [s1 H1]; try lia.
  pose proof H1 as H1'. apply amove_inv in H1' as (_ & _ & _ & _ & _ & Z1 & G1).
  destruct (ablit_some s1 i (map Some xs)) as [s2 H2]; try (rewrite ?zlen_map; lia).
  pose proof H2 as H2'. apply ablit_inv in H2' as (_ & _ & Z2 & G2).
  exists s1, s2. split; [exact H1|]. split; [exact H2|]. split; [|lia].
  apply holds_of.
  - rewrite !zlen_app, zlen_firstn, zlen_skipn by lia. lia.
  - intros k x Hk. rewrite G2, zlen_map. pose proof (aget_ok_range _ _ _ Hk) as Rk.
    rewrite !zlen_app, zlen_firstn, zlen_skipn in Rk by lia.
    rewrite aget_app in Hk by lia. rewrite zlen_firstn in Hk by lia.
    destruct (Z.ltb_spec k (Z.min i (zlen l))).
    + destruct (Z.leb_spec i k); [lia|]. cbn [andb]. rewrite G1.
      destruct (Z.leb_spec (i + zlen xs) k); [lia|]. cbn [andb].
      rewrite aget_firstn in Hk by lia. eapply holds_aget; eauto.
    + destruct (Z.leb_spec i k); [|lia]. cbn [andb].
      rewrite aget_app in Hk by lia. destruct (Z.ltb_spec (k - Z.min i (zlen l)) (zlen xs)).
      * destruct (Z.ltb_spec k (i + zlen xs)); [|lia].
        rewrite aget_map. replace (k - i) with (k - Z.min i (zlen l)) by lia. now rewrite Hk.
      * destruct (Z.ltb_spec k (i + zlen xs)); [lia|].
        rewrite G1. destruct (Z.leb_spec (i + zlen xs) k); [|lia].
        destruct (Z.ltb_spec k (i + zlen xs + (zlen l - i))); [|lia]. cbn [andb].
        rewrite aget_skipn in Hk by lia. eapply holds_aget; eauto.
        rewrite <- Hk. f_equal. lia.
Qed.

(** Removal by moving the tail down. *)
Lemma holds_remove s l i n : holds s l -> 0 <= i -> 0 <= n -> i + n <= zlen l ->
  exists s1, amove s (i + n) i (zlen l - (i + n)) = Ok s1 /\
    holds s1 (firstn (Z.to_nat i) l ++ skipn (Z.to_nat (i + n)) l) /\ zlen s1 = zlen s.
Proof.
  intros Hh Hi Hn Hc. pose proof (zlen_nonneg l). pose proof (holds_zlen _ _ Hh).
  destruct (amove_some s (i + n) i (zlen l - (i + n))) as [s1 H1]; try lia.
  pose proof H1 as H1'. apply amove_inv in H1' as (_ & _ & _ & _ & _ & Z1 & G1).
  exists s1. split; [exact H1|]. split; [|lia].
  apply holds_of.
  - rewrite !zlen_app, zlen_firstn, zlen_skipn by lia. lia.
  - intros k x Hk. rewrite G1. pose proof (aget_ok_range _ _ _ Hk) as Rk.
    rewrite !zlen_app, zlen_firstn, zlen_skipn in Rk by lia.
    rewrite aget_app in Hk by lia. rewrite zlen_firstn in Hk by lia.
    destruct (Z.ltb_spec k (Z.min i (zlen l))).
    + destruct (Z.leb_spec i k); [lia|]. cbn [andb]. rewrite aget_firstn in Hk by lia. eapply holds_aget; eauto.
    + destruct (Z.leb_spec i k); [|lia]. cbn [andb].
      destruct (Z.ltb_spec k (i + (zlen l - (i + n)))); [|lia].
      rewrite aget_skipn in Hk by lia. eapply holds_aget; eauto. rewrite <- Hk. f_equal. lia.
Qed.
End Slots.
Arguments slots : clear implicits.
