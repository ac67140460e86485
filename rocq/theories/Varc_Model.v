(** The containers that Var_Model.v is used with: their operations with the objects destroyed
    and returned, their drop and their null test. *)
From Verif Require Import Base Var_Model.
From Verif Require Deque_Model Hmap_Model Smap_Model.

(** deque.h and queue.h: Deque_Model.step gives the objects destroyed and returned. *)
Definition dq_step {A} (d : Deque_Model.deque A) (o : Deque_Model.op A) : res (Deque_Model.deque A * list A * list A) :=
  let* r := Deque_Model.step d o in Ok (fst r, fst (snd r), snd (snd r)).
(** queue_prv.h 171-176 _drop: clear, then free. *)
Definition dq_drop {A} (d : Deque_Model.deque A) : res (list A) :=
  let* r := Deque_Model.clear d in Ok (snd r).
Definition dq_vrun {A} stays (s : state (Deque_Model.deque A) A) (ops : list (vop (Deque_Model.op A))) :=
  vrun Deque_Model.init dq_step Deque_Model.clone dq_drop Deque_Model.is_null stays s ops.

(** hmap.h, hset.h: nothing is returned. *)
Definition hm_step {K V} (hash : K -> Z) (eqb : K -> K -> bool) (h : Hmap_Model.hmap K V) (o : Hmap_Model.op K V)
    : res (Hmap_Model.hmap K V * list (Hmap_Model.destroyed K V) * list (Hmap_Model.destroyed K V)) :=
  let* r := Hmap_Model.step hash eqb h o in Ok (fst (fst r), snd (fst r), []).
(** hmap.h 331-338, 429-448: the table is NULL exactly when bucket_count is 0. *)
Definition hm_null {K V} (h : Hmap_Model.hmap K V) : bool := Hmap_Model.bcount h =? 0.
Definition hm_vrun {K V} hash eqb stays (s : state (Hmap_Model.hmap K V) (Hmap_Model.destroyed K V)) (ops : list (vop (Hmap_Model.op K V))) :=
  vrun Hmap_Model.init (hm_step hash eqb) Hmap_Model.clone Hmap_Model.drop hm_null stays s ops.

(** smap.h, sset.h. *)
Definition sm_step {K V} (cmp : K -> K -> Z) (s : Smap_Model.smap K V) (o : Smap_Model.op K V)
    : res (Smap_Model.smap K V * list (Smap_Model.destroyed K V) * list (Smap_Model.destroyed K V)) :=
  let* r := Smap_Model.step cmp s o in Ok (fst (fst r), snd (fst r), []).
(** smap.h 589-596: nodes is NULL exactly when the capacity is 0. *)
Definition sm_null {K V} (s : Smap_Model.smap K V) : bool := Smap_Model.cap s =? 0.
Definition sm_vrun {K V} cmp stays (s : state (Smap_Model.smap K V) (Smap_Model.destroyed K V)) (ops : list (vop (Smap_Model.op K V))) :=
  vrun Smap_Model.init (sm_step cmp) Smap_Model.clone Smap_Model.drop sm_null stays s ops.
