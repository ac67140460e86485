(** Specification for random.h. *)
From Verif Require Import Base Random_Model.
From Coq Require Import QArith.
Open Scope Z_scope.

(** An engine state: four words of w bits. *)
Definition word (w x : Z) : Prop := 0 <= x < 2 ^ w.
Definition state (w : Z) (e : engine) : Prop := word w (s0 e) /\ word w (s1 e) /\ word w (s2 e) /\ word w (s3 e).

(** The state after n draws. *)
Fixpoint after (n : nat) (next : engine -> engine) (e : engine) : engine :=
  match n with O => e | S n' => after n' next (next e) end.

(** A rational that a double represents exactly. *)
Definition is_double (q : Q) : Prop :=
  exists m e : Z, Z.abs m < 2 ^ 53 /\ -1074 <= e <= 971 /\
    (q == inject_Z (m * 2 ^ Z.max 0 e) / inject_Z (2 ^ Z.max 0 (- e)))%Q.

(** n calls of crand64_normal that draw n/2 pairs. *)
Fixpoint pairs {F} (sample : Z -> Z -> option (F * F)) (k : nat) (fuel : nat) (e : engine) (stream : Z) : res (engine * list F) :=
  match k with
  | O => Ok (e, [])
  | S k' =>
    let* r := draw sample fuel e stream in
    let* r2 := pairs sample k' fuel (fst r) stream in
    Ok (fst r2, fst (snd r) :: snd (snd r) :: snd r2)
  end.
