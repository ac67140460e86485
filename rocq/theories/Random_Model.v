(** Model of random.h: the crand64 / crand32 engines, uniform integers, unit reals, the
    bookkeeping of the normal distribution, and shuffling. *)
From Verif Require Import Base.
From Coq Require Import QArith.
Open Scope Z_scope.

(** Unsigned words of [w] bits. *)
Definition wrap (w x : Z) : Z := x mod 2 ^ w.
Definition wadd (w x y : Z) : Z := wrap w (x + y).
Definition wmul (w x y : Z) : Z := wrap w (x * y).
Definition wshl (w x n : Z) : Z := wrap w (Z.shiftl x n).
Definition wshr (x n : Z) : Z := Z.shiftr x n.

(** random.h 33-35, 154: data[4]. *)
Record engine : Type := mkeng { s0 : Z; s1 : Z; s2 : Z; s3 : Z }.

(** random.h 73-79 crand64_seed_r, 156-162 crand32_seed_r. *)
Definition seed_with (w m0 r0 m1 r1 m2 r2 seed : Z) : engine :=
  let a := wmul w seed m0 in let a := Z.lxor a (wshr a r0) in
  let b := wmul w a m1 in let b := Z.lxor b (wshr b r1) in
  let c := wmul w b m2 in let c := Z.lxor c (wshr c r2) in
  mkeng a b c seed.
Definition seed64 : Z -> engine := seed_with 64 0x9e3779b97f4a7c15 30 0xbf58476d1ce4e5b9 27 0x94d049bb133111eb 31.
Definition seed32 : Z -> engine := seed_with 32 0x9e3779b9 16 0x21f0aaad 15 0x735a2d97 15.

(** random.h 82-89 crand64_uint_r (w = 64, shift 11, rotation 24), 165-172 crand32_uint_r
    (w = 32, shift 9, rotation 21): new engine and result. *)
Definition step_with (w sh rot : Z) (e : engine) (stream : Z) : engine * Z :=
  let c := wadd w (s3 e) stream in
  let result := wadd w (Z.lxor (s0 e) c) (s1 e) in
  (mkeng (Z.lxor (s1 e) (wshr (s1 e) sh))
         (wadd w (s2 e) (wshl w (s2 e) 3))
         (wadd w (Z.lor (wshl w (s2 e) rot) (wshr (s2 e) (w - rot))) result)
         c, result).
Definition step64 : engine -> Z -> engine * Z := step_with 64 11 24.
Definition step32 : engine -> Z -> engine * Z := step_with 32 9 21.

(** random.h 95, 178: the engine behind the functions without _r (stream 1). *)
Definition global64 : engine := mkeng 0x9e3779bb07979af0 0x6f682616bae3641a 0xe220a8397b1dcdaf 1.
Definition global32 : engine := mkeng 0x9e37e78e 0x6eab1ba1 0x64625032 1.

(** random.h 91-92 crand64_real_r: (double)(raw >> 11) * 2^-53.  The conversion and the
    product are exact (C51_real64_exact), so the result is a rational. *)
Definition real64 (raw : Z) : Q := Qmake (wshr raw 11) (2 ^ 53).
(** random.h 174-175 crand32_real_r: raw * 2^-32 in double. *)
Definition real32 (raw : Z) : Q := Qmake raw (2 ^ 32).

(** random.h 113-123, 196-206: a distribution. high - low + 1 is signed arithmetic of w
    bits; the range is unsigned. *)
Record dist : Type := mkdist { low : Z; range : Z; threshold : Z }.
Definition signed_ok (w x : Z) : bool := (- 2 ^ (w - 1) <=? x) && (x <? 2 ^ (w - 1)).
Definition make_uniform (w lo hi : Z) : res dist :=
  if negb (signed_ok w (hi - lo)) || negb (signed_ok w (hi - lo + 1)) then Err Overflow else
  let r := wrap w (hi - lo + 1) in
  if r =? 0 then Err DivZero else Ok (mkdist lo r (wrap w (0 - r) mod r)).

(** random.h 142, 211-213: one round; the high word of the product when accepted.
    (c_umul128 is exact 128-bit multiplication.) *)
Definition accept_mul (w : Z) (d : dist) (raw : Z) : option Z :=
  let z := raw * range d in
  if z mod 2 ^ w <? threshold d then None else Some (z / 2 ^ w).
(** random.h 144: one round of the version without c_umul128 (not used for crand32). *)
Definition accept_mod (w : Z) (d : dist) (raw : Z) : option Z :=
  let hi := raw mod range d in
  if wrap w (raw - hi) >? wrap w (- range d) then None else Some hi.

(** random.h 139-147 crand64_uniform_r, 209-215 crand32_uniform_r: rounds until a raw output
    is accepted; [fuel] bounds the rounds.  low + (signed)hi is signed arithmetic. *)
Fixpoint uniform (fuel : nat) (w : Z) (step : engine -> Z -> engine * Z) (accept : dist -> Z -> option Z)
    (e : engine) (stream : Z) (d : dist) : res (engine * Z) :=
  match fuel with
  | O => Err OutOfFuel
  | S fuel' =>
    let '(e', raw) := step e stream in
    match accept d raw with
    | None => uniform fuel' w step accept e' stream d
    | Some hi =>
      let r := low d + (if hi <? 2 ^ (w - 1) then hi else hi - 2 ^ w) in
      if signed_ok w r then Ok (e', r) else Err Overflow
    end
  end.
Definition uniform64 (fuel : nat) := uniform fuel 64 step64 (accept_mul 64).
Definition uniform64_mod (fuel : nat) := uniform fuel 64 step64 (accept_mod 64).
Definition uniform32 (fuel : nat) := uniform fuel 32 step32 (accept_mul 32).

(** random.h 55-71 c_shuffle_array, c_shuffle: i runs from n-1 down to 1.  The container is
    the sequence of its elements; c_swap of an element with itself changes nothing.
    [next] is the word-size engine (stream 1). *)
Fixpoint shuffle {A S} (next : S -> S * Z) (i : nat) (s : S) (l : list A) : res (list A * S) :=
  match i with
  | O => Ok (l, s)
  | S i' =>
    let '(s', raw) := next s in
    let* l' := aswap l (Z.of_nat i) (raw mod (Z.of_nat i + 1)) in
    shuffle next i' s' l'
  end.
Definition shuffle64 {A} (e : engine) (l : list A) : res (list A * engine) :=
  shuffle (fun e => step64 e 1) (length l - 1) e l.
Definition shuffle32 {A} (e : engine) (l : list A) : res (list A * engine) :=
  shuffle (fun e => step32 e 1) (length l - 1) e l.

(** random.h 37-41, 229-244 crand64_normal_r.  Floating point is abstract: [sample raw1 raw2]
    is the pair (v1*rt, v2*rt), or [None] when the point is rejected (line 240); [scale x d]
    is x*stddev + mean.  [_has_next] is an int. *)
Section Normal.
Context {F : Type}.
Variable sample : Z -> Z -> option (F * F).
Record normal_dist : Type := mknormal { next_val : option F; has_next : Z }.
Fixpoint draw (fuel : nat) (e : engine) (stream : Z) : res (engine * (F * F)) :=
  match fuel with
  | O => Err OutOfFuel
  | S fuel' =>
    let '(e1, r1) := step64 e stream in
    let '(e2, r2) := step64 e1 stream in
    match sample r1 r2 with Some p => Ok (e2, p) | None => draw fuel' e2 stream end
  end.
(** Result before scaling.  d->_has_next++ overflows at INT_MAX. *)
Definition normal (fuel : nat) (e : engine) (stream : Z) (d : normal_dist) : res (engine * normal_dist * F) :=
  if has_next d =? 2 ^ 31 - 1 then Err Overflow else
  if Z.odd (has_next d) then
    match next_val d with
    | Some x => Ok (e, mknormal (next_val d) (has_next d + 1), x)
    | None => Err Uninit
    end
  else
    let* r := draw fuel e stream in
    let '(e', (x, y)) := r in
    Ok (e', mknormal (Some y) (has_next d + 1), x).
(** A distribution set up as {.mean=m, .stddev=s}: the other members are 0. *)
Definition normal_init : normal_dist := mknormal None 0.
Fixpoint normals (n : nat) (fuel : nat) (e : engine) (stream : Z) (d : normal_dist) : res (engine * normal_dist * list F) :=
  match n with
  | O => Ok (e, d, [])
  | S n' =>
    let* r := normal fuel e stream d in
    let '(e1, d1, x) := r in
    let* r2 := normals n' fuel e1 stream d1 in
    let '(e2, d2, l) := r2 in Ok (e2, d2, x :: l)
  end.
End Normal.
Arguments normal_dist : clear implicits.
