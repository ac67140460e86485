(** Python's range(start, stop, step). *)
From Coq Require Import ZArith List Lia.
Import ListNotations.
Open Scope Z_scope.
(** Still on the near side of [stop]. *)
Definition before (step x stop : Z) : Prop := if 0 <? step then x < stop else stop < x.
(** [l] is start, start+step, ..., as long as it is before stop. *)
Definition progression (start stop step : Z) (l : list Z) : Prop :=
  exists n, l = map (fun k => start + Z.of_nat k * step) (seq 0 n) /\
    forall k, 0 <= k -> (k < Z.of_nat n <-> before step (start + k * step) stop).
(** The loop variable stays in an integer type of [w] value bits: its first value past the end is representable. *)
Definition fits (w a b s : Z) : Prop :=
  - 2 ^ w <= a < 2 ^ w /\ - 2 ^ w <= b < 2 ^ w /\ if 0 <? s then - 2 ^ w < b /\ b - 1 + s < 2 ^ w else - 2 ^ w <= b + 1 + s.
